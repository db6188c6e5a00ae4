(* StmHyp.v -- "$d", "$e" and "$f". *)
From Verif Require Import Base LabModel StmModel StmSpec StmTab StmScope StmLook StmFlags StmBlock.
From Coq Require Import Permutation Sorted.
Open Scope nat_scope.

Lemma F2_len {A B} (R : A -> B -> Prop) l m : Forall2 R l m -> length l = length m.
Proof. induction 1; cbn; congruence. Qed.
Definition setD (ds : list dent) (s : pst) : pst :=
  mkP (p_active s) (p_scope s) (p_tmp s) (p_c s) (p_v s) (p_vptr s) (p_e s) (p_f s) ds
      (p_cur s) (p_begin s) (p_undecl s) (p_min s) (p_err s) (p_out s).
Lemma setD_id s : setD (p_d s) s = s.
Proof. now destruct s. Qed.

Section DPairs.
  Variables (n : nat) (s : pst).
  Lemma dInner_ok p : forall r ds, ~ In p r -> exists ds', dInner n p r (setD ds s) = setD ds' s /\
    (forall d, In d ds -> In d ds') /\
    (forall d, In d ds' -> In d ds \/ exists q, In q r /\ d = mkD (Nat.min p q) (Nat.max p q) n (p_cur s)) /\
    (forall q, In q r -> exists d, In d ds' /\ d_a d = Nat.min p q /\ d_b d = Nat.max p q) /\
    ((forall d, In d ds -> d_stmt d <= n) -> StronglySorted ddDesc ds -> StronglySorted ddDesc ds').
  Proof.
    induction r as [|q r IH]; intros ds HN; cbn [dInner].
    - exists ds. split; [reflexivity|]. split; [auto|]. split; [auto|]. split; [intros q []|auto].
    - destruct (Nat.eqb_spec p q) as [E|N]; [exfalso; apply HN; now left|]. change (p_d (setD ds s)) with ds.
      assert (HN' : ~ In p r) by (intros H; apply HN; now right).
      destruct (dmem (Nat.min p q) (Nat.max p q) ds) eqn:EM.
      + destruct (IH ds HN') as (ds' & E & H1 & H2 & H3 & H4). exists ds'. split; [exact E|]. split; [exact H1|].
        split; [|split; [|exact H4]].
        * intros d Hd. destruct (H2 d Hd) as [H|(u & Hu & ->)]; [now left|right; exists u; split; [now right|reflexivity]].
        * intros u [ <- |Hu]; [|auto]. unfold dmem in EM. apply existsb_exists in EM. destruct EM as (d & Hd & EQ).
          apply andb_true_iff in EQ. destruct EQ as [E1 E2]. apply Nat.eqb_eq in E1, E2. exists d. auto.
      + destruct (IH (mkD (Nat.min p q) (Nat.max p q) n (p_cur s) :: ds) HN') as (ds' & E & H1 & H2 & H3 & H4).
        exists ds'. split; [exact E|]. split; [intros d Hd; apply H1; now right|]. split; [|split].
        * intros d Hd. destruct (H2 d Hd) as [[ <- |H]|(u & Hu & ->)];
            [right; exists q; split; [now left|reflexivity]|now left|right; exists u; split; [now right|reflexivity]].
        * intros u [ <- |Hu]; [|auto]. eexists. split; [apply H1; now left|]. auto.
        * intros HL HS. apply H4.
          -- intros d [ <- |Hd]; [cbn; lia|auto].
          -- constructor; [exact HS|]. apply Forall_forall. intros d Hd. unfold ddDesc. cbn. auto.
  Qed.
  Lemma dOuter_ok : forall math ds, NoDup math -> exists ds', dOuter n math (setD ds s) = setD ds' s /\
    (forall d, In d ds -> In d ds') /\
    (forall d, In d ds' -> In d ds \/ exists p q, In p math /\ In q math /\ p <> q /\ d = mkD (Nat.min p q) (Nat.max p q) n (p_cur s)) /\
    (forall a b, In a math -> In b math -> a < b -> exists d, In d ds' /\ d_a d = a /\ d_b d = b) /\
    ((forall d, In d ds -> d_stmt d <= n) -> StronglySorted ddDesc ds -> StronglySorted ddDesc ds').
  Proof.
    induction math as [|p r IH]; intros ds ND; cbn [dOuter].
    - exists ds. split; [reflexivity|]. split; [auto|]. split; [auto|]. split; [intros a b []|auto].
    - inversion ND as [|? ? NI ND']; subst. destruct (dInner_ok p r ds NI) as (d1 & E1 & A1 & A2 & A3 & A4). rewrite E1.
      destruct (IH d1 ND') as (d2 & E2 & B1 & B2 & B3 & B4). exists d2. split; [exact E2|]. split; [auto|].
      split; [|split].
      + intros d Hd. destruct (B2 d Hd) as [H|(a & b & Ha & Hb & Hab & ->)].
        * destruct (A2 d H) as [H'|(q & Hq & ->)]; [now left|]. right. exists p, q. split; [now left|]. split; [now right|].
          split; [intros ->; contradiction|reflexivity].
        * right. exists a, b. split; [now right|]. split; [now right|]. auto.
      + intros a b [ <- |Ha] [ <- |Hb] Hab; [lia| | |auto].
        * destruct (A3 b Hb) as (d & D1 & D2 & D3). exists d. rewrite D2, D3. split; [auto|]. lia.
        * destruct (A3 a Ha) as (d & D1 & D2 & D3). exists d. rewrite D2, D3. split; [auto|]. lia.
      + intros HL HS. apply B4; [|now apply A4]. intros d Hd. destruct (A2 d Hd) as [H'|(q & Hq & ->)]; [auto|cbn; lia].
  Qed.
  Lemma dInner_sound p : forall r s1, p_err (dInner n p r s1) = [] -> ~ In p r.
  Proof.
    induction r as [|q r IH]; intros s1 H; cbn [dInner] in H; [intros []|].
    destruct (Nat.eqb_spec p q) as [E|N]; [now apply err_not_nil in H|]. intros [H1|H1]; [congruence|]. revert H1. eapply IH. exact H.
  Qed.
  Lemma dOuter_sound : forall math s1, p_err (dOuter n math s1) = [] -> NoDup math.
  Proof.
    induction math as [|p r IH]; intros s1 H; cbn [dOuter] in H; constructor.
    - pose proof (ext_nil _ _ (dOuter_ext _ _ _) H) as H1. now apply dInner_sound in H1.
    - eapply IH. exact H.
  Qed.
End DPairs.

Section Hyp.
  Variable sts : list sinp.
  Variable key : list nat.
  Notation toks := (declTokens 1 sts).
  Hypothesis HQ : mqsorted (map mt_name toks) key.
  Notation T := (mkTenv toks key).
  Notation depth := (depth sts).
  Notation stAt := (stAt sts).
  Notation inScope := (inScope sts).
  Notation denotes := (denotes sts toks).
  Notation kindAt := (kindAt sts).
  Notation hasTok := (hasTok sts).
  Notation live := (live sts).
  Notation dDepth := (dDepth sts).
  Notation Inv := (Inv sts).
  Notation hypStack := (hypStack sts).
  Notation disjStack := (disjStack sts).
  Notation oldOf := (oldOf sts).
  Notation visible := (visible sts).

  Lemma plain_inv n i s vl s' o : Inv n s vl -> stAt n i -> isDecl (si_kind i) = false -> delta (si_kind i) = 0%Z ->
    p_err s' = [] -> p_active s' = p_active s -> p_scope s' = p_scope s -> p_c s' = p_c s -> p_vptr s' = p_vptr s ->
    p_tmp s' = p_tmp s -> p_cur s' = p_cur s -> p_begin s' = p_begin s ->
    (forall j t, nth_error vl j = Some t -> p_v s' j = Some (mkV t (dDepth t) 0)) ->
    hypStack K_e (S n) (p_e s') -> hypStack K_f (S n) (p_f s') -> disjStack (S n) (p_d s') ->
    p_out s' = p_out s ++ [o] -> o_begin o = p_begin s -> goodOut sts toks n i o -> legalStmt sts n i -> Inv (S n) s' vl.
  Proof.
    intros HI Hi HD H0 E1 E2 E3 E4 E5 E6 E7 E8 HV HE HF HDJ EO EB GO HL. pose proof (stAt_lt _ _ _ Hi) as HN.
    assert (KP := keeps_plain _ _ _ Hi H0). pose proof (depth_S _ _ _ Hi) as DS. rewrite H0, Z.add_0_r in DS.
    destruct HI. constructor; auto.
    - lia.
    - congruence.
    - intros m Hm. destruct (Nat.eq_dec m (S n)) as [->|N]; [rewrite DS; now apply i_nn|apply i_nn; lia].
    - intros t. rewrite E2, (live_keep _ _ _ _ Hi HD KP). apply i_act.
    - intros t. rewrite E3, (live_keep _ _ _ _ Hi HD KP). apply i_scope.
    - intros t u x. rewrite !(denotes_keep _ _ _ _ _ Hi HD KP). apply i_uniq.
    - destruct i_v. constructor; auto; [congruence| |].
      + intros j t Hj. split; [auto|]. rewrite E6. now apply vs_at.
      + intros t. rewrite (live_keep _ _ _ _ Hi HD KP). apply vs_in.
    - rewrite E4. destruct i_c. constructor; auto. intros t z. rewrite (live_keep _ _ _ _ Hi HD KP). apply cs_in.
    - rewrite EO, app_length. cbn. lia.
    - rewrite EO, E8. destruct i_begin as [B1 B2]. split; [now apply begOK_snoc|]. apply beg_snoc; auto. now rewrite EB.
    - rewrite EO. apply (out_snoc sts n s _ i); auto.
    - apply (legal_snoc _ n i Hi); auto.
  Qed.

  (* ---- symbols as names ---- *)
  Section Names.
    Variables (n : nat) (s : pst) (vl : list nat).
    Hypothesis HI : Inv n s vl.
    Notation den := (fun t x => denotes t x n).
    Lemma vis_kind x v w : visible x v n -> visible x w n -> v = w.
    Proof.
      intros H1 H2. destruct (visible_denotes _ _ _ _ H1) as (t & D1 & <-). destruct (visible_denotes _ _ _ _ H2) as (u & D2 & <-).
      f_equal. apply (i_uniq _ _ _ _ HI t u x); auto.
    Qed.
    Lemma den_var t x v : denotes t x n -> (visible x v n <-> tkVar toks t = v).
    Proof.
      intros H. pose proof (denotes_visible _ _ _ _ H) as V. split; [intros H'; now apply (vis_kind x)|intros <-; exact V].
    Qed.
    Lemma names_ts xs : (forall x, In x xs -> exists v, visible x v n) -> exists ts, Forall2 den ts xs.
    Proof.
      induction xs as [|x r IH]; intros H; [exists []; constructor|]. destruct IH as (ts & F); [intros y Hy; apply H; now right|].
      destruct (H x (or_introl eq_refl)) as (v & HV). destruct (visible_denotes _ _ _ _ HV) as (t & D & _). exists (t :: ts). now constructor.
    Qed.
    Lemma den_in ts xs x : Forall2 den ts xs -> In x xs -> exists t, In t ts /\ denotes t x n.
    Proof. intros H. induction H as [|t y ts xs D H IH]; intros HX; [destruct HX|]; destruct HX as [E|HX]; [subst; exists t; split; [now left|exact D]|]. destruct (IH HX) as (u & U1 & U2). exists u. split; [now right|exact U2]. Qed.
    Lemma den_in' ts xs t : Forall2 den ts xs -> In t ts -> exists x, In x xs /\ denotes t x n.
    Proof. intros H. induction H as [|u y ts xs D H IH]; intros HX; [destruct HX|]; destruct HX as [E|HX]; [subst; exists y; split; [now left|exact D]|]. destruct (IH HX) as (z & U1 & U2). exists z. split; [now right|exact U2]. Qed.
    Lemma den_iff ts xs t x : Forall2 den ts xs -> denotes t x n -> (In t ts <-> In x xs).
    Proof.
      intros H D. split; intros HX.
      - destruct (den_in' _ _ _ H HX) as (y & Y1 & Y2). now rewrite (denotes_name _ _ _ _ _ _ D Y2).
      - destruct (den_in _ _ _ H HX) as (u & U1 & U2). now rewrite (i_uniq _ _ _ _ HI t u x D U2).
    Qed.
    Lemma den_nodup ts xs : Forall2 den ts xs -> (NoDup ts <-> NoDup xs).
    Proof.
      intros H. induction H as [|t x ts xs D H IH]; [split; constructor|]. split; intros HN; inversion HN; subst; constructor; try (now apply IH).
      - now rewrite <- (den_iff _ _ _ _ H D).
      - now rewrite (den_iff _ _ _ _ H D).
    Qed.
    Lemma den_live ts xs t : Forall2 den ts xs -> In t ts -> live n t.
    Proof. intros H HT. destruct (den_in' _ _ _ H HT) as (x & _ & D). apply live_denotes. eauto. Qed.
    Lemma den_vl ts xs t : Forall2 den ts xs -> In t ts -> tkVar toks t = true -> In t vl.
    Proof. intros H HT HV. apply (vs_in _ _ _ _ (i_v _ _ _ _ HI)). split; [eapply den_live; eauto|exact HV]. Qed.
    Lemma den_vars ts xs : Forall2 den ts xs -> ((forall t, In t ts -> tkVar toks t = true) <-> forall x, In x xs -> visible x true n).
    Proof.
      intros H. split; intros HX.
      - intros x Hx. destruct (den_in _ _ _ H Hx) as (t & T1 & T2). apply (den_var _ _ _ T2). auto.
      - intros t Ht. destruct (den_in' _ _ _ H Ht) as (x & X1 & X2). apply (den_var _ _ true X2). auto.
    Qed.
    Lemma okSyms_d ts : forall pos, okSyms sts K_d pos ts <-> forall t, In t ts -> tkVar toks t = true.
    Proof.
      induction ts as [|t r IH]; intros pos; cbn [okSyms]; [split; [intros _ t []|auto]|]. rewrite IH. cbn [okSym]. split.
      - intros [H1 H2] u [ <- |Hu]; auto.
      - intros H. split; [apply H; now left|intros u Hu; apply H; now right].
    Qed.
    Lemma okSyms_free k ts : forall pos, 2 < pos \/ (0 < pos /\ k <> K_f /\ k <> K_d) -> k <> K_d -> okSyms sts k pos ts.
    Proof.
      induction ts as [|t r IH]; intros pos H HD; cbn [okSyms]; [exact I|]. split; [|apply IH; [destruct H as [H|(H & H')]; [left; lia|right; split; [lia|exact H']]|exact HD]].
      unfold okSym. destruct k; try contradiction; destruct pos as [|[|[|pos]]]; try exact I;
        destruct H as [H|(H & H' & _)]; try lia; contradiction.
    Qed.
    Lemma okSyms_math k ts xs : k <> K_d -> k <> K_f -> Forall2 den ts xs ->
      (okSyms sts k 0 ts /\ okLen k (length ts) <-> mathOK sts n xs).
    Proof.
      intros N1 N2 H. unfold mathOK. destruct H as [|t x ts xs D H].
      - split; [intros [_ H]; destruct k; cbn in H; lia|intros (c & r & E & _); discriminate].
      - split.
        + intros [[O1 _] _]. exists x, xs. split; [reflexivity|]. split.
          * apply (den_var _ _ _ D). destruct k; try contradiction; exact O1.
          * intros y Hy. destruct (den_in _ _ _ H Hy) as (u & _ & U). exists (tkVar toks u). now apply denotes_visible.
        + intros (c & r & E & V & _). injection E as <- <-. apply (den_var _ _ _ D) in V. split.
          * split; [destruct k; try contradiction; exact V|]. apply okSyms_free; [right; auto|exact N1].
          * destruct k; try contradiction; cbn; lia.
    Qed.
    Lemma okSyms_f ts xs : Forall2 den ts xs ->
      (okSyms sts K_f 0 ts /\ okLen K_f (length ts) <-> exists c x, xs = [c; x] /\ visible c false n /\ visible x true n).
    Proof.
      intros H. destruct H as [|t x ts xs D H]; [|destruct H as [|t' x' ts xs D' H]; [|destruct H as [|t'' x'' ts xs D'' H]]].
      - split; [intros [_ H]; cbn in H; lia|intros (c & x & E & _); discriminate].
      - split; [intros [_ H]; cbn in H; lia|intros (c & y & E & _); discriminate].
      - split.
        + intros [(O1 & O2 & _) _]. cbn in O1, O2. exists x, x'. split; [reflexivity|]. now rewrite (den_var _ _ _ D), (den_var _ _ _ D').
        + intros (c & y & E & V1 & V2). injection E as <- <-. rewrite (den_var _ _ _ D) in V1. rewrite (den_var _ _ _ D') in V2.
          cbn. auto.
      - split; [intros [(_ & _ & O3 & _) _]; destruct O3|intros (c & y & E & _); discriminate].
    Qed.
  End Names.

  (* ---- $d ---- *)
  Lemma d_sound n i s vl s' : Inv n s vl -> stAt n i -> si_kind i = K_d ->
    stepStmt T n (oldOf n) i s = Ok s' -> p_err s' = [] -> legalStmt sts n i.
  Proof.
    intros HI Hi HK H HE. unfold stepStmt in H. rewrite HK in H. apply rbind_ok in H. destruct H as ((ts & s1) & H1 & H).
    apply Ok_inj in H. subst s'. cbn [fst snd] in HE. unfold putOut in HE. cbn [p_err] in HE.
    pose proof (ext_nil _ _ (dOuter_ext _ _ _) HE) as E1. pose proof (ext_nil _ _ (lenErrs_ext _ _ _ _) E1) as E0.
    destruct (symLoop_sound sts key HQ n s vl HI _ _ _ _ _ H1 E0) as ( -> & F & O).
    apply (lenErrs_iff _ _ _ _ HI) in E1. apply dOuter_sound in HE. cbn [okLen] in E1.
    unfold legalStmt. rewrite HK. split; [now rewrite <- (F2_len _ _ _ F)|]. split; [now apply (den_nodup _ _ _ HI _ _ F)|].
    apply (den_vars _ _ _ HI _ _ F). exact (proj1 (okSyms_d ts 0) O).
  Qed.
  Lemma d_ok n i s vl : Inv n s vl -> stAt n i -> si_kind i = K_d -> legalStmt sts n i ->
    exists s', stepStmt T n (oldOf n) i s = Ok s' /\ Inv (S n) s' vl.
  Proof.
    intros HI Hi HK HL. assert (L := HL). unfold legalStmt in L. rewrite HK in L. destruct L as (L1 & L2 & L3).
    destruct (names_ts n (si_toks i)) as (ts & F); [intros x Hx; exists true; auto|].
    assert (LEN := F2_len _ _ _ F).
    unfold stepStmt. rewrite HK. rewrite (symLoop_ok sts key HQ n s vl HI K_d _ 0 ts F).
    2:{ apply okSyms_d. now apply (den_vars _ _ _ HI _ _ F). }
    cbn [rbind fst snd]. rewrite (lenErrs_id n s K_d) by (cbn; lia). eexists. split; [reflexivity|].
    assert (ND : NoDup ts) by (now apply (den_nodup _ _ _ HI _ _ F)).
    destruct (dOuter_ok n s ts (p_d s) ND) as (ds' & E & A1 & A2 & A3 & A4). rewrite setD_id in E. rewrite E.
    assert (H0 : delta (si_kind i) = 0%Z) by (now rewrite HK). assert (KP := keeps_plain _ _ _ Hi H0).
    assert (KD : kindAt n K_d) by (exists i; auto).
    assert (SN : inScope n (S n)) by (apply KP; now left).
    eapply (plain_inv n i s vl _ _ HI Hi); try reflexivity; try (now rewrite HK); auto.
    - apply (i_err _ _ _ _ HI).
    - apply (i_v _ _ _ _ HI).
    - apply (hyps_keep _ _ _ i); auto; [now rewrite HK|apply (i_e _ _ _ _ HI)].
    - apply (hyps_keep _ _ _ i); auto; [now rewrite HK|apply (i_f _ _ _ _ HI)].
    - cbn [putOut setD p_d]. destruct (i_d _ _ _ _ HI) as [B1 B2 B3].
      assert (LE : forall d, In d (p_d s) -> d_stmt d < n) by (intros d Hd; destruct (B2 d Hd) as (_ & X & _); apply inScope_lt in X; lia).
      assert (SND : forall d, In d ds' -> kindAt (d_stmt d) K_d /\ inScope (d_stmt d) (S n) /\
        d_scope d = depth (d_stmt d) /\ d_a d < d_b d /\
        (exists x, hasTok (d_stmt d) x /\ denotes (d_a d) x (d_stmt d)) /\
        (exists x, hasTok (d_stmt d) x /\ denotes (d_b d) x (d_stmt d))).
      { intros d Hd. destruct (A2 d Hd) as [H|(p & q & Hp & Hq & Hpq & ->)].
        - destruct (B2 d H) as (X1 & X2 & X3). split; [exact X1|]. split; [apply KP; now right|exact X3].
        - cbn [d_stmt d_scope d_a d_b]. split; [exact KD|]. split; [exact SN|]. split; [apply (i_cur _ _ _ _ HI)|]. split; [lia|].
          assert (G : forall t, In t ts -> exists x, hasTok n x /\ denotes t x n).
          { intros t Ht. destruct (den_in' _ _ _ _ F Ht) as (x & X1 & X2). exists x. split; [exists i; auto|exact X2]. }
          destruct (le_lt_dec p q); [rewrite Nat.min_l, Nat.max_r by lia|rewrite Nat.min_r, Nat.max_l by lia]; auto. }
      constructor.
      + apply A4; [|exact B1]. intros d Hd. specialize (LE d Hd). lia.
      + exact SND.
      + intros m a b x y Hm HS X1 X2 X3 X4 X5. apply KP in HS. destruct HS as [ -> |HS].
        * apply (hasTok_at _ _ _ _ Hi) in X1, X2. destruct (A3 a b) as (d & D1 & D2 & D3); auto.
          { now apply (den_iff _ _ _ HI _ _ _ _ F X3). }
          { now apply (den_iff _ _ _ HI _ _ _ _ F X4). }
          exists d. split; [exact D1|]. split; [exact D2|]. split; [exact D3|].
          destruct (SND d D1) as (_ & X & _). apply inScope_lt in X. lia.
        * destruct (B3 m a b x y Hm HS X1 X2 X3 X4 X5) as (d & D1 & D2). exists d. split; [auto|exact D2].
    - split; [cbn; auto|]. rewrite HK. split; [exact F|exact I].
  Qed.

  (* ---- $e and $f ---- *)
  Lemma setV_id s : setV (p_v s) s = s.
  Proof. now destruct s. Qed.
  Lemma inv_tmp n s vl : Inv n s vl -> forall j t, nth_error vl j = Some t -> p_tmp s t = j.
  Proof. intros HI j t H. now apply (vs_at _ _ _ _ (i_v _ _ _ _ HI)). Qed.
  Lemma inv_vst n s vl : Inv n s vl -> vst dDepth vl (p_v s) (fun _ => 0).
  Proof. intros HI j t H. now apply (vs_at _ _ _ _ (i_v _ _ _ _ HI)). Qed.
  Lemma doHyp_ok n k s vl ts xs : Inv n s vl -> Forall2 (fun t x => denotes t x n) ts xs ->
    exists vs v, doHyp T n k ts s = Ok (pushHyp k (mkH n vs (p_cur s)) (setV v s)) /\ NoDup vs /\
      (forall t, In t vs <-> In t ts /\ tkVar toks t = true) /\ vst dDepth vl v (fun _ => 0).
  Proof.
    intros HI F. unfold doHyp.
    destruct (newVars_ok toks T eq_refl dDepth s vl (inv_tmp _ _ _ HI) 1 ltac:(lia) ts (p_v s) _ (inv_vst _ _ _ HI))
      as (vs & v1 & E & ND & IN & V1).
    { intros t Ht HV. eapply den_vl; eauto. }
    rewrite setV_id in E. rewrite E. cbn [rbind fst snd].
    assert (SUB : forall t, In t vs -> In t vl) by (intros t Ht; apply IN in Ht; eapply den_vl; eauto; tauto).
    destruct (clearFlags_ok dDepth s vl (inv_tmp _ _ _ HI) vs v1 _ V1 SUB) as (v2 & E2 & V2). rewrite E2.
    exists vs, v2. split; [reflexivity|]. split; [exact ND|]. split; [intros t; rewrite IN; tauto|].
    eapply vst_ext; [exact V2|]. intros t _. cbn. now destruct (inb t vs).
  Qed.
  Lemma hyps_push k n i s vl ts vs l : Inv n s vl -> stAt n i -> si_kind i = k -> keeps sts n ->
    Forall2 (fun t x => denotes t x n) ts (si_toks i) -> NoDup vs ->
    (forall t, In t vs <-> In t ts /\ tkVar toks t = true) -> hypStack k n l -> hypStack k (S n) (mkH n vs (p_cur s) :: l).
  Proof.
    intros HI Hi HK KP F ND IN [A B C]. constructor.
    - constructor; [exact A|]. apply Forall_forall. intros h Hh. cbn. destruct (B h Hh) as (_ & X & _). apply inScope_lt in X. lia.
    - intros h [ <- |Hh].
      + cbn [h_stmt h_scope h_vars]. split; [exists i; auto|]. split; [apply KP; now left|]. split; [apply (i_cur _ _ _ _ HI)|].
        split; [exact ND|]. intros t. rewrite IN. split.
        * intros [H1 H2]. split; [exact H2|]. destruct (den_in' _ _ _ _ F H1) as (x & X1 & X2). exists x. split; [exists i; auto|exact X2].
        * intros [H1 (x & X1 & X2)]. apply (hasTok_at _ _ _ _ Hi) in X1. split; [|exact H1]. now apply (den_iff _ _ _ HI _ _ _ _ F X2).
      + destruct (B h Hh) as (B1 & B2 & B3). split; [exact B1|]. split; [apply KP; now right|exact B3].
    - intros m Hm HS. apply KP in HS. destruct HS as [ -> |HS].
      + eexists. split; [now left|reflexivity].
      + destruct (C m Hm HS) as (h & H1 & H2). exists h. split; [now right|exact H2].
  Qed.
  Definition hypOK (n : nat) (k : kind) (xs : list name) : Prop :=
    match k with K_f => exists c x, xs = [c; x] /\ visible c false n /\ visible x true n | _ => mathOK sts n xs end.
  Lemma hypOK_ts n s vl k xs : Inv n s vl -> k <> K_d -> hypOK n k xs -> exists ts, Forall2 (fun t x => denotes t x n) ts xs.
  Proof.
    intros HI HK H. apply names_ts. intros x Hx. destruct k; try contradiction; cbn in H;
      try (destruct H as (c & r & -> & V1 & V2); destruct Hx as [ <- |Hx]; [exists false; exact V1|auto]).
    destruct Hx as [ <- |[]]. exists true; auto.
  Qed.
  Lemma hypOK_iff n s vl k ts xs : Inv n s vl -> k <> K_d -> Forall2 (fun t x => denotes t x n) ts xs ->
    (okSyms sts k 0 ts /\ okLen k (length ts) <-> hypOK n k xs).
  Proof.
    intros HI HK F. destruct k; try contradiction; cbn [hypOK]; try (eapply okSyms_math; eauto; discriminate).
    eapply okSyms_f; eauto.
  Qed.
  (* common to $e $f $a $p *)
  Lemma math_sound n s vl k xs ts s1 : Inv n s vl -> k <> K_d -> symLoop T n k 0 xs s = Ok (ts, s1) ->
    p_err (lenErrs n k (length ts) s1) = [] -> s1 = s /\ Forall2 (fun t x => denotes t x n) ts xs /\ hypOK n k xs.
  Proof.
    intros HI HK H E1. pose proof (ext_nil _ _ (lenErrs_ext _ _ _ _) E1) as E0.
    destruct (symLoop_sound sts key HQ n s vl HI _ _ _ _ _ H E0) as ( -> & F & O).
    apply (lenErrs_iff _ _ _ _ HI) in E1. split; [reflexivity|]. split; [exact F|]. apply (hypOK_iff n s vl k ts xs HI HK F). auto.
  Qed.
  Lemma math_ok n s vl k xs : Inv n s vl -> k <> K_d -> hypOK n k xs -> exists ts, symLoop T n k 0 xs s = Ok (ts, s) /\
    lenErrs n k (length ts) s = s /\ Forall2 (fun t x => denotes t x n) ts xs.
  Proof.
    intros HI HK H. destruct (hypOK_ts n s vl k xs HI HK H) as (ts & F). exists ts.
    apply (hypOK_iff n s vl k ts xs HI HK F) in H. destruct H as [O L].
    split; [now apply (symLoop_ok sts key HQ n s vl HI)|]. split; [now apply lenErrs_id|exact F].
  Qed.
  Lemma hyp_sound n i s vl s' : Inv n s vl -> stAt n i -> si_kind i = K_e \/ si_kind i = K_f ->
    stepStmt T n (oldOf n) i s = Ok s' -> p_err s' = [] -> legalStmt sts n i.
  Proof.
    intros HI Hi HK H HE. set (k := si_kind i) in *. assert (KD : k <> K_d) by (destruct HK; congruence).
    assert (E : (do x <- symLoop T n k 0 (si_toks i) s; do s1 <- doHyp T n k (fst x) (lenErrs n k (length (fst x)) (snd x));
      Ok (putOut (bareOut k (p_begin s) (p_cur s) (fst x)) s1)) = Ok s').
    { rewrite <- H. unfold stepStmt. fold k. destruct HK as [ -> | -> ]; reflexivity. }
    clear H. apply rbind_ok in E. destruct E as ((ts & s1) & H1 & H). cbn [fst snd] in H.
    apply rbind_ok in H. destruct H as (s2 & H2 & H). apply Ok_inj in H. subst s'. cbn [putOut p_err] in HE.
    assert (X : ext (lenErrs n k (length ts) s1) s2).
    { unfold doHyp in H2. apply rbind_ok in H2. destruct H2 as ((vs & s3) & H2 & H3). apply Ok_inj in H3. subst s2. cbn [fst snd].
      assert (C : forall l s, p_err (clearFlags l s) = p_err s).
      { unfold clearFlags. induction l as [|a l IH]; intros s'; cbn [fold_left]; [reflexivity|]. rewrite IH. unfold setFlag.
        now destruct (p_v s' (p_tmp s' a)). }
      assert (N : forall f m s l s', newVars T f m s = Ok (l, s') -> p_err s' = p_err s).
      { clear. intros f. induction m as [|a m IH]; intros s l s' H; cbn [newVars] in H; [apply Ok_inj in H; now injection H as _ <-|].
        destruct (tkVar _ a); [|eauto]. apply rbind_ok in H. destruct H as (g & _ & H). destruct (Nat.eqb g 0); [|eauto].
        apply rbind_ok in H. destruct H as ((l1 & s1) & H1 & H). apply Ok_inj in H. injection H as _ <-. cbn. rewrite (IH _ _ _ H1).
        unfold setFlag. now destruct (p_v s (p_tmp s a)). }
      apply ext_eq. transitivity (p_err s3); [|now apply N in H2]. rewrite <- (C vs s3). now destruct k. }
    pose proof (ext_nil _ _ X HE) as E1. destruct (math_sound _ _ _ _ _ _ _ HI KD H1 E1) as (_ & _ & L).
    unfold legalStmt. fold k. destruct HK as [E| E]; rewrite E in *; exact L.
  Qed.
  Lemma hyp_ok n i s vl : Inv n s vl -> stAt n i -> si_kind i = K_e \/ si_kind i = K_f -> legalStmt sts n i ->
    exists s', stepStmt T n (oldOf n) i s = Ok s' /\ Inv (S n) s' vl.
  Proof.
    intros HI Hi HK HL. set (k := si_kind i) in *. assert (KD : k <> K_d) by (destruct HK; congruence).
    assert (L : hypOK n k (si_toks i)) by (unfold legalStmt in HL; fold k in HL; destruct HK as [E|E]; rewrite E in *; exact HL).
    destruct (math_ok n s vl k _ HI KD L) as (ts & E1 & E2 & F).
    destruct (doHyp_ok n k s vl ts _ HI F) as (vs & v & E3 & ND & IN & V).
    exists (putOut (bareOut k (p_begin s) (p_cur s) ts) (pushHyp k (mkH n vs (p_cur s)) (setV v s))). split.
    { unfold stepStmt. fold k. destruct HK as [E|E]; rewrite E in *; rewrite E1; cbn [rbind fst snd]; rewrite E2, E3; reflexivity. }
    assert (H0 : delta (si_kind i) = 0%Z) by (fold k; destruct HK as [E|E]; now rewrite E). assert (KP := keeps_plain _ _ _ Hi H0).
    assert (PU := hyps_push k n i s vl ts vs).
    apply (plain_inv n i s vl _ (bareOut k (p_begin s) (p_cur s) ts) HI Hi); fold k; auto; try (destruct HK as [E|E]; rewrite E; reflexivity).
    - destruct HK as [E|E]; rewrite E; apply (i_err _ _ _ _ HI).
    - destruct HK as [E|E]; rewrite E; exact V.
    - destruct HK as [E|E]; rewrite E in *; cbn [pushHyp setV putOut p_e].
      + apply PU; auto. apply (i_e _ _ _ _ HI).
      + apply (hyps_keep _ _ _ i); auto; try (unfold k in E; rewrite E; discriminate); apply (i_e _ _ _ _ HI).
    - destruct HK as [E|E]; rewrite E in *; cbn [pushHyp setV putOut p_f].
      + apply (hyps_keep _ _ _ i); auto; try (unfold k in E; rewrite E; discriminate); apply (i_f _ _ _ _ HI).
      + apply PU; auto. apply (i_f _ _ _ _ HI).
    - assert (Q : disjStack (S n) (p_d s)).
      { apply (disj_keep _ _ i); auto; try (fold k; destruct HK as [E|E]; rewrite E; discriminate); apply (i_d _ _ _ _ HI). }
      destruct HK as [E|E]; rewrite E; exact Q.
    - split; [reflexivity|]. fold k. destruct HK as [E|E]; rewrite E; split; auto; exact F.
  Qed.
End Hyp.
