(* StmBlock.v -- "${" and "$}" keep the invariant. *)
From Verif Require Import Base LabModel StmModel StmSpec StmTab StmScope StmLook StmFlags.
From Coq Require Import Permutation Sorted.
Open Scope nat_scope.

Lemma popWhile_ok {A} (sc : A -> Z) cur : forall l, StronglySorted (fun a b => (sc b <= sc a)%Z) l ->
  exists p k, popWhile sc cur l = (p, k) /\ l = p ++ k /\
    (forall x, In x p -> (cur <= sc x)%Z) /\ (forall x, In x k -> (sc x < cur)%Z).
Proof.
  induction l as [|x r IH]; intros HS; cbn [popWhile].
  - exists [], []. split; [reflexivity|]. split; [reflexivity|]. split; intros x [].
  - inversion HS as [|? ? H1 H2]; subst. rewrite Forall_forall in H2. destruct (Z.ltb_spec (sc x) cur) as [H|H].
    + exists [], (x :: r). split; [reflexivity|]. split; [reflexivity|]. split; [intros y []|].
      intros y [ <- |Hy]; [exact H|]. specialize (H2 _ Hy). lia.
    + destruct (IH H1) as (p & k & E & -> & HP & HK). rewrite E. exists (x :: p), k. split; [reflexivity|].
      split; [reflexivity|]. split; [|exact HK]. intros y [ <- |Hy]; [exact H|auto].
Qed.
Lemma sorted_suffix {A} (R : A -> A -> Prop) : forall p k, StronglySorted R (p ++ k) -> StronglySorted R k.
Proof. induction p as [|x p IH]; intros k H; [exact H|]. inversion H; subst. auto. Qed.
Lemma sorted_prefix {A} (R : A -> A -> Prop) : forall p k, StronglySorted R (p ++ k) -> StronglySorted R p.
Proof.
  induction p as [|x p IH]; intros k H; [constructor|]. inversion H as [|? ? H1 H2]; subst. constructor; [eauto|].
  rewrite Forall_forall in *. intros y Hy. apply H2. apply in_or_app. now left.
Qed.
Lemma sorted_weaken {A} (P R : A -> A -> Prop) l : StronglySorted P l ->
  (forall a b, In a l -> In b l -> P a b -> R a b) -> StronglySorted R l.
Proof.
  intros H. induction H as [|x l H IH HF]; intros HW; constructor.
  - apply IH. intros a b Ha Hb. apply HW; now right.
  - rewrite Forall_forall in *. intros y Hy. apply HW; [now left|now right|auto].
Qed.
Lemma sorted_snoc {A} (R : A -> A -> Prop) x : forall l, StronglySorted R l -> (forall y, In y l -> R y x) ->
  StronglySorted R (l ++ [x]).
Proof.
  intros l H. induction H as [|y l H IH HF]; intros HW; cbn [app]; [constructor; constructor|]. constructor.
  - apply IH. intros z Hz. apply HW. now right.
  - rewrite Forall_forall in *. intros z Hz. apply in_app_or in Hz. destruct Hz as [Hz|[ <- |[]]]; [auto|]. apply HW. now left.
Qed.
Lemma deact_ok : forall ts a t, deact ts a t = a t && negb (inb t ts).
Proof.
  unfold deact. induction ts as [|u r IH]; intros a t; cbn [fold_left inb existsb]; [now rewrite andb_true_r|].
  rewrite IH. unfold upd. fold (inb t r). destruct (Nat.eqb t u); cbn [orb negb andb]; [now rewrite andb_false_r|reflexivity].
Qed.
Lemma sorted_nodup l : StronglySorted lt l -> NoDup l.
Proof.
  intros H. induction H as [|x l H IH HF]; constructor; auto. rewrite Forall_forall in HF. intros HX. specialize (HF _ HX). lia.
Qed.

Section Block.
  Variable sts : list sinp.
  Variable key : list nat.
  Notation toks := (declTokens 1 sts).
  Hypothesis HQ : mqsorted (map mt_name toks) key.
  Notation T := (mkTenv toks key).
  Notation depth := (depth sts).
  Notation stAt := (stAt sts).
  Notation inScope := (inScope sts).
  Notation denotes := (denotes sts toks).
  Notation kindAt := (kindAt sts).
  Notation hasTok := (hasTok sts).
  Notation live := (live sts).
  Notation dDepth := (dDepth sts).
  Notation Inv := (Inv sts).
  Notation hypStack := (hypStack sts).
  Notation disjStack := (disjStack sts).

  Lemma dDepth_at t k : nth_error toks t = Some k -> dDepth t = depth (mt_stmt k).
  Proof. intros H. unfold StmLook.dDepth. now rewrite H. Qed.
  (* depths on a stack grow towards the top *)
  Lemma scope_mono n a b : inScope a n -> inScope b n -> a <= b -> (depth a <= depth b)%Z.
  Proof.
    intros HA HB H. destruct (Nat.eq_dec a b) as [->|N]; [lia|]. apply inScope_lt in HB.
    apply (inScope_depth _ _ _ _ HA). lia.
  Qed.
  Lemma tok_mono t u k j : nth_error toks t = Some k -> nth_error toks u = Some j -> t <= u -> mt_stmt k <= mt_stmt j.
  Proof.
    intros HT HU HL. destruct (le_lt_dec (mt_stmt k) (mt_stmt j)) as [H|H]; [exact H|]. exfalso.
    assert (B : mt_stmt k <= length sts).
    { apply nth_error_In in HT. apply decl_bounds in HT. lia. }
    pose proof (proj2 (tok_before sts (mt_stmt k) u j ltac:(lia) HU) H).
    pose proof (tok_before sts (mt_stmt k) t k ltac:(lia) HT). lia.
  Qed.
  Lemma dDepth_mono n t u : live n t -> live n u -> t <= u -> (dDepth t <= dDepth u)%Z.
  Proof.
    intros (k & H1 & H2) (j & H3 & H4) HL. rewrite (dDepth_at _ _ H1), (dDepth_at _ _ H3).
    apply (scope_mono n); auto. apply (tok_mono t u); auto.
  Qed.
  Lemma begOK_snoc out b o : begOK out b -> begOK (out ++ [o]) b.
  Proof.
    intros [H|(x & H1 & H2)]; [now left|]. right. exists x. split; [|exact H2]. rewrite nth_error_app1; [exact H1|].
    apply nth_error_Some. congruence.
  Qed.
  Lemma beg_snoc out o : (forall m o, nth_error out m = Some o -> begOK out (o_begin o)) -> begOK out (o_begin o) ->
    forall m x, nth_error (out ++ [o]) m = Some x -> begOK (out ++ [o]) (o_begin x).
  Proof.
    intros H HO m x HX. apply nth_error_In in HX. apply in_app_or in HX. apply begOK_snoc.
    destruct HX as [HX|[ <- |[]]]; [|exact HO]. apply In_nth_error in HX. destruct HX as (j & HX). eauto.
  Qed.
  Lemma out_snoc n s (o : sout) i : length (p_out s) = n -> stAt n i -> goodOut sts toks n i o ->
    (forall m i o, stAt m i -> m < n -> nth_error (p_out s) m = Some o -> goodOut sts toks m i o) ->
    forall m i' o', stAt m i' -> m < S n -> nth_error (p_out s ++ [o]) m = Some o' -> goodOut sts toks m i' o'.
  Proof.
    intros HL Hi HO HA m i' o' Hm Hlt HX. destruct (Nat.eq_dec m n) as [->|N].
    - rewrite nth_error_app2 in HX by lia. rewrite HL, Nat.sub_diag in HX. injection HX as <-.
      now rewrite (stAt_fun _ _ _ _ Hm Hi).
    - rewrite nth_error_app1 in HX by lia. apply (HA m); auto. lia.
  Qed.
  Lemma legal_snoc n i : stAt n i -> legalStmt sts n i -> (forall m i, stAt m i -> m < n -> legalStmt sts m i) ->
    forall m i', stAt m i' -> m < S n -> legalStmt sts m i'.
  Proof.
    intros Hi HL HA m i' Hm Hlt. destruct (Nat.eq_dec m n) as [->|N]; [|apply HA; auto; lia].
    now rewrite (stAt_fun _ _ _ _ Hm Hi).
  Qed.

  (* a statement that declares nothing *)
  Lemma not_own n i : stAt n i -> isDecl (si_kind i) = false -> forall t k, nth_error toks t = Some k -> mt_stmt k <> n.
  Proof.
    intros Hi HD t k HT E. pose proof (proj1 (tok_own _ _ _ _ _ Hi HT) E) as R. rewrite (oldOf_S _ _ _ Hi), HD in R. lia.
  Qed.
  Definition keeps (n : nat) : Prop := forall h, inScope h (S n) <-> h = n \/ inScope h n.
  Lemma live_keep n i t : stAt n i -> isDecl (si_kind i) = false -> keeps n -> (live (S n) t <-> live n t).
  Proof.
    intros Hi HD HK. split; intros (k & H1 & H2); exists k; (split; [exact H1|]).
    - apply HK in H2. destruct H2 as [H2|H2]; [|exact H2]. now apply (not_own n i Hi HD) in H1.
    - apply HK. now right.
  Qed.
  Lemma denotes_keep n i t x : stAt n i -> isDecl (si_kind i) = false -> keeps n -> (denotes t x (S n) <-> denotes t x n).
  Proof.
    intros Hi HD HK. split; intros (k & H1 & H2 & H3); exists k; (split; [exact H1|]); (split; [exact H2|]).
    - apply HK in H3. destruct H3 as [H3|H3]; [|exact H3]. now apply (not_own n i Hi HD) in H1.
    - apply HK. now right.
  Qed.
  Lemma hyps_keep k n i l : stAt n i -> si_kind i <> k -> keeps n -> hypStack k n l -> hypStack k (S n) l.
  Proof.
    intros Hi HD HK [A B C]. constructor; [exact A| |].
    - intros h Hh. destruct (B h Hh) as (B1 & B2 & B3). split; [exact B1|]. split; [apply HK; now right|exact B3].
    - intros m Hm HS. apply HK in HS. destruct HS as [ -> |HS]; [|auto]. exfalso. apply HD. now apply (kindAt_at _ _ _ _ Hi) in Hm.
  Qed.
  Lemma disj_keep n i l : stAt n i -> si_kind i <> K_d -> keeps n -> disjStack n l -> disjStack (S n) l.
  Proof.
    intros Hi HD HK [A B C]. constructor; [exact A| |].
    - intros h Hh. destruct (B h Hh) as (B1 & B2 & B3). split; [exact B1|]. split; [apply HK; now right|exact B3].
    - intros m a b x y Hm HS. apply HK in HS. destruct HS as [ -> |HS]; [|eauto]. exfalso. apply HD. now apply (kindAt_at _ _ _ _ Hi) in Hm.
  Qed.
  Lemma keeps_plain n i : stAt n i -> delta (si_kind i) = 0%Z -> keeps n.
  Proof. intros Hi HD h. apply (inScope_plain _ _ _ _ Hi HD). Qed.
  Lemma keeps_lb n i : stAt n i -> si_kind i = K_lb -> keeps n.
  Proof. intros Hi HD h. apply (inScope_lb _ _ _ _ Hi HD). Qed.

  (* ---- "${" ---- *)
  Lemma lb_ok n i s vl : Inv n s vl -> stAt n i -> si_kind i = K_lb -> (depth (S n) <= 32000)%Z ->
    exists s', stepStmt T n (oldOf sts n) i s = Ok s' /\ Inv (S n) s' vl.
  Proof.
    intros HI Hi HK HB. pose proof (depth_S _ _ _ Hi) as DS. rewrite HK in DS. unfold delta in DS.
    unfold stepStmt, doLb. rewrite HK, (i_cur _ _ _ _ HI).
    destruct (Z.ltb_spec 32000 (depth n + 1)) as [H|_]; [lia|]. cbn [rbind]. eexists. split; [reflexivity|].
    assert (KP := keeps_lb _ _ Hi HK). assert (ND : isDecl (si_kind i) = false) by (now rewrite HK).
    pose proof (stAt_lt _ _ _ Hi). destruct HI.
    constructor; unfold putOut; cbn [p_err p_cur p_active p_scope p_c p_e p_f p_d p_out p_begin]; auto.
    - lia.
    - intros m Hm. destruct (Nat.eq_dec m (S n)) as [->|N]; [|apply i_nn; lia]. pose proof (i_nn n (le_n _)). lia.
    - intros t. rewrite (live_keep _ _ _ Hi ND KP). apply i_act.
    - intros t. rewrite (live_keep _ _ _ Hi ND KP). apply i_scope.
    - intros t u x. rewrite !(denotes_keep _ _ _ _ Hi ND KP). apply i_uniq.
    - destruct i_v. constructor; auto. intros t. rewrite (live_keep _ _ _ Hi ND KP). apply vs_in.
    - destruct i_c. constructor; auto. intros t z. rewrite (live_keep _ _ _ Hi ND KP). apply cs_in.
    - apply (hyps_keep _ _ _ _ Hi); auto. now rewrite HK.
    - apply (hyps_keep _ _ _ _ Hi); auto. now rewrite HK.
    - apply (disj_keep _ _ _ Hi); auto. now rewrite HK.
    - rewrite app_length. cbn. lia.
    - destruct i_begin as [B1 B2]. split.
      + right. exists (bareOut K_lb (p_begin s) (depth n) []). rewrite nth_error_app2 by lia.
        rewrite i_len, Nat.sub_diag. auto.
      + apply beg_snoc; auto.
    - apply (out_snoc n s _ i); auto. split; [cbn; auto|]. rewrite HK. split; [reflexivity|exact I].
    - apply (legal_snoc n i Hi); auto. unfold legalStmt. now rewrite HK.
  Qed.

  (* ---- "$}" ---- *)
  Lemma popV_ok v cur (F : nat -> Z) : forall vl, (forall j t, nth_error vl j = Some t -> v j = Some (mkV t (F t) 0)) ->
    exists m, popV v cur (length vl) = Ok (m, rev (skipn m vl)) /\ m <= length vl /\
      (forall t, In t (skipn m vl) -> (cur <= F t)%Z) /\
      (forall t, 0 < m -> nth_error vl (m - 1) = Some t -> (F t < cur)%Z).
  Proof.
    intros vl. induction vl as [|t vl IH] using rev_ind; intros HV.
    - exists 0. split; [reflexivity|]. split; [auto|]. split; [intros t []|intros; lia].
    - rewrite app_length. cbn [length]. rewrite Nat.add_1_r. cbn [popV].
      rewrite (HV (length vl) t) by (rewrite nth_error_app2, Nat.sub_diag by lia; reflexivity). cbn [rget rbind ve_scope ve_tok].
      destruct (Z.ltb_spec (F t) cur) as [H|H].
      + exists (S (length vl)). rewrite skipn_all2 by (rewrite app_length; cbn; lia). split; [reflexivity|].
        split; [lia|]. split; [intros u []|]. intros u _ HU. replace (S (length vl) - 1) with (length vl) in HU by lia.
        rewrite nth_error_app2, Nat.sub_diag in HU by lia. injection HU as <-. exact H.
      + destruct IH as (m & E & ML & M1 & M2).
        { intros j u Hj. apply HV. rewrite nth_error_app1; [exact Hj|]. apply nth_error_Some. congruence. }
        rewrite E. cbn [rbind fst snd]. exists m.
        assert (ES : skipn m (vl ++ [t]) = skipn m vl ++ [t]).
        { rewrite skipn_app. now replace (m - length vl) with 0 by lia. }
        split; [rewrite ES, rev_app_distr; reflexivity|]. split; [lia|]. split.
        * intros u. rewrite ES, in_app_iff. intros [Hu|[ <- |[]]]; auto.
        * intros u Hm HU. apply (M2 u Hm). rewrite nth_error_app1 in HU by lia. exact HU.
  Qed.
  Lemma rb_live n i t : stAt n i -> si_kind i = K_rb -> (live (S n) t <-> live n t /\ (dDepth t < depth n)%Z).
  Proof.
    intros Hi HK. split.
    - intros (k & H1 & H2). apply (inScope_rb _ _ _ _ Hi HK) in H2. destruct H2 as [H2 H3]. rewrite (dDepth_at _ _ H1).
      split; [exists k; auto|exact H3].
    - intros [(k & H1 & H2) H3]. rewrite (dDepth_at _ _ H1) in H3. exists k. split; [exact H1|]. now apply (inScope_rb _ _ _ _ Hi HK).
  Qed.
  Lemma rb_hyps k n i l : stAt n i -> si_kind i = K_rb -> hypStack k n l ->
    hypStack k (S n) (snd (popWhile h_scope (depth n) l)).
  Proof.
    intros Hi HK [A B C]. destruct (popWhile_ok h_scope (depth n) l) as (p & q & E & -> & HP & HQ').
    { apply (sorted_weaken _ _ _ A). intros a b Ha Hb Hlt. destruct (B a Ha) as (_ & A1 & -> & _).
      destruct (B b Hb) as (_ & B1 & -> & _). apply (scope_mono n); auto. lia. }
    rewrite E. cbn [snd]. constructor.
    - now apply sorted_suffix in A.
    - intros h Hh. destruct (B h) as (B1 & B2 & B3 & B4); [apply in_or_app; now right|]. split; [exact B1|].
      split; [|split; [exact B3|exact B4]]. apply (inScope_rb _ _ _ _ Hi HK). split; [exact B2|]. rewrite <- B3. auto.
    - intros m Hm HS. apply (inScope_rb _ _ _ _ Hi HK) in HS. destruct HS as [HS HD].
      destruct (C m Hm HS) as (h & H1 & H2). exists h. split; [|exact H2]. apply in_app_or in H1. destruct H1 as [H1|H1]; [|exact H1].
      specialize (HP _ H1). destruct (B h) as (_ & _ & B3 & _); [apply in_or_app; now left|]. rewrite B3, H2 in HP. lia.
  Qed.
  Lemma rb_disj n i l : stAt n i -> si_kind i = K_rb -> disjStack n l ->
    disjStack (S n) (snd (popWhile d_scope (depth n) l)).
  Proof.
    intros Hi HK [A B C]. destruct (popWhile_ok d_scope (depth n) l) as (p & q & E & -> & HP & HQ').
    { apply (sorted_weaken _ _ _ A). intros a b Ha Hb Hlt. destruct (B a Ha) as (_ & A1 & -> & _).
      destruct (B b Hb) as (_ & B1 & -> & _). apply (scope_mono n); auto. }
    rewrite E. cbn [snd]. constructor.
    - now apply sorted_suffix in A.
    - intros h Hh. destruct (B h) as (B1 & B2 & B3 & B4); [apply in_or_app; now right|]. split; [exact B1|].
      split; [|split; [exact B3|exact B4]]. apply (inScope_rb _ _ _ _ Hi HK). split; [exact B2|]. rewrite <- B3. auto.
    - intros m a b x y Hm HS X1 X2 X3 X4 X5. apply (inScope_rb _ _ _ _ Hi HK) in HS. destruct HS as [HS HD].
      destruct (C m a b x y Hm HS X1 X2 X3 X4 X5) as (h & H1 & H2 & H3 & H4). exists h. split; [|auto].
      apply in_app_or in H1. destruct H1 as [H1|H1]; [|exact H1].
      specialize (HP _ H1). destruct (B h) as (_ & B2 & B3 & _); [apply in_or_app; now left|]. rewrite B3 in HP.
      pose proof (scope_mono n _ _ B2 HS H4). lia.
  Qed.
  (* the whole step: it never fails, and reports exactly a "$}" too many *)
  Lemma rb_step n i s vl : Inv n s vl -> stAt n i -> si_kind i = K_rb ->
    exists s', stepStmt T n (oldOf sts n) i s = Ok s' /\
      ((0 < depth n)%Z -> exists vl', Inv (S n) s' vl') /\ ((depth n <= 0)%Z -> p_err s' <> []).
  Proof.
    intros HI Hi HK. pose proof (depth_S _ _ _ Hi) as DS. rewrite HK in DS. unfold delta in DS.
    unfold stepStmt, doRb. rewrite HK, (i_cur _ _ _ _ HI). pose proof (stAt_lt _ _ _ Hi) as HN.
    destruct HI. destruct i_c as [CI CS]. destruct i_v as [VL VA VI VS].
    destruct (popWhile_ok snd (depth n) (p_c s)) as (pc & kc & EC & EL & HP & HKc).
    { apply (sorted_weaken _ _ _ CS). intros [a za] [b zb] Ha Hb Hlt. cbn in Hlt |- *.
      apply CI in Ha. apply CI in Hb. destruct Ha as (A1 & _ & ->). destruct Hb as (B1 & _ & ->).
      apply (dDepth_mono n); auto. lia. }
    rewrite EC. rewrite VL.
    destruct (popV_ok (p_v s) (depth n) dDepth vl) as (m & EV & ML & M1 & M2); [intros j t Hj; now apply VA|].
    rewrite EV. cbn [rbind].
    assert (KEEP : forall t, In t (firstn m vl) -> (dDepth t < depth n)%Z).
    { intros t Ht. apply In_nth_error in Ht. destruct Ht as (j & Hj).
      assert (Lj : j < m) by (assert (j < length (firstn m vl)) by (apply nth_error_Some; congruence); rewrite firstn_length in *; lia).
      rewrite nth_error_firstn_lt in Hj by exact Lj.
      destruct (nth_some vl (m - 1)) as (u & Hu); [lia|]. specialize (M2 u ltac:(lia) Hu).
      destruct (Nat.eq_dec j (m - 1)) as [->|N]; [congruence|].
      assert (t < u).
      { clear -VS Hj Hu Lj N. assert (L : j < m - 1) by lia. clear N Lj. revert j L Hj Hu. generalize (m - 1). intros q. revert q.
        induction VS as [|x l S IH HF]; intros q j L Hj Hu; [destruct j; discriminate|].
        destruct q; [lia|]. destruct j as [|j].
        - injection Hj as <-. cbn in Hu. rewrite Forall_forall in HF. apply HF. now apply nth_error_In in Hu.
        - cbn in Hj, Hu. apply (IH q j); auto. lia. }
      assert (LT : live n t) by (apply VI; now apply nth_error_In in Hj).
      assert (LU : live n u) by (apply VI; now apply nth_error_In in Hu).
      pose proof (dDepth_mono n t u LT LU ltac:(lia)). lia. }
    assert (BG : exists b, (match p_begin s with
           | 0 => Ok 0
           | k => do o <- rget (nth_error (p_out s) k);
                  match o_kind o with K_lb => Ok (o_begin o) | _ => Bug 1773 end
           end) = Ok b /\ begOK (p_out s) b).
    { destruct i_begin as [[B1|(o & B1 & B2)] B3].
      - rewrite B1. exists 0. split; [reflexivity|now left].
      - destruct (p_begin s); [exists 0; split; [reflexivity|now left]|]. exists (o_begin o). rewrite B1. cbn [rget rbind].
        rewrite B2. split; [reflexivity|]. eauto. }
    destruct BG as (b & EB & HB). rewrite EB. cbn [rbind]. eexists. split; [reflexivity|]. cbn [fst snd]. split.
    - intros HD. exists (firstn m vl).
      assert (EN : Z.ltb (depth n - 1) 0 = false) by (apply Z.ltb_ge; lia).
      assert (VIN : forall t, In t (firstn m vl) <-> live (S n) t /\ tkVar toks t = true).
      { intros t. rewrite (rb_live _ _ _ Hi HK). split.
        - intros H. pose proof (KEEP t H). assert (In t vl) by (rewrite <- (firstn_skipn m vl); apply in_or_app; now left).
          apply VI in H1. tauto.
        - intros ((H1 & H2) & H3). assert (In t vl) by (apply VI; auto). rewrite <- (firstn_skipn m vl) in H.
          apply in_app_or in H. destruct H as [H|H]; [exact H|]. specialize (M1 _ H). lia. }
      constructor; unfold putOut; cbn [p_err p_cur p_active p_scope p_c p_e p_f p_d p_out p_begin]; auto.
      + lia.
      + rewrite i_err, EN. reflexivity.
      + intros q Hq. destruct (Nat.eq_dec q (S n)) as [->|N]; [lia|apply i_nn; lia].
      + intros t. rewrite !deact_ok. rewrite (rb_live _ _ _ Hi HK), <- i_act. destruct (p_active s t) eqn:EA; cbn [andb]; [|intuition discriminate].
        assert (LT : live n t) by (now apply i_act).
        split.
        * intros H. split; [reflexivity|]. apply andb_true_iff in H. destruct H as [H1 H2]. apply negb_true_iff in H1, H2.
          apply inb_false in H1, H2. destruct (tkVar toks t) eqn:EV'.
          -- assert (In t vl) by (apply VI; auto). rewrite <- (firstn_skipn m vl) in H. apply in_app_or in H.
             destruct H as [H|H]; [now apply KEEP|]. exfalso. apply H2. now apply -> in_rev in H.
          -- assert (In (t, dDepth t) (p_c s)) by (apply CI; auto). rewrite EL in H. apply in_app_or in H.
             destruct H as [H|H]; [|now apply HKc in H]. exfalso. apply H1. apply in_map_iff. exists (t, dDepth t). auto.
        * intros [_ H]. apply andb_true_iff. split; apply negb_true_iff; apply inb_false; intros HX.
          -- apply in_map_iff in HX. destruct HX as ([u z] & E & HX). cbn in E. subst u. pose proof (HP _ HX) as Q. cbn in Q.
             assert (In (t, z) (p_c s)) by (rewrite EL; apply in_or_app; now left). apply CI in H0. destruct H0 as (_ & _ & ->). lia.
          -- apply in_rev in HX. specialize (M1 _ HX). lia.
      + intros t Ht. apply (rb_live _ _ _ Hi HK) in Ht. now apply i_scope.
      + intros t u x (k & H1 & H2 & H3) (k' & H1' & H2' & H3'). apply (inScope_rb _ _ _ _ Hi HK) in H3, H3'.
        apply (i_uniq t u x); [exists k|exists k']; tauto.
      + constructor; cbn [p_vptr p_v p_tmp].
        * rewrite firstn_length. lia.
        * intros j t Hj. assert (Lj : j < m) by (assert (j < length (firstn m vl)) by (apply nth_error_Some; congruence); rewrite firstn_length in *; lia).
          rewrite nth_error_firstn_lt in Hj by exact Lj. now apply VA.
        * exact VIN.
        * rewrite <- (firstn_skipn m vl) in VS. now apply sorted_prefix in VS.
      + constructor.
        * intros t z. rewrite (rb_live _ _ _ Hi HK). split.
          -- intros H. pose proof (HKc _ H) as Q. cbn in Q. assert (In (t, z) (p_c s)) by (rewrite EL; apply in_or_app; now right).
             apply CI in H0. destruct H0 as (A1 & A2 & ->). tauto.
          -- intros ((A1 & A2) & A3 & ->). assert (In (t, dDepth t) (p_c s)) by (apply CI; auto). rewrite EL in H.
             apply in_app_or in H. destruct H as [H|H]; [|exact H]. specialize (HP _ H). cbn in HP. lia.
        * rewrite EL in CS. now apply sorted_suffix in CS.
      + now apply rb_hyps with i.
      + now apply rb_hyps with i.
      + now apply rb_disj with i.
      + rewrite app_length. cbn. lia.
      + split; [now apply begOK_snoc|]. apply beg_snoc; [tauto|]. cbn. tauto.
      + apply (out_snoc n s _ i); auto. split; [cbn; auto|]. rewrite HK. split; [reflexivity|exact I].
      + apply (legal_snoc n i Hi); auto. unfold legalStmt. now rewrite HK.
    - intros HD. unfold putOut. cbn [p_err]. assert (EN : Z.ltb (depth n - 1) 0 = true) by (apply Z.ltb_lt; lia). rewrite EN.
      intros H. apply app_eq_nil in H. destruct H. discriminate.
  Qed.
End Block.
