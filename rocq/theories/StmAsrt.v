(* StmAsrt.v -- "$a" and "$p". *)
From Verif Require Import Base LabModel StmModel StmSpec StmTab StmScope StmLook StmFlags StmBlock StmHyp.
From Coq Require Import Permutation Sorted.
Open Scope nat_scope.

(* ---- errors are kept ---- *)
Lemma setFlag_err k f s : p_err (setFlag k f s) = p_err s.
Proof. unfold setFlag. now destruct (p_v s (p_tmp s k)). Qed.
Lemma newVars_err T f : forall m s l s', newVars T f m s = Ok (l, s') -> p_err s' = p_err s.
Proof.
  induction m as [|a m IH]; intros s l s' H; cbn [newVars] in H; [apply Ok_inj in H; now injection H as _ <-|].
  destruct (tkVar _ a); [|eauto]. apply rbind_ok in H. destruct H as (g & _ & H). destruct (Nat.eqb g 0); [|eauto].
  apply rbind_ok in H. destruct H as ((l1 & s1) & H1 & H). apply Ok_inj in H. injection H as _ <-. cbn. rewrite (IH _ _ _ H1).
  apply setFlag_err.
Qed.
Lemma eVars_err : forall m s l s', eVars m s = Ok (l, s') -> p_err s' = p_err s.
Proof.
  induction m as [|a m IH]; intros s l s' H; cbn [eVars] in H; [apply Ok_inj in H; now injection H as _ <-|].
  apply rbind_ok in H. destruct H as (g & _ & H). apply rbind_ok in H. destruct H as ((l1 & s1) & H1 & H).
  apply Ok_inj in H. injection H as _ <-. cbn. rewrite (IH _ _ _ H1). apply setFlag_err.
Qed.
Lemma eScan_err : forall m s l s', eScan m s = Ok (l, s') -> p_err s' = p_err s.
Proof.
  induction m as [|a m IH]; intros s l s' H; cbn [eScan] in H; [apply Ok_inj in H; now injection H as _ <-|].
  apply rbind_ok in H. destruct H as ((l0 & s0) & H0 & H). apply rbind_ok in H. destruct H as ((l1 & s1) & H1 & H).
  apply Ok_inj in H. injection H as _ <-. cbn in *. rewrite (IH _ _ _ H1). now apply eVars_err in H0.
Qed.
Lemma fOthers_ext n f r : forall m s s', fOthers n f r m s = Ok s' -> ext s s'.
Proof.
  induction m as [|a m IH]; intros s s' H; cbn [fOthers] in H; [apply Ok_inj in H; subst; apply ext_refl|].
  apply rbind_ok in H. destruct H as (g & _ & H). apply rbind_ok in H. destruct H as (g1 & _ & H).
  assert (X : ext s (if Nat.eqb g 2 then setFlag a 1 s else s)) by (destruct (Nat.eqb g 2); [apply ext_eq, setFlag_err|apply ext_refl]).
  destruct (negb _).
  - apply Ok_inj in H. subst s'. eapply ext_trans; [exact X|apply ext_err].
  - eapply ext_trans; [exact X|eauto].
Qed.
Lemma fScan_ext n : forall hs s a b s', fScan n hs s = Ok (a, b, s') -> ext s s'.
Proof.
  induction hs as [|h r IH]; intros s a b s' H; cbn [fScan] in H; [apply Ok_inj in H; injection H as _ _ <-; apply ext_refl|].
  destruct (h_vars h) as [|k others].
  - apply rbind_ok in H. destruct H as (((a1 & b1) & s1) & H1 & H). apply Ok_inj in H. injection H as _ _ <-. cbn. eauto.
  - apply rbind_ok in H. destruct H as (g & _ & H). apply rbind_ok in H. destruct H as (s2 & H2 & H).
    apply rbind_ok in H. destruct H as (((a1 & b1) & s1) & H1 & H).
    assert (E : s' = s1) by (destruct (negb _); apply Ok_inj in H; now injection H as _ _ <-). subst s'.
    apply fOthers_ext in H2. apply IH in H1. eapply ext_trans; [|eapply ext_trans; [exact H2|exact H1]].
    destruct (negb _); [apply ext_eq, setFlag_err|apply ext_refl].
Qed.
Lemma orphan_ext T n : forall m s s', orphan T n m s = Ok s' -> ext s s'.
Proof.
  induction m as [|a m IH]; intros s s' H; cbn [orphan] in H; [apply Ok_inj in H; subst; apply ext_refl|].
  destruct (tkVar _ a); [|eauto]. apply rbind_ok in H. destruct H as (g & _ & H). apply IH in H. eapply ext_trans; [|exact H].
  destruct (Nat.eqb g 2); [|apply ext_refl]. eapply ext_trans; [apply (ext_err (ENoHyp n))|apply ext_eq, setFlag_err].
Qed.
Lemma optScan_err : forall k i s l s', optScan i k s = Ok (l, s') -> p_err s' = p_err s.
Proof.
  induction k as [|k IH]; intros i s l s' H; cbn [optScan] in H; [apply Ok_inj in H; now injection H as _ <-|].
  apply rbind_ok in H. destruct H as (e & _ & H). destruct (Nat.eqb _ 0).
  - apply rbind_ok in H. destruct H as ((l1 & s1) & H1 & H). apply Ok_inj in H. injection H as _ <-. cbn. eauto.
  - apply IH in H. exact H.
Qed.
Lemma doAsrt_ext T n k b sc m s o s' : doAsrt T n k b sc m s = Ok (o, s') -> ext s s'.
Proof.
  unfold doAsrt. intros H. apply rbind_ok in H. destruct H as ((l1 & s1) & H1 & H). apply newVars_err in H1.
  apply rbind_ok in H. destruct H as ((l2 & s2) & H2 & H). apply eScan_err in H2. cbn [fst snd] in *.
  apply rbind_ok in H. destruct H as (((rf & of) & s3) & H3 & H). apply fScan_ext in H3.
  apply rbind_ok in H. destruct H as (s4 & H4 & H). apply orphan_ext in H4.
  apply rbind_ok in H. destruct H as (ds & _ & H). apply rbind_ok in H. destruct H as ((l5 & s5) & H5 & H). apply optScan_err in H5.
  destruct (negb _); [discriminate|]. apply Ok_inj in H. injection H as _ <-. cbn [snd].
  eapply ext_trans; [apply ext_eq; exact H1|]. eapply ext_trans; [apply ext_eq; exact H2|]. eapply ext_trans; [exact H3|].
  eapply ext_trans; [exact H4|]. now apply ext_eq.
Qed.
Lemma needF_ext T out m b : forall math s s', needF T out m b math s = Ok s' -> ext s s'.
Proof.
  induction math as [|t r IH]; intros s s' H; cbn [needF] in H; [apply Ok_inj in H; subst; apply ext_refl|].
  destruct (tkVar _ t); [|eauto]. apply rbind_ok in H. destruct H as (g & _ & H). apply IH in H.
  eapply ext_trans; [apply ext_errIf|exact H].
Qed.
Lemma checkHyps_ext T out n : forall hs b s s', checkHyps T out n b hs s = Ok s' -> ext s s'.
Proof.
  induction hs as [|m r IH]; intros b s s' H; cbn [checkHyps] in H.
  - apply rbind_ok in H. destruct H as (o & _ & H). now apply needF_ext in H.
  - apply rbind_ok in H. destruct H as (o & _ & H). apply rbind_ok in H. destruct H as (s1 & H1 & H). apply IH in H.
    eapply ext_trans; [|exact H].
    assert (X : forall s s1, needF T out m b (o_math o) s = Ok s1 -> ext s s1) by (intros; eapply needF_ext; eauto).
    destruct (o_kind o); try (now apply X).
    apply rbind_ok in H1. destruct H1 as (v & _ & H1). destruct v; [|apply Ok_inj in H1; subst; apply ext_refl].
    apply rbind_ok in H1. destruct H1 as (g & _ & H1). apply Ok_inj in H1. subst. apply ext_errIf.
Qed.

(* ---- sorted lists ---- *)
Lemma sorted_rev {A} (R : A -> A -> Prop) l : StronglySorted R l -> StronglySorted (fun a b => R b a) (rev l).
Proof.
  intros H. induction H as [|x l H IH HF]; cbn [rev]; [constructor|]. apply sorted_snoc; [exact IH|].
  rewrite Forall_forall in HF. intros y Hy. apply in_rev in Hy. auto.
Qed.
Lemma sorted_map {A B} (f : A -> B) (R : B -> B -> Prop) l : StronglySorted (fun a b => R (f a) (f b)) l -> StronglySorted R (map f l).
Proof.
  intros H. induction H as [|x l H IH HF]; cbn [map]; constructor; auto. rewrite Forall_forall in *. intros y Hy.
  apply in_map_iff in Hy. destruct Hy as (z & <- & Hz). auto.
Qed.
Lemma sorted_filter {A} (R : A -> A -> Prop) p l : StronglySorted R l -> StronglySorted R (filter p l).
Proof.
  intros H. induction H as [|x l H IH HF]; cbn [filter]; [constructor|]. destruct (p x); [|exact IH]. constructor; auto.
  rewrite Forall_forall in *. intros y Hy. apply filter_In in Hy. now apply HF.
Qed.

Section Asrt.
  Variable sts : list sinp.
  Variable key : list nat.
  Notation toks := (declTokens 1 sts).
  Hypothesis HQ : mqsorted (map mt_name toks) key.
  Notation T := (mkTenv toks key).
  Notation depth := (depth sts).
  Notation stAt := (stAt sts).
  Notation inScope := (inScope sts).
  Notation denotes := (denotes sts toks).
  Notation kindAt := (kindAt sts).
  Notation hasTok := (hasTok sts).
  Notation toksAt := (toksAt sts).
  Notation live := (live sts).
  Notation dDepth := (dDepth sts).
  Notation Inv := (Inv sts).
  Notation hypStack := (hypStack sts).
  Notation disjStack := (disjStack sts).
  Notation oldOf := (oldOf sts).
  Notation visible := (visible sts).
  Notation mandVar := (mandVar sts).

  Section At.
    Variables (n : nat) (i : sinp) (s : pst) (vl : list nat).
    Hypothesis HI : Inv n s vl.
    Hypothesis Hi : stAt n i.
    Variable ts : list nat.
    Hypothesis F : Forall2 (fun t x => denotes t x n) ts (si_toks i).

    Lemma kind_at h k : kindAt h k -> exists j, stAt h j /\ si_kind j = k.
    Proof. auto. Qed.
    (* what legality of earlier statements gives *)
    Lemma legal_at h j : stAt h j -> inScope h n -> legalStmt sts h j.
    Proof. intros Hj HS. apply (i_legal _ _ _ _ HI h j Hj). apply inScope_lt in HS. lia. Qed.
    Lemma e_vis e x : kindAt e K_e -> inScope e n -> hasTok e x -> exists v, visible x v e.
    Proof.
      intros (j & Hj & HK) HS HX. pose proof (legal_at _ _ Hj HS) as L. unfold legalStmt in L. rewrite HK in L.
      apply (hasTok_at _ _ _ _ Hj) in HX. destruct L as (c & r & E & V1 & V2). rewrite E in HX. destruct HX as [ <- |HX]; eauto.
    Qed.
    Lemma d_vis d x : kindAt d K_d -> inScope d n -> hasTok d x -> visible x true d.
    Proof.
      intros (j & Hj & HK) HS HX. pose proof (legal_at _ _ Hj HS) as L. unfold legalStmt in L. rewrite HK in L.
      apply (hasTok_at _ _ _ _ Hj) in HX. now apply L.
    Qed.
    Lemma f_vis f : kindAt f K_f -> inScope f n -> exists c x, toksAt f [c; x] /\ visible c false f /\ visible x true f.
    Proof.
      intros (j & Hj & HK) HS. pose proof (legal_at _ _ Hj HS) as L. unfold legalStmt in L. rewrite HK in L.
      destruct L as (c & x & E & V). exists c, x. split; [exists j; auto|exact V].
    Qed.
    (* the token of a name in an earlier statement is its token now *)
    Lemma den_back h t x v : inScope h n -> visible x v h -> denotes t x n -> denotes t x h.
    Proof.
      intros HS HV D. destruct (visible_denotes _ _ _ _ HV) as (u & U & _).
      now rewrite (i_uniq _ _ _ _ HI t u x D (denotes_up _ _ _ _ _ U HS)).
    Qed.
    Lemma vl_in t x : denotes t x n -> tkVar toks t = true -> In t vl.
    Proof. intros D V. apply (vs_in _ _ _ _ (i_v _ _ _ _ HI)). split; [apply live_denotes; eauto|exact V]. Qed.

    Lemma inVars_e t x : denotes t x n -> (inVars t (rev (p_e s)) <-> tkVar toks t = true /\ exists e, kindAt e K_e /\ inScope e n /\ hasTok e x).
    Proof.
      intros D. destruct (i_e _ _ _ _ HI) as [A B C]. split.
      - intros (h & H1 & H2). apply in_rev in H1. destruct (B h H1) as (B1 & B2 & B3 & B4 & B5). apply B5 in H2.
        destruct H2 as [H2 (y & Y1 & Y2)]. split; [exact H2|]. exists (h_stmt h). rewrite (denotes_name _ _ _ _ _ _ D Y2). auto.
      - intros [HV (e & E1 & E2 & E3)]. destruct (C e E1 E2) as (h & H1 & H2). exists h. split; [now apply -> in_rev|].
        destruct (B h H1) as (B1 & B2 & B3 & B4 & B5). apply B5. split; [exact HV|]. exists x. rewrite H2. split; [exact E3|].
        destruct (e_vis e x E1 E2 E3) as (v & V). now apply (den_back e t x v).
    Qed.
    Lemma inVars_live k hk l t : hypStack hk n l -> k = hk -> inVars t (rev l) -> In t vl.
    Proof.
      intros [A B C] _ (h & H1 & H2). apply in_rev in H1. destruct (B h H1) as (B1 & B2 & B3 & B4 & B5). apply B5 in H2.
      destruct H2 as [H2 (y & Y1 & Y2)]. apply (vl_in t y); [|exact H2]. now apply (denotes_up _ _ _ _ _ Y2).
    Qed.
    Lemma f_entry h : In h (p_f s) -> exists k c x, h_vars h = [k] /\ In k vl /\ toksAt (h_stmt h) [c; x] /\ denotes k x (h_stmt h) /\
      kindAt (h_stmt h) K_f /\ inScope (h_stmt h) n.
    Proof.
      intros H. destruct (i_f _ _ _ _ HI) as [A B C]. destruct (B h H) as (B1 & B2 & B3 & B4 & B5).
      destruct (f_vis _ B1 B2) as (c & x & (j & Hj & E) & V1 & V2).
      destruct (visible_denotes _ _ _ _ V2) as (k & D & VK).
      assert (IN : forall t, In t (h_vars h) <-> t = k).
      { intros t. rewrite B5. split.
        - intros [HV (y & Y1 & Y2)]. apply (hasTok_at _ _ _ _ Hj) in Y1. rewrite E in Y1. pose proof (denotes_up _ _ _ _ _ Y2 B2) as YN.
          destruct Y1 as [ <- |[ <- |[]]].
          + exfalso. assert (true = false); [|discriminate]. apply (vis_kind _ n s vl HI c).
            * apply (den_var _ _ _ _ HI _ _ true YN). exact HV.
            * destruct V1 as (h0 & W1 & W2). exists h0. split; [exact W1|]. eapply inScope_trans; eauto.
          + apply (i_uniq _ _ _ _ HI t k x YN). now apply (denotes_up _ _ _ _ _ D).
        - intros ->. split; [exact VK|]. exists x. split; [exists j; split; [exact Hj|rewrite E; right; now left]|exact D]. }
      exists k, c, x. split.
      { destruct (h_vars h) as [|a [|b r]].
        - exfalso. now apply (proj2 (IN k) eq_refl).
        - f_equal. apply IN. now left.
        - exfalso. assert (a = k) by (apply IN; now left). assert (b = k) by (apply IN; right; now left). subst.
          inversion B4 as [|? ? X _]; subst. apply X. now left. }
      split; [apply (vl_in k x); [now apply (denotes_up _ _ _ _ _ D)|exact VK]|]. split; [exists j; auto|]. auto.
    Qed.

    (* every variable of the assertion is in some hypothesis *)
    Definition noOrphan : Prop := forall t, In t ts -> tkVar toks t = true -> inVars t (rev (p_e s)) \/ inVars t (rev (p_f s)).

    Definition reqOf (t : nat) : Prop := tkVar toks t = true /\ exists x, denotes t x n /\ mandVar n x.
    Lemma mand_den t x : denotes t x n -> (reqOf t <-> mandVar n x).
    Proof.
      intros D. split.
      - intros [_ (y & Y1 & Y2)]. now rewrite (denotes_name _ _ _ _ _ _ D Y1).
      - intros M. split; [|eauto]. destruct M as [V _]. now apply (den_var _ _ _ _ HI t x true D).
    Qed.
    (* the flags after the scan of the $f's *)
    Lemma asrt_scan k beg sc : exists req v G,
      NoDup req /\ (forall t, In t req <-> reqOf t) /\ vst dDepth vl v G /\
      (forall t, In t vl -> (G t <> 0 <-> reqOf t)) /\
      (forall t, In t ts -> tkVar toks t = true -> (G t = 2 <-> ~ (inVars t (rev (p_e s)) \/ inVars t (rev (p_f s))))) /\
      let optF := map h_stmt (filter (fun h => negb (reqB G h)) (rev (p_f s))) in
      let reqF := map h_stmt (filter (reqB G) (rev (p_f s))) in
      doAsrt T n k beg sc ts s =
      (do s4 <- orphan T n ts (setV v s);
       do ds <- dSplit (rev (p_d s)) s4;
       do x5 <- optScan 0 (p_vptr s4) s4;
       if negb (Nat.eqb (length (fst x5) + length req) (p_vptr s4)) then Bug 1708
       else
         let isP := match k with K_p => true | _ => false end in
         Ok (mkO k beg sc ts (mergeHyps (map h_stmt (rev (p_e s))) reqF) (if isP then optF else []) req (if isP then fst x5 else [])
          (fst ds) (if isP then snd ds else []), snd x5)).
    Proof.
      pose proof (inv_tmp _ _ _ _ HI) as HT.
      destruct (newVars_ok toks T eq_refl dDepth s vl HT 2 ltac:(lia) ts (p_v s) _ (inv_vst _ _ _ _ HI)) as (l1 & v1 & E1 & N1 & I1 & V1).
      { intros t Ht HV. eapply den_vl; eauto. }
      rewrite setV_id in E1.
      destruct (eScan_ok dDepth s vl HT (rev (p_e s)) v1 _ V1) as (l2 & v2 & G2 & E2 & N2 & I2 & V2 & A1 & A0).
      { intros t Ht. eapply inVars_live; eauto. apply (i_e _ _ _ _ HI). }
      destruct (fScan_ok dDepth s vl HT n (rev (p_f s)) v2 G2 V2) as (v3 & G3 & E3 & V3 & B1 & B0).
      { intros h Hh. apply in_rev in Hh. destruct (f_entry h Hh) as (q & c & x & Q1 & Q2 & _). eauto. }
      assert (L1 : forall t, In t l1 <-> In t ts /\ tkVar toks t = true) by (intros t; rewrite I1; tauto).
      assert (L2 : forall t, In t l2 <-> inVars t (rev (p_e s)) /\ ~ In t l1).
      { intros t. rewrite I2. destruct (inb t l1) eqn:EB; [apply inb_iff in EB|apply inb_false in EB]; intuition; discriminate. }
      assert (RQ : forall t, In t (l1 ++ l2) <-> reqOf t).
      { intros t. rewrite in_app_iff, L2. split.
        - intros H. assert (H' : In t l1 \/ inVars t (rev (p_e s))) by tauto. destruct H' as [H'|H'].
          + apply L1 in H'. destruct H' as [H1 H2]. destruct (den_in' _ _ _ _ _ F H1) as (x & X1 & X2). split; [exact H2|].
            exists x. split; [exact X2|]. split; [now apply (den_var _ _ _ _ HI _ _ true X2)|]. left. exists i. auto.
          + pose proof (inVars_live K_e K_e _ t (i_e _ _ _ _ HI) eq_refl H') as HV. apply (vs_in _ _ _ _ (i_v _ _ _ _ HI)) in HV.
            destruct HV as [HL HV]. apply live_denotes in HL. destruct HL as (x & D). split; [exact HV|]. exists x. split; [exact D|].
            split; [now apply (den_var _ _ _ _ HI _ _ true D)|]. right. apply (inVars_e _ _ D) in H'. tauto.
        - intros [HV (x & D & V & M)]. destruct (inb t l1) eqn:EB; [left; now apply inb_iff|apply inb_false in EB]. right. split; [|exact EB].
          destruct M as [M|M].
          + exfalso. apply EB, L1. split; [|exact HV]. apply (hasTok_at _ _ _ _ Hi) in M. now apply (den_iff _ _ _ _ HI _ _ _ _ F D).
          + apply (inVars_e _ _ D). auto. }
      assert (G2R : forall t, G2 t <> 0 <-> reqOf t).
      { intros t. rewrite <- RQ, in_app_iff, L2. destruct (classic_inVars t (rev (p_e s))) as [H|H].
        - rewrite (A1 _ H). destruct (inb t l1) eqn:EB; [apply inb_iff in EB|apply inb_false in EB]; intuition discriminate.
        - rewrite (A0 _ H). destruct (inb t l1) eqn:EB; [apply inb_iff in EB|apply inb_false in EB]; intuition. }
      assert (G30 : forall t, G3 t = 0 <-> G2 t = 0).
      { intros t. destruct (Nat.eq_dec (G2 t) 0) as [Z|Z].
        - rewrite B0; [tauto|]. tauto.
        - destruct (classic_inVars t (rev (p_f s))) as [H|H]; [rewrite (B1 _ H Z); intuition discriminate|]. rewrite B0; tauto. }
      exists (l1 ++ l2), v3, G3. split.
      { clear -N1 N2 L2. assert (DJ : forall t, In t l1 -> ~ In t l2) by (intros t H1 H2; apply L2 in H2; tauto). clear L2.
        induction N1 as [|a l NI ND IH]; cbn [app]; [exact N2|]. constructor.
        - rewrite in_app_iff. intros [H|H]; [auto|]. apply (DJ a); [now left|exact H].
        - apply IH. intros t Ht. apply DJ. now right. }
      split; [exact RQ|]. split; [exact V3|]. split; [intros t _; rewrite G30; apply G2R|]. split.
      { intros t Ht HV. assert (TL : In t l1) by (apply L1; auto). assert (TB := TL). apply inb_iff in TB.
        assert (NZ : G2 t <> 0) by (apply G2R, RQ, in_or_app; now left).
        destruct (classic_inVars t (rev (p_f s))) as [H|H]; [rewrite (B1 _ H NZ); intuition discriminate|]. rewrite B0 by tauto.
        destruct (classic_inVars t (rev (p_e s))) as [H'|H']; [rewrite (A1 _ H'); intuition discriminate|]. rewrite (A0 _ H'), TB. tauto. }
      cbv zeta. unfold doAsrt. rewrite E1. cbn [rbind fst snd]. rewrite E2. cbn [rbind fst snd]. rewrite E3. cbn [rbind fst snd].
      assert (RE : forall h, reqB G2 h = reqB G3 h).
      { intros h. unfold reqB. destruct (h_vars h) as [|a r]; [reflexivity|]. f_equal.
        destruct (Nat.eqb_spec (G2 a) 0) as [Z|Z]; symmetry; [apply Nat.eqb_eq|apply Nat.eqb_neq]; now rewrite G30. }
      rewrite (filter_ext _ _ RE). rewrite (filter_ext (fun h => negb (reqB G2 h)) (fun h => negb (reqB G3 h))); [reflexivity|].
      intros h. now rewrite RE.
    Qed.

    Lemma orphan_dec : forall math v G s', vst dDepth vl v G -> (forall t, In t math -> tkVar toks t = true -> In t vl) ->
      orphan T n math (setV v s) = Ok s' -> p_err s' = [] ->
      forall t, In t math -> tkVar toks t = true -> G t <> 2.
    Proof.
      induction math as [|a m IH]; intros v G s' HV HM H HE t HT HX; [destruct HT|]. cbn [orphan mkTenv tk_toks] in H.
      assert (HR : forall t, In t m -> tkVar toks t = true -> In t vl) by (intros u Hu; apply HM; now right).
      destruct (tkVar toks a) eqn:EA.
      - rewrite (getFlag_ok dDepth s vl (inv_tmp _ _ _ _ HI) v G a HV) in H by (apply HM; [now left|exact EA]). cbn [rbind] in H.
        destruct (Nat.eqb_spec (G a) 2) as [E|N].
        + exfalso. apply orphan_ext in H. pose proof (ext_nil _ _ H HE) as X. rewrite setFlag_err in X. now apply err_not_nil in X.
        + destruct HT as [ <- |HT]; [exact N|]. eapply IH; eauto.
      - destruct HT as [ <- |HT]; [congruence|]. eapply IH; eauto.
    Qed.
    Lemma d_entry d : In d (p_d s) -> In (d_a d) vl /\ In (d_b d) vl /\ (exists x, denotes (d_a d) x n) /\ (exists x, denotes (d_b d) x n).
    Proof.
      intros H. destruct (i_d _ _ _ _ HI) as [A B C]. destruct (B d H) as (B1 & B2 & B3 & B4 & (x & X1 & X2) & (y & Y1 & Y2)).
      pose proof (denotes_up _ _ _ _ _ X2 B2) as XN. pose proof (denotes_up _ _ _ _ _ Y2 B2) as YN.
      assert (VX : visible x true n).
      { destruct (d_vis _ _ B1 B2 X1) as (h & W1 & W2). exists h. split; [exact W1|]. eapply inScope_trans; eauto. }
      assert (VY : visible y true n).
      { destruct (d_vis _ _ B1 B2 Y1) as (h & W1 & W2). exists h. split; [exact W1|]. eapply inScope_trans; eauto. }
      split; [apply (vl_in _ x XN); now apply (den_var _ _ _ _ HI _ _ true XN)|].
      split; [apply (vl_in _ y YN); now apply (den_var _ _ _ _ HI _ _ true YN)|]. eauto.
    Qed.

    Lemma frame_good k beg sc req G (HRQ : forall t, In t req <-> reqOf t) (ND : NoDup req)
      (HG : forall t, In t vl -> (G t <> 0 <-> reqOf t)) :
      let isP := match k with K_p => true | _ => false end in
      goodFrame sts toks n
        (mkO k beg sc ts (mergeHyps (map h_stmt (rev (p_e s))) (map h_stmt (filter (reqB G) (rev (p_f s)))))
           (if isP then map h_stmt (filter (fun h => negb (reqB G h)) (rev (p_f s))) else []) req
           (if isP then filter (fun t => Nat.eqb (G t) 0) vl else [])
           (map dTriple (filter (bothB G) (rev (p_d s))))
           (if isP then map dTriple (filter (fun d => negb (bothB G d)) (rev (p_d s))) else [])).
    Proof.
      intros isP.
      assert (FB : forall h, In h (p_f s) -> exists c x, toksAt (h_stmt h) [c; x] /\ kindAt (h_stmt h) K_f /\ inScope (h_stmt h) n /\
                 (reqB G h = true <-> mandVar n x)).
      { intros h Hh. destruct (f_entry h Hh) as (q & c & x & Q1 & Q2 & Q3 & Q4 & Q5 & Q6). exists c, x. split; [exact Q3|].
        split; [exact Q5|]. split; [exact Q6|]. unfold reqB. rewrite Q1, negb_true_iff, Nat.eqb_neq, (HG _ Q2).
        apply mand_den. now apply (denotes_up _ _ _ _ _ Q4). }
      assert (FC : forall f, kindAt f K_f -> inScope f n -> exists h, In h (p_f s) /\ h_stmt h = f).
      { apply (hs_complete _ _ _ _ (i_f _ _ _ _ HI)). }
      assert (TF : forall f c x c' x', toksAt f [c; x] -> toksAt f [c'; x'] -> x = x').
      { intros f c x c' x' (j & J1 & J2) (j' & J1' & J2'). rewrite (stAt_fun _ _ _ _ J1 J1') in J2. congruence. }
      assert (BG : forall d, In d (p_d s) -> bothB G d = true <-> reqOf (d_a d) /\ reqOf (d_b d)).
      { intros d Hd. destruct (d_entry d Hd) as (D1 & D2 & _). unfold bothB. rewrite andb_true_iff, !negb_true_iff, !Nat.eqb_neq, (HG _ D1), (HG _ D2). tauto. }
      (* $d pairs, read off the stack *)
      assert (DS : forall x y, disjAt sts n x y -> exists d, In d (p_d s) /\
                (denotes (d_a d) x n /\ denotes (d_b d) y n \/ denotes (d_a d) y n /\ denotes (d_b d) x n)).
      { intros x y (N & d & K & S & X & Y). destruct (i_d _ _ _ _ HI) as [A B C].
        destruct (visible_denotes _ _ _ _ (d_vis _ _ K S X)) as (a & DA & _). destruct (visible_denotes _ _ _ _ (d_vis _ _ K S Y)) as (b & DB & _).
        pose proof (denotes_up _ _ _ _ _ DA S) as DAn. pose proof (denotes_up _ _ _ _ _ DB S) as DBn.
        assert (a <> b) by (intros ->; apply N; apply (denotes_name _ _ _ _ _ _ DA DB)).
        destruct (lt_eq_lt_dec a b) as [[H'|H']|H']; [|contradiction|].
        - destruct (C d a b x y K S X Y DA DB H') as (e & E1 & E2 & E3 & _). exists e. rewrite E2, E3. auto.
        - destruct (C d b a y x K S Y X DB DA H') as (e & E1 & E2 & E3 & _). exists e. rewrite E2, E3. auto. }
      assert (DR : forall d x y, In d (p_d s) ->
                (denotes (d_a d) x n /\ denotes (d_b d) y n \/ denotes (d_a d) y n /\ denotes (d_b d) x n) -> disjAt sts n x y).
      { intros d x y Hd HX. destruct (i_d _ _ _ _ HI) as [A B C]. destruct (B d Hd) as (B1 & B2 & B3 & B4 & (u & U1 & U2) & (w & W1 & W2)).
        assert (NE : u <> w).
        { intros ->. pose proof (i_uniq _ _ _ _ HI _ _ w (denotes_up _ _ _ _ _ U2 B2) (denotes_up _ _ _ _ _ W2 B2)). lia. }
        destruct HX as [[X Y]|[Y X]].
        - rewrite (denotes_name _ _ _ _ _ _ X U2), (denotes_name _ _ _ _ _ _ Y W2). split; [exact NE|]. exists (d_stmt d). auto.
        - rewrite (denotes_name _ _ _ _ _ _ X W2), (denotes_name _ _ _ _ _ _ Y U2). split; [auto|]. exists (d_stmt d). auto. }
      assert (RM : forall t x, denotes t x n -> (reqOf t <-> mandVar n x)) by (intros; now apply mand_den).
      assert (FI : forall (p : dent -> bool) a b c, In (a, b, c) (map dTriple (filter p (rev (p_d s)))) <->
                exists d, In d (p_d s) /\ p d = true /\ d_a d = a /\ d_b d = b /\ d_stmt d = c).
      { intros p a b c. rewrite in_map_iff. split.
        - intros (d & E & H). apply filter_In in H. destruct H as [H1 H2]. apply in_rev in H1. unfold dTriple in E. injection E as <- <- <-. exists d. auto.
        - intros (d & H1 & H2 & <- & <- & <-). exists d. split; [reflexivity|]. apply filter_In. split; [now apply -> in_rev|exact H2]. }
      assert (ORD : forall a b c p, In (a, b, c) (map dTriple (filter p (rev (p_d s)))) ->
                a < b /\ (exists x, denotes a x n) /\ (exists y, denotes b y n)).
      { intros a b c p H. apply FI in H. destruct H as (d & H1 & _ & <- & <- & _). destruct (d_entry d H1) as (_ & _ & X).
        split; [|exact X]. now destruct (dk_sound _ _ _ (i_d _ _ _ _ HI) d H1) as (_ & _ & _ & Y & _). }
      constructor; cbn [o_reqVars o_reqHyps o_reqDisj o_optDisj o_optHyps o_optVars o_kind].
      - intros x. split.
        + intros M. destruct (visible_denotes _ _ _ _ (proj1 M)) as (t & D & _). exists t. split; [|exact D]. apply HRQ. now apply RM with x.
        + intros (t & H1 & D). apply HRQ in H1. now apply (RM t x D).
      - exact ND.
      - intros t Ht. apply HRQ in Ht. destruct Ht as [_ (x & D & _)]. eauto.
      - intros h. rewrite merge_in. split.
        + intros [H|H]; apply in_map_iff in H; destruct H as (e & <- & H).
          * apply in_rev in H. destruct (hs_sound _ _ _ _ (i_e _ _ _ _ HI) e H) as (E1 & E2 & _). split; [exact E2|auto].
          * apply filter_In in H. destruct H as [H1 H2]. apply in_rev in H1. destruct (FB e H1) as (c & x & X1 & X2 & X3 & X4).
            split; [exact X3|]. right. split; [exact X2|]. exists c, x. split; [exact X1|tauto].
        + intros [HS [HK|[HK (c & x & X1 & X2)]]].
          * left. destruct (hs_complete _ _ _ _ (i_e _ _ _ _ HI) h HK HS) as (e & E1 & <-). apply in_map. now apply -> in_rev.
          * right. destruct (FC h HK HS) as (e & E1 & <-). apply in_map. apply filter_In. split; [now apply -> in_rev|].
            destruct (FB e E1) as (c' & x' & X1' & _ & _ & X4). apply X4. now rewrite (TF _ _ _ _ _ X1' X1).
      - apply merge_sorted.
        + apply sorted_map. apply (sorted_rev (fun a b => h_stmt b < h_stmt a)). apply (hs_sorted _ _ _ _ (i_e _ _ _ _ HI)).
        + apply sorted_map. apply sorted_filter. apply (sorted_rev (fun a b => h_stmt b < h_stmt a)). apply (hs_sorted _ _ _ _ (i_f _ _ _ _ HI)).
        + intros h H1 H2. apply in_map_iff in H1, H2. destruct H1 as (e & E1 & E2). destruct H2 as (f & F1 & F2).
          apply in_rev in E2. apply filter_In in F2. destruct F2 as [F2 _]. apply in_rev in F2.
          destruct (hs_sound _ _ _ _ (i_e _ _ _ _ HI) e E2) as ((j & J1 & J2) & _). destruct (hs_sound _ _ _ _ (i_f _ _ _ _ HI) f F2) as ((j' & J1' & J2') & _).
          rewrite E1 in J1. rewrite F1 in J1'. rewrite (stAt_fun _ _ _ _ J1 J1') in J2. congruence.
      - intros x y. split.
        + intros (MX & MY & HD). destruct (DS x y HD) as (d & D1 & D2). exists (d_a d), (d_b d), (d_stmt d).
          assert (IN : In (d_a d, d_b d, d_stmt d) (map dTriple (filter (bothB G) (rev (p_d s))))).
          { apply FI. exists d. split; [exact D1|]. split; [|auto]. apply (BG d D1).
            destruct D2 as [[X Y]|[Y X]]; rewrite ?(RM _ _ X), ?(RM _ _ Y); auto. }
          destruct D2 as [[X Y]|[Y X]]; auto.
        + intros (a & b & c & H). assert (IN : In (a, b, c) (map dTriple (filter (bothB G) (rev (p_d s))))) by (destruct H; tauto).
          apply FI in IN. destruct IN as (d & D1 & D2 & <- & <- & _). apply (BG d D1) in D2. destruct D2 as [R1 R2].
          assert (PR : denotes (d_a d) x n /\ denotes (d_b d) y n \/ denotes (d_a d) y n /\ denotes (d_b d) x n) by (destruct H; tauto).
          split; [|split; [|now apply (DR d)]]; destruct PR as [[X Y]|[Y X]]; rewrite (RM _ _ X) in *; rewrite (RM _ _ Y) in *; auto.
      - intros a b c [H|H]; [now apply ORD in H|]. destruct isP; [now apply ORD in H|destruct H].
      - intros EP. assert (IP : isP = true) by (unfold isP; now rewrite EP). rewrite IP. split; [|split; [|split]].
        + intros h. rewrite in_map_iff. split.
          * intros (e & <- & H). apply filter_In in H. destruct H as [H1 H2]. apply in_rev in H1. destruct (FB e H1) as (c & x & X1 & X2 & X3 & X4).
            split; [exact X3|]. split; [exact X2|]. exists c, x. split; [exact X1|]. rewrite <- X4. apply negb_true_iff in H2. congruence.
          * intros (HS & HK & c & x & X1 & X2). destruct (FC h HK HS) as (e & E1 & <-). exists e. split; [reflexivity|]. apply filter_In.
            split; [now apply -> in_rev|]. destruct (FB e E1) as (c' & x' & X1' & _ & _ & X4). apply negb_true_iff.
            rewrite (TF _ _ _ _ _ X1' X1) in X4. destruct (reqB G e); [exfalso; apply X2; tauto|reflexivity].
        + apply sorted_map. apply sorted_filter. apply (sorted_rev (fun a b => h_stmt b < h_stmt a)). apply (hs_sorted _ _ _ _ (i_f _ _ _ _ HI)).
        + intros x. split.
          * intros [V NM]. destruct (visible_denotes _ _ _ _ V) as (t & D & TV). exists t. split; [|exact D]. apply filter_In.
            pose proof (vl_in t x D TV) as TL. split; [exact TL|]. apply Nat.eqb_eq. destruct (Nat.eq_dec (G t) 0) as [Z|Z]; [exact Z|].
            exfalso. apply NM. apply (RM t x D). now apply HG.
          * intros (t & H & D). apply filter_In in H. destruct H as [H1 H2]. apply Nat.eqb_eq in H2.
            split; [apply (den_var _ _ _ _ HI _ _ true D); now apply (vs_in _ _ _ _ (i_v _ _ _ _ HI)) in H1|].
            intros M. apply (RM t x D) in M. apply (HG _ H1) in M. contradiction.
        + intros x y. split.
          * intros (HD & NM). destruct (DS x y HD) as (d & D1 & D2). exists (d_a d), (d_b d), (d_stmt d).
            assert (IN : In (d_a d, d_b d, d_stmt d) (map dTriple (filter (fun d => negb (bothB G d)) (rev (p_d s))))).
            { apply FI. exists d. split; [exact D1|]. split; [|auto]. apply negb_true_iff. destruct (bothB G d) eqn:EB; [|reflexivity].
              exfalso. apply NM. apply (BG d D1) in EB. destruct EB as [R1 R2].
              destruct D2 as [[X Y]|[Y X]]; rewrite (RM _ _ X) in *; rewrite (RM _ _ Y) in *; auto. }
            destruct D2 as [[X Y]|[Y X]]; auto.
          * intros (a & b & c & H). assert (IN : In (a, b, c) (map dTriple (filter (fun d => negb (bothB G d)) (rev (p_d s))))) by (destruct H; tauto).
            apply FI in IN. destruct IN as (d & D1 & D2 & <- & <- & _). apply negb_true_iff in D2.
            assert (PR : denotes (d_a d) x n /\ denotes (d_b d) y n \/ denotes (d_a d) y n /\ denotes (d_b d) x n) by (destruct H; tauto).
            split; [now apply (DR d)|]. intros [M1 M2]. assert (bothB G d = true); [|congruence]. apply (BG d D1).
            destruct PR as [[X Y]|[Y X]]; rewrite (RM _ _ X), (RM _ _ Y); auto.
    Qed.

    Lemma asrt_do k beg sc : noOrphan -> exists o v, doAsrt T n k beg sc ts s = Ok (o, setV v s) /\ vst dDepth vl v (fun _ => 0) /\
      o_kind o = k /\ o_begin o = beg /\ o_math o = ts /\ goodFrame sts toks n o.
    Proof.
      intros NO. destruct (asrt_scan k beg sc) as (req & v & G & ND & RQ & V & HG & H2 & E). cbv zeta in E. rewrite E. clear E.
      rewrite (orphan_ok toks T eq_refl dDepth s vl (inv_tmp _ _ _ _ HI) n ts v G V).
      2:{ intros t Ht HV. eapply den_vl; eauto. }
      2:{ intros t Ht HV EQ. apply (H2 t Ht HV) in EQ. apply EQ. now apply NO. }
      cbn [rbind]. rewrite (dSplit_ok dDepth s vl (inv_tmp _ _ _ _ HI) _ v G V).
      2:{ intros d Hd. apply in_rev in Hd. destruct (d_entry d Hd) as (A & B & _). auto. }
      cbn [rbind fst snd].
      assert (VP : p_vptr (setV v s) = length vl) by apply (vs_len _ _ _ _ (i_v _ _ _ _ HI)). rewrite VP.
      assert (NV : NoDup vl) by (apply sorted_nodup; apply (vs_sorted _ _ _ _ (i_v _ _ _ _ HI))).
      destruct (optScan_all dDepth s vl v G V NV) as (v' & EO & V'). rewrite EO. cbn [rbind fst snd].
      rewrite (count_ok dDepth vl G req NV ND).
      2:{ intros t. rewrite RQ. split.
          - intros R. assert (TL : In t vl) by (destruct R as [R1 (x & D & _)]; now apply (vl_in t x)). split; [exact TL|]. now apply HG.
          - intros [TL R]. now apply HG. }
      rewrite Nat.eqb_refl. cbn [negb]. eexists _, v'. split; [reflexivity|]. split; [exact V'|].
      split; [reflexivity|]. split; [reflexivity|]. split; [reflexivity|]. now apply frame_good.
    Qed.
    Lemma asrt_noOrphan k beg sc o s' : doAsrt T n k beg sc ts s = Ok (o, s') -> p_err s' = [] -> noOrphan.
    Proof.
      intros H HE. destruct (asrt_scan k beg sc) as (req & v & G & ND & RQ & V & HG & H2 & E). cbv zeta in E. rewrite E in H. clear E.
      apply rbind_ok in H. destruct H as (s4 & H4 & H). apply rbind_ok in H. destruct H as (ds & _ & H).
      apply rbind_ok in H. destruct H as ((l5 & s5) & H5 & H). destruct (negb _); [discriminate|]. apply Ok_inj in H. injection H as _ <-.
      cbn [snd] in HE. apply optScan_err in H5. rewrite H5 in HE.
      intros t Ht HV. pose proof (orphan_dec ts v G s4 V ltac:(intros; eapply den_vl; eauto) H4 HE t Ht HV) as N2.
      destruct (classic_inVars t (rev (p_e s))) as [A|A]; [now left|]. destruct (classic_inVars t (rev (p_f s))) as [B|B]; [now right|].
      exfalso. apply N2. apply (H2 t Ht HV). tauto.
    Qed.
  End At.
End Asrt.
