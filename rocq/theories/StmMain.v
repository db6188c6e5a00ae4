(* StmMain.v -- reading all statements: error-free exactly for legal databases. *)
From Verif Require Import Base LabModel StmModel StmSpec StmTab StmScope StmLook StmFlags StmBlock StmDecl StmHyp StmAsrt StmCheck.
From Coq Require Import Permutation Sorted.
Open Scope nat_scope.

Lemma doHyp_ext T n k m s s' : doHyp T n k m s = Ok s' -> ext s s'.
Proof.
  unfold doHyp. intros H. apply rbind_ok in H. destruct H as ((vs & s3) & H2 & H3). apply Ok_inj in H3. subst s'. cbn [fst snd].
  assert (C : forall l s, p_err (clearFlags l s) = p_err s).
  { unfold clearFlags. induction l as [|a l IH]; intros s'; cbn [fold_left]; [reflexivity|]. rewrite IH. apply setFlag_err. }
  apply ext_eq. apply newVars_err in H2. rewrite <- H2, <- (C vs s3). now destruct k.
Qed.
Lemma step_ext T n old i s s' : stepStmt T n old i s = Ok s' -> ext s s'.
Proof.
  intros H. unfold stepStmt in H.
  assert (PO : forall o s1, ext s s1 -> ext s (putOut o s1)) by (intros o s1 [l X]; exists l; exact X).
  assert (AS : forall k g, (do x <- symLoop T n k 0 (si_toks i) s;
      do y <- doAsrt T n k (p_begin s) (p_cur s) (fst x) (lenErrs n k (length (fst x)) (snd x));
      checkHyps T (p_out (g (length (fst x)) (putOut (fst y) (snd y)))) n [] (o_reqHyps (fst y)) (g (length (fst x)) (putOut (fst y) (snd y)))) = Ok s' ->
      (forall len s, p_err (g len s) = p_err s) -> ext s s').
  { clear H. intros k g H HG. apply rbind_ok in H. destruct H as ((ts & s1) & H1 & H). apply rbind_ok in H. destruct H as ((o & s2) & H2 & H).
    cbn [fst snd] in *. apply symLoop_ext in H1. apply doAsrt_ext in H2. apply checkHyps_ext in H.
    eapply ext_trans; [exact H1|]. eapply ext_trans; [apply lenErrs_ext|]. eapply ext_trans; [exact H2|].
    eapply ext_trans; [|exact H]. apply ext_eq. now rewrite HG. }
  destruct (si_kind i).
  - apply rbind_ok in H. destruct H as (s1 & H1 & H). apply Ok_inj in H. subst s'. apply PO. apply declAll_ext in H1.
    eapply ext_trans; [apply ext_errIf|exact H1].
  - apply rbind_ok in H. destruct H as (s1 & H1 & H). apply Ok_inj in H. subst s'. apply PO. now apply declAll_ext in H1.
  - apply rbind_ok in H. destruct H as ((ts & s1) & H1 & H). apply Ok_inj in H. subst s'. apply PO. apply symLoop_ext in H1.
    eapply ext_trans; [exact H1|]. eapply ext_trans; [apply lenErrs_ext|apply dOuter_ext].
  - apply rbind_ok in H. destruct H as (s1 & H1 & H). apply Ok_inj in H. subst s'. apply PO. unfold doLb in H1.
    destruct (Z.ltb _ _); [discriminate|]. apply Ok_inj in H1. subst s1. now apply ext_eq.
  - apply rbind_ok in H. destruct H as (s1 & H1 & H). apply Ok_inj in H. subst s'. apply PO. unfold doRb in H1.
    destruct (popWhile _ _ _). apply rbind_ok in H1. destruct H1 as (pv & _ & H1). apply rbind_ok in H1. destruct H1 as (b & _ & H1).
    apply Ok_inj in H1. subst s1. eexists. reflexivity.
  - apply rbind_ok in H. destruct H as ((ts & s1) & H1 & H). apply rbind_ok in H. destruct H as (s2 & H2 & H). apply Ok_inj in H. subst s'.
    apply PO. apply symLoop_ext in H1. apply doHyp_ext in H2. eapply ext_trans; [exact H1|]. eapply ext_trans; [apply lenErrs_ext|exact H2].
  - apply rbind_ok in H. destruct H as ((ts & s1) & H1 & H). apply rbind_ok in H. destruct H as (s2 & H2 & H). apply Ok_inj in H. subst s'.
    apply PO. apply symLoop_ext in H1. apply doHyp_ext in H2. eapply ext_trans; [exact H1|]. eapply ext_trans; [apply lenErrs_ext|exact H2].
  - apply (AS K_a (finish K_a)); [exact H|]. intros len s0. apply finish_ok.
  - apply (AS K_p (finish K_p)); [exact H|]. intros len s0. apply finish_ok.
Qed.
Lemma loop_ext T : forall r n old s s', stmtLoop T n old r s = Ok s' -> ext s s'.
Proof.
  induction r as [|i r IH]; intros n old s s' H; cbn [stmtLoop] in H; [apply Ok_inj in H; subst; apply ext_refl|].
  apply rbind_ok in H. destruct H as (s1 & H1 & H). apply step_ext in H1. eapply ext_trans; eauto.
Qed.

Section Main.
  Variable sts : list sinp.
  Variable key : list nat.
  Notation toks := (declTokens 1 sts).
  Hypothesis HQ : mqsorted (map mt_name toks) key.
  Notation T := (mkTenv toks key).
  Notation depth := (depth sts).
  Notation stAt := (stAt sts).
  Notation inScope := (inScope sts).
  Notation Inv := (Inv sts).
  Notation oldOf := (oldOf sts).

  Lemma step_ok n i s vl : Inv n s vl -> stAt n i -> legalStmt sts n i -> (depth (S n) <= 32000)%Z ->
    exists s' vl', stepStmt T n (oldOf n) i s = Ok s' /\ Inv (S n) s' vl'.
  Proof.
    intros HI Hi HL HB. destruct (si_kind i) eqn:HK.
    - apply (decl_ok sts key HQ n i s vl); auto. now rewrite HK.
    - apply (decl_ok sts key HQ n i s vl); auto. now rewrite HK.
    - destruct (d_ok sts key HQ n i s vl) as (s' & A & B); eauto.
    - destruct (lb_ok sts key n i s vl) as (s' & A & B); eauto.
    - destruct (rb_step sts key n i s vl) as (s' & A & B & _); auto. unfold legalStmt in HL. rewrite HK in HL.
      destruct (B HL) as (vl' & X). eauto.
    - destruct (hyp_ok sts key HQ n i s vl) as (s' & A & B); eauto.
    - destruct (hyp_ok sts key HQ n i s vl) as (s' & A & B); eauto.
    - destruct (asrt_ok sts key HQ n i s vl) as (s' & A & B); eauto.
    - destruct (asrt_ok sts key HQ n i s vl) as (s' & A & B); eauto.
  Qed.
  Lemma step_sound n i s vl s' : Inv n s vl -> stAt n i -> (isDecl (si_kind i) = true -> si_toks i <> []) ->
    stepStmt T n (oldOf n) i s = Ok s' -> p_err s' = [] -> legalStmt sts n i /\ (depth (S n) <= 32000 \/ si_kind i <> K_lb)%Z.
  Proof.
    intros HI Hi HD H HE. destruct (si_kind i) eqn:HK; (split; [|try (right; discriminate)]);
      try (eapply decl_sound; eauto; rewrite HK; auto; fail); try (eapply hyp_sound; eauto; fail);
      try (eapply d_sound; eauto; fail); try (eapply asrt_sound; eauto; fail).
    - unfold legalStmt. now rewrite HK.
    - left. pose proof (depth_S _ _ _ Hi) as DS. rewrite HK in DS. unfold delta in DS. unfold stepStmt, doLb in H. rewrite HK in H.
      rewrite (i_cur _ _ _ _ HI) in H. destruct (Z.ltb_spec 32000 (depth n + 1)); [discriminate|lia].
    - unfold legalStmt. rewrite HK. destruct (rb_step sts key n i s vl HI Hi HK) as (s1 & E1 & _ & X). rewrite E1 in H. injection H as <-.
      destruct (Z_lt_le_dec 0 (depth n)) as [L|L]; [exact L|]. now apply X in L.
  Qed.

  Lemma decl_nonempty : forall l m, declErrs m l = [] <-> forall i, In i l -> isDecl (si_kind i) = true -> si_toks i <> [].
  Proof.
    induction l as [|i l IH]; intros m; cbn [declErrs]; [split; [intros _ i []|auto]|]. split.
    - intros H. apply app_eq_nil in H. destruct H as [H1 H2]. intros j [ <- |Hj] HD; [|apply (proj1 (IH _) H2); auto].
      rewrite HD in H1. cbn in H1. intros E. rewrite E in H1. discriminate.
    - intros H. assert (E : (if isDecl (si_kind i) && match si_toks i with [] => true | _ => false end then [EEmptyDecl m] else []) = []).
      { destruct (isDecl (si_kind i)) eqn:HD; [|reflexivity]. destruct (si_toks i) eqn:ET; [|reflexivity]. now destruct (H i (or_introl eq_refl) HD). }
      rewrite E. cbn. apply IH. intros j Hj. apply H. now right.
  Qed.
  Lemma start_inv m : Inv 1 (startSt m []) [].
  Proof.
    assert (NS : forall h, ~ inScope h 1) by (intros h H; apply inScope_lt in H; lia).
    assert (NL : forall t, ~ live sts 1 t) by (intros t (k & _ & H); now apply NS in H).
    assert (D1 : depth 1 = 0%Z) by reflexivity.
    constructor; cbn [startSt p_err p_cur p_active p_scope p_c p_e p_f p_d p_out p_begin]; auto.
    - lia.
    - intros q Hq. destruct q as [|[|q]]; [cbn; lia|lia|lia].
    - intros t. split; [discriminate|]. intros H. now apply NL in H.
    - intros t H. now apply NL in H.
    - intros t u x (k & _ & _ & H). now apply NS in H.
    - constructor; cbn; auto.
      + intros j t H. destruct j; discriminate.
      + intros t. split; [intros []|intros [H _]; now apply NL in H].
      + constructor.
    - constructor; [|constructor]. intros t z. split; [intros []|intros [H _]; now apply NL in H].
    - constructor; [constructor|intros h []|intros q _ H; now apply NS in H].
    - constructor; [constructor|intros h []|intros q _ H; now apply NS in H].
    - constructor; [constructor|intros h []|intros q a b x y _ H; now apply NS in H].
    - split; [now left|]. intros q o H. destruct q as [|[|q]]; try discriminate. injection H as <-. now left.
    - intros q i o [H _] H'. lia.
    - intros q i [H _] H'. lia.
  Qed.
  Lemma skip_cons n i : stAt n i -> skipn (n - 1) sts = i :: skipn n sts.
  Proof. intros [H0 H]. rewrite (skipn_at i (n - 1) sts H). now replace (S (n - 1)) with n by lia. Qed.
  Lemma loop_ok : (forall n i, stAt n i -> legalStmt sts n i) -> (forall n, n <= S (length sts) -> (depth n <= 32000)%Z) ->
    forall k n s vl, Inv n s vl -> n + k = S (length sts) ->
    exists s' vl', stmtLoop T n (oldOf n) (skipn (n - 1) sts) s = Ok s' /\ Inv (S (length sts)) s' vl'.
  Proof.
    intros HL HB. induction k as [|k IH]; intros n s vl HI HN.
    - rewrite skipn_all2 by lia. exists s, vl. split; [reflexivity|]. now replace (S (length sts)) with n by lia.
    - pose proof (i_n _ _ _ _ HI). destruct (stAt_ex sts n) as (i & Hi); [lia|]. rewrite (skip_cons n i Hi). cbn [stmtLoop].
      destruct (step_ok n i s vl HI Hi (HL n i Hi)) as (s1 & vl1 & E1 & I1); [apply HB; lia|]. rewrite E1. cbn [rbind].
      rewrite <- (oldOf_S _ _ _ Hi). destruct (IH (S n) s1 vl1 I1 ltac:(lia)) as (s' & vl' & E & I'). replace (S n - 1) with n in E by lia. eauto.
  Qed.
  Lemma loop_sound : (forall i, In i sts -> isDecl (si_kind i) = true -> si_toks i <> []) ->
    forall k n s vl s', Inv n s vl -> n + k = S (length sts) -> (forall m, m <= n -> (depth m <= 32000)%Z) ->
    stmtLoop T n (oldOf n) (skipn (n - 1) sts) s = Ok s' -> p_err s' = [] ->
    (exists vl', Inv (S (length sts)) s' vl') /\ forall m, m <= S (length sts) -> (depth m <= 32000)%Z.
  Proof.
    intros HD. induction k as [|k IH]; intros n s vl s' HI HN HB H HE.
    - rewrite skipn_all2 in H by lia. cbn [stmtLoop] in H. apply Ok_inj in H. subst s'. replace (S (length sts)) with n by lia. eauto.
    - pose proof (i_n _ _ _ _ HI). destruct (stAt_ex sts n) as (i & Hi); [lia|]. rewrite (skip_cons n i Hi) in H. cbn [stmtLoop] in H.
      apply rbind_ok in H. destruct H as (s1 & H1 & H). rewrite <- (oldOf_S _ _ _ Hi) in H.
      pose proof (ext_nil _ _ (loop_ext _ _ _ _ _ _ H) HE) as E1.
      destruct (step_sound n i s vl s1 HI Hi) as [L LB]; auto.
      { apply HD. destruct Hi as [_ Hi]. now apply nth_error_In in Hi. }
      assert (DB : (depth (S n) <= 32000)%Z).
      { destruct LB as [LB|LB]; [exact LB|]. pose proof (depth_S _ _ _ Hi) as DS. specialize (HB n (le_n _)).
        unfold delta in DS. destruct (si_kind i); try lia. now destruct LB. }
      destruct (step_ok n i s vl HI Hi L DB) as (s1' & vl1 & E1' & I1). rewrite E1' in H1. injection H1 as ->.
      apply (IH (S n) s1 vl1 s'); auto; [lia| |now replace (S n - 1) with n by lia].
      intros m Hm. destruct (Nat.eq_dec m (S n)) as [->|]; [exact DB|apply HB; lia].
  Qed.

  Definition nestOK : Prop := forall n, n <= S (length sts) -> (depth n <= 32000)%Z.
  Definition allGood (s : pst) : Prop := length (p_out s) = S (length sts) /\
    forall n i o, stAt n i -> nth_error (p_out s) n = Some o -> goodOut sts toks n i o.

  Theorem read_complete m : legal sts -> nestOK -> exists s, parseStmts key m sts = Ok s /\ p_err s = [] /\ allGood s.
  Proof.
    intros [HL HZ] HB. unfold parseStmts.
    assert (DE : declErrs 1 sts = []).
    { apply decl_nonempty. intros i Hin HD. apply In_nth_error in Hin. destruct Hin as (j & Hj).
      assert (Hi : stAt (S j) i) by (split; [lia|now rewrite Nat.sub_succ, Nat.sub_0_r]).
      specialize (HL _ _ Hi). unfold legalStmt in HL. destruct (si_kind i); try discriminate HD; tauto. }
    rewrite DE. destruct (loop_ok HL HB (length sts) 1 _ _ (start_inv m) eq_refl) as (s' & vl' & E & I').
    cbn [Nat.sub skipn] in E. rewrite oldOf_1 in E. rewrite E. cbn [rbind].
    rewrite (i_cur _ _ _ _ I'), HZ. cbn [Z.ltb Z.compare errIf]. exists s'. split; [reflexivity|]. split; [apply (i_err _ _ _ _ I')|].
    split; [apply (i_len _ _ _ _ I')|]. intros n i o Hi HO. apply (i_out _ _ _ _ I' n i o Hi); [|exact HO]. apply stAt_lt in Hi. lia.
  Qed.
  Theorem read_sound m s : parseStmts key m sts = Ok s -> p_err s = [] -> legal sts /\ nestOK.
  Proof.
    unfold parseStmts. intros H HE. apply rbind_ok in H. destruct H as (s' & H1 & H). apply Ok_inj in H. subst s.
    destruct (errIf_nil _ _ _ HE) as [HC HX]. rewrite HX in HE. apply Z.ltb_ge in HC. assert (E' : p_err s' = []) by exact HE. clear HX.
    clear HE. assert (X := loop_ext _ _ _ _ _ _ H1). pose proof (ext_nil _ _ X E') as E0. cbn [startSt p_err] in E0. rewrite E0 in H1.
    change 0 with (oldOf 1) in H1 at 1.
    destruct (loop_sound (proj1 (decl_nonempty sts 1) E0) (length sts) 1 _ _ s' (start_inv m) eq_refl) as ((vl' & I') & HB); auto.
    { intros q Hq. destruct q as [|[|q]]; [cbn; lia|cbn; lia|lia]. }
    split; [|exact HB]. split.
    - intros n i Hi. apply (i_legal _ _ _ _ I' n i Hi). apply stAt_lt in Hi. lia.
    - rewrite (i_cur _ _ _ _ I') in HC. pose proof (i_nn _ _ _ _ I' _ (le_n _)). lia.
  Qed.
End Main.
