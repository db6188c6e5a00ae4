(* MwFlags.v -- proofs about MwModel: traces, the /FORBID and axiom tests *)
From Coq Require Import ZifyBool ZifyNat Relations.
From Verif Require Import Base.
From Verif Require Import MMSpec VerModel VerSpec TokModel ParModel ParSpec SqModel SqSpec SqAttr PfaModel PfaSpec MatchModel UniModel FltModel FltSpec AkModel AkSpec MinModel MinSpec
  TrcModel TrcSpec TrcProofs TrcWork MwModel MwSpec.
Open Scope nat_scope.

Lemma trans_head {A} (R : A -> A -> Prop) n m : clos_trans A R n m -> exists y, R n y /\ (y = m \/ clos_trans A R y m).
Proof.
  induction 1 as [x y H|x y z H1 IH1 H2 IH2]; [eauto|]. destruct IH1 as [a [A1 [->|A2]]]; [eauto|]. exists a. split; [exact A1|right; eapply t_trans; eassumption].
Qed.

Section Flags.
  Variable fuel : nat.
  Variable N : menvw.
  Variable o : mopts.
  Notation E := (n_E N).
  Notation db := (f_db (n_E N)).
  Notation te := (n_te N).
  Hypothesis WO : worldOk N.
  Hypothesis LF : nstm (t_db te) + 1 < fuel.
  Let WDB := wo_db N WO.
  Let WTE := wo_te N WO.

  Lemma same_at k st : stmtAt db k st <-> stmtAt (t_db te) k st.
  Proof. rewrite WDB. reflexivity. Qed.
  Lemma traces_from k m : tracesTo true te k m -> theorem te k.
  Proof. intros H. apply traces_dep in H. exact (dep_theorem te k m H). Qed.
  Lemma false_true k m : tracesTo true te k m -> tracesTo false te k m.
  Proof.
    intros H. unfold tracesTo in *. induction H as [x y [U A]|x y z _ IH1 _ IH2]; [|eapply t_trans; eassumption]. apply t_step. split; [|exact A]. exact (edge_uses true te x y (conj U A)).
  Qed.

  Lemma trace_at k st fl un : stmtAt db k st -> isAssertion st -> traceProofWork fuel te k true None = Ok (fl, un) -> forall m, m = k \/ tracesTo true te k m -> marked fl m.
  Proof.
    intros S A H m D. destruct A as [A|A].
    - assert (NT : ~ theorem te k). { intros [st' [S' P']]. apply same_at in S'. unfold stmtAt in S, S'. rewrite S in S'. injection S' as <-. rewrite A in P'. discriminate P'. }
      destruct D as [->|D]; [|destruct (NT (traces_from _ _ D))].
      unfold traceProofWork in H. cbn [rbind] in H. apply rbind_ok in H. destruct H as [w [W H]]. apply Ok_inj in H. injection H as H _. subst fl.
      destruct fuel as [|[|f]]; [lia|lia|]. cbn [workLoop w_list nth_error] in W. apply same_at in S. unfold stmtAt in S. rewrite S in W. cbn [rget rbind] in W. rewrite A in W. apply Ok_inj in W. subst w. cbn [w_flags].
      apply setAt_same. rewrite repeat_length. assert (k < length (db_stmts (t_db te))) by (apply nth_error_Some; rewrite S; discriminate). unfold nstm. lia.
    - destruct (traceWork_ok te k true None fuel WTE) as [fl' [un' [H' [_ [_ [MK _]]]]]]; [exists st; split; [apply same_at; exact S|exact A]|lia|].
      rewrite H' in H. apply Ok_inj in H. injection H as -> _. apply MK. destruct D as [->|D]; [left; reflexivity|right; split; [exact D|exact I]].
  Qed.

  Lemma forbid_ok k st : stmtAt db k st -> isAssertion st -> forbidden fuel N o k = Ok false -> o_forbid o <> [] -> forall m, tracesTo false te k m -> ~ listed fuel N (o_forbid o) m.
  Proof.
    intros S A H NE m D LS. unfold forbidden in H. destruct (o_forbid o) as [|a l] eqn:EL; [destruct (NE eq_refl)|]. unfold stmtAt in S. rewrite S in H. cbn [rget rbind] in H.
    assert (TH : theorem te k) by (apply traces_dep in D; exact (dep_theorem te k m D)).
    destruct TH as [st' [S' P']]. apply same_at in S'. unfold stmtAt in S'. rewrite S in S'. injection S' as <-. rewrite P' in H.
    destruct (traceProof_ok te k false false (Some (hitsOf fuel N (a :: l))) None fuel WTE) as [found [lst [un [_ [H2 [_ [_ [FD _]]]]]]]]; [exists st; split; [apply same_at; exact S|exact P']|lia|].
    rewrite H2 in H. cbn [rbind fst] in H. apply Ok_inj in H. destruct FD as [_ FD]. rewrite H in FD. discriminate FD. exists m. split; [exact D|]. split; [exact I|]. unfold hitsOf. unfold listed in LS. unfold labelMatches. rewrite LS. reflexivity.
  Qed.

  Lemma axioms_ok old new : forall c i, axiomsOk fuel N o old new c i = Ok true -> forall m st, i <= m < i + c -> stmtAt db m st -> s_type st = S_a -> marked old m \/ newAllowed fuel N o m \/ ~ marked new m.
  Proof.
    induction c as [|c IH]; intros i H m st R SM A; [lia|]. cbn [axiomsOk] in H. apply rbind_ok in H. destruct H as [st' [S' H]].
    assert (GO : axiomsOk fuel N o old new c (S i) = Ok true -> m <> i -> marked old m \/ newAllowed fuel N o m \/ ~ marked new m) by (intros X Y; exact (IH (S i) X m st ltac:(lia) SM A)).
    destruct (Nat.eq_dec m i) as [->|NE]; [|].
    - unfold stmtAt in SM. rewrite SM in S'. cbn [rget] in S'. apply Ok_inj in S'. subst st'. rewrite A in H. apply rbind_ok in H. destruct H as [a [HA H]]. destruct (a =? chY) eqn:EA.
      { left. unfold marked. apply Nat.eqb_eq in EA. subst a. destruct (nth_error old i) eqn:X; cbn [rget] in HA; [apply Ok_inj in HA; subst; reflexivity|discriminate HA]. }
      apply rbind_ok in H. destruct H as [al [HL H]]. apply rbind_ok in H. destruct H as [nn [HN H]]. destruct nn; cbn [negb] in H.
      + apply rbind_ok in H. destruct H as [b [HB H]]. right. right. intros MK. unfold marked in MK. rewrite MK in HB. cbn [rget] in HB. apply Ok_inj in HB. subst b. discriminate H.
      + right. left. destruct al; [|discriminate HN]. split; [exact HL|]. unfold listed. unfold labelMatches in HN. rewrite HN. discriminate.
    - apply GO; [|exact NE]. destruct (s_type st'); try exact H. apply rbind_ok in H. destruct H as [a [HA H]]. destruct (a =? chY); [exact H|].
      apply rbind_ok in H. destruct H as [al [HL H]]. apply rbind_ok in H. destruct H as [nn [HN H]]. destruct (negb nn); [exact H|]. apply rbind_ok in H. destruct H as [b [HB H]]. destruct (b =? chY); [discriminate H|exact H].
  Qed.

  Lemma steps_flags e filter p : forall proof ess x y, workSteps e filter p ess proof x = Ok y -> length (w_flags y) = length (w_flags x).
  Proof.
    induction proof as [|z r IH]; intros ess x y H; cbn [workSteps] in H; [apply Ok_inj in H; subst; reflexivity|]. apply rbind_ok in H. destruct H as [q [_ H]]. apply rbind_ok in H. destruct H as [x1 [H1 H]]. rewrite (IH _ _ _ H). clear H IH.
    unfold workStep in H1. destruct (_ =? 0)%Z; [apply Ok_inj in H1; subst; reflexivity|]. destruct (_ <? 0)%Z; [destruct (_ <? _)%Z; apply Ok_inj in H1; subst; [destruct existsb|]; reflexivity|].
    apply rbind_ok in H1. destruct H1 as [st [_ H1]]. destruct (s_type st); try (apply Ok_inj in H1; subst; reflexivity).
    all: apply rbind_ok in H1; destruct H1 as [c [_ H1]]; destruct (c =? chN); [|apply Ok_inj in H1; subst; reflexivity]; apply rbind_ok in H1; destruct H1 as [b [_ H1]]; destruct b; [|apply Ok_inj in H1; subst; reflexivity];
      destruct (_ <? _); [discriminate H1|]; apply Ok_inj in H1; subst; cbn [w_flags]; apply setAt_len.
  Qed.
  Lemma loop_flags e b filter : forall f pos x y, workLoop f e b filter pos x = Ok y -> length (w_flags y) = length (w_flags x).
  Proof.
    induction f as [|f IH]; intros pos x y H; [discriminate H|]. cbn [workLoop] in H. destruct nth_error; [|apply Ok_inj in H; subst; reflexivity]. apply rbind_ok in H. destruct H as [st [_ H]]. destruct (s_type st); try exact (IH _ _ _ H).
    apply rbind_ok in H. destruct H as [es [_ H]]. apply rbind_ok in H. destruct H as [x1 [H1 H]]. rewrite (IH _ _ _ H). exact (steps_flags _ _ _ _ _ _ _ H1).
  Qed.
  Lemma old_flags_some x fl : m_flags x = [] -> oldFlags fuel N x = Ok fl -> fl <> [].
  Proof.
    intros FE H. unfold oldFlags in H. rewrite FE in H. apply rbind_ok in H. destruct H as [text [_ H]]. apply rbind_ok in H. destruct H as [pr [_ H]]. apply rbind_ok in H. destruct H as [t [HW H]]. apply Ok_inj in H. subst fl.
    unfold traceProofWork in HW. cbn [rbind] in HW. apply rbind_ok in HW. destruct HW as [y [HW HT]]. apply Ok_inj in HT. subst t. cbn [fst]. apply loop_flags in HW. cbn [w_flags] in HW. rewrite setAt_len, repeat_length in HW. intros X. rewrite X in HW. discriminate HW.
  Qed.
  (* the flags of the old proof *)
  Definition oldOk (p : list Z) (fl : list nat) : Prop := forall m, m <> f_n E -> marked fl m -> needs N p m.
  Lemma trial_wf p text pr : readsBack fuel N p -> compressedText fuel N p = Ok text -> parseTrial fuel N text = Ok pr -> wf_tenv (trialEnv N pr text).
  Proof.
    intros RB HT HP. destruct WTE as [W1 W2 W3 W4]. destruct (wo_n N WO) as [stn [SN PN]]. constructor; cbn [trialEnv t_db t_parse].
    - exact W1.
    - intros n st S P R. unfold readable in R. cbn [trialEnv t_parse] in *. destruct (n =? f_n E) eqn:EN; [|exact (W2 n st S P R)]. apply Nat.eqb_eq in EN. subst n. apply same_at in S. unfold stmtAt in S, SN. rewrite SN in S. injection S as <-.
      destruct (RB stn text pr SN HT HP R) as [G _]. rewrite WDB. exact G.
    - exact W3.
    - exact W4.
  Qed.
  Lemma old_ok x fl : m_flags x = [] -> readsBack fuel N (pf (m_rev x)) -> oldFlags fuel N x = Ok fl -> fl <> [] /\ oldOk (pf (m_rev x)) fl.
  Proof.
    intros FE RB H. unfold oldFlags in H. rewrite FE in H. apply rbind_ok in H. destruct H as [text [HT H]]. apply rbind_ok in H. destruct H as [pr [HP H]]. apply rbind_ok in H. destruct H as [[fl' un] [HW H]]. cbn [fst] in H. apply Ok_inj in H. subst fl'.
    pose proof (trial_wf _ _ _ RB HT HP) as WT. destruct (wo_n N WO) as [stn [SN PN]].
    destruct (traceWork_ok (trialEnv N pr text) (f_n E) true None fuel WT) as [fl' [un' [H' [LL [_ [MM _]]]]]]; [exists stn; split; [apply same_at; exact SN|exact PN]|cbn [trialEnv t_db]; lia|].
    rewrite HW in H'. apply Ok_inj in H'. injection H' as <- _. split; [intros ->; discriminate LL|]. intros m NM MK. apply MM in MK. destruct MK as [MK|[TR _]]; [destruct (NM MK)|].
    destruct (trans_head _ _ _ TR) as [y [[U A] D]]. pose proof (edge_uses true _ _ _ (conj U A)) as UU. destruct UU as [_ [RD IN]]. cbn [trialEnv t_parse] in IN. unfold readable in RD. cbn [trialEnv t_parse] in RD. rewrite Nat.eqb_refl in IN, RD.
    destruct (RB stn text pr SN HT HP RD) as [_ RBI]. exists y. split; [exact (RBI y IN)|]. destruct D as [->|D]; [left; reflexivity|right].
    assert (YN : y < f_n E). { apply (uses_lt (trialEnv N pr text) (f_n E) y WT). exact (edge_uses true _ _ _ (conj U A)). }
    clear -WT D YN. unfold tracesTo in *. apply clos_trans_t1n in D. induction D as [x y ED|x y z ED D IH].
    - apply t_step. destruct ED as [[T [R U]] A]. split; [|exact A]. unfold readable in R. cbn [trialEnv t_parse] in R, U. replace (x =? f_n E) with false in R, U by lia. exact (conj T (conj R U)).
    - eapply t_trans; [apply t_step|apply IH].
      + destruct ED as [[T [R U]] A]. split; [|exact A]. unfold readable in R. cbn [trialEnv t_parse] in R, U. replace (x =? f_n E) with false in R, U by lia. exact (conj T (conj R U)).
      + pose proof (uses_lt _ _ _ WT (edge_uses true _ _ _ ED)). lia.
  Qed.

  (* every axiom that statement k needs is needed by proof p or allowed by the user *)
  Definition axiomsFine (p : list Z) (k : nat) : Prop := forall m st, stmtAt db m st -> s_type st = S_a -> m = k \/ tracesTo true te k m -> needs N p m \/ newAllowed fuel N o m.
  Lemma fine_ok p fl k st t : stmtAt db k st -> isAssertion st -> 1 <= k < f_n E -> oldOk p fl -> traceProofWork fuel te k true None = Ok t -> axiomsOk fuel N o fl (fst t) (f_n E - 1) 1 = Ok true -> axiomsFine p k.
  Proof.
    intros S A R OO HT HA m sm SM AM D. destruct t as [new un]. cbn [fst] in HA. pose proof (trace_at k st new un S A HT m D) as MK.
    assert (RM : 1 <= m < f_n E).
    { split; [destruct m; [|lia]; apply same_at in SM; pose proof (wt_zero te WTE sm SM); congruence|]. destruct D as [->|D]; [lia|]. apply traces_dep in D. pose proof (dep_lt te k m WTE D). lia. }
    destruct (axioms_ok fl new _ _ HA m sm ltac:(lia) SM AM) as [X|[X|X]]; [left; apply OO; [lia|exact X]|right; exact X|destruct (X MK)].
  Qed.
End Flags.
