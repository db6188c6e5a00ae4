(* ReadOut.v -- parseStatements only appends to the statement table. *)
From Verif Require Import Base LabModel StmModel.
Open Scope nat_scope.

Lemma rbind_inv {A B} (x : res A) (f : A -> res B) (b : B) : rbind x f = Ok b -> exists a, x = Ok a /\ f a = Ok b.
Proof. destruct x; cbn; intros H; try discriminate. eauto. Qed.
Ltac rb H := apply rbind_inv in H; let a := fresh "a" in let E := fresh "E" in destruct H as (a & E & H).
Ltac ok H := injection H; clear H; intros; subst.
Ltac ok2 H := apply Ok_inj in H; subst.
Notation same s s' := (p_out s' = p_out s).

Lemma err_out e s : same s (err e s). Proof. reflexivity. Qed.
Lemma errIf_out b e s : same s (errIf b e s). Proof. now destruct b. Qed.
Lemma fict_out t s : same s (fict t s). Proof. unfold fict. now destruct (Nat.eqb _ _). Qed.
Lemma setFlag_out t f s : same s (setFlag t f s). Proof. unfold setFlag. now destruct (p_v s _). Qed.
Lemma declOne_out T n v t s s' : declOne T n v t s = Ok s' -> same s s'.
Proof.
  unfold declOne. intros H. rb H. rb H. rb H.
  assert (X : same s a1).
  { destruct (Nat.eqb a0 0); [ok E1; reflexivity|]. rb E1. ok E1. rewrite errIf_out.
    clear. revert s. induction a2 as [|j l IH]; intros s0; cbn [fold_left]; [reflexivity|]. rewrite IH. apply errIf_out. }
  destruct v; ok H; exact X.
Qed.
Lemma declAll_out T n v ts : forall s s', declAll T n v ts s = Ok s' -> same s s'.
Proof.
  induction ts as [|t r IH]; intros s s' H; cbn [declAll] in H; [ok H; reflexivity|]. rb H.
  rewrite (IH _ _ H). eapply declOne_out; eauto.
Qed.
Lemma lookup_out T n x s t s' : lookupTok T n x s = Ok (t, s') -> same s s'.
Proof.
  unfold lookupTok. intros H. destruct (_ <? _); [discriminate|]. rb H. destruct a as [ki|].
  - rb H. rb H. destruct (Nat.eqb _ _).
    + destruct (p_active _ _); ok H; [reflexivity|now rewrite fict_out].
    + rb H. destruct (pickMax _ _ _ _). destruct (Z.eqb _ _); ok H; [now rewrite fict_out|reflexivity].
  - destruct (100 <=? _); [discriminate|]. ok H. now rewrite fict_out.
Qed.
Lemma symErrs_out T n k p t s : same s (symErrs T n k p t s).
Proof. unfold symErrs. destruct k, p; try reflexivity; try apply errIf_out; destruct (Nat.eqb _ _); apply errIf_out. Qed.
Lemma symLoop_out T n k xs : forall p s ts s', symLoop T n k p xs s = Ok (ts, s') -> same s s'.
Proof.
  induction xs as [|x r IH]; intros p s ts s' H; cbn [symLoop] in H; [ok H; reflexivity|].
  rb H. destruct a as [t s1]. rb H. destruct a as [l s2]. ok H. cbn [snd]. apply IH in E0. apply lookup_out in E.
  rewrite E0, symErrs_out. exact E.
Qed.
Lemma lenErrs_out n k len s : same s (lenErrs n k len s).
Proof. unfold lenErrs. destruct k; try apply errIf_out. destruct len; [reflexivity|apply errIf_out]. Qed.
Lemma dInner_out n p r : forall s, same s (dInner n p r s).
Proof.
  induction r as [|q r IH]; intros s; cbn [dInner]; [reflexivity|]. destruct (Nat.eqb _ _); [reflexivity|]. cbv zeta. rewrite IH.
  now destruct (dmem _ _ _).
Qed.
Lemma dOuter_out n m : forall s, same s (dOuter n m s).
Proof. induction m as [|p r IH]; intros s; cbn [dOuter]; [reflexivity|]. rewrite IH. apply dInner_out. Qed.
Lemma newVars_out T f m : forall s l s', newVars T f m s = Ok (l, s') -> same s s'.
Proof.
  induction m as [|k r IH]; intros s l s' H; cbn [newVars] in H; [ok H; reflexivity|].
  destruct (tkVar _ _); [|eapply IH; eauto]. rb H. destruct (Nat.eqb _ _); [|eapply IH; eauto].
  rb H. destruct a0 as [x y]. ok H. cbn [snd]. apply IH in E0. now rewrite E0, setFlag_out.
Qed.
Lemma clear_out l : forall s, same s (clearFlags l s).
Proof. unfold clearFlags. induction l as [|k r IH]; intros s; cbn [fold_left]; [reflexivity|]. rewrite IH. apply setFlag_out. Qed.
Lemma doHyp_out T n k m s s' : doHyp T n k m s = Ok s' -> same s s'.
Proof.
  unfold doHyp. intros H. rb H. destruct a as [l s1]. ok H. cbn [fst snd].
  assert (X : forall h q, same q (pushHyp k h q)) by (intros; destruct k; reflexivity).
  rewrite X, clear_out. eapply newVars_out; eauto.
Qed.
Lemma eVars_out v : forall s l s', eVars v s = Ok (l, s') -> same s s'.
Proof.
  induction v as [|k r IH]; intros s l s' H; cbn [eVars] in H; [ok H; reflexivity|]. rb H. rb H. destruct a0 as [x y].
  apply IH in E0. rewrite setFlag_out in E0. ok H. exact E0.
Qed.
Lemma eScan_out hs : forall s l s', eScan hs s = Ok (l, s') -> same s s'.
Proof.
  induction hs as [|h r IH]; intros s l s' H; cbn [eScan] in H; [ok H; reflexivity|]. rb H. rb H. destruct a as [x y], a0 as [x0 y0].
  cbn [fst snd] in *. ok H. apply eVars_out in E. apply IH in E0. congruence.
Qed.
Lemma fOthers_out n f q v : forall s s', fOthers n f q v s = Ok s' -> same s s'.
Proof.
  induction v as [|k r IH]; intros s s' H; cbn [fOthers] in H; [ok H; reflexivity|]. rb H. rb H.
  assert (X : same s (if Nat.eqb a 2 then setFlag k 1 s else s)) by (destruct (Nat.eqb a 2); [apply setFlag_out|reflexivity]).
  destruct (negb _); [ok H; exact X|]. apply IH in H. congruence.
Qed.
Lemma fScan_out n hs : forall s x s', fScan n hs s = Ok (x, s') -> same s s'.
Proof.
  induction hs as [|h r IH]; intros s x s' H; cbn [fScan] in H; [ok H; reflexivity|]. destruct (h_vars h) as [|k o].
  - rb H. destruct a as [p y]. ok H. eapply IH; eauto.
  - rb H. rb H. rb H. destruct a1 as [p y]. apply IH in E1. apply fOthers_out in E0.
    assert (X : p_out s' = p_out y) by (destruct (negb _); ok H; reflexivity).
    rewrite X, E1, E0. destruct (negb _); [apply setFlag_out|reflexivity].
Qed.
Lemma orphan_out T n m : forall s s', orphan T n m s = Ok s' -> same s s'.
Proof.
  induction m as [|k r IH]; intros s s' H; cbn [orphan] in H; [ok H; reflexivity|]. destruct (tkVar _ _); [|eauto].
  rb H. apply IH in H. rewrite H. destruct (Nat.eqb _ _); [now rewrite setFlag_out|reflexivity].
Qed.
Lemma optScan_out k : forall i s l s', optScan i k s = Ok (l, s') -> same s s'.
Proof.
  induction k as [|k IH]; intros i s l s' H; cbn [optScan] in H; [ok H; reflexivity|]. rb H. destruct (Nat.eqb _ _).
  - rb H. destruct a0 as [x y]. ok H. eapply IH; eauto.
  - apply IH in H. exact H.
Qed.
Lemma doAsrt_out T n k b sc m s o s' : doAsrt T n k b sc m s = Ok (o, s') -> same s s'.
Proof.
  unfold doAsrt. intros H. rb H. rb H. rb H. destruct a as [x1 y1], a0 as [x2 y2], a1 as [[rf of] s3]. cbn [fst snd] in *. rb H. rb H. rb H.
  destruct a1 as [x5 y5]. destruct (negb _); [discriminate|]. ok H. cbn [snd].
  apply newVars_out in E. apply eScan_out in E0. apply fScan_out in E1. apply orphan_out in E2. apply optScan_out in E4. congruence.
Qed.
Lemma needF_out T out m bf math : forall s s', needF T out m bf math s = Ok s' -> same s s'.
Proof.
  induction math as [|t r IH]; intros s s' H; cbn [needF] in H; [ok H; reflexivity|]. destruct (tkVar _ _); [|eauto].
  rb H. apply IH in H. rewrite H. apply errIf_out.
Qed.
Lemma checkHyps_out T out n hs : forall bf s s', checkHyps T out n bf hs s = Ok s' -> same s s'.
Proof.
  induction hs as [|m r IH]; intros bf s s' H; cbn [checkHyps] in H.
  - rb H. eapply needF_out; eauto.
  - rb H. rb H. apply IH in H. rewrite H.
    destruct (o_kind a); try (eapply needF_out; eauto; fail).
    rb E0. destruct a1; [rb E0; ok E0; apply errIf_out|ok E0; reflexivity].
Qed.
Definition plainOut (o : sout) : Prop :=
  o_kind o = K_a \/ o_kind o = K_p \/ o_reqDisj o = [] /\ o_optDisj o = [].
Lemma bare_plain k b sc m : plainOut (bareOut k b sc m).
Proof. right. right. split; reflexivity. Qed.
Lemma doAsrt_kind T n k b sc m s o s' : doAsrt T n k b sc m s = Ok (o, s') -> o_kind o = k.
Proof.
  unfold doAsrt. intros H. rb H. rb H. rb H. destruct a1 as [[rf of] s3]. rb H. rb H. rb H.
  destruct (negb _); [discriminate|]. ok H. reflexivity.
Qed.
Lemma step_out T n old i s s' : stepStmt T n old i s = Ok s' -> exists o, p_out s' = p_out s ++ [o] /\ plainOut o.
Proof.
  unfold stepStmt. intros H.
  assert (AS : forall k g, (do x <- symLoop T n k 0 (si_toks i) s;
      do y <- doAsrt T n k (p_begin s) (p_cur s) (fst x) (lenErrs n k (length (fst x)) (snd x));
      checkHyps T (p_out (g (length (fst x)) (putOut (fst y) (snd y)))) n [] (o_reqHyps (fst y)) (g (length (fst x)) (putOut (fst y) (snd y)))) = Ok s' ->
      (forall len s, p_out (g len s) = p_out s) -> exists o, p_out s' = p_out s ++ [o] /\ o_kind o = k).
  { clear H. intros k g H HG. rb H. destruct a as [ts s1]. rb H. destruct a as [o s2]. cbn [fst snd] in *.
    apply checkHyps_out in H. rewrite HG in H. apply symLoop_out in E. pose proof (doAsrt_kind _ _ _ _ _ _ _ _ _ E0). apply doAsrt_out in E0. exists o.
    rewrite H. cbn [putOut p_out]. rewrite E0, lenErrs_out, E. auto. }
  destruct (si_kind i).
  - rb H. ok2 H. apply declAll_out in E. eexists. unfold putOut. cbn [p_out]. rewrite E, errIf_out. split; [reflexivity|apply bare_plain].
  - rb H. ok2 H. apply declAll_out in E. eexists. unfold putOut. cbn [p_out]. rewrite E, errIf_out. split; [reflexivity|apply bare_plain].
  - rb H. ok2 H. destruct a as [ts s1]. apply symLoop_out in E. eexists. unfold putOut. cbn [p_out fst snd]. rewrite dOuter_out, lenErrs_out. cbn [snd]. rewrite E. split; [reflexivity|apply bare_plain].
  - rb H. ok2 H. unfold doLb in E. destruct (Z.ltb _ _); [discriminate|]. ok E. eexists. split; [reflexivity|apply bare_plain].
  - rb H. ok2 H. unfold doRb in E. destruct (popWhile _ _ _). rb E. rb E. ok E. eexists. split; [reflexivity|apply bare_plain].
  - rb H. rb H. ok2 H. destruct a as [ts s1]. apply symLoop_out in E. apply doHyp_out in E0. eexists. unfold putOut. cbn [p_out]. rewrite E0, lenErrs_out. cbn [snd]. rewrite E. split; [reflexivity|apply bare_plain].
  - rb H. rb H. ok2 H. destruct a as [ts s1]. apply symLoop_out in E. apply doHyp_out in E0. eexists. unfold putOut. cbn [p_out]. rewrite E0, lenErrs_out. cbn [snd]. rewrite E. split; [reflexivity|apply bare_plain].
  - destruct (AS K_a (fun len s1 => if negb (Nat.eqb (p_min s1) 0) && Nat.eqb len 1 then setMin 0 s1 else s1)) as (o & A & B); [exact H| |].
    { intros len q. now destruct (_ && _). }
    exists o. split; [exact A|]. left. exact B.
  - destruct (AS K_p (fun _ s1 => s1)) as (o & A & B); [exact H|reflexivity|]. exists o. split; [exact A|]. right. left. exact B.
Qed.
Lemma loop_out T sts : forall n old s s', stmtLoop T n old sts s = Ok s' -> exists l, p_out s' = p_out s ++ l /\ Forall plainOut l.
Proof.
  induction sts as [|i r IH]; intros n old s s' H; cbn [stmtLoop] in H; [ok2 H; exists []; rewrite app_nil_r; auto|].
  rb H. apply step_out in E. destruct E as (o & E & P). apply IH in H. destruct H as (l & H & F). exists (o :: l). rewrite H, E, <- app_assoc. auto.
Qed.
Lemma parse_out0 key m sts s : parseStmts key m sts = Ok s -> nth_error (p_out s) 0 = Some out0 /\ Forall plainOut (p_out s).
Proof.
  unfold parseStmts. intros H. rb H. ok2 H. rewrite errIf_out. apply loop_out in E. destruct E as (l & -> & F).
  split; [reflexivity|]. constructor; [apply bare_plain|exact F].
Qed.
