(* PfaValid.v -- proofs about PfaModel: expanding a proof keeps it valid *)
From Coq Require Import ZifyBool ZifyNat.
From Verif Require Import SrcProofs Base MMSpec VerModel VerSpec ParModel ParSpec SqModel SqSpec SqProofs SqAttr SqPack SqValid SqGood TrcWork StmScope StmTab VerStep VerProofs NmbProofs PfaModel PfaSpec PfaProofs PfaMore PfaExpand.
Open Scope nat_scope.

Lemma subst_comp iv sg tau e : subst iv sg (subst iv tau e) = subst iv (fun x => subst iv sg (tau x)) e.
Proof.
  unfold subst. induction e as [|t e IH]; [reflexivity|]. cbn [flat_map]. rewrite flat_map_app, IH. f_equal.
  destruct (iv t) eqn:E; [reflexivity|]. cbn [flat_map]. rewrite E. reflexivity.
Qed.
Lemma subst_ext iv sg tau e : (forall x, In x e -> iv x = true -> sg x = tau x) -> subst iv sg e = subst iv tau e.
Proof.
  intros H. unfold subst. induction e as [|t e IH]; [reflexivity|]. cbn [flat_map]. rewrite IH by (intros; apply H; [right|]; assumption). f_equal.
  destruct (iv t) eqn:E; [|reflexivity]. apply H; [left; reflexivity|exact E].
Qed.
Lemma subst_in iv sg e v : In v (subst iv sg e) -> iv v = true -> exists x, In x e /\ iv x = true /\ In v (sg x).
Proof.
  unfold subst. intros I V. apply in_flat_map in I. destruct I as [x [I J]]. exists x. split; [exact I|].
  destruct (iv x) eqn:E; [auto|]. destruct J as [<-|[]]. congruence.
Qed.
Lemma in_subst iv sg e x v : In x e -> iv x = true -> In v (sg x) -> In v (subst iv sg e).
Proof. intros I V J. unfold subst. apply in_flat_map. exists x. split; [exact I|]. rewrite V. exact J. Qed.

Lemma codeOf_nat z : (0 <= z)%Z -> codeOf z = Stm (Z.to_nat z).
Proof. intros H. unfold codeOf, isRef, zUnk. replace (z =? -63)%Z with false by lia. replace (z <=? -1000)%Z with false by lia. reflexivity. Qed.

Lemma unif_kid db sts st kids es tau h sh : Forall2 (tval db sts) kids es -> unifier db st es tau -> In h (s_reqHyps st) -> stmtAt db h sh ->
  exists k, In k kids /\ tval db sts k (subst (db_isvar db) tau (s_math sh)).
Proof.
  intros F U X5 X6. unfold unifier in U. revert kids F.
  induction U as [|h0 e0 l es0 [sh0 [U1 U2]] U IHU]; [destruct X5|]. intros kids F. inversion F as [|k0 ? kids0 ? F1 F2]; subst.
  destruct X5 as [->|X5].
  - exists k0. split; [left; reflexivity|]. unfold stmtAt in *. rewrite X6 in U1. injection U1 as <-. exact F1.
  - destruct (IHU X5 kids0 F2) as [k [Y1 Y2]]. exists k. split; [right; exact Y1|exact Y2].
Qed.

Lemma unif_hyp db stp sts ks es sg z st : Forall2 (tval db stp) ks es -> unifier db sts es sg -> In (Z.to_nat z) (s_reqHyps sts) -> (0 <= z)%Z ->
  nth_error (db_stmts db) (Z.to_nat z) = Some st ->
  exists t, hypAt (s_reqHyps sts) ks z = Some t /\ tval db stp t (subst (db_isvar db) sg (s_math st)).
Proof.
  intros FK U H1 Z0 E. unfold unifier in U. revert ks FK. induction U as [|h e0 l es0 [sh [U1 U2]] U IHU]; [destruct H1|].
  intros ks FK. inversion FK as [|k0 ? ks0 ? F1 F2]; subst. cbn [hypAt]. destruct (Z.of_nat h =? z)%Z eqn:Eh.
  - exists k0. split; [reflexivity|]. replace (Z.to_nat z) with h in E by lia. unfold stmtAt in U1. rewrite E in U1. injection U1 as <-. exact F1.
  - apply IHU; [|exact F2]. destruct H1 as [H1|H1]; [lia|exact H1].
Qed.

Section E.
  Variable db : dbase.
  Hypothesis WD : wf_db db.
  Let iv := db_isvar db.

  (* what a value says about the root *)
  Lemma tval_inv stp z kids e : wfTree db (Node z kids) -> legalCodes (rpn (Node z kids)) -> noRefs (rpn (Node z kids)) ->
    tval db stp (Node z kids) e ->
    (0 <= z)%Z /\ exists st, nth_error (db_stmts db) (Z.to_nat z) = Some st /\
      ((isHyp st /\ kids = [] /\ e = s_math st) \/
       (isAssertion st /\ exists es sg, Forall2 (tval db stp) kids es /\ unifier db st es sg /\ disj_ok db stp st sg /\ e = subst iv sg (s_math st))).
  Proof.
    intros W LC NR V. inversion V as [? ? es ? F R]; subst.
    destruct (LC z (in_root z kids)) as [Z0|[Z0|Z0]].
    - split; [exact Z0|]. rewrite (codeOf_nat z Z0) in R.
      inversion R as [n st A B C1 C2 C3|i e0 A|n st es0 rest sg A B C D U G C1 C2]; subst.
      + exists st. split; [exact A|]. left. split; [exact B|]. split; [|congruence].
        destruct es as [|x es].
        * inversion F; reflexivity.
        * exfalso. apply (f_equal (@length _)) in C3. rewrite rev_length in C3. discriminate.
      + exists st. split; [exact A|]. right. split; [exact B|].
        match goal with H : rev es = rev es0 ++ _ |- _ => rename H into EQ end.
        rewrite app_nil_r in EQ. apply (f_equal (@rev _)) in EQ. rewrite !rev_involutive in EQ. subst es0.
        exists es, sg. auto.
    - exfalso. subst z. unfold codeOf in R. rewrite Z.eqb_refl in R. inversion R.
    - rewrite (NR z (in_root z kids)) in Z0. discriminate.
  Qed.
  Lemma tval_hyp stp z st : (0 <= z)%Z -> nth_error (db_stmts db) (Z.to_nat z) = Some st -> isHyp st -> tval db stp (Node z []) (s_math st).
  Proof. intros Z0 E H. apply tv_node with (es := []); [constructor|]. rewrite codeOf_nat by exact Z0. apply rs_hyp; assumption. Qed.
  Lemma tval_assert stp z st kids es sg : (0 <= z)%Z -> nth_error (db_stmts db) (Z.to_nat z) = Some st -> isAssertion st -> floated db st ->
    Forall2 (tval db stp) kids es -> unifier db st es sg -> disj_ok db stp st sg -> tval db stp (Node z kids) (subst iv sg (s_math st)).
  Proof.
    intros Z0 E H FL F U D. apply tv_node with (es := es); [exact F|]. rewrite codeOf_nat by exact Z0.
    eapply rs_assert; [exact E|exact H|rewrite app_nil_r; reflexivity|exact U| |exact D].
    intros sg' U'. apply (floated_unique db st es sg sg' FL); [|exact U|exact U']. intros t I. apply (wf_reqVars db WD _ _ E H) in I. apply I.
  Qed.

  Section G.
    Variables (stp sts : stmtRec) (src : nat) (ks : list tree) (es : list (list nat)) (sg : nat -> list nat).
    Hypothesis SS : nth_error (db_stmts db) src = Some sts.
    Hypothesis SA : isAssertion sts.
    Hypothesis FK : Forall2 (tval db stp) ks es.
    Hypothesis US : unifier db sts es sg.
    Hypothesis DS : disj_ok db stp sts sg.
    Hypothesis OD : forall x y, In (x, y) (s_optDisj sts) -> ~ (In x (s_reqVars sts) /\ In y (s_reqVars sts)).
    Let req := s_reqHyps sts.

    Definition sideOk (t : tree) : Prop :=
      wfTree db t /\ legalCodes (rpn t) /\ noRefs (rpn t) /\
      (forall z st, In z (rpn t) -> (0 <= z)%Z -> nth_error (db_stmts db) (Z.to_nat z) = Some st ->
         (isHyp st -> In (Z.to_nat z) req) /\ (isAssertion st -> floated db st)).
    Lemma side_kid z kids k : sideOk (Node z kids) -> In k kids -> sideOk k.
    Proof.
      intros [A [B [C D]]] I. split; [eapply wf_kid; eassumption|]. split; [eapply legal_kid; eassumption|].
      split; [intros x J; apply C; eapply in_kid; eassumption|]. intros x st J. apply D. eapply in_kid; eassumption.
    Qed.

    (* the variables of the values are mandatory *)
    Lemma val_vars t : sideOk t -> forall e, tval db sts t e -> forall v, In v e -> iv v = true -> In v (s_reqVars sts).
    Proof.
      induction t as [z kids IH] using tree_ind2. intros SO e V v I Vv. pose proof SO as [W [LC [NR H]]].
      destruct (tval_inv sts z kids e W LC NR V) as [Z0 [st [E [[A [B C]]|[A [es' [tau [F [U [D C]]]]]]]]]].
      - subst e. apply (wf_reqVars db WD _ _ SS SA). split; [exact Vv|]. exists (Z.to_nat z), st. split; [|split; [exact E|exact I]].
        apply (H z st (in_root z kids) Z0 E). exact A.
      - subst e. destruct (subst_in _ _ _ _ I Vv) as [x [X1 [X2 X3]]].
        pose proof (wf_vars_math db WD _ _ E A x X1 X2) as X4. apply (wf_reqVars db WD _ _ E A) in X4. destruct X4 as [_ [h [sh [X5 [X6 X7]]]]].
        destruct (unif_kid db sts st kids es' tau h sh F U X5 X6) as [k [Y1 Y2]]. rewrite Forall_forall in IH. apply (IH k Y1 (side_kid _ _ _ SO Y1) _ Y2); [|exact Vv].
        eapply in_subst; eassumption.
    Qed.

    Lemma graft_val t : sideOk t -> forall e, tval db sts t e -> tval db stp (graft db req ks t) (subst iv sg e).
    Proof.
      induction t as [z kids IH] using tree_ind2. intros SO e V. pose proof SO as [W [LC [NR H]]].
      destruct (tval_inv sts z kids e W LC NR V) as [Z0 [st [E [[A [B C]]|[A [es' [tau [F [U [D C]]]]]]]]]].
      - rewrite (graft_hyp db req ks z st) by (auto; lia). subst e.
        destruct (H z st (in_root z kids) Z0 E) as [H1 _]. specialize (H1 A).
        destruct (unif_hyp db stp sts ks es sg z st FK US H1 Z0 E) as [t [Y1 Y]]. unfold req. rewrite Y1. exact Y.
      - rewrite (graft_node db req ks z st) by (auto; lia). subst e. rewrite subst_comp.
        destruct (H z st (in_root z kids) Z0 E) as [_ H1]. specialize (H1 A).
        apply tval_assert with (es := map (subst iv sg) es'); auto.
        + assert (G : forall k e', In k kids -> tval db sts k e' -> tval db stp (graft db req ks k) (subst iv sg e')).
          { intros k e' I V'. rewrite Forall_forall in IH. apply IH; [exact I|eapply side_kid; eassumption|exact V']. }
          clear -F G. induction F as [|k e' kids es' F1 F2 IHF]; [constructor|]. cbn [map]. constructor; [apply G; [left; reflexivity|exact F1]|].
          apply IHF. intros; apply G; [right|]; assumption.
        + unfold unifier in *. clear -U. induction U as [|h e0 l es0 [sh [U1 U2]] U IHU]; [constructor|]. cbn [map]. constructor; [|exact IHU].
          exists sh. split; [exact U1|]. rewrite <- subst_comp. unfold iv. rewrite U2. reflexivity.
        + intros x y I a b Ia Ib Va Vb.
          destruct (subst_in _ _ _ _ Ia Va) as [a1 [A1 [A2 A3]]]. destruct (subst_in _ _ _ _ Ib Vb) as [b1 [B1 [B2 B3]]].
          destruct (D x y I a1 b1 A1 B1 A2 B2) as [N1 N2].
          assert (MV : forall w u, In w (s_reqVars st) -> In u (tau w) -> iv u = true -> In u (s_reqVars sts)).
          { intros w u Iw Iu Vu. pose proof Iw as Iw'. apply (wf_reqVars db WD _ _ E A) in Iw'. destruct Iw' as [Vw [h [sh [X5 [X6 X7]]]]].
            destruct (unif_kid db sts st kids es' tau h sh F U X5 X6) as [k [Y1 Y2]]. apply (val_vars k (side_kid _ _ _ SO Y1) _ Y2 u); [|exact Vu]. eapply in_subst; eassumption. }
          destruct (wf_vars_disj db WD _ _ E A x y I) as [Rx Ry].
          pose proof (MV x a1 Rx A1 A2) as Ra. pose proof (MV y b1 Ry B1 B2) as Rb.
          destruct N2 as [[N2|N2]|[N2|N2]].
          * exact (DS a1 b1 N2 a b A3 B3 Va Vb).
          * exfalso. apply (OD _ _ N2). auto.
          * destruct (DS b1 a1 N2 b a B3 A3 Vb Va) as [M1 M2]. split; [congruence|]. tauto.
          * exfalso. apply (OD _ _ N2). auto.
    Qed.
  End G.

  Lemma expanded_val stp sts src s : nth_error (db_stmts db) src = Some sts -> s_type sts = S_p ->
    (forall x y, In (x, y) (s_optDisj sts) -> ~ (In x (s_reqVars sts) /\ In y (s_reqVars sts))) ->
    sideOk sts s -> tval db sts s (s_math sts) ->
    forall T, wfTree db T -> legalCodes (rpn T) -> noRefs (rpn T) ->
    forall e, tval db stp T e -> tval db stp (expanded db src (s_reqHyps sts) s T) e.
  Proof.
    intros SS SP OD SO VS. induction T as [z kids IH] using tree_ind2. intros W LC NR e V.
    rewrite (expanded_node db src sts s).
    assert (G : forall k e', In k kids -> tval db stp k e' -> tval db stp (expanded db src (s_reqHyps sts) s k) e').
    { intros k e' I V'. rewrite Forall_forall in IH. apply IH; auto; [eapply wf_kid; eassumption|eapply legal_kid; eassumption|].
      intros x J. apply NR. eapply in_kid; eassumption. }
    assert (GF : forall es, Forall2 (tval db stp) kids es -> Forall2 (tval db stp) (map (expanded db src (s_reqHyps sts) s) kids) es).
    { clear -G. intros es F. induction F as [|k e' kids es' F1 F2 IHF]; [constructor|]. cbn [map]. constructor; [apply G; [left; reflexivity|exact F1]|].
      apply IHF. intros; apply G; [right|]; assumption. }
    destruct (z =? Z.of_nat src)%Z eqn:Ez.
    - destruct (tval_inv stp z kids e W LC NR V) as [Z0 [st [E [[A [B C]]|[A [es [sg [F [U [D C]]]]]]]]]].
      + exfalso. replace (Z.to_nat z) with src in E by lia. rewrite SS in E. injection E as <-. destruct A as [A|A]; congruence.
      + replace (Z.to_nat z) with src in E by lia. rewrite SS in E. injection E as <-. subst e.
        eapply graft_val; eauto.
    - inversion V as [? ? es ? F R]; subst. apply tv_node with (es := es); [apply GF, F|exact R].
  Qed.
End E.
