(* SqValid.v -- every parsed proof denotes a tree, and two proofs that denote the
   same tree are valid or not together. *)
From Verif Require Import Base MMSpec VerModel VerSpec TokModel ParModel ParSpec SqModel SqSpec SqProofs SqPack.
Open Scope nat_scope.

(* ---------- a balanced proof denotes a tree ---------- *)
Lemma encStep_ref x : isRef (encStep x) = match x with Loc _ => true | _ => false end.
Proof.
  destruct x; simpl.
  - reflexivity.
  - apply isRef_zLoc.
  - unfold isRef. apply Z.leb_gt. lia.
Qed.
Lemma refOf_loc i : refOf (encStep (Loc i)) = i.
Proof. apply refOf_zLoc. Qed.
Lemma arity_stm db n : arity db (encStep (Stm n)) =
  match nth_error (db_stmts db) n with
  | None => None
  | Some st => match s_type st with
               | S_e | S_f => Some 0 | S_a | S_p => Some (length (s_reqHyps st)) | S_other => None end
  end.
Proof.
  unfold arity. simpl. replace (Z.of_nat n <? 0)%Z with false by (symmetry; apply Z.ltb_ge; lia).
  rewrite Nat2Z.id. reflexivity.
Qed.

Lemma balanced_prun db p : forall d d' H S,
  balanced db p d = Some d' -> length S = d ->
  (forall k i, nth_error p k = Some (Loc i) -> i < length H + k) ->
  exists H' S', prun db H S (map encStep p) = Some (H', S') /\ length S' = d'.
Proof.
  induction p as [|x p IH]; intros d d' H S B L R.
  - simpl in B. inversion B; subst. exists H, S. auto.
  - cbn [map prun]. rewrite encStep_ref.
    assert (RR : forall t k i, nth_error p k = Some (Loc i) -> i < length (H ++ [t]) + k).
    { intros t k i N. specialize (R (Datatypes.S k) i N). rewrite app_length. simpl. lia. }
    destruct x as [|i|n].
    + (* '?' *) simpl in B. eapply IH; [exact B| |apply RR].
      unfold arity, zUnk. simpl. lia.
    + rewrite refOf_loc. assert (i < length H) by (specialize (R 0 i eq_refl); lia).
      destruct (nth_error H i) as [t|] eqn:N; [|apply nth_error_None in N; lia].
      eapply IH; [exact B| |apply RR]. simpl. lia.
    + rewrite arity_stm. simpl in B. destruct (nth_error (db_stmts db) n) as [st|]; [|discriminate].
      destruct (s_type st); try discriminate.
      * rewrite L. destruct (length (s_reqHyps st) <=? d) eqn:LE; [|discriminate].
        eapply IH; [exact B| |apply RR]. simpl. rewrite skipn_length. lia.
      * rewrite L. destruct (length (s_reqHyps st) <=? d) eqn:LE; [|discriminate].
        eapply IH; [exact B| |apply RR]. simpl. rewrite skipn_length. lia.
      * simpl. eapply IH; [exact B| |apply RR]. simpl. lia.
      * simpl. eapply IH; [exact B| |apply RR]. simpl. lia.
Qed.

Lemma wf_denotes db p : wf_proof db p -> exists t, denotes db (map encStep p) t.
Proof.
  intros [B R]. destruct (balanced_prun db p 0 1 [] [] B eq_refl) as [H' [S' [E L]]].
  { intros k i N. simpl. eapply R. exact N. }
  destruct S' as [|t [|? ?]]; try discriminate. exists t, H'. exact E.
Qed.

(* trees produced by a run are well formed and free of references *)
Definition pureTree (db : dbase) (t : tree) : Prop := wfTree db t /\ noRefs (rpn t).
Lemma prun_pure db p : forall H S H' S', prun db H S p = Some (H', S') ->
  Forall (pureTree db) H -> Forall (pureTree db) S ->
  Forall (pureTree db) H' /\ Forall (pureTree db) S'.
Proof.
  induction p as [|z p IH]; intros H S H' S' E FH FS; simpl in E; [inversion E; subst; auto|].
  destruct (isRef z) eqn:R.
  - destruct (nth_error H (refOf z)) as [t|] eqn:N; [|discriminate].
    assert (pureTree db t) by (rewrite Forall_forall in FH; apply FH; eapply nth_error_In; exact N).
    eapply IH; [exact E| |]; [apply Forall_app; auto|constructor; auto].
  - destruct (arity db z) as [n|] eqn:A; [|discriminate].
    destruct (n <=? length S) eqn:L; [|discriminate]. apply Nat.leb_le in L.
    assert (PT : pureTree db (Node z (rev (firstn n S)))).
    { assert (FK : Forall (pureTree db) (rev (firstn n S))) by (apply Forall_rev, Forall_firstn', FS).
      split.
      - constructor; [rewrite rev_length, firstn_length, A; f_equal; lia|].
        eapply Forall_impl; [|exact FK]. intros t [W _]. exact W.
      - simpl. intros y Hy. apply in_app_or in Hy. destruct Hy as [Hy|[<-|[]]]; [|exact R].
        apply in_flat_map in Hy. destruct Hy as [k [K1 K2]]. rewrite Forall_forall in FK.
        apply (FK k K1). exact K2. }
    eapply IH; [exact E| |]; [apply Forall_app; auto|constructor; [exact PT|apply Forall_skipn', FS]].
Qed.
Lemma denotes_pure db p t : denotes db p t -> wfTree db t /\ noRefs (rpn t).
Proof.
  intros [H E]. apply prun_pure in E; [|constructor|constructor]. destruct E as [_ E].
  inversion E; subst. assumption.
Qed.
Lemma denotes_fun db p t t' : denotes db p t -> denotes db p t' -> t = t'.
Proof. intros [H E] [H' E']. rewrite E in E'. congruence. Qed.
Lemma rpn_denotes db t : wfTree db t -> noRefs (rpn t) -> denotes db (rpn t) t.
Proof.
  intros W N. assert (R0 : refsBelow 0 (rpn t)) by (intros z Hz Rz; rewrite (N z Hz) in Rz; discriminate).
  destruct (prun_tree db t W [] R0) as [X [LX EX]]. specialize (EX [] []).
  rewrite app_nil_r in EX. simpl in EX. exists X. rewrite EX.
  rewrite expand_noRefs by exact N. reflexivity.
Qed.

(* ---------- values of trees ---------- *)
Definition codeOf (z : Z) : pstep :=
  if (z =? zUnk)%Z then Unk else if isRef z then Loc (refOf z) else Stm (Z.to_nat z).
Lemma codeOf_enc x : codeOf (encStep x) = x.
Proof.
  unfold codeOf. rewrite encStep_ref. destruct x; simpl.
  - reflexivity.
  - replace (zLoc (Z.of_nat i) =? zUnk)%Z with false by (symmetry; apply Z.eqb_neq; unfold zLoc, zUnk; lia).
    f_equal. apply refOf_zLoc.
  - replace (Z.of_nat n =? zUnk)%Z with false by (symmetry; apply Z.eqb_neq; unfold zUnk; lia).
    f_equal. lia.
Qed.

Inductive tval (db : dbase) (stp : stmtRec) : tree -> list nat -> Prop :=
| tv_node : forall z kids es e,
    Forall2 (tval db stp) kids es ->
    rpnStep db stp [] (rev es) (codeOf z) e [e] ->
    tval db stp (Node z kids) e.

Inductive subT : tree -> tree -> Prop :=
| st_refl : forall t, subT t t
| st_kid : forall u k z kids, In k kids -> subT u k -> subT u (Node z kids).
Lemma subT_trans a b c : subT a b -> subT b c -> subT a c.
Proof. intros H1 H2. induction H2; [exact H1|]. eapply st_kid; eauto. Qed.

Lemma tval_sub db stp t u : subT u t -> forall e, tval db stp t e -> exists e', tval db stp u e'.
Proof.
  induction 1 as [t|u k z kids Hk _ IH]; intros e V; [eauto|].
  inversion V as [? ? es ? F _]; subst.
  assert (G : exists e', tval db stp k e').
  { clear -F Hk. induction F; [destruct Hk|]. destruct Hk as [->|Hk]; eauto. }
  destruct G as [e' G]. eapply IH. exact G.
Qed.

Lemma prun_sub db p : forall H S H' S', prun db H S p = Some (H', S') ->
  forall u, In u S -> exists v, In v S' /\ subT u v.
Proof.
  induction p as [|z p IH]; intros H S H' S' E u Hu; simpl in E.
  - inversion E; subst. exists u. split; [exact Hu|constructor].
  - destruct (isRef z).
    + destruct (nth_error H (refOf z)); [|discriminate]. eapply IH; [exact E|right; exact Hu].
    + destruct (arity db z) as [n|]; [|discriminate]. destruct (n <=? length S); [|discriminate].
      rewrite <- (firstn_skipn n S) in Hu. apply in_app_or in Hu. destruct Hu as [Hu|Hu].
      * destruct (IH _ _ _ _ E (Node z (rev (firstn n S)))) as [v [V1 V2]]; [left; reflexivity|].
        exists v. split; [exact V1|]. eapply subT_trans; [|exact V2].
        eapply st_kid; [apply in_rev; rewrite rev_involutive; exact Hu|constructor].
      * eapply IH; [exact E|right; exact Hu].
Qed.

Section V.
  Variables (db : dbase) (stp : stmtRec).
  Hypothesis WF : wf_db db.

  Lemma rpnStep_top vals stk x e s : rpnStep db stp vals stk x e s -> exists r, s = e :: r.
  Proof. intros H. inversion H; subst; eauto. Qed.

  Lemma unifier_len st es sg : unifier db st es sg -> length es = length (s_reqHyps st).
  Proof. intros H. symmetry. eapply Forall2_len. exact H. Qed.

  Lemma app_eq_len {A} (a b c d : list A) : a ++ b = c ++ d -> length a = length c -> a = c /\ b = d.
  Proof.
    revert c. induction a as [|x a IH]; intros [|y c] E L; try discriminate; [auto|].
    simpl in *. inversion E; subst. destruct (IH c H1) as [-> ->]; auto.
  Qed.

  Lemma rpnStep_det vals stk x e s e' s' :
    rpnStep db stp vals stk x e s -> rpnStep db stp vals stk x e' s' -> e = e' /\ s = s'.
  Proof.
    intros H1 H2. inversion H1; subst; inversion H2; subst.
    - assert (st = st0) by (unfold stmtAt in *; congruence). subst. auto.
    - exfalso. unfold stmtAt in *. assert (st = st0) by congruence. subst st0.
      destruct H0 as [A|A]; destruct H5 as [B|B]; congruence.
    - assert (e = e') by congruence. subst. auto.
    - exfalso. unfold stmtAt in *. assert (st = st0) by congruence. subst st0.
      destruct H0 as [A|A]; match goal with B : isHyp _ |- _ => destruct B as [B|B]; congruence end.
    - unfold stmtAt in *. assert (st = st0) by congruence. subst st0.
      match goal with E : rev _ ++ _ = rev _ ++ _ |- _ => apply app_eq_len in E;
        [destruct E as [E1 E2]|rewrite !rev_length; erewrite !unifier_len by eassumption; reflexivity] end.
      apply (f_equal (@rev _)) in E1. rewrite !rev_involutive in E1. subst.
      assert (ES : subst (db_isvar db) sigma (s_math st) = subst (db_isvar db) sigma0 (s_math st)).
      { unfold subst. rewrite !flat_map_concat_map. f_equal. apply map_ext_in. intros t Ht.
        destruct (db_isvar db t) eqn:Vt; [|reflexivity].
        match goal with U : forall s, unifier db st es0 s -> _, G : unifier db st es0 sigma |- _ =>
          first [symmetry; apply (U sigma0); [assumption|]; eapply wf_vars_math; eauto
                |apply (U sigma); [assumption|]; eapply wf_vars_math; eauto] end. }
      rewrite ES. auto.
  Qed.

  Lemma tval_det t : forall e e', tval db stp t e -> tval db stp t e' -> e = e'.
  Proof.
    induction t as [z kids IH] using tree_ind2. intros e e' H1 H2.
    inversion H1 as [? ? es ? F1 R1]; subst. inversion H2 as [? ? es' ? F2 R2]; subst.
    assert (es = es').
    { clear -IH F1 F2. revert es es' F1 F2. induction IH as [|k kids Hk _ IHk]; intros es es' F1 F2;
        inversion F1; subst; inversion F2; subst; [reflexivity|]. f_equal; eauto. }
    subst es'. eapply rpnStep_det; eassumption.
  Qed.

  (* one step, seen on trees *)
  Definition notLoc (x : pstep) : Prop := match x with Loc _ => False | _ => True end.

  Lemma step_split vals stk x e s : rpnStep db stp vals stk x e s -> notLoc x ->
    exists es rest, arity db (encStep x) = Some (length es) /\ stk = rev es ++ rest /\ s = e :: rest /\
      rpnStep db stp [] (rev es) x e [e].
  Proof.
    intros H NL. inversion H as [n st A B|i e0 A|n st es rest sg A B C D E F]; subst; [| destruct NL |].
    - exists [], stk. rewrite arity_stm. unfold stmtAt in A. rewrite A.
      split; [destruct B as [-> | ->]; reflexivity|]. split; [reflexivity|]. split; [reflexivity|].
      apply rs_hyp; assumption.
    - exists es, rest. rewrite arity_stm. assert (A' := A). unfold stmtAt in A'. rewrite A'.
      rewrite (unifier_len _ _ _ D).
      split; [destruct B as [-> | ->]; reflexivity|]. split; [reflexivity|]. split; [reflexivity|].
      eapply rs_assert; try eassumption. rewrite app_nil_r. reflexivity.
  Qed.

  Lemma step_join vals es rest x e : rpnStep db stp [] (rev es) x e [e] -> notLoc x ->
    arity db (encStep x) = Some (length es) ->
    rpnStep db stp vals (rev es ++ rest) x e (e :: rest).
  Proof.
    intros H NL AR. inversion H as [n st A B|i e0 A|n st es' rest' sg A B C D E F]; subst; [| destruct NL |].
    - rewrite arity_stm in AR. assert (A' := A). unfold stmtAt in A'. rewrite A' in AR.
      assert (L0 : length es = 0) by (destruct B as [B|B]; rewrite B in AR; congruence).
      destruct es; [|discriminate]. apply rs_hyp; assumption.
    - rewrite C, app_nil_r. rewrite app_nil_r in C. eapply rs_assert; try eassumption. reflexivity.
  Qed.

  Lemma run_trees p : forall vals stk vals' stk' H S H' S',
    rpnRun db stp vals stk p vals' stk' ->
    prun db H S (map encStep p) = Some (H', S') ->
    Forall2 (tval db stp) H vals -> Forall2 (tval db stp) S stk ->
    Forall2 (tval db stp) H' vals' /\ Forall2 (tval db stp) S' stk'.
  Proof.
    induction p as [|x p IH]; intros vals stk vals' stk' H S H' S' R E FH FS.
    - inversion R; subst. inversion E; subst. auto.
    - inversion R as [|? ? ? ? e stk1 ? ? R1 R2]; subst. cbn [map prun] in E. rewrite encStep_ref in E.
      destruct x as [|i|n].
      + inversion R1.
      + rewrite refOf_loc in E. destruct (nth_error H i) as [t|] eqn:N; [|discriminate].
        inversion R1 as [|? ? NV|]; subst.
        assert (Vt : tval db stp t e).
        { clear -FH N NV. revert i N NV. induction FH; intros [|i] N NV; simpl in *; try discriminate.
          - inversion N; inversion NV; subst. assumption.
          - eapply IHFH; eassumption. }
        eapply IH; [exact R2|exact E|apply Forall2_app; [exact FH|constructor; [exact Vt|constructor]]
                   |constructor; assumption].
      + destruct (step_split _ _ _ _ _ R1 I) as [es [rest [A1 [A2 [A3 A4]]]]]. rewrite A1 in E.
        destruct (length es <=? length S) eqn:LE; [|discriminate].
        subst stk stk1.
        assert (F1 : Forall2 (tval db stp) (firstn (length es) S) (rev es)).
        { rewrite <- (firstn_app_exact (rev es) rest), rev_length. apply Forall2_firstn. exact FS. }
        assert (F2 : Forall2 (tval db stp) (skipn (length es) S) rest).
        { rewrite <- (skipn_app_exact (rev es) rest), rev_length. apply Forall2_skipn. exact FS. }
        assert (Vt : tval db stp (Node (encStep (Stm n)) (rev (firstn (length es) S))) e).
        { apply tv_node with (es := es).
          - rewrite <- (rev_involutive es) at 2. apply Forall2_rev'. exact F1.
          - rewrite codeOf_enc. exact A4. }
        eapply IH; [exact R2|exact E|apply Forall2_app; [exact FH|constructor; [exact Vt|constructor]]
                   |constructor; assumption].
  Qed.

  Lemma trees_run p : forall vals stk H S H' S',
    prun db H S (map encStep p) = Some (H', S') ->
    Forall2 (tval db stp) H vals -> Forall2 (tval db stp) S stk ->
    (forall v, In v S' -> exists e, tval db stp v e) ->
    exists vals' stk', rpnRun db stp vals stk p vals' stk'.
  Proof.
    induction p as [|x p IH]; intros vals stk H S H' S' E FH FS FV.
    - exists vals, stk. constructor.
    - cbn [map prun] in E. rewrite encStep_ref in E.
      assert (VS : forall H1 T S1, prun db H1 (T :: S1) (map encStep p) = Some (H', S') ->
                   exists e, tval db stp T e).
      { intros H1 T S1 E1. destruct (prun_sub db _ _ _ _ _ E1 T (or_introl eq_refl)) as [v [V1 V2]].
        destruct (FV v V1) as [e V]. eapply tval_sub; eassumption. }
      assert (GEN : forall H1 T S1 x0, notLoc x0 -> x0 = x ->
         forall n, arity db (encStep x0) = Some n -> n <= length S -> T = Node (encStep x0) (rev (firstn n S)) ->
         S1 = skipn n S -> H1 = H ++ [T] -> prun db H1 (T :: S1) (map encStep p) = Some (H', S') ->
         exists vals' stk', rpnRun db stp vals stk (x :: p) vals' stk').
      { intros H1 T S1 x0 NL -> n A LE ET ES1 EH1 E1. destruct (VS _ _ _ E1) as [e V].
        assert (V' := V). rewrite ET in V'. inversion V' as [? ? es ? F1 R1]; subst z kids.
        rewrite codeOf_enc in R1.
        assert (Les : length es = n).
        { apply Forall2_len in F1. rewrite rev_length, firstn_length in F1. lia. }
        assert (Ees : rev es = firstn n stk).
        { assert (G : Forall2 (tval db stp) (firstn n S) (rev es)).
          { rewrite <- (rev_involutive (firstn n S)). apply Forall2_rev'. exact F1. }
          assert (G' : Forall2 (tval db stp) (firstn n S) (firstn n stk)) by (apply Forall2_firstn; exact FS).
          clear -G G' WF. revert G G'. generalize (firstn n S) (rev es) (firstn n stk).
          induction l as [|t l IHl]; intros a b G G'; inversion G; subst; inversion G'; subst; [reflexivity|].
          f_equal; [eapply tval_det; eassumption|]. apply IHl; assumption. }
        assert (ST : stk = rev es ++ skipn n stk) by (rewrite Ees, firstn_skipn; reflexivity).
        destruct (IH (vals ++ [e]) (e :: skipn n stk) H1 (T :: S1) H' S' E1) as [v' [s' R]].
        - subst H1. apply Forall2_app; [exact FH|constructor; [exact V|constructor]].
        - constructor; [exact V|]. subst S1. apply Forall2_skipn. exact FS.
        - exact FV.
        - exists v', s'. econstructor; [|exact R]. rewrite ST at 1. apply step_join; [exact R1|exact NL|].
          rewrite A. f_equal. symmetry. exact Les. }
      destruct x as [|i|n].
      + destruct (arity db (encStep Unk)) as [m|] eqn:A; [|discriminate].
        destruct (m <=? length S) eqn:LE; [|discriminate]. apply Nat.leb_le in LE.
        eapply (GEN _ _ _ Unk I); [reflexivity|exact A|exact LE|reflexivity|reflexivity|reflexivity|exact E].
      + rewrite refOf_loc in E. destruct (nth_error H i) as [t|] eqn:N; [|discriminate].
        destruct (VS _ _ _ E) as [e V].
        assert (NV : nth_error vals i = Some e).
        { clear -FH N V WF. revert i N. induction FH; intros [|i] N; simpl in *; try discriminate.
          - inversion N; subst. f_equal. eapply tval_det; eassumption.
          - auto. }
        destruct (IH (vals ++ [e]) (e :: stk) _ _ H' S' E) as [v' [s' R]].
        * apply Forall2_app; [exact FH|constructor; [exact V|constructor]].
        * constructor; assumption.
        * exact FV.
        * exists v', s'. econstructor; [|exact R]. apply rs_loc. exact NV.
      + destruct (arity db (encStep (Stm n))) as [m|] eqn:A; [|discriminate].
        destruct (m <=? length S) eqn:LE; [|discriminate]. apply Nat.leb_le in LE.
        eapply (GEN _ _ _ (Stm n) I); [reflexivity|exact A|exact LE|reflexivity|reflexivity|reflexivity|exact E].
  Qed.

  Lemma valid_tval p t : denotes db (map encStep p) t ->
    (validProof db stp p <-> tval db stp t (s_math stp)).
  Proof.
    intros [H E]. split.
    - intros [vals R]. destruct (run_trees _ _ _ _ _ _ _ _ _ R E) as [_ F]; try constructor.
      inversion F; subst. assumption.
    - intros V. destruct (trees_run _ [] [] _ _ _ _ E) as [vals [stk R]]; try constructor.
      { intros v [<-|[]]. eauto. }
      destruct (run_trees _ _ _ _ _ _ _ _ _ R E) as [_ F]; try constructor.
      inversion F as [|? e' ? l' V' F']; subst. inversion F'; subst.
      exists vals. rewrite (tval_det t _ _ V V'). exact R.
  Qed.

  Theorem same_tree_same_validity p q t :
    denotes db (map encStep p) t -> denotes db (map encStep q) t ->
    (validProof db stp p <-> validProof db stp q).
  Proof. intros Hp Hq. rewrite (valid_tval p t Hp), (valid_tval q t Hq). reflexivity. Qed.
End V.
