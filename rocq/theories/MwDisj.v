(* MwDisj.v -- proofs about VerModel: if every step of a proof follows from the ones before,
   $d violations are the only errors that can be reported *)
From Coq Require Import ZifyBool ZifyNat.
From Verif Require Import Base MMSpec VerModel VerSpec VerStep VerProofs ParModel ParSpec SqModel SqSpec SqProofs SqAttr SqPack SqValid SqGood PfaModel PfaSpec PfaProofs PfaValid AkSpec.
Open Scope nat_scope.

Definition nd (st : stmtRec) : stmtRec := mkStmt (s_type st) (s_math st) (s_reqHyps st) (s_optHyps st) (s_reqVars st) [] [].

Section Nd.
  Variable db : dbase.
  Hypothesis WF : wf_db db.
  Definition db0 : dbase := mkDb (db_isvar db) (db_sep db) (map nd (db_stmts db)).

  Lemma nd_at n st0 : stmtAt db0 n st0 -> exists st, stmtAt db n st /\ st0 = nd st.
  Proof. unfold stmtAt. cbn [db0 db_stmts]. rewrite nth_error_map. destruct nth_error as [st|]; [|discriminate]. cbn [option_map]. intros H. injection H as <-. eauto. Qed.
  Lemma at_nd n st : stmtAt db n st -> stmtAt db0 n (nd st).
  Proof. unfold stmtAt. cbn [db0 db_stmts]. rewrite nth_error_map. intros ->. reflexivity. Qed.
  Lemma wf_nd : wf_db db0.
  Proof.
    destruct WF as [W1 W2 W3 W4 W5 W6 W7 W8 W9]. constructor; cbn [db0 db_isvar db_sep].
    - exact W1.
    - intros n st0 S. apply nd_at in S. destruct S as [st [S ->]]. exact (W2 n st S).
    - intros n st0 S K. apply nd_at in S. destruct S as [st [S ->]]. exact (W3 n st S K).
    - intros n st0 h S K I. apply nd_at in S. destruct S as [st [S ->]]. destruct (W4 n st h S K I) as [sh [S1 S2]]. exists (nd sh). split; [exact (at_nd _ _ S1)|exact S2].
    - intros n st0 S K. apply nd_at in S. destruct S as [st [S ->]]. exact (W5 n st S K).
    - intros n st0 S K t. apply nd_at in S. destruct S as [st [S ->]]. cbn [nd s_reqVars s_reqHyps]. rewrite (W6 n st S K t). split; intros [V [h [sh [A [B C]]]]]; (split; [exact V|]).
      + exists h, (nd sh). split; [exact A|]. split; [exact (at_nd _ _ B)|exact C].
      + apply nd_at in B. destruct B as [sh' [B ->]]. exists h, sh'. auto.
    - intros n st0 S K. apply nd_at in S. destruct S as [st [S ->]]. exact (W7 n st S K).
    - intros n st0 S K x y I. apply nd_at in S. destruct S as [st [S ->]]. destruct I.
    - intros n st0 S x y I. apply nd_at in S. destruct S as [st [S ->]]. destruct I as [[]|[]].
  Qed.
  Lemma unif_nd st es sg : unifier db st es sg -> unifier db0 (nd st) es sg.
  Proof.
    unfold unifier. cbn [nd s_reqHyps]. induction 1 as [|h e l l' [sh [S1 S2]] F IH]; constructor; [exists (nd sh); split; [exact (at_nd _ _ S1)|exact S2]|exact IH].
  Qed.
  Lemma floated_nd st : floated db st -> floated db0 (nd st).
  Proof. intros H t I. destruct (H t I) as [h [sh [c [A [B [C D]]]]]]. exists h, (nd sh), c. split; [exact A|]. split; [exact (at_nd _ _ B)|]. split; [exact C|exact D]. Qed.
  Lemma tval_nd stp t : forall e, shows db anything t e -> tval db0 (nd stp) t e.
  Proof.
    induction t as [z kids IH] using tree_ind2. intros e SH. inversion SH as [h sh H1 H2 H3 E1 E2|n st kids' xs sg H1 H2 H3 H4 H5 H6 _ E1 E2]; subst.
    - apply (tval_hyp db0 (nd stp) (Z.of_nat h) (nd sh)); [lia|rewrite Nat2Z.id; exact (at_nd _ _ H2)|exact H3].
    - apply (tval_assert db0 wf_nd (nd stp) (Z.of_nat n) (nd st) kids xs sg); [lia|rewrite Nat2Z.id; exact (at_nd _ _ H2)|exact H3|exact (floated_nd _ H4)| |exact (unif_nd _ _ _ H6)|intros x y []].
      clear -IH H5. induction H5 as [|k y l l' X F IHF]; constructor; inversion IH; subst; auto.
  Qed.
  Lemma arity_nd z : arity db0 z = arity db z.
  Proof. unfold arity. cbn [db0 db_stmts]. rewrite nth_error_map. destruct (_ <? 0)%Z; [reflexivity|]. destruct nth_error as [st|]; [|reflexivity]. reflexivity. Qed.
  Lemma prun_nd : forall p H S, prun db0 H S p = prun db H S p.
  Proof.
    induction p as [|z p IH]; intros H S; [reflexivity|]. cbn [prun]. rewrite arity_nd. destruct (isRef z); [destruct nth_error; [apply IH|reflexivity]|]. destruct (arity db z); [|reflexivity]. destruct (_ <=? _); [apply IH|reflexivity].
  Qed.
  Lemma denotes_nd p t : denotes db p t -> denotes db0 p t.
  Proof. intros [H E]. exists H. rewrite prun_nd. exact E. Qed.

  (* the verifier *)
  Lemma bigHyps_nd : forall hs is, bigHyps db0 hs is = bigHyps db hs is.
  Proof.
    induction hs as [|h hs IH]; intros [|i is]; try reflexivity. cbn [bigHyps]. rewrite IH. destruct (bigHyps db hs is) as [[[sc ins] unk]| | |]; try reflexivity. cbn [rbind]. destruct i; [reflexivity|].
    cbn [db0 db_stmts]. rewrite nth_error_map. destruct nth_error; reflexivity.
  Qed.
  Lemma dvCheck_disj isvar step vars inst asg req opt : forall pairs ds, dvCheck isvar step vars inst asg req opt pairs = Ok ds -> forall d, In d ds -> isDisj d.
  Proof.
    assert (HP : forall x y a b r o d, In d (dvPair step x y a b r o) -> isDisj d).
    { intros x y a b r o d. unfold dvPair. destruct (Nat.eqb a b); [intros [<-|[]]; exact I|]. destruct (_ || _); [intros []|intros [<-|[]]; exact I]. }
    assert (HB : forall x y a r o bs d, In d (dvScanB isvar step x y a r o bs) -> isDisj d).
    { intros x y a r o bs d Hc. unfold dvScanB in Hc. apply in_flat_map in Hc. destruct Hc as [b [_ Hc]]. destruct (isvar b); [eapply HP; eauto|destruct Hc]. }
    induction pairs as [|[x y] pairs IH]; intros ds H d Hc; simpl in H.
    - injection H as <-. destruct Hc.
    - destruct (indexOf x vars); [|discriminate]. destruct (indexOf y vars); [|discriminate].
      destruct (asgGet asg n) as [[? ?]|]; [|discriminate]. destruct (asgGet asg n0) as [[? ?]|]; [|discriminate].
      apply rbind_ok in H. destruct H as [rest [H1 H2]]. injection H2 as <-.
      apply in_app_or in Hc. destruct Hc as [Hc|Hc]; [|eapply IH; eauto].
      unfold dvScanA in Hc. apply in_flat_map in Hc. destruct Hc as [a [_ Hc]].
      destruct (isvar a); [|destruct Hc]. destruct (_ <? _); eapply HB; eauto.
  Qed.
  Lemma assign_nd fuel sc ins n ss stp step unk err r ds err' : assignVar fuel db sc ins n ss stp step unk err = Ok (r, ds, err') ->
    exists ds0, assignVar fuel db0 sc ins n (nd ss) (nd stp) step unk err = Ok (r, ds0, err') /\ forall d, In d ds -> isDisj d \/ In d ds0.
  Proof.
    unfold assignVar. change (db_isvar db0) with (db_isvar db). change (db_sep db0) with (db_sep db). cbn [nd s_reqVars s_math s_reqDisj s_optDisj dvCheck]. intros H.
    destruct (negb _). { exists ds. split; [exact H|auto]. }
    apply rbind_ok in H. destruct H as [o [H1 H]]. rewrite H1. cbn [rbind]. destruct o as [s0|]; [|exists ds; split; [exact H|auto]].
    destruct (negb _); [discriminate|]. apply rbind_ok in H. destruct H as [dv [Hdv H]]. apply rbind_ok in H. destruct H as [res0 [H2 H]]. rewrite H2. cbn [rbind].
    assert (Hg : forall d, In d (gated err dv) -> isDisj d). { destruct err; [exact (dvCheck_disj _ _ _ _ _ _ _ _ _ Hdv)|intros d []]. }
    apply rbind_ok in H. destruct H as [o [H3 H]]. rewrite H3. cbn [rbind]. destruct o as [s1|]; [|injection H as <- <- <-; eexists; split; [reflexivity|auto]].
    apply rbind_ok in H. destruct H as [o [H4 H]]. rewrite H4. cbn [rbind]. destruct o as [s2|]; [|injection H as <- <- <-; eexists; split; [reflexivity|auto]].
    destruct (negb _); [discriminate|]. destruct unk; [injection H as <- <- <-; eexists; split; [reflexivity|auto]|].
    apply rbind_ok in H. destruct H as [r2 [H5 H]]. rewrite H5. cbn [rbind]. injection H as <- <- <-. eexists. split; [reflexivity|]. intros d I. apply in_app_or in I. destruct I as [I|I]; [left; exact (Hg d I)|right]. apply in_or_app. right. exact I.
  Qed.
  Definition similar (v v0 : vst) : Prop := v_maths v = v_maths v0 /\ v_stack v = v_stack v0 /\ v_err v = v_err v0 /\ v_flag v = v_flag v0 /\ forall d, In d (v_diags v) -> isDisj d \/ In d (v_diags v0).
  Lemma step_nd fuel stp ns v v0 x v' : similar v v0 -> verifyStep fuel db stp ns v x = Ok v' -> exists v0', verifyStep fuel db0 (nd stp) ns v0 x = Ok v0' /\ similar v' v0'.
  Proof.
    intros [S1 [S2 [S3 [S4 S5]]]] H. destruct v as [m k dg e f]. destruct v0 as [m0 k0 dg0 e0 f0]. cbn [v_maths v_stack v_err v_flag v_diags] in *. subst m0 k0 e0 f0. unfold verifyStep in *. cbn [v_maths v_stack v_err v_flag v_diags] in *.
    destruct x as [|i|n].
    - injection H as <-. eexists. split; [reflexivity|]. repeat split; auto.
    - apply rbind_ok in H. destruct H as [y [H1 H]]. rewrite H1. cbn [rbind]. injection H as <-. eexists. split; [reflexivity|]. repeat split; auto.
    - cbn [db0 db_stmts]. rewrite nth_error_map. apply rbind_ok in H. destruct H as [st [H1 H]]. destruct (nth_error (db_stmts db) n) as [st1|]; [|discriminate H1]. injection H1 as ->. cbn [option_map rget rbind nd s_type s_reqHyps s_math] in *.
      destruct (s_type st); try discriminate H; try (injection H as <-; eexists; split; [reflexivity|]; repeat split; auto).
      all: destruct (_ <? _); [discriminate H|]; apply rbind_ok in H; destruct H as [insts [H1 H]]; rewrite H1; cbn [rbind]; change (mkDb _ _ (map nd (db_stmts db))) with db0; rewrite bigHyps_nd;
        apply rbind_ok in H; destruct H as [[[sc ins] unk] [H2 H]]; rewrite H2; cbn [rbind]; apply rbind_ok in H; destruct H as [[[r ds] err'] [H3 H]]; destruct (assign_nd _ _ _ _ _ _ _ _ _ _ _ _ H3) as [ds0 [H4 DD]];
        change (db_sep db0) with (db_sep db); unfold nd in H4 at 1; unfold nd in H4; unfold nd; rewrite H4; cbn [rbind]; injection H as <-; eexists; (split; [reflexivity|]); repeat split; auto;
        cbn [v_diags]; intros d I; apply in_app_or in I; destruct I as [I|I]; [destruct (S5 d I)|destruct (DD d I)]; auto; right; apply in_or_app; auto.
  Qed.
  Lemma steps_nd fuel stp ns : forall l v v0 v', similar v v0 -> verifySteps fuel db stp ns v l = Ok v' -> exists v0', verifySteps fuel db0 (nd stp) ns v0 l = Ok v0' /\ similar v' v0'.
  Proof.
    induction l as [|x l IH]; intros v v0 v' S H; cbn [verifySteps] in *; [apply Ok_inj in H; subst v'; exists v0; auto|]. apply rbind_ok in H. destruct H as [v1 [H1 H]]. destruct (step_nd _ _ _ _ _ _ _ S H1) as [v2 [H2 S2]]. rewrite H2. cbn [rbind]. exact (IH _ _ _ S2 H).
  Qed.
  Lemma verify_nd fuel k p sev err0 st ds err : verifyProof fuel db k p sev err0 = Ok (st, ds, err) -> exists ds0, verifyProof fuel db0 k p sev err0 = Ok (st, ds0, err) /\ forall d, In d ds -> isDisj d \/ In d ds0.
  Proof.
    unfold verifyProof. intros H. apply rbind_ok in H. destruct H as [stp [H1 H]]. cbn [db0 db_stmts]. rewrite nth_error_map. destruct (nth_error (db_stmts db) k) as [st1|]; [|discriminate H1]. injection H1 as ->. cbn [option_map rget rbind nd s_type s_math].
    destruct (s_type stp); try (exists ds; split; [exact H|auto]; fail). destruct (2 <? sev); [exists ds; split; [exact H|auto]|]. destruct p as [|x l]; [exists ds; split; [exact H|auto]|].
    apply rbind_ok in H. destruct H as [v [H1 H]]. destruct (steps_nd fuel stp _ _ _ (mkVst [] [] [] err0 0) _ (ltac:(repeat split; auto)) H1) as [v0 [H2 [S1 [S2 [S3 [S4 S5]]]]]]. change (mkDb _ _ (map nd (db_stmts db))) with db0. rewrite H2. cbn [rbind]. rewrite <- S1, <- S2, <- S3, <- S4.
    destruct (negb _); [discriminate H|]. apply rbind_ok in H. destruct H as [lst [H3 H]]. rewrite H3. cbn [rbind]. destruct (_ && _); injection H as <- <- <-; eexists; (split; [reflexivity|]); [|exact S5].
    intros d I. apply in_app_or in I. destruct I as [I|I]; [destruct (S5 d I); [auto|right; apply in_or_app; auto]|right; apply in_or_app; auto].
  Qed.

  Lemma shown_valid k stp p t sev fuel st ds err : stmtAt db k stp -> s_type stp = S_p -> sev <= 2 -> denotes db (map encStep p) t -> shows db anything t (s_math stp) ->
    verifyProof fuel db k p sev 0 = Ok (st, ds, err) -> (forall d, In d ds -> ~ isDisj d) -> validProof db stp p.
  Proof.
    intros HS HP SV DE SH HV ND. destruct (verify_nd _ _ _ _ _ _ _ _ HV) as [ds0 [H0 DD]].
    assert (V0 : validProof db0 (nd stp) p) by (apply (valid_tval db0 (nd stp) wf_nd p t (denotes_nd _ _ DE)); exact (tval_nd stp t _ SH)).
    destruct (valid_accepted db0 k (nd stp) p sev wf_nd (at_nd _ _ HS) HP SV V0) as [F HF].
    destruct (HF (Nat.max fuel F) ltac:(lia)) as [err1 H1]. apply (verifyProof_mono fuel (Nat.max fuel F)) in H0; [|lia|discriminate]. rewrite H0 in H1. injection H1 as -> -> ->.
    assert (ds = []) as ->. { destruct ds as [|d ds]; [reflexivity|]. destruct (DD d (or_introl eq_refl)) as [X|[]]. destruct (ND d (or_introl eq_refl) X). }
    destruct (verify_sound db WF _ _ _ _ _ (proj2 (validProof_wf _ _ _ V0)) HV) as [stp' [S1 [_ S3]]]. unfold stmtAt in HS, S1. rewrite HS in S1. injection S1 as <-. exact S3.
  Qed.
End Nd.
