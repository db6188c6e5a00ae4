(* FltVal.v -- proofs about FltModel: the proofs found are valid proofs *)
From Coq Require Import ZifyBool ZifyNat.
From Verif Require Import SrcProofs Base MMSpec VerModel VerSpec ParModel ParSpec SqModel SqSpec SqProofs SqAttr SqPack SqValid SqGood VerStep VerProofs PfaModel PfaSpec PfaProofs PfaMore PfaExpand PfaValid FltModel FltSpec.
Open Scope nat_scope.

Lemma run_of_tval db stp p t e : wf_db db -> denotes db (map encStep p) t -> tval db stp t e -> exists vals, rpnRun db stp [] [] p vals [e].
Proof.
  intros WF [H E] V. destruct (trees_run db stp WF _ [] [] _ _ _ _ E) as [vals [stk R]]; try constructor.
  { intros v [<-|[]]. eauto. }
  destruct (run_trees db stp _ _ _ _ _ _ _ _ _ R E) as [_ F]; try constructor.
  inversion F as [|? e' ? l' V' F']; subst. inversion F'; subst.
  exists vals. rewrite (tval_det db stp WF t _ _ V V'). exact R.
Qed.
Lemma sub_in T k path u : nodeAt T k path u -> forall z, In z (rpn u) -> In z (rpn T).
Proof. intros N z I. destruct (node_split _ _ _ _ N) as [a [b [-> _]]]. apply in_or_app. right. apply in_or_app. left. exact I. Qed.
Lemma sub_wf db T k path u : nodeAt T k path u -> wfTree db T -> wfTree db u.
Proof. induction 1 as [t|z kids j c k path u Nk Q IH]; intros W; [exact W|]. apply IH. apply wf_node in W. destruct W as [_ W]. rewrite Forall_forall in W. apply W. eapply nth_error_In. exact Nk. Qed.

Section V.
  Variables (E : fenv) (T : option tree) (stn : stmtRec).
  Hypothesis FO : fltOk E T.
  Hypothesis HN : stmtAt (f_db E) (f_n E) stn.
  Hypothesis CODES : forall z, In z (f_pf E) -> (0 <= z)%Z \/ z = zUnk.
  Notation db := (f_db E).
  Let WD := fo_wf E T FO.

  Lemma proves_shape t : forall e, proves E T t e -> wfTree db t /\ forall z, In z (rpn t) -> (0 <= z)%Z.
  Proof.
    induction t as [z kids IH] using tree_ind2. intros e P. inversion P as [h sh O1 O2 O3 O4|t k path u e' O1 O2 O3 O4 O5 O6|s st kids' es sg U F UN O3 O4]; subst.
    - split; [|intros x [<-|[]]; lia]. constructor; [|constructor]. unfold arity. replace (Z.of_nat h <? 0)%Z with false by lia. rewrite Nat2Z.id. unfold stmtAt in O2. rewrite O2.
      destruct (fo_hyps E _ FO h O1) as [sh' [K1 K2]]. unfold stmtAt in K1. rewrite O2 in K1. injection K1 as <-. destruct K2 as [-> | ->]; reflexivity.
    - pose proof (fo_pip E _ FO) as [P1 [P2 _]]. split; [exact (sub_wf _ _ _ _ _ O2 P1)|]. intros x I. destruct (CODES x) as [C|C]; [rewrite P2; exact (sub_in _ _ _ _ O2 x I)|exact C|]. subst x. destruct (O3 I).
    - assert (K : Forall (fun t => wfTree db t /\ forall x, In x (rpn t) -> (0 <= x)%Z) kids).
      { rewrite Forall_forall in *. intros c I. assert (exists e', proves E T c e') as [e' Q]; [|exact (IH c I e' Q)]. clear -F I. induction F as [|k y l l' X F IHF]; [destruct I|]. destruct I as [<-|I]; [eauto|exact (IHF I)]. }
      rewrite Forall_forall in K. split.
      + constructor; [|rewrite Forall_forall; intros c I; apply (K c I)]. unfold arity. replace (Z.of_nat s <? 0)%Z with false by lia. rewrite Nat2Z.id. pose proof (us_stmt _ _ _ U) as A. unfold stmtAt in A. rewrite A.
        rewrite (Forall2_len _ _ _ F), (unifier_len db st es sg UN). destruct (us_type _ _ _ U) as [-> | ->]; reflexivity.
      + intros x I. cbn [rpn] in I. apply in_app_or in I. destruct I as [I|[<-|[]]]; [|lia]. apply in_flat_map in I. destruct I as [c [I J]]. exact (proj2 (K c I) x J).
  Qed.

  (* every statement that may be used has a $f hypothesis for each variable and no $d
     requirement; the finished parts of the proof in progress are right *)
  Hypothesis FLT : forall s st, usable E s st -> floated db st.
  Hypothesis KNOWN : forall t k path u e, T = Some t -> nodeAt t k path u -> ~ In zUnk (rpn u) -> nth_error (f_tg E) k = Some e -> tval db stn u e.
  Hypothesis ND : f_noDist E = true.
  Lemma proves_tval t : forall e, proves E T t e -> tval db stn t e.
  Proof.
    induction t as [z kids IH] using tree_ind2. intros e P. inversion P as [h sh O1 O2 O3 O4|t k path u e' O1 O2 O3 O4 O5 O6|s st kids' es sg U F UN O3 O4]; subst.
    - destruct (fo_hyps E _ FO h O1) as [sh' [K1 K2]]. unfold stmtAt in K1, O2. rewrite O2 in K1. injection K1 as <-. apply tval_hyp; [lia|rewrite Nat2Z.id; exact O2|exact K2].
    - eapply KNOWN; eauto.
    - apply (tval_assert db WD stn (Z.of_nat s) st kids es sg); [lia|rewrite Nat2Z.id; exact (us_stmt _ _ _ U)|exact (us_type _ _ _ U)|exact (FLT s st U)| |exact UN|].
      + rewrite Forall_forall in IH. clear -IH F. induction F as [|k y l l' X F IHF]; constructor; [apply IH; [left; reflexivity|exact X]|]. apply IHF. intros c I. apply IH. right. exact I.
      + intros x y I. rewrite (us_dist _ _ _ U ND) in I. destruct I.
  Qed.
  Lemma proves_run t e : proves E T t e -> exists q vals, rpn t = map encStep q /\ rpnRun db stn [] [] q vals [e].
  Proof.
    intros P. destruct (proves_shape t e P) as [W C]. exists (map codeOf (rpn t)).
    assert (EN : map encStep (map codeOf (rpn t)) = rpn t).
    { rewrite map_map. rewrite <- map_id. apply map_ext_in. intros z I. rewrite codeOf_nat by (apply C, I). cbn [encStep]. pose proof (C z I). lia. }
    destruct (run_of_tval db stn (map codeOf (rpn t)) t e WD) as [vals R]; [|exact (proves_tval t e P)|exists vals; split; [symmetry; exact EN|exact R]].
    rewrite EN. apply rpn_denotes; [exact W|]. intros z I. unfold isRef. pose proof (C z I). lia.
  Qed.
End V.
