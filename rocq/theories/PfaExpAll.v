(* PfaExpAll.v -- proofs about PfaModel: expandProof and the EXPAND command *)
From Coq Require Import ZifyBool ZifyNat Sorting.Sorted.
From Verif Require Import SrcProofs Base MMSpec VerModel VerSpec ParModel ParSpec SqModel SqSpec SqProofs SqAttr SqPack SqValid SqGood TrcWork StmScope StmTab VerStep VerProofs NmbProofs PfaModel PfaSpec PfaProofs PfaMore PfaExpand PfaValid.
Open Scope nat_scope.

(* a source whose proof EXPAND can insert without leaving gaps *)
Lemma elems db p t z : denotes db (map encStep p) t -> In z (rpn t) -> exists x, In x p /\ z = encStep x /\ (forall i, x <> Loc i).
Proof.
  intros D I. apply (denotes_elems db _ _ D) in I. destruct I as [I R]. apply in_map_iff in I. destruct I as [x [<- I]].
  exists x. split; [exact I|]. split; [reflexivity|]. intros i ->. rewrite encStep_ref in R. discriminate.
Qed.
Lemma elem_stm db p t z : denotes db (map encStep p) t -> In z (rpn t) -> (0 <= z)%Z -> In (Stm (Z.to_nat z)) p.
Proof.
  intros D I Z0. destruct (elems db p t z D I) as [x [A [-> B]]]. destruct x as [|i|n]; cbn [encStep] in *; [unfold zUnk in Z0; lia|exfalso; apply (B i eq_refl)|].
  rewrite Nat2Z.id. exact A.
Qed.
Lemma code_back l : legalCodes l -> noRefs l -> map encStep (map codeOf l) = l.
Proof.
  intros LC NR. rewrite map_map. rewrite <- (map_id l) at 2. apply map_ext_in. intros z I. destruct (LC z I) as [Z0|[-> |Z0]].
  - rewrite codeOf_nat by exact Z0. cbn [encStep]. lia.
  - reflexivity.
  - rewrite (NR z I) in Z0. discriminate.
Qed.

Theorem expand_good db k stp pt src sts sp : wf_db db -> stmtAt db src sts -> s_type sts = S_p ->
  goodProof db k stp pt -> goodProof db src sts sp ->
  (forall h sh, In h (s_optHyps sts) -> stmtAt db h sh -> s_type sh = S_f) ->
  exists T S q F, denotes db (map encStep pt) T /\ denotes db (map encStep sp) S /\
    map encStep q = rpn (expanded db src (s_reqHyps sts) S T) /\
    (forall fuel, F <= fuel -> expandProof fuel db src (map encStep sp) (map encStep pt) = Ok (map encStep q)) /\
    goodProof db k stp q /\ ~ In (Stm src) q /\ (forall i, ~ In (Loc i) q) /\
    (forall m, In (Stm m) q -> In (Stm m) pt \/ (In (Stm m) sp /\ m < src)) /\
    (completeSource db sts sp -> validProof db stp pt -> validProof db stp q).
Proof.
  intros WD SS TP GT GS OF.
  destruct (unpack_tree db k stp pt GT) as [T [DT [WT [NT UT]]]]. destruct (unpack_tree db src sts sp GS) as [S [DS [WS [NS US]]]].
  pose proof (good_legal db k stp pt T GT DT) as LT. pose proof (good_legal db src sts sp S GS DS) as LS.
  assert (EI : essIn db (s_reqHyps sts) (rpn S)).
  { intros z st I Z0 E TE. pose proof (elem_stm db sp S z DS I Z0) as J. destruct (gp_ref _ _ _ _ GS _ J) as [sm [S1 S2]].
    unfold stmtAt in S1. rewrite E in S1. injection S1 as <-. destruct S2 as [[[A|A] _]|[_ [A|A]]]; [congruence|congruence|exact A|].
    specialize (OF _ _ A E). congruence. }
  assert (NSS : ~ In (Z.of_nat src) (rpn S)).
  { intros I. pose proof (elem_stm db sp S _ DS I ltac:(lia)) as J. rewrite Nat2Z.id in J. destruct (gp_ref _ _ _ _ GS _ J) as [sm [S1 S2]].
    unfold stmtAt in *. rewrite SS in S1. injection S1 as <-. destruct S2 as [[_ A]|[[A|A] _]]; [lia|congruence|congruence]. }
  set (E := expanded db src (s_reqHyps sts) S T).
  assert (WE : wfTree db E) by (apply expanded_wf; assumption).
  assert (IN : forall x, In x (rpn E) -> (In x (rpn T) /\ x <> Z.of_nat src) \/ x = zUnk \/
     (In x (rpn S) /\ (0 <= x)%Z /\ exists sx, nth_error (db_stmts db) (Z.to_nat x) = Some sx /\ isAssertion sx)).
  { intros x I. eapply expanded_in; eassumption. }
  assert (LE : legalCodes (rpn E)).
  { intros z I. destruct (IN z I) as [[A _]|[-> |[_ [A _]]]]; [apply LT, A|right; left; reflexivity|left; exact A]. }
  assert (NE : noRefs (rpn E)).
  { intros z I. destruct (IN z I) as [[A _]|[-> |[A _]]]; [apply NT, A|reflexivity|apply NS, A]. }
  set (q := map codeOf (rpn E)).
  assert (EQ : map encStep q = rpn E) by (apply code_back; assumption).
  assert (DE : denotes db (map encStep q) E) by (rewrite EQ; apply rpn_denotes; assumption).
  assert (NL : forall i, ~ In (Loc i) q).
  { intros i I. assert (J : In (encStep (Loc i)) (rpn E)) by (rewrite <- EQ; apply in_map, I). apply NE in J. rewrite encStep_ref in J. discriminate. }
  assert (STM : forall m, In (Stm m) q -> (In (Stm m) pt /\ m <> src) \/
     (In (Stm m) sp /\ exists sm, stmtAt db m sm /\ isAssertion sm)).
  { intros m I. assert (J : In (Z.of_nat m) (rpn E)) by (rewrite <- EQ; apply (in_map encStep _ (Stm m)), I).
    destruct (IN _ J) as [[A B]|[A|[A [B [sx [C D]]]]]].
    - left. pose proof (elem_stm db pt T _ DT A ltac:(lia)) as K. rewrite Nat2Z.id in K. split; [exact K|lia].
    - unfold zUnk in A. lia.
    - right. pose proof (elem_stm db sp S _ DS A ltac:(lia)) as K. rewrite Nat2Z.id in K, C. split; [exact K|]. exists sx. auto. }
  exists T, S, q, (Nat.max (2 * sz S + 1) (Nat.max (2 * sz T + 1) (wgt src S T + 1))).
  split; [exact DT|]. split; [exact DS|]. split; [exact EQ|]. split.
  { intros fuel Hf. unfold expandProof. rewrite US by lia. cbn [rbind]. rewrite UT by lia. cbn [rbind].
    unfold stmtAt in SS. rewrite SS. cbn [rget rbind]. rewrite TP. rewrite EQ. unfold E. apply expandLoop_ok; auto. lia. }
  assert (SRC : forall m, In (Stm m) sp -> (exists sm, stmtAt db m sm /\ isAssertion sm) -> m < src).
  { intros m I [sm [A B]]. destruct (gp_ref _ _ _ _ GS m I) as [sm' [S1 S2]]. unfold stmtAt in *. rewrite A in S1. injection S1 as <-.
    destruct S2 as [[_ S2]|[S2 _]]; [exact S2|]. destruct B as [B|B]; destruct S2 as [S2|S2]; congruence. }
  split.
  { destruct (DE) as [H2 D2]. destruct (prun_balanced db _ _ _ _ _ D2) as [B1 B2]. constructor.
    - split; [exact B1|]. intros j i N. exfalso. apply (NL i). eapply nth_error_In. exact N.
    - intros j i N. exfalso. apply (NL i). eapply nth_error_In. exact N.
    - intros m I. destruct (STM m I) as [[A _]|[A [sm [B C]]]]; [apply (gp_ref _ _ _ _ GT), A|].
      exists sm. split; [exact B|]. left. split; [exact C|]. pose proof (SRC m A ltac:(eauto)) as L.
      (* src is used in pt, otherwise nothing was inserted *)
      destruct (in_dec Z.eq_dec (Z.of_nat src) (rpn T)) as [U|U].
      + pose proof (elem_stm db pt T _ DT U ltac:(lia)) as K. rewrite Nat2Z.id in K. destruct (gp_ref _ _ _ _ GT _ K) as [sm' [S1 S2]].
        unfold stmtAt in *. rewrite SS in S1. injection S1 as <-. destruct S2 as [[_ S2]|[[S2|S2] _]]; [lia|congruence|congruence].
      + assert (ET : E = T) by (unfold E; apply expanded_id; exact U).
        assert (J : In (Z.of_nat m) (rpn T)) by (rewrite <- ET, <- EQ; apply (in_map encStep _ (Stm m)), I).
        pose proof (elem_stm db pt T _ DT J ltac:(lia)) as K. rewrite Nat2Z.id in K. destruct (gp_ref _ _ _ _ GT _ K) as [sm' [S1 S2]].
        unfold stmtAt in *. rewrite B in S1. injection S1 as <-. destruct S2 as [[_ S2]|[S2 _]]; [exact S2|].
        destruct C as [C|C]; destruct S2 as [S2|S2]; congruence. }
  split.
  { intros I. destruct (STM src I) as [[_ A]|[A B]]; [apply A; reflexivity|]. pose proof (SRC src A B). lia. }
  split; [exact NL|]. split.
  { intros m I. destruct (STM m I) as [[A _]|[A B]]; [left; exact A|right; split; [exact A|apply SRC; assumption]]. }
  intros [V1 V2 V3 V4] VT. apply (valid_tval db stp WD q E DE). apply (valid_tval db stp WD pt T DT) in VT. apply (valid_tval db sts WD sp S DS) in V1.
  unfold E. apply (expanded_val db WD stp sts src S); auto. split; [exact WS|]. split; [exact LS|]. split; [exact NS|].
  intros z st I Z0 Ez. pose proof (elem_stm db sp S z DS I Z0) as J. split; intros A; [eapply V2|eapply V3]; eassumption.
Qed.

(* EXPAND over a list of sources, highest number first *)
Theorem expand_all_good db k stp (stm : nat -> stmtRec) (sp : nat -> list pstep) : wf_db db ->
  forall ss, StronglySorted (fun a b => b < a) ss ->
  (forall m, In m ss -> stmtAt db m (stm m) /\ s_type (stm m) = S_p /\ goodProof db m (stm m) (sp m) /\
     forall h sh, In h (s_optHyps (stm m)) -> stmtAt db h sh -> s_type sh = S_f) ->
  forall pt, goodProof db k stp pt ->
  exists q F, (forall fuel, F <= fuel -> expandAll fuel db (fun m => map encStep (sp m)) ss (map encStep pt) = Ok (map encStep q)) /\
    goodProof db k stp q /\ (forall m, In m ss -> ~ In (Stm m) q) /\
    (forall m, In (Stm m) q -> In (Stm m) pt \/ exists n, In n ss /\ In (Stm m) (sp n) /\ m < n) /\
    ((forall m, In m ss -> completeSource db (stm m) (sp m)) -> validProof db stp pt -> validProof db stp q).
Proof.
  intros WD. induction ss as [|m ss IH]; intros SR HS pt GT.
  - exists pt, 0. split; [reflexivity|]. split; [exact GT|]. split; [intros m []|]. split; [auto|auto].
  - inversion SR as [|? ? SR1 SR2]; subst. destruct (HS m (or_introl eq_refl)) as [H1 [H2 [H3 H4]]].
    destruct (expand_good db k stp pt m (stm m) (sp m) WD H1 H2 GT H3 H4) as [T [S [q1 [F1 [_ [_ [_ [E1 [G1 [N1 [_ [C1 V1]]]]]]]]]]]].
    destruct (IH SR1 (fun x I => HS x (or_intror I)) q1 G1) as [q [F2 [E2 [G2 [N2 [C2 V2]]]]]].
    exists q, (Nat.max F1 F2). split.
    { intros fuel Hf. cbn [expandAll]. rewrite E1 by lia. cbn [rbind]. apply E2. lia. }
    split; [exact G2|]. split.
    { intros x [<-|I] J; [|exact (N2 x I J)]. destruct (C2 m J) as [A|[n [A1 [_ A2]]]]; [exact (N1 A)|].
      rewrite Forall_forall in SR2. specialize (SR2 n A1). lia. }
    split.
    { intros x J. destruct (C2 x J) as [A|[n [A1 A2]]]; [|right; exists n; split; [right; exact A1|exact A2]].
      destruct (C1 x A) as [B|B]; [left; exact B|right; exists m; split; [left; reflexivity|exact B]]. }
    intros CS VT. apply V2; [intros x I; apply CS; right; exact I|]. apply V1; [apply CS; left; reflexivity|exact VT].
Qed.
