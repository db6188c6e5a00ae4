(* PfaMore.v -- proofs about PfaModel: independent steps, DELETE STEP, DELETE
   FLOATING_HYPOTHESES, ASSIGN *)
From Coq Require Import ZifyBool ZifyNat.
From Verif Require Import Base VerModel VerSpec ParModel SqModel SqSpec SqProofs SqAttr SqGood TrcWork StmScope StmTab VerStep NmbProofs PfaModel PfaSpec PfaProofs.
Open Scope nat_scope.

(* ---------- independent steps ---------- *)
Lemma contains_iff T k path u ref : nodeAt T k path u -> (contains T k ref <-> k + 1 - sz u <= ref <= k).
Proof.
  intros N. split.
  - intros [p [w [M R]]]. destruct (nodeAt_unique _ _ _ _ N _ _ M) as [-> ->]. exact R.
  - intros R. exists path, u. auto.
Qed.
Lemma existsb_false_range fl a n : (forall i, a <= i < a + n -> nth_error fl i = Some false) ->
  existsb (fun b => b) (firstn n (skipn a fl)) = false.
Proof.
  intros H. destruct (existsb (fun b => b) (firstn n (skipn a fl))) eqn:E; [|reflexivity]. apply existsb_exists in E.
  destruct E as [x [I ->]]. apply In_nth_error in I. destruct I as [i I].
  assert (i < n). { assert (X : i < length (firstn n (skipn a fl))) by (apply nth_error_Some; congruence). rewrite firstn_length in X. lia. }
  rewrite nth_error_firstn_lt in I by lia. rewrite nth_error_skipn_add in I. rewrite H in I by lia. discriminate.
Qed.
Lemma setRange_nth a n fl i : a + n <= length fl -> nth_error (setRange a n fl) i =
  if (a <=? i) && (i <? a + n) then Some true else nth_error fl i.
Proof.
  intros L. unfold setRange. assert (La : length (firstn a fl) = a) by (rewrite firstn_length; lia).
  destruct (a <=? i) eqn:E1; cbn [andb].
  - rewrite nth_error_app2 by lia. rewrite La. destruct (i <? a + n) eqn:E2.
    + rewrite nth_error_app1 by (rewrite repeat_length; lia). apply nth_error_repeat. lia.
    + rewrite nth_error_app2 by (rewrite repeat_length; lia). rewrite repeat_length, nth_error_skipn_add. f_equal. lia.
  - rewrite nth_error_app1 by lia. apply nth_error_firstn_lt. lia.
Qed.
Lemma setRange_len a n fl : a + n <= length fl -> length (setRange a n fl) = length fl.
Proof. intros L. unfold setRange. rewrite !app_length, firstn_length, repeat_length, skipn_length. lia. Qed.

Lemma indepLoop_ok db T ref : wfTree db T -> ref < sz T -> forall fuel e fl, e <= fuel -> e <= sz T -> length fl = sz T ->
  (forall i, i < e -> nth_error fl i = Some false) ->
  (forall i, e <= i < sz T -> exists b, nth_error fl i = Some b /\ (b = true <-> ~ contains T i ref)) ->
  exists fl', indepLoop fuel db (rpn T) ref e fl = Ok fl' /\ length fl' = sz T /\
    forall i, i < sz T -> exists b, nth_error fl' i = Some b /\ (b = true <-> ~ contains T i ref).
Proof.
  intros W R. induction fuel as [|f IH]; intros e fl Hf He L F0 F1.
  - assert (e = 0) by lia. subst e. exists fl. split; [reflexivity|]. split; [exact L|]. intros i Hi. apply F1. lia.
  - destruct e as [|k]; [exists fl; split; [reflexivity|]; split; [exact L|]; intros i Hi; apply F1; lia|].
    cbn [indepLoop]. destruct (nodeAt_total T k) as [path [u N]]; [lia|].
    rewrite (subLen_node db T k path u W N). cbn [rbind]. pose proof (sz_pos u) as Pu.
    destruct (node_split _ _ _ _ N) as [a0 [b0 [_ L0]]].
    destruct ((ref <=? k) && (k + 1 - sz u <=? ref)) eqn:E.
    + apply IH; [lia|lia|exact L|intros i Hi; apply F0; lia|]. intros i Hi. destruct (Nat.eq_dec i k) as [->|Ne]; [|apply F1; lia].
      exists false. split; [apply F0; lia|]. split; [discriminate|]. intros C. exfalso. apply C. apply (contains_iff _ _ _ _ _ N). lia.
    + rewrite existsb_false_range by (intros i Hi; apply F0; lia).
      apply IH; [lia|lia|rewrite setRange_len by lia; exact L| |].
      * intros i Hi. rewrite setRange_nth by lia. replace (k + 1 - sz u <=? i) with false by lia. cbn [andb]. apply F0. lia.
      * intros i Hi. rewrite setRange_nth by lia. destruct ((k + 1 - sz u <=? i) && (i <? k + 1 - sz u + sz u)) eqn:E2.
        -- exists true. split; [reflexivity|]. split; [|reflexivity]. intros _ C.
           destruct (nodeAt_total T i) as [p [w M]]; [lia|]. apply (contains_iff _ _ _ _ _ M) in C.
           destruct (nodeAt_inside _ _ _ _ _ _ _ N M) as [p' [_ M']]; [lia|].
           destruct (node_split _ _ _ _ M') as [a1 [b1 [_ L1]]]. pose proof (nodeAt_bound _ _ _ _ M'). lia.
        -- apply F1. lia.
Qed.

Definition useB (db : dbase) (mt : Z) (z : Z) (target : list Z) : bool :=
  match nth_error (db_stmts db) (Z.to_nat z) with
  | Some st => match s_type st with S_e | S_f => (z <? 0)%Z | _ => true end
  | None => true
  end && forallb (fun t => (t <=? mt)%Z) target.
Lemma usable_ok db mt z target : arity db z <> None -> (z <? 0)%Z = false \/ z = zUnk -> target <> [] ->
  exists u, usable db mt z target = Ok u /\ ((0 <= z)%Z -> u = useB db mt z target).
Proof.
  intros A C NT. unfold usable, useB, arity in *. destruct C as [C| ->].
  - rewrite C in *. destruct (nth_error (db_stmts db) (Z.to_nat z)) as [st|]; [|congruence]. cbn [rget rbind].
    destruct (s_type st); try congruence; cbn [rbind]; destruct target; try congruence; eexists; (split; [reflexivity|reflexivity]).
  - replace (zUnk <? 0)%Z with true by reflexivity. rewrite Z.eqb_refl. cbn [rbind]. destruct target; [congruence|].
    eexists. split; [reflexivity|]. intros X. unfold zUnk in X. lia.
Qed.
Lemma indepFilter_ok db mt : forall l ts fl ks, length ts = length l -> length fl = length l -> length ks = length l ->
  (forall z, In z l -> arity db z <> None /\ ((z <? 0)%Z = false \/ z = zUnk)) -> (forall t, In t ts -> t <> []) ->
  exists r, indepFilter db mt l ts fl ks = Ok r /\ length r = length l /\
    forall i z t b k, nth_error l i = Some z -> nth_error ts i = Some t -> nth_error fl i = Some b -> nth_error ks i = Some k ->
      exists q, nth_error r i = Some q /\ ((0 <= z)%Z -> q = b && useB db mt z t && k) /\ (k = false -> q = false).
Proof.
  induction l as [|z l IH]; intros [|t ts] [|b fl] [|k ks] L1 L2 L3 HA HT; try discriminate.
  - exists []. split; [reflexivity|]. split; [reflexivity|]. intros [|i]; discriminate.
  - injection L1 as L1. injection L2 as L2. injection L3 as L3.
    destruct (IH ts fl ks L1 L2 L3) as [r [E [Lr H]]]; [intros; apply HA; right; assumption|intros; apply HT; right; assumption|].
    destruct (HA z (or_introl eq_refl)) as [A C].
    destruct (usable_ok db mt z t A C (HT t (or_introl eq_refl))) as [u [EU U]].
    cbn [indepFilter]. assert (X : exists q, (if b then usable db mt z t else Ok false) = Ok q /\ ((0 <= z)%Z -> q = b && useB db mt z t)).
    { destruct b; [exists u; split; [exact EU|exact U]|exists false; split; reflexivity]. }
    destruct X as [q [EQ Q]]. rewrite EQ. cbn [rbind]. rewrite E. cbn [rbind]. eexists. split; [reflexivity|].
    split; [cbn [length]; lia|]. intros [|i] z0 t0 b0 k0 N1 N2 N3 N4.
    + cbn [nth_error] in *. injection N1 as <-. injection N2 as <-. injection N3 as <-. injection N4 as <-.
      eexists. split; [reflexivity|]. split; [intros Z0; rewrite Q by exact Z0; reflexivity|]. intros ->. apply andb_false_r.
    + cbn [nth_error] in *. eauto.
Qed.
Lemma arity_all db T z : wfTree db T -> In z (rpn T) -> arity db z <> None.
Proof.
  intros W. revert z. induction T as [z kids IH] using tree_ind2. intros y I. destruct (wf_node _ _ _ W) as [A F].
  cbn [rpn] in I. rewrite in_app_iff in I. destruct I as [I|[<-|[]]]; [|congruence].
  apply in_flat_map in I. destruct I as [k [K1 K2]]. rewrite Forall_forall in *. eapply IH; eauto.
Qed.

Theorem indep_ok db mt s T ref : pipOk db s T -> legalCodes (rpn T) -> ref < sz T -> (forall t, In t (tg s) -> t <> []) ->
  exists fl, getIndepKnownSteps db mt s ref = Ok fl /\ length fl = sz T /\
    forall k path u, nodeAt T k path u ->
      (nth_error fl k = Some true <->
        ~ contains T k ref /\ ~ In zUnk (rpn u) /\
        (exists st, nth_error (db_stmts db) (Z.to_nat (rootOf u)) = Some st /\ isAssertion st) /\
        forall t, In t (nth k (tg s) []) -> (t <= mt)%Z).
Proof.
  intros [P1 P2 P3 P4 P5 P6 P7] LC R HT. unfold getIndepKnownSteps. rewrite P2 in *.
  destruct (indepLoop_ok db T ref P1 R (sz T) (sz T - 1) (repeat false (sz T))) as [fl [E1 [L1 H1]]];
    [lia|lia|apply repeat_length|intros i Hi; apply nth_error_repeat; lia| |].
  { intros i Hi. exists false. split; [apply nth_error_repeat; lia|]. split; [discriminate|]. intros C. exfalso. apply C.
    replace i with (sz T - 1) by lia. exists [], T. split; [constructor|lia]. }
  rewrite E1. cbn [rbind]. rewrite (known_ok db T P1 P3 LC). cbn [rbind].
  assert (CC : forall z, In z (rpn T) -> (z <? 0)%Z = false \/ z = zUnk).
  { intros z I. destruct (LC z I) as [C|[C|C]]; [left; lia|right; exact C|]. rewrite (P3 z I) in C. discriminate. }
  destruct (indepFilter_ok db mt (rpn T) (tg s) fl (kflags T)) as [r [E2 [L2 H2]]];
    [exact P4|exact L1|apply kflags_len| |exact HT|].
  { intros z I. split; [eapply arity_all; eassumption|apply CC, I]. }
  exists r. split; [exact E2|]. split; [exact L2|]. intros k path u N. pose proof (nodeAt_bound _ _ _ _ N) as B.
  destruct (H1 k B) as [b [Nb Hb]]. pose proof (kflags_at _ _ _ _ N) as Nk. pose proof (nodeAt_root _ _ _ _ N) as Nr.
  destruct (nth_error (tg s) k) as [t|] eqn:Nt; [|apply nth_error_None in Nt; lia].
  destruct (H2 k _ _ _ _ Nr Nt Nb Nk) as [q [Nq [Q1 Q2]]]. rewrite Nq, (nth_error_nth _ _ [] Nt).
  assert (I : In (rootOf u) (rpn T)) by (eapply nth_error_In; exact Nr).
  destruct (CC _ I) as [C|C].
  - assert (Z0 : (0 <= rootOf u)%Z) by lia. rewrite (Q1 Z0).
    pose proof (arity_all db T _ P1 I) as A. unfold useB, arity in *. rewrite C in *.
    destruct (nth_error (db_stmts db) (Z.to_nat (rootOf u))) as [st|] eqn:Es; [|congruence].
    rewrite <- Hb, <- known_iff. unfold isAssertion. split.
    + intros X. injection X as X. apply andb_prop in X. destruct X as [X X3]. apply andb_prop in X. destruct X as [X1 X2].
      apply andb_prop in X2. destruct X2 as [X2 X4]. split; [exact X1|]. split; [exact X3|]. split.
      * exists st. split; [reflexivity|]. destruct (s_type st); try discriminate; auto. congruence.
      * rewrite forallb_forall in X4. intros x Ix. specialize (X4 x Ix). lia.
    + intros [X1 [X3 [[st' [X2 X2']] X4]]]. injection X2 as <-. rewrite X1, X3. f_equal.
      assert (FB : forallb (fun x => (x <=? mt)%Z) t = true) by (apply forallb_forall; intros x Ix; specialize (X4 x Ix); lia).
      rewrite FB. destruct X2' as [-> | ->]; reflexivity.
  - assert (KF : known u = false).
    { unfold known. destruct u as [zz ks]. cbn [rootOf] in C. subst zz. cbn [rpn]. rewrite existsb_app. cbn [existsb]. rewrite Z.eqb_refl.
      rewrite !orb_true_r. reflexivity. }
    rewrite (Q2 KF). split; [discriminate|]. intros [_ [X _]]. apply known_iff in X. congruence.
Qed.

(* ---------- DELETE STEP ---------- *)
Theorem deleteStep_ok db s T n : pipOk db s T ->
  (n = 0 \/ n = sz T + 1 -> deleteStep db s n = Ok None) /\
  (forall k path u, n = k + 1 -> nodeAt T k path u ->
     (u = unknown -> deleteStep db s n = Ok None) /\
     (u <> unknown -> exists s', deleteStep db s n = Ok (Some s') /\ deleteSubProof db s k = Ok s')).
Proof.
  intros P. pose proof P as [P1 P2 P3 P4 P5 P6 P7]. split.
  - intros [-> | ->]; [reflexivity|]. rewrite Nat.add_1_r. cbn [deleteStep]. rewrite P2, Nat.eqb_refl. reflexivity.
  - intros k path u -> N. rewrite Nat.add_1_r. cbn [deleteStep]. pose proof (nodeAt_bound _ _ _ _ N) as B.
    pose proof (nodeAt_root _ _ _ _ N) as R.
    replace (k =? length (pf s)) with false by (rewrite P2; lia). split.
    + intros ->. rewrite P2, R. cbn [rget rbind rootOf unknown]. reflexivity.
    + intros NU. assert (RU : rootOf u <> zUnk).
      { intros X. apply NU. pose proof (node_wf _ _ _ _ _ P1 N) as Wu. destruct u as [z kids].
        cbn [rootOf] in X. subst z. apply wf_node in Wu. destruct Wu as [A _]. cbn in A. injection A as A.
        destruct kids; [reflexivity|discriminate]. }
      destruct (delete_ok db s T k path u P N) as [s' [_ [D _]]]; [rewrite P2, R; congruence|].
      exists s'. rewrite D. rewrite P2, R. cbn [rget rbind]. replace (rootOf u =? zUnk)%Z with false by lia. split; reflexivity.
Qed.

(* ---------- DELETE FLOATING_HYPOTHESES ---------- *)
Lemma spLoop_tree db t : wfTree db t -> forall pre suf l,
  spLoop db (pre ++ rpn t ++ suf) (length (pre ++ rpn t)) (S l) = spLoop db (pre ++ rpn t ++ suf) (length pre) l.
Proof.
  induction t as [z kids IH] using tree_ind2. intros W pre suf l. destruct (wf_node _ _ _ W) as [A F].
  assert (K : Forall (fun t => forall pre suf l,
     spLoop db (pre ++ rpn t ++ suf) (length (pre ++ rpn t)) (S l) = spLoop db (pre ++ rpn t ++ suf) (length pre) l) kids).
  { rewrite Forall_forall in *. intros t I. apply IH; auto. }
  pose proof (spLoop_trees db kids K) as ST.
  cbn [rpn]. rewrite <- app_assoc.
  replace (length (pre ++ flat_map rpn kids ++ [z])) with (S (length (pre ++ flat_map rpn kids))) by (rewrite !app_length; simpl; lia).
  cbn [spLoop].
  replace (nth_error (pre ++ flat_map rpn kids ++ [z] ++ suf) (length (pre ++ flat_map rpn kids))) with (Some z).
  2:{ rewrite app_assoc. rewrite nth_error_app2 by lia. rewrite Nat.sub_diag. reflexivity. }
  cbn [rget rbind]. apply arity_cases in A. destruct A as [[A1 A2]|[A1 [st [A2 A3]]]].
  - replace (z <? 0)%Z with true by lia. destruct kids; [|discriminate]. cbn [flat_map app]. rewrite app_nil_r. reflexivity.
  - replace (z <? 0)%Z with false by lia. rewrite A2. cbn [rget rbind]. destruct A3 as [[A3 A4]|[A3 A4]].
    + destruct kids; [|discriminate]. cbn [flat_map app]. rewrite app_nil_r. destruct A4 as [-> | ->]; reflexivity.
    + rewrite <- A3, (Nat.add_comm l). specialize (ST pre ([z] ++ suf) l).
      destruct A4 as [-> | ->]; apply ST.
Qed.
Lemma subproofLen_ctx db t pre suf : wfTree db t -> subproofLen db (pre ++ rpn t ++ suf) (length pre + sz t - 1) = Ok (sz t).
Proof.
  intros W. pose proof (sz_pos t). unfold subproofLen. replace (S (length pre + sz t - 1)) with (length (pre ++ rpn t)) by (rewrite app_length; lia).
  rewrite spLoop_tree by exact W. rewrite spLoop_0. cbn [rbind]. f_equal. lia.
Qed.
