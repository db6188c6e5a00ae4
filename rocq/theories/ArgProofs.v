(* ArgProofs.v *)
From Coq Require Import NArith.
From Verif Require Import Base VerModel VerSpec ParModel SqSpec SqModel SqProofs SqAttr VstrModel VstrSpec VstrProofs VstrEdit VstrProps
  LabModel LabSpec LabProofs MatchModel MatchSpec MatchProofs FatlSpec FatlProofs DateModel DateSpec DateProofs ArgModel ArgSpec.
Open Scope nat_scope.

(* ---------- the unknown essential steps ---------- *)
Definition unkTest (ess pf : list Z) (k : nat) : bool :=
  match nth_error ess k, nth_error pf k with
  | Some e, Some z => negb (e =? 0)%Z && (z =? unkCode)%Z
  | _, _ => false
  end.
Definition unkList (ess pf : list Z) (n : nat) : list nat := filter (unkTest ess pf) (seq 0 n).

Lemma nodeAt_root t k path u : nodeAt t k path u -> nth_error (rpn t) k = Some (rootOf u).
Proof.
  induction 1 as [t|z kids j c k path u Hj H IH].
  - apply rpn_last.
  - cbn [rpn]. rewrite flat_map_concat_map. rewrite (nth_blocks kids (map rpn kids)) with (c := c) (l := rpn c).
    + exact IH.
    + clear. induction kids; cbn; constructor; auto.
    + exact Hj.
    + rewrite nth_error_map, Hj. reflexivity.
    + eapply nodeAt_bound. exact H.
Qed.
Lemma sorted_filter (f : nat -> bool) : forall n s i j a b, nth_error (filter f (seq s n)) i = Some a ->
  nth_error (filter f (seq s n)) j = Some b -> i < j -> a < b.
Proof.
  assert (LB : forall n s b, In b (filter f (seq s n)) -> s <= b).
  { intros n s b H. apply filter_In in H. destruct H as [H _]. apply in_seq in H. lia. }
  induction n as [|n IH]; intros s i j a b Hi Hj L; cbn [seq filter] in *.
  - destruct i; discriminate.
  - destruct (f s).
    + destruct j as [|j]; [lia|]. cbn [nth_error] in Hj. destruct i as [|i].
      * cbn in Hi. injection Hi as <-. apply nth_error_In in Hj. apply LB in Hj. lia.
      * apply (IH (S s) i j); [exact Hi|exact Hj|lia].
    + apply (IH (S s) i j); assumption.
Qed.
Lemma unknowns_ok db T : wfTree db T -> unknowns db T (unkList (essl db T) (rpn T) (sz T)).
Proof.
  intros W. split.
  - intros k. unfold unkList. rewrite filter_In, in_seq. unfold unkTest, unknownEss. split.
    + intros [B H]. destruct (nodeAt_total T k ltac:(lia)) as [path [u N]]. exists path.
      destruct u as [z kids]. exists kids. destruct (essl_at db T k path _ N W) as [[E F]|[E F]]; rewrite E, (nodeAt_root _ _ _ _ N) in H.
      * cbn in H. apply Z.eqb_eq in H. unfold unkCode in H. subst z. split; [exact N|exact F].
      * cbn in H. discriminate H.
    + intros [path [kids [N F]]]. split; [pose proof (nodeAt_bound _ _ _ _ N); lia|].
      destruct (essl_at db T k path _ N W) as [[E G]|[E G]]; [|contradiction].
      rewrite E, (nodeAt_root _ _ _ _ N). reflexivity.
  - apply sorted_filter.
Qed.
Lemma unknowns_unique db T l l' : unknowns db T l -> unknowns db T l' -> l = l'.
Proof.
  assert (forall (l l' : list nat), (forall k, In k l <-> In k l') ->
    (forall i j a b, nth_error l i = Some a -> nth_error l j = Some b -> i < j -> a < b) ->
    (forall i j a b, nth_error l' i = Some a -> nth_error l' j = Some b -> i < j -> a < b) -> l = l') as G.
  { clear. induction l as [|x l IH]; intros l' E S1 S2.
    - destruct l' as [|y l']; [reflexivity|]. exfalso. apply (proj2 (E y)). left. reflexivity.
    - destruct l' as [|y l']; [exfalso; apply (proj1 (E x)); left; reflexivity|].
      assert (Hx : forall b, In b l -> x < b).
      { intros b Hb. apply In_nth_error in Hb. destruct Hb as [j Hj]. apply (S1 0 (S j)); [reflexivity|exact Hj|lia]. }
      assert (Hy : forall b, In b l' -> y < b).
      { intros b Hb. apply In_nth_error in Hb. destruct Hb as [j Hj]. apply (S2 0 (S j)); [reflexivity|exact Hj|lia]. }
      assert (x = y).
      { destruct (proj1 (E x) (or_introl eq_refl)) as [->|X]; [reflexivity|].
        destruct (proj2 (E y) (or_introl eq_refl)) as [->|Y]; [reflexivity|].
        apply Hy in X. apply Hx in Y. lia. }
      subst y. f_equal. apply IH.
      + intros k. split; intros K.
        * destruct (proj1 (E k) (or_intror K)) as [->|Q]; [apply Hx in K; lia|exact Q].
        * destruct (proj2 (E k) (or_intror K)) as [->|Q]; [apply Hy in K; lia|exact Q].
      + intros i j a b Hi Hj L. apply (S1 (S i) (S j) a b Hi Hj). lia.
      + intros i j a b Hi Hj L. apply (S2 (S i) (S j) a b Hi Hj). lia. }
  intros [A1 A2] [B1 B2]. apply G; try assumption. intros k. rewrite A1, B1. tauto.
Qed.

(* ---------- the two scans ---------- *)
Lemma test_read ess pf k : k < length ess -> k < length pf ->
  exists e z, nth_error ess k = Some e /\ nth_error pf k = Some z /\ unkTest ess pf k = negb (e =? 0)%Z && (z =? unkCode)%Z.
Proof.
  intros H1 H2. destruct (nth_error ess k) as [e|] eqn:E; [|apply nth_error_None in E; lia].
  destruct (nth_error pf k) as [z|] eqn:P; [|apply nth_error_None in P; lia].
  exists e, z. unfold unkTest. rewrite E, P. auto.
Qed.
Definition pick (l : list nat) (j : Z) : nat :=
  if (j <? 1)%Z then 0 else match nth_error l (Z.to_nat (j - 1)) with Some k => S k | None => 0 end.
Lemma pick_cons x l j : pick (x :: l) j = if (j - 1 =? 0)%Z then S x else pick l (j - 1).
Proof.
  unfold pick. destruct (Z.eqb_spec (j - 1) 0) as [E|E].
  - assert (j = 1)%Z by lia. subst j. reflexivity.
  - destruct (Z.ltb_spec j 1) as [L|L].
    + destruct (Z.ltb_spec (j - 1) 1); [reflexivity|lia].
    + destruct (Z.ltb_spec (j - 1) 1); [lia|]. replace (Z.to_nat (j - 1)) with (S (Z.to_nat (j - 1 - 1))) by lia. reflexivity.
Qed.
Lemma pick_nil j : pick [] j = 0.
Proof. unfold pick. destruct (j <? 1)%Z; [reflexivity|]. destruct (Z.to_nat (j - 1)); reflexivity. Qed.
Lemma scanForw_ok ess pf : length ess = length pf -> forall n i j, i + n = length pf ->
  scanForw ess pf i n j = Ok (pick (filter (unkTest ess pf) (seq i n)) j).
Proof.
  intros LE. induction n as [|n IH]; intros i j L; cbn [scanForw seq filter].
  - rewrite pick_nil. reflexivity.
  - destruct (test_read ess pf i ltac:(lia) ltac:(lia)) as [e [z [E [P T]]]].
    rewrite E, P. cbn [rget rbind]. rewrite <- T. destruct (unkTest ess pf i).
    + rewrite pick_cons. destruct (j - 1 =? 0)%Z; [reflexivity|]. apply IH. lia.
    + apply IH. lia.
Qed.
Lemma scanBack_ok ess pf : length ess = length pf -> forall i j, i <= length pf ->
  scanBack ess pf i j = Ok (pick (rev (unkList ess pf i)) j).
Proof.
  intros LE. unfold unkList. induction i as [|i IH]; intros j L; [cbn; rewrite pick_nil; reflexivity|].
  rewrite seq_S, filter_app, rev_app_distr. cbn [Nat.add filter scanBack].
  destruct (test_read ess pf i ltac:(lia) ltac:(lia)) as [e [z [E [P T]]]].
  rewrite E, P. cbn [rget rbind]. rewrite <- T. destruct (unkTest ess pf i).
  - cbn [rev app]. rewrite pick_cons. destruct (j - 1 =? 0)%Z; [reflexivity|]. apply IH. lia.
  - cbn [rev app]. apply IH. lia.
Qed.
Definition optZ (o : option nat) : Z := match o with Some k => Z.of_nat k | None => (-1)%Z end.
Lemma find_ok db T fuel neg v : wf_db db -> wfTree db T -> legalCodes (rpn T) -> sz T <= fuel ->
  exists msg, findUnknown fuel db (rpn T) neg v =
    Ok (optZ (if (v <? 0)%Z then None else
              option_map S (nth_error (let l := unkList (essl db T) (rpn T) (sz T) in if neg then rev l else l) (Z.to_nat v))), msg) /\
    (forall l, l = unkList (essl db T) (rpn T) (sz T) ->
       (msg = SM_none <-> (0 <= v)%Z /\ Z.to_nat v < length l)).
Proof.
  intros WD W LC HF. unfold findUnknown. rewrite (essential_ok db T WD W LC fuel HF). cbn [rbind].
  assert (LE : length (essl db T) = length (rpn T)) by (apply essl_len, W).
  set (l := unkList (essl db T) (rpn T) (sz T)).
  assert (E : (if neg then scanBack (essl db T) (rpn T) (length (rpn T)) (v + 1)
               else scanForw (essl db T) (rpn T) 0 (length (rpn T)) (v + 1)) =
              Ok (pick (if neg then rev l else l) (v + 1))).
  { destruct neg; [apply scanBack_ok; [exact LE|lia]|apply scanForw_ok; [exact LE|lia]]. }
  rewrite E. cbn [rbind].
  assert (LL : length (if neg then rev l else l) = length l) by (destruct neg; [apply rev_length|reflexivity]).
  unfold pick. replace (v + 1 - 1)%Z with v by lia. cbn zeta. fold l.
  destruct (Z.ltb_spec (v + 1) 1) as [H|H].
  - cbn [Nat.eqb]. destruct (Z.ltb_spec v 0); [|lia]. eexists. split; [reflexivity|].
    intros l' El. split; [destruct (v =? 0)%Z; discriminate|lia].
  - destruct (Z.ltb_spec v 0); [lia|].
    destruct (nth_error (if neg then rev l else l) (Z.to_nat v)) as [k|] eqn:N.
    + cbn [Nat.eqb option_map optZ]. eexists. split; [reflexivity|]. intros l' ->. split; [intros _|reflexivity].
      split; [lia|]. apply nth_error_Some_lt in N || (assert (Z.to_nat v < length (if neg then rev l else l)) by (apply nth_error_Some; congruence)); lia.
    + cbn [Nat.eqb option_map optZ]. eexists. split; [reflexivity|]. intros l' ->. apply nth_error_None in N.
      split; [destruct (v =? 0)%Z; discriminate|lia].
Qed.

(* ---------- getRelStepNums ---------- *)
Lemma relLoop_ok ess pf : length ess = length pf -> forall i j acc, i <= length pf ->
  exists out, relLoop ess pf i j acc = Ok (out ++ acc) /\ length out = i /\
    forall k, k < i -> nth_error out k =
      Some (if unkTest ess pf k then (j - Z.of_nat (length (filter (unkTest ess pf) (seq (S k) (i - S k)))))%Z else Z.of_nat (S k)).
Proof.
  intros LE. induction i as [|i IH]; intros j acc L.
  - exists []. split; [reflexivity|]. split; [reflexivity|]. intros k Hk. lia.
  - cbn [relLoop]. destruct (test_read ess pf i ltac:(lia) ltac:(lia)) as [e [z [E [P T]]]].
    rewrite E, P. cbn [rget rbind]. rewrite <- T.
    assert (SQ : forall k, k < i -> filter (unkTest ess pf) (seq (S k) (S i - S k)) =
      filter (unkTest ess pf) (seq (S k) (i - S k)) ++ (if unkTest ess pf i then [i] else [])).
    { intros k Hk. replace (S i - S k) with (S (i - S k)) by lia. rewrite seq_S, filter_app. f_equal.
      replace (S k + (i - S k)) with i by lia. cbn [filter]. destruct (unkTest ess pf i); reflexivity. }
    destruct (unkTest ess pf i) eqn:U.
    + destruct (IH (j - 1)%Z (j :: acc) ltac:(lia)) as [out [R [LO K]]]. exists (out ++ [j]). rewrite R, <- app_assoc.
      split; [reflexivity|]. split; [rewrite app_length; cbn; lia|]. intros k Hk.
      destruct (Nat.eq_dec k i) as [->|NE].
      * rewrite nth_error_app2 by lia. rewrite LO, Nat.sub_diag. cbn [nth_error]. rewrite U.
        replace (S i - S i) with 0 by lia. cbn. f_equal. lia.
      * rewrite nth_error_app1 by lia. rewrite K by lia. rewrite SQ by lia. rewrite app_length. cbn [length].
        destruct (unkTest ess pf k); [f_equal; lia|reflexivity].
    + destruct (IH j (Z.of_nat (S i) :: acc) ltac:(lia)) as [out [R [LO K]]]. exists (out ++ [Z.of_nat (S i)]).
      rewrite R, <- app_assoc.
      split; [reflexivity|]. split; [rewrite app_length; cbn; lia|]. intros k Hk.
      destruct (Nat.eq_dec k i) as [->|NE].
      * rewrite nth_error_app2 by lia. rewrite LO, Nat.sub_diag. cbn [nth_error]. rewrite U. reflexivity.
      * rewrite nth_error_app1 by lia. rewrite K by lia. rewrite SQ by lia. rewrite app_nil_r. reflexivity.
Qed.
