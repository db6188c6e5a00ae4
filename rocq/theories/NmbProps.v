(* NmbProps.v -- C33 (sets of tokens) and C34 (slicing and search). *)
From Verif Require Import Base NmbModel NmbSpec NmbProofs NmbSet.
Open Scope nat_scope.

(* ---- C33: the results as lists, and their elements ---- *)
Theorem C33_union : forall m1 m2 l1 l2, isNmbr m1 l1 -> isNmbr m2 l2 ->
  exists v, nmbrUnion m1 m2 = Ok v /\ isNmbr v (l1 ++ firstOcc l1 l2).
Proof. exact nmbrUnion_ok. Qed.
Print Assumptions C33_union.
Theorem C33_intersection : forall m1 m2 l1 l2, isNmbr m1 l1 -> isNmbr m2 l2 ->
  exists v, nmbrIntersection m1 m2 = Ok v /\ isNmbr v (filter (has l1) l2).
Proof. exact nmbrIntersection_ok. Qed.
Print Assumptions C33_intersection.
Theorem C33_set_minus : forall m1 m2 l1 l2, isNmbr m1 l1 -> isNmbr m2 l2 ->
  exists v, nmbrSetMinus m1 m2 = Ok v /\ isNmbr v (filter (fun x => negb (has l2 x)) l1).
Proof. exact nmbrSetMinus_ok. Qed.
Print Assumptions C33_set_minus.
Theorem C33_extract_vars : forall isVar mathTokens m l, isNmbr m l ->
  Forall (fun x => 0 <= x <= mathTokens)%Z l ->
  exists v, nmbrExtractVars isVar mathTokens m = Ok v /\ isNmbr v (firstOcc [] (filter isVar l)).
Proof. exact nmbrExtractVars_ok. Qed.
Print Assumptions C33_extract_vars.
(* first occurrences: no duplicates, exactly the elements of l that are not in seen *)
Theorem C33_first_occurrences : forall l seen,
  NoDup (firstOcc seen l) /\ (forall x, In x (firstOcc seen l) <-> In x l /\ ~ In x seen).
Proof. exact firstOcc_spec. Qed.
Print Assumptions C33_first_occurrences.
Theorem C33_element_in : forall g l e, isNmbr g l ->
  exists p, nmbrElementIn g e = Ok p /\
    ((p = 0 /\ ~ In e l) \/ (0 < p /\ nth_error l (p - 1) = Some e /\ ~ In e (firstn (p - 1) l))).
Proof. intros g l e H. exact (nmbrElementIn_ok g l e (proj1 (proj1 (isNmbr_holds g l) H))). Qed.
Print Assumptions C33_element_in.

(* ---- C34 ---- *)
Theorem C34_slicing : forall s l, isNmbr s l ->
  (forall n, n <= length l -> exists v, nmbrLeft s (Z.of_nat n) = Ok v /\ isNmbr v (firstn n l)) /\
  (forall n, 1 <= n -> exists v, nmbrRight s (Z.of_nat n) = Ok v /\ isNmbr v (skipn (n - 1) l)) /\
  (forall a n, 1 <= a -> a - 1 + n <= length l ->
     exists v, nmbrMid s (Z.of_nat a) (Z.of_nat n) = Ok v /\ isNmbr v (elems l a (a + n - 1))) /\
  (forall a b, 1 <= a -> a <= b + 1 -> b <= length l ->
     exists v, nmbrSeg s (Z.of_nat a) (Z.of_nat b) = Ok v /\ isNmbr v (elems l a b)).
Proof.
  exact (fun s l H => conj (fun n => nmbrLeft_ok s l n H) (conj (fun n => nmbrRight_ok s l n H)
    (conj (fun a n => nmbrMid_ok s l a n H) (fun a b => nmbrSeg_ok s l a b H)))).
Qed.
Print Assumptions C34_slicing.
Theorem C34_building : forall s t l m e n, isNmbr s l -> isNmbr t m -> e <> (-1)%Z ->
  (exists v, nmbrCat s t = Ok v /\ isNmbr v (l ++ m)) /\
  (exists v, nmbrAddElement s e = Ok v /\ isNmbr v (l ++ [e])) /\
  (exists v, nmbrSpace (Z.of_nat n) = Ok v /\ isNmbr v (repeat 0%Z n)).
Proof.
  exact (fun s t l m e n Hs Ht He => conj (nmbrCat_ok s t l m Hs Ht) (conj (nmbrAdd_ok s l e Hs He) (nmbrSpace_ok n))).
Qed.
Print Assumptions C34_building.
Theorem C34_equality : forall s t l m, isNmbr s l -> isNmbr t m ->
  nmbrEq s t = Ok (if list_eq_dec Z.eq_dec l m then true else false).
Proof. exact nmbrEq_ok. Qed.
Print Assumptions C34_equality.
Theorem C34_search : forall s1 s2 l m start, isNmbr s1 l -> isNmbr s2 m -> 1 <= start ->
  exists p, nmbrInstr (Z.of_nat start) s1 s2 = Ok p /\
    ((p = 0 /\ forall q, start <= q -> ~ occursAt m l q) \/
     (start <= p /\ occursAt m l p /\ forall q, start <= q < p -> ~ occursAt m l q)).
Proof. exact nmbrInstr_ok. Qed.
Print Assumptions C34_search.
Theorem C34_reverse_search : forall s1 s2 l m start, isNmbr s1 l -> isNmbr s2 m ->
  (m <> [] \/ start <= length l + 1) ->
  exists r, nmbrRevInstr (Z.of_nat start) s1 s2 = Ok (Z.of_nat r) /\
    ((r = 0 /\ forall q, q <= start -> ~ occursAt m l q) \/
     (r <= start /\ occursAt m l r /\ forall q, r < q <= start -> ~ occursAt m l q)).
Proof. exact nmbrRevInstr_ok. Qed.
Print Assumptions C34_reverse_search.

(* Out of range: unlike left() on character strings, nmbrLeft(s, n) with n beyond the
   end gives a string whose stored length is n, so nmbrEq says it differs from s. *)
Definition s12 : nmbr := mkN [Some 1; Some 2; Some (-1)]%Z 2.
Theorem C34_left_beyond_end_refuted : isNmbr s12 [1; 2]%Z /\
  exists v, nmbrLeft s12 5 = Ok v /\ nb_len v = 5 /\ nmbrEq v s12 = Ok false /\ ~ exists l, isNmbr v l.
Proof.
  split; [split; [cbn; intuition discriminate|split; [reflexivity|exists []; reflexivity]]|].
  eexists. split; [reflexivity|]. split; [reflexivity|]. split; [reflexivity|].
  intros (l & N & L & rest & C). cbn in *. destruct l as [|a [|b [|c [|d [|e [|f l]]]]]]; try discriminate L.
  cbn in C. injection C as E1 E2 E3. subst. apply N. cbn. auto.
Qed.
Print Assumptions C34_left_beyond_end_refuted.
(* mid and seg may not start beyond the terminator; the search backwards for the empty
   string from beyond the end does. *)
Theorem C34_beyond_end_ub_refuted : forall s l a n, nb_cells s = map Some l ++ [Some (-1)%Z] -> isNmbr s l ->
  length l < a -> nmbrMid s (Z.of_nat a + 1) (Z.of_nat n) = UB /\
                  nmbrRevInstr (Z.of_nat a + 1) s nulls = UB.
Proof.
  intros s l a n C H L. assert (LN : nb_len s = length l) by (now apply isNmbr_holds in H). split.
  - unfold nmbrMid. destruct (Z.ltb_spec (Z.of_nat a + 1) 1); [lia|]. destruct (Z.ltb_spec (Z.of_nat n) 0); [lia|]. now apply slice_beyond with l.
  - unfold nmbrRevInstr. cbn [nulls nb_len]. rewrite LN. destruct (Z.ltb_spec (Z.of_nat (length l) - Z.of_nat 0 + 1) (Z.of_nat a + 1)); [|lia].
    destruct (Z.ltb_spec (Z.of_nat (length l) - Z.of_nat 0 + 1 + 1) 1); [lia|]. cbn [revLoop nulls nb_len]. unfold nmbrMid.
    destruct (Z.ltb_spec (Z.of_nat (length l) - Z.of_nat 0 + 1 + 1) 1); [lia|]. cbn [Z.ltb Z.of_nat Z.compare].
    replace (Z.of_nat (length l) - 0 + 1 + 1)%Z with (Z.of_nat (length l + 1) + 1)%Z by lia.
    change 0%Z with (Z.of_nat 0). rewrite (slice_beyond s l (length l + 1) 0 H C) by lia. reflexivity.
Qed.
Print Assumptions C34_beyond_end_ub_refuted.

Example C33_C34_example : exists u v w,
  nmbrUnion (mkN [Some 3; Some 1; Some (-1)]%Z 2) (mkN [Some 2; Some 1; Some 2; Some (-1)]%Z 3) = Ok u /\
  isNmbr u [3; 1; 2]%Z /\ nmbrSeg u 2 3 = Ok v /\ isNmbr v [1; 2]%Z /\ nmbrInstr 1 u v = Ok 2 /\
  nmbrExtractVars Z.even 5 u = Ok w /\ isNmbr w [2]%Z.
Proof.
  eexists _, _, _. split; [reflexivity|]. split; [split; [cbn; intuition discriminate|split; [reflexivity|eexists; reflexivity]]|].
  split; [reflexivity|]. split; [split; [cbn; intuition discriminate|split; [reflexivity|eexists; reflexivity]]|]. split; [reflexivity|].
  split; [reflexivity|]. split; [cbn; intuition discriminate|split; [reflexivity|eexists; reflexivity]].
Qed.
