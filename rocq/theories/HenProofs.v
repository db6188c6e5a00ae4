(* HenProofs.v -- proofs about HenModel *)
From Coq Require Import ZifyBool ZifyNat Permutation Relation_Operators.
From Verif Require Import Base UniModel UniSpec UniSub UniCore UniStep UniRun UniProofs UniFilter UniMatch UniAll UniFin UniTwice HenModel.
Open Scope nat_scope.
Ltac Zify.zify_post_hook ::= Z.div_mod_to_equations.

(* ---------- arrays ---------- *)
Lemma put_len {A} (l : list A) : forall i x, length (put l i x) = length l.
Proof. induction l as [|a l IH]; intros i x; [reflexivity|]. destruct i; cbn [put length]; [reflexivity|]. rewrite IH. reflexivity. Qed.
Lemma put_same {A} (l : list A) : forall i x, i < length l -> nth_error (put l i x) i = Some x.
Proof. induction l as [|a l IH]; intros i x H; [cbn in H; lia|]. destruct i; [reflexivity|]. cbn [put nth_error length] in *. apply IH. lia. Qed.
Lemma put_other {A} (l : list A) : forall i j x, i <> j -> nth_error (put l i x) j = nth_error l j.
Proof. induction l as [|a l IH]; intros i j x H; [destruct i; reflexivity|]. destruct i, j; try reflexivity; [congruence|]. cbn [put nth_error]. apply IH. lia. Qed.
Lemma put_id {A} (l : list A) : forall i x, nth_error l i = Some x -> put l i x = l.
Proof. induction l as [|a l IH]; intros i x H; [destruct i; reflexivity|]. destruct i; cbn [put nth_error] in *; [congruence|]. f_equal. apply IH, H. Qed.
Lemma put_map {A B} (h : A -> B) (l : list A) : forall i x, map h (put l i x) = put (map h l) i (h x).
Proof. induction l as [|a l IH]; intros i x; [destruct i; reflexivity|]. destruct i; [reflexivity|]. cbn [put map]. f_equal. apply IH. Qed.
Lemma put_put {A} (l : list A) : forall i x y, put (put l i x) i y = put l i y.
Proof. induction l as [|a l IH]; intros i x y; [destruct i; reflexivity|]. destruct i; [reflexivity|]. cbn [put]. f_equal. apply IH. Qed.
Lemma put_split {A} (l : list A) i x : i < length l -> put l i x = firstn i l ++ x :: skipn (S i) l.
Proof.
  revert i. induction l as [|a l IH]; intros i H; [cbn in H; lia|]. destruct i; [reflexivity|]. cbn [put firstn app skipn length] in *. f_equal. apply IH. lia.
Qed.
Lemma get_ok {A} (l : list A) i : i < length l -> exists x, get l i = Ok x /\ nth_error l i = Some x.
Proof. intros H. unfold get. destruct (nth_error l i) as [x|] eqn:E; [exists x; split; reflexivity|]. apply nth_error_None in E. lia. Qed.
Lemma set_ok {A} (l : list A) i x : i < length l -> set l i x = Ok (put l i x).
Proof. intros H. unfold set. replace (i <? length l) with true by lia. reflexivity. Qed.
(* moving the hole *)
Lemma perm_cons_put {A} (l : list A) : forall j (b x : A), nth_error l j = Some b -> Permutation (b :: put l j x) (x :: l).
Proof.
  induction l as [|a l IH]; intros j b x H; [destruct j; discriminate H|]. destruct j; cbn [put nth_error] in *.
  - injection H as ->. apply perm_swap.
  - transitivity (a :: b :: put l j x); [apply perm_swap|]. transitivity (a :: x :: l); [apply perm_skip, IH, H|apply perm_swap].
Qed.
Lemma perm_move {A} (l : list A) : forall i j (b x : A), nth_error l j = Some b -> i < length l -> Permutation (put (put l i b) j x) (put l i x).
Proof.
  induction l as [|a l IH]; intros i j b x H L; [destruct j; discriminate H|]. destruct i, j; cbn [put nth_error length] in *.
  - injection H as ->. reflexivity.
  - apply perm_cons_put, H.
  - injection H as ->. apply Permutation_sym. rewrite <- (put_put l i b x). apply (perm_cons_put (put l i b) i b x). apply put_same. lia.
  - apply perm_skip, IH; [exact H|lia].
Qed.

(* ---------- the heap sort ---------- *)
Lemma sift_ok : forall fuel a ir rra i j, 1 <= i <= length a -> 1 <= j -> ir <= length a -> ir + 2 <= fuel + j -> 1 <= fuel ->
  exists a', sift fuel a ir rra i j = Ok a' /\ Permutation a' (put a (i - 1) rra) /\ length a' = length a.
Proof.
  induction fuel as [|fuel IH]; intros a ir rra i j Li Lj Lr Lf F1; [lia|]. cbn [sift]. destruct (j <=? ir) eqn:E.
  2:{ rewrite set_ok by lia. eexists. split; [reflexivity|]. split; [reflexivity|apply put_len]. }
  assert (J : exists j', (if j <? ir then do x <- get a (j - 1); do y <- get a j; Ok (if tvar x <? tvar y then j + 1 else j) else Ok j) = Ok j' /\ j <= j' <= ir).
  { destruct (j <? ir) eqn:E2; [|exists j; split; [reflexivity|lia]]. destruct (get_ok a (j - 1) ltac:(lia)) as [x [G _]]. destruct (get_ok a j ltac:(lia)) as [y [G2 _]].
    rewrite G, G2. cbn [rbind]. eexists. split; [reflexivity|]. destruct (tvar x <? tvar y); lia. }
  destruct J as [j' [-> Lj']]. cbn [rbind]. destruct (get_ok a (j' - 1) ltac:(lia)) as [x [-> X]]. cbn [rbind].
  destruct (tvar rra <? tvar x).
  - rewrite set_ok by lia. cbn [rbind]. destruct (IH (put a (i - 1) x) ir rra j' (j' + j')) as [a' [K1 [K2 K3]]]; try (rewrite put_len); try lia.
    exists a'. split; [exact K1|]. split; [|rewrite K3; apply put_len]. rewrite K2. apply perm_move; [exact X|lia].
  - apply IH; lia.
Qed.
Lemma heap_ok : forall fuel a el ir, 1 <= el <= length a -> 2 <= ir <= length a -> el + ir <= fuel + 2 -> 1 <= fuel ->
  exists a', heap fuel a el ir = Ok a' /\ Permutation a' a.
Proof.
  induction fuel as [|fuel IH]; intros a el ir Le Lr Lf F1; [lia|]. cbn [heap]. destruct (1 <? el) eqn:E.
  - destruct (get_ok a (el - 2) ltac:(lia)) as [x [-> X]]. cbn [rbind].
    destruct (sift_ok (S (S (length a))) a ir x (el - 1) (el - 1 + (el - 1))) as [a' [-> [P L]]]; try lia. cbn [rbind].
    destruct (IH a' (el - 1) ir) as [a'' [-> P2]]; try (rewrite L); try lia. exists a''. split; [reflexivity|].
    rewrite P2, P. replace (el - 1 - 1) with (el - 2) by lia. rewrite put_id by exact X. reflexivity.
  - destruct (get_ok a (ir - 1) ltac:(lia)) as [x [-> X]]. destruct (get_ok a 0 ltac:(lia)) as [t [-> T]]. cbn [rbind]. rewrite set_ok by lia. cbn [rbind].
    assert (PM : Permutation (put (put a (ir - 1) t) 0 x) a).
    { rewrite (perm_move a (ir - 1) 0 t x T ltac:(lia)). rewrite put_id by exact X. reflexivity. }
    destruct (ir - 1 =? 1) eqn:E2.
    + rewrite set_ok by (rewrite put_len; lia). eexists. split; [reflexivity|exact PM].
    + destruct (sift_ok (S (S (length a))) (put a (ir - 1) t) (ir - 1) x el (el + el)) as [a' [-> [P L]]]; try (rewrite put_len); try lia. cbn [rbind].
      rewrite put_len in L. destruct (IH a' el (ir - 1)) as [a'' [-> P2]]; try (rewrite L); try lia. exists a''. split; [reflexivity|].
      rewrite P2, P. replace (el - 1) with 0 by lia. exact PM.
Qed.
Lemma heapSort_ok a : exists a', heapSort a = Ok a' /\ Permutation a' a.
Proof.
  unfold heapSort. destruct (length a <? 2) eqn:E; [exists a; split; reflexivity|]. apply heap_ok; lia.
Qed.

(* ---------- what the entries say ---------- *)
(* h solves the equations "variable = value" *)
Definition sat (h : nat -> list nat) (a : list tri) (sub : list nat) : Prop :=
  forall x, In x a -> h (tvar x) = flat_map h (seg sub (tstart x) (tlen x)).
Definition inb (a : list tri) (sub : list nat) : Prop := forall x, In x a -> tstart x + tlen x <= length sub.

Lemma seg_map {A B} (h : A -> B) l s n : map h (firstn n (skipn s l)) = firstn n (skipn s (map h l)).
Proof. rewrite <- firstn_map, <- skipn_map. reflexivity. Qed.
Lemma flat_seg_put (h : nat -> list nat) sub i v w s n : nth_error sub i = Some w -> h v = h w ->
  flat_map h (seg (put sub i v) s n) = flat_map h (seg sub s n).
Proof.
  intros E H. rewrite !flat_map_concat_map. f_equal. unfold seg. rewrite !seg_map, put_map. rewrite put_id; [reflexivity|].
  rewrite H. apply map_nth_error, E.
Qed.
Lemma seg1 (sub : list nat) i v : nth_error sub i = Some v -> seg sub i 1 = [v].
Proof.
  revert i. induction sub as [|a sub IH]; intros i H; [destruct i; discriminate H|]. destruct i; [cbn in *; congruence|]. exact (IH i H).
Qed.
Lemma in_put {A} (l : list A) i x y : In y (put l i x) -> y = x \/ In y l.
Proof.
  revert i. induction l as [|a l IH]; intros i H; [destruct H|]. destruct i; cbn [put In] in *; [destruct H as [->|H]; auto|].
  destruct H as [->|H]; [auto|]. destruct (IH _ H); auto.
Qed.
Lemma sat_nth h a sub : sat h a sub <-> forall i x, nth_error a i = Some x -> h (tvar x) = flat_map h (seg sub (tstart x) (tlen x)).
Proof.
  split; [intros H i x E; apply H; eapply nth_error_In; exact E|intros H x I; apply In_nth_error in I; destruct I as [i E]; exact (H i x E)].
Qed.
Lemma swapLoop_ok mt : forall k i a sub, k + i = length a -> inb a sub ->
  exists a' sub', swapLoop mt k i a sub = Ok (a', sub') /\ length a' = length a /\ length sub' = length sub /\ inb a' sub' /\
    forall h, sat h a sub <-> sat h a' sub'.
Proof.
  induction k as [|k IH]; intros i a sub L IB.
  - exists a, sub. cbn [swapLoop]. do 4 (split; [first [reflexivity|assumption]|]). intros h. reflexivity.
  - cbn [swapLoop]. destruct (get_ok a i ltac:(lia)) as [x [-> X]]. cbn [rbind].
    pose proof (IB x (nth_error_In _ _ X)) as Lx. destruct (tlen x =? 1) eqn:El; [|apply IH; [lia|exact IB]]. apply Nat.eqb_eq in El.
    unfold rd. destruct (nth_error sub (tstart x)) as [v2|] eqn:EV; [|apply nth_error_None in EV; lia]. cbn [rbind].
    destruct ((mt <? v2) && (v2 <? tvar x)); [|apply IH; [lia|exact IB]].
    rewrite !set_ok by lia. cbn [rbind]. set (y := (v2, tstart x, tlen x)).
    assert (IB' : inb (put a i y) (put sub (tstart x) (tvar x))).
    { intros z I. rewrite put_len. apply in_put in I. destruct I as [->|I]; [exact Lx|exact (IB z I)]. }
    destruct (IH (S i) (put a i y) (put sub (tstart x) (tvar x))) as [a' [sub' [K1 [K2 [K3 [K4 K5]]]]]]; [rewrite put_len; lia|exact IB'|].
    exists a', sub'. split; [exact K1|]. split; [rewrite K2; apply put_len|]. split; [rewrite K3; apply put_len|]. split; [exact K4|].
    intros h. rewrite <- K5. clear K1 K2 K3 K4 K5 IH. rewrite !sat_nth.
    assert (SX : seg sub (tstart x) (tlen x) = [v2]) by (rewrite El; apply seg1, EV).
    assert (SY : seg (put sub (tstart x) (tvar x)) (tstart x) (tlen x) = [tvar x]) by (rewrite El; apply seg1, put_same; lia).
    split; intros H.
    + pose proof (H i x X) as HX. rewrite SX in HX. cbn [flat_map] in HX. rewrite app_nil_r in HX.
      intros j z Z. rewrite (flat_seg_put h _ _ _ v2 _ _ EV HX). destruct (Nat.eq_dec i j) as [<-|N].
      * rewrite put_same in Z by lia. injection Z as <-. unfold y. cbn [tvar tstart tlen fst snd].
        change (snd (fst x)) with (tstart x). change (snd x) with (tlen x). rewrite SX. cbn [flat_map]. rewrite app_nil_r. reflexivity.
      * rewrite put_other in Z by exact N. exact (H j z Z).
    + pose proof (H i y ltac:(apply put_same; lia)) as HX. unfold y in HX. cbn [tvar tstart tlen fst snd] in HX.
      change (snd (fst x)) with (tstart x) in HX. change (snd x) with (tlen x) in HX. rewrite SY in HX. cbn [flat_map] in HX. rewrite app_nil_r in HX. change (fst (fst x)) with (tvar x) in HX.
      symmetry in HX. intros j z Z. rewrite <- (flat_seg_put h sub (tstart x) (tvar x) v2 (tstart z) (tlen z) EV HX). destruct (Nat.eq_dec i j) as [<-|N].
      * rewrite X in Z. injection Z as <-. rewrite SY. cbn [flat_map]. rewrite app_nil_r. reflexivity.
      * apply (H j z). rewrite put_other by exact N. exact Z.
Qed.
Lemma sat_perm h a b sub : Permutation a b -> sat h a sub <-> sat h b sub.
Proof.
  intros P. split; intros H x I; apply H; [apply (Permutation_in _ (Permutation_sym P)), I|apply (Permutation_in _ P), I].
Qed.
Lemma sat_cons h x a sub : sat h (x :: a) sub <-> h (tvar x) = flat_map h (seg sub (tstart x) (tlen x)) /\ sat h a sub.
Proof.
  split; [intros H; split; [apply H; left; reflexivity|intros y I; apply H; right; exact I]|]. intros [H1 H2] y [<-|I]; [exact H1|exact (H2 y I)].
Qed.
Lemma collect_ok : forall a sub pos, inb a sub -> exists q, collect a sub pos = Ok q /\ length (fst q) = length a.
Proof.
  induction a as [|x a IH]; intros sub pos IB; [eexists; split; reflexivity|]. cbn [collect]. pose proof (IB x (or_introl eq_refl)) as L.
  replace (tstart x + tlen x <=? length sub) with true by lia. destruct (IH sub (pos + tlen x)) as [q [-> LQ]]; [intros y I; apply IB; right; exact I|].
  cbn [rbind]. eexists. split; [reflexivity|]. cbn [fst length]. lia.
Qed.
Lemma collect_same h : forall a b sub sub2 pos q, collect a sub pos = Ok q -> collect b sub2 pos = Ok q -> map tvar a = map tvar b -> sat h a sub -> sat h b sub2.
Proof.
  induction a as [|x a IH]; intros b sub sub2 pos q H1 H2 EV S1; [destruct b; [intros y []|discriminate EV]|]. destruct b as [|y b]; [discriminate EV|].
  cbn [map] in EV. injection EV as EV1 EV2. cbn [collect] in H1, H2.
  destruct (tstart x + tlen x <=? length sub) eqn:E1; [|discriminate H1]. destruct (tstart y + tlen y <=? length sub2) eqn:E2; [|discriminate H2].
  apply rbind_ok in H1, H2. destruct H1 as [q1 [C1 H1]]. destruct H2 as [q2 [C2 H2]]. apply Ok_inj in H1, H2. subst q. injection H2 as F1 F2.
  change (firstn (tlen x) (skipn (tstart x) sub)) with (seg sub (tstart x) (tlen x)) in *. change (firstn (tlen y) (skipn (tstart y) sub2)) with (seg sub2 (tstart y) (tlen y)) in *.
  assert (LL : length (seg sub (tstart x) (tlen x)) = tlen x /\ length (seg sub2 (tstart y) (tlen y)) = tlen y) by (split; apply seg_len; lia). destruct LL as [L1 L2].
  assert (TL : tlen x = tlen y).
  { destruct a as [|x2 a], b as [|y2 b]; try discriminate EV2.
    - cbn [collect] in C1, C2. apply Ok_inj in C1, C2. subst q1 q2. cbn [snd] in F2. rewrite !app_nil_r in F2. rewrite <- L1, <- L2, F2. reflexivity.
    - cbn [collect] in C1, C2. destruct (tstart x2 + tlen x2 <=? length sub); [|discriminate C1]. destruct (tstart y2 + tlen y2 <=? length sub2); [|discriminate C2].
      apply rbind_ok in C1, C2. destruct C1 as [p1 [_ C1]]. destruct C2 as [p2 [_ C2]]. apply Ok_inj in C1, C2. subst q1 q2. cbn [fst] in F1. injection F1 as F1 _. lia. }
  apply sat_cons in S1. destruct S1 as [S1 S2].
  assert (LE : length (seg sub2 (tstart y) (tlen y)) = length (seg sub (tstart x) (tlen x))) by lia.
  assert (SE : seg sub2 (tstart y) (tlen y) = seg sub (tstart x) (tlen x) /\ snd q2 = snd q1).
  { clear -F2 LE. revert F2 LE. generalize (seg sub2 (tstart y) (tlen y)), (seg sub (tstart x) (tlen x)). induction l as [|u l IHl]; intros [|w l0] F L; try discriminate L; [split; [reflexivity|exact F]|].
    cbn [app length] in *. injection F as -> F. destruct (IHl l0 F ltac:(lia)) as [-> ->]. split; reflexivity. }
  destruct SE as [SE SQ]. apply sat_cons. split; [rewrite SE, <- EV1; exact S1|].
  apply (IH b sub sub2 (pos + tlen x) q1 C1); [|exact EV2|exact S2]. rewrite TL, C2. f_equal. destruct q1, q2; cbn in *; congruence.
Qed.
(* normal form of solved equations *)
Lemma norm_spec e s : inb (triples s) (unified s) ->
  exists a sub q, hentyNormalize e s = Ok (map tvar a, fst q, snd q) /\ collect a sub 0 = Ok q /\ forall h, sat h (triples s) (unified s) <-> sat h a sub.
Proof.
  intros IB. unfold hentyNormalize. destruct (swapLoop_ok (u_mt e) (length (triples s)) 0 (triples s) (unified s) ltac:(lia) IB) as [a [sub [-> [_ [_ [IB2 K]]]]]].
  cbn [rbind]. destruct (heapSort_ok a) as [a' [-> P]]. cbn [rbind].
  assert (IB3 : inb a' sub) by (intros x I; apply IB2, (Permutation_in _ P), I). destruct (collect_ok a' sub 0 IB3) as [q [C _]]. rewrite C. cbn [rbind].
  exists a', sub, q. split; [reflexivity|]. split; [exact C|]. intros h. rewrite K. apply sat_perm, Permutation_sym, P.
Qed.
Lemma nmbrEqb_eq a b : nmbrEqb a b = true <-> a = b.
Proof. unfold nmbrEqb. destruct (list_eq_dec Nat.eq_dec a b); split; congruence. Qed.
Lemma entryEqb_eq x y : entryEqb x y = true <-> x = y.
Proof.
  unfold entryEqb. rewrite !andb_true_iff, !nmbrEqb_eq. destruct x as [[a b] c], y as [[a' b'] c']. cbn [fst snd]. split; [intros [[-> ->] ->]; reflexivity|intros H; injection H; auto].
Qed.
Lemma norm_same e s1 s2 x h : inb (triples s1) (unified s1) -> inb (triples s2) (unified s2) -> hentyNormalize e s1 = Ok x -> hentyNormalize e s2 = Ok x ->
  sat h (triples s1) (unified s1) -> sat h (triples s2) (unified s2).
Proof.
  intros I1 I2 N1 N2 S. destruct (norm_spec e s1 I1) as [a [sub [q [E1 [C1 K1]]]]]. destruct (norm_spec e s2 I2) as [b [sub2 [q2 [E2 [C2 K2]]]]].
  rewrite N1 in E1. rewrite N2 in E2. apply Ok_inj in E1, E2. subst x. injection E2 as V F1 F2.
  apply K2. apply (collect_same h a b sub sub2 0 q C1); [|exact V|apply K1, S]. rewrite C2. f_equal. destruct q, q2; cbn in *; congruence.
Qed.

(* ---------- the answers ---------- *)
Section Answers.
  Variable e : uenv.
  Variables A B : list nat.
  Hypothesis OK : okInput e A B.

  (* f is the substitution of an answer *)
  Definition substOf (s : ust) (f : nat -> list nat) : Prop := forall l, gives e s l (app_subst f l).
  Definition sameGen (s s' : ust) : Prop := exists f g, substOf s f /\ substOf s' g /\ equally_general f g.
  Lemma in_triples s x : In x (triples s) <-> In (tvar x, (tstart x, tlen x)) (combine (vars (u_stk s)) (combine (u_starts s) (u_lens s))).
  Proof.
    unfold triples, vars. rewrite <- in_rev. destruct x as [[v a] n]. cbn [tvar tstart tlen fst snd].
    generalize (map l_var (u_stk s)), (u_starts s), (u_lens s). clear. induction l as [|w l IH]; intros [|b l1] [|m l2]; cbn [combine In]; try tauto.
    rewrite IH. split; intros [H|H]; auto; left; congruence.
  Qed.
  Lemma answer_sat s : answer e A B s -> inb (triples s) (unified s) /\ exists f, substOf s f /\ forall h, instance h f <-> sat h (triples s) (unified s).
  Proof.
    intros [[SO [T [f C]]] [EAB LP]]. destruct (answer_core e A B OK s f C EAB LP) as [U [M D]].
    assert (UP : unified s = firstn (u_p s) (u_A s)) by (unfold unified; rewrite LP; f_equal; lia).
    assert (V : forall x, In x (triples s) -> f (tvar x) = seg (unified s) (tstart x) (tlen x) /\ tstart x + tlen x <= length (unified s)).
    { intros x I. apply in_triples in I. destruct (c_val _ _ _ _ _ _ _ _ _ _ C _ _ _ I) as [V1 [V2 V3]]. rewrite UP. split; [rewrite seg_pre by lia; exact V1|].
      rewrite firstn_length, LP. lia. }
    split; [intros x I; apply V, I|]. exists f. split; [intros l; eexists; apply M|]. intros h. unfold instance, app_subst. split.
    - intros H x I. rewrite <- (proj1 (V x I)). symmetry. apply H.
    - intros H t. destruct (in_dec Nat.eq_dec t (vars (u_stk s))) as [I|I].
      + assert (exists a n, In (t, (a, n)) (combine (vars (u_stk s)) (combine (u_starts s) (u_lens s)))) as [a [n K]].
        { pose proof (c_ss _ _ _ _ _ _ _ _ _ _ C) as L1. pose proof (c_ns _ _ _ _ _ _ _ _ _ _ C) as L2. rewrite vars_len in L1, L2.
          pose proof (lookup_spec (u_stk s) (u_starts s) (u_lens s) t L1 L2 (c_nd _ _ _ _ _ _ _ _ _ _ C)) as LS.
          destruct (lookup (u_stk s) (u_starts s) (u_lens s) t) as [[a n]|]; [eauto|contradiction]. }
        assert (J : In (t, a, n) (triples s)) by (apply in_triples; exact K). pose proof (proj1 (V _ J)) as E1. pose proof (H _ J) as E2. cbn [tvar tstart tlen fst snd] in E1, E2. rewrite E1. symmetry. exact E2.
      + rewrite (c_id _ _ _ _ _ _ _ _ _ _ C t I). cbn [flat_map]. apply app_nil_r.
  Qed.
  Lemma sameGen_refl s : answer e A B s -> sameGen s s.
  Proof. intros H. destruct (answer_sat s H) as [_ [f [F _]]]. exists f, f. split; [exact F|]. split; [exact F|]. intros h. reflexivity. Qed.
  Lemma norm_ok s : answer e A B s -> exists x, hentyNormalize e s = Ok x.
  Proof. intros H. destruct (answer_sat s H) as [IB _]. destruct (norm_spec e s IB) as [a [sub [q [-> _]]]]. eauto. Qed.
  Lemma norm_gen s s' x : answer e A B s -> answer e A B s' -> hentyNormalize e s = Ok x -> hentyNormalize e s' = Ok x -> sameGen s s'.
  Proof.
    intros H1 H2 N1 N2. destruct (answer_sat s H1) as [I1 [f [F KF]]]. destruct (answer_sat s' H2) as [I2 [g [G KG]]].
    exists f, g. split; [exact F|]. split; [exact G|]. intros h. rewrite KF, KG. split; intros S; [exact (norm_same e s s' x h I1 I2 N1 N2 S)|exact (norm_same e s' s x h I2 I1 N2 N1 S)].
  Qed.

  (* ---------- the calls ---------- *)
  Variable on : bool.
  (* what the filter contains *)
  Definition filterOk (l : list hst) (filter : list hentry) : Prop :=
    forall x, In x filter -> exists h, In h l /\ hentyNormalize e (h_s h) = Ok x.
  (* hu: the answers of unify() behind the answers l of unifyH() *)
  Definition behind (l : list hst) (hu : list ust) : Prop :=
    history e A B hu /\ (forall h, In h l -> In (h_s h) hu) /\ (forall s, In s hu -> exists h, In h l /\ sameGen s (h_s h)) /\
    match l with h :: _ => hd_error hu = Some (h_s h) /\ filterOk l (h_filter h) | [] => False end.
  Lemma first_behind fuel tc tc' h : unifyH fuel e on A B tc = Ok (HYes h, tc') -> behind [h] [h_s h].
  Proof.
    unfold unifyH. intros H. apply rbind_ok in H. destruct H as [[r t] [U H]]. cbn [fst snd] in H. destruct r as [| |s]; try discriminate H.
    assert (HI : history e A B [s]) by (econstructor; exact U). pose proof (hist_good _ _ _ _ s OK HI (or_introl eq_refl)) as As.
    assert (E : h_s h = s /\ filterOk [h] (h_filter h)).
    { destruct on.
      - apply rbind_ok in H. destruct H as [x [N H]]. injection H as <- _. cbn [h_s h_filter]. split; [reflexivity|]. intros y [<-|[]]. eexists. split; [left; reflexivity|exact N].
      - injection H as <- _. split; [reflexivity|]. intros y []. }
    destruct E as [E F]. subst s. split; [exact HI|]. split; [intros h' [<-|[]]; left; reflexivity|]. split; [|split; [reflexivity|exact F]].
    intros u [<-|[]]. exists h. split; [left; reflexivity|]. apply sameGen_refl, As.
  Qed.
  Lemma loop_behind : forall k fuel s filter tc r tc' l hu, unifyHLoop k fuel e on A B s filter tc = Ok (r, tc') ->
    history e A B (s :: hu) -> (forall h, In h l -> In (h_s h) (s :: hu)) -> (forall u, In u (s :: hu) -> exists h, In h l /\ sameGen u (h_s h)) -> filterOk l filter ->
    match r with
    | HYes h => exists hu', behind (h :: l) hu'
    | HNo => exists hu', allAnswers e A B hu' /\ (forall h, In h l -> In (h_s h) hu') /\ forall u, In u hu' -> exists h, In h l /\ sameGen u (h_s h)
    | HTimeout => True
    end.
  Proof.
    induction k as [|k IH]; intros fuel s filter tc r tc' l hu H HI S1 S2 FO; [discriminate H|]. cbn [unifyHLoop] in H. apply rbind_ok in H. destruct H as [[u t] [U H]].
    cbn [fst snd] in H. destruct u as [| |s'].
    - injection H as <- _. exists (s :: hu). split; [econstructor; [exact HI|exact U]|]. split; assumption.
    - injection H as <- _. exact I.
    - assert (HI' : history e A B (s' :: s :: hu)) by (econstructor; [exact HI|exact U]). pose proof (hist_good _ _ _ _ s' OK HI' (or_introl eq_refl)) as As.
      assert (NEW : forall h, h_s h = s' -> filterOk (h :: l) (h_filter h) -> exists hu', behind (h :: l) hu').
      { intros h E F. exists (s' :: s :: hu). split; [exact HI'|]. split; [intros h' [<-|J]; [left; symmetry; exact E|right; exact (S1 h' J)]|].
        split; [|split; [rewrite E; reflexivity|exact F]]. intros v [<-|J]; [exists h; split; [left; reflexivity|rewrite E; apply sameGen_refl, As]|].
        destruct (S2 v J) as [h' [J1 J2]]. exists h'. split; [right; exact J1|exact J2]. }
      assert (OLD : forall h x, In x filter -> exists h', In h' (h :: l) /\ hentyNormalize e (h_s h') = Ok x).
      { intros h x J. destruct (FO x J) as [h' [J1 J2]]. exists h'. split; [right; exact J1|exact J2]. }
      destruct on.
      + apply rbind_ok in H. destruct H as [x [N H]]. destruct (hentyMatch x filter) eqn:EM.
        * unfold hentyMatch in EM. apply existsb_exists in EM. destruct EM as [y [Iy Ey]]. apply entryEqb_eq in Ey. subst y. destruct (FO x Iy) as [h' [J1 J2]].
          apply (IH fuel s' filter t r tc' l (s :: hu) H HI'); [intros h J; right; exact (S1 h J)| |exact FO].
          intros v [<-|J]; [|exact (S2 v J)]. exists h'. split; [exact J1|]. apply (norm_gen _ _ x As); [|exact N|exact J2].
          apply (hist_good _ _ _ _ _ OK HI). exact (S1 h' J1).
        * injection H as <- _. apply NEW; [reflexivity|]. intros y J. cbn [h_filter] in J. apply in_app_iff in J. destruct J as [J|[<-|[]]]; [exact (OLD _ y J)|].
          eexists. split; [left; reflexivity|exact N].
      + injection H as <- _. apply NEW; [reflexivity|]. intros y J. exact (OLD _ y J).
  Qed.
  Lemma hist_behind l : historyH e on A B l -> exists hu, behind l hu.
  Proof.
    induction 1 as [fuel tc tc' h H|fuel tc tc' h h' l H [hu [K1 [K2 [K3 [K4 K5]]]]] N].
    - exists [h_s h]. eapply first_behind, H.
    - destruct hu as [|s hu]; [discriminate K4|]. injection K4 as ->. exact (loop_behind _ _ _ _ _ _ _ (h :: l) hu N K1 K2 K3 K5).
  Qed.
  Lemma all_behind l : allAnswersH e on A B l -> exists hu, allAnswers e A B hu /\ (forall h, In h l -> In (h_s h) hu) /\ forall u, In u hu -> exists h, In h l /\ sameGen u (h_s h).
  Proof.
    destruct 1 as [fuel tc tc' H|fuel tc tc' h l H N].
    - unfold unifyH in H. apply rbind_ok in H. destruct H as [[r t] [U H]]. cbn [fst snd] in H. destruct r as [| |s]; try discriminate H.
      + exists []. split; [econstructor; exact U|]. split; intros ? [].
      + destruct on; [apply rbind_ok in H; destruct H as [x [_ H]]|]; discriminate H.
    - destruct (hist_behind _ H) as [hu [K1 [K2 [K3 [K4 K5]]]]]. destruct hu as [|s hu]; [discriminate K4|]. injection K4 as ->.
      exact (loop_behind _ _ _ _ _ _ _ (h :: l) hu N K1 K2 K3 K5).
  Qed.
  Lemma histH_answer l h : historyH e on A B l -> In h l -> answer e A B (h_s h).
  Proof. intros H I. destruct (hist_behind _ H) as [hu [K1 [K2 _]]]. exact (hist_good _ _ _ _ _ OK K1 (K2 h I)). Qed.

  (* ---------- every call ends ---------- *)
  Definition goodH (r : hres * nat) : Prop := match fst r with HYes h => answer e A B (h_s h) | _ => True end.
  Lemma first_ends tc : exists r k, goodH r /\ forall fuel, k <= fuel -> unifyH fuel e on A B tc = Ok r.
  Proof.
    destruct (unify_good e A B OK tc) as [[r t] [k [G K]]]. unfold goodRes in G. cbn [fst] in G. unfold unifyH. destruct r as [| |s].
    - exists (HNo, t), k. split; [exact I|]. intros fuel L. rewrite (K fuel L). reflexivity.
    - exists (HTimeout, t), k. split; [exact I|]. intros fuel L. rewrite (K fuel L). reflexivity.
    - destruct (norm_ok s G) as [x N]. exists (HYes (mkH s (if on then [x] else [])), t), k. split; [exact G|]. intros fuel L. rewrite (K fuel L). cbn [rbind fst snd].
      rewrite N. destruct on; reflexivity.
  Qed.
  Lemma loop_ends filter s : answer e A B s -> forall tc, exists r k, (goodH r /\ match fst r with HYes h => clos_trans uout (nxt e A B) (UDone (h_s h)) (UDone s) | _ => True end) /\ forall n fuel, k <= n -> k <= fuel -> unifyHLoop n fuel e on A B s filter tc = Ok r.
  Proof.
    intros As. pose proof (answer_acc e A B OK s As) as AC. remember (UDone s) as o eqn:Eo. revert s Eo As. induction AC as [o _ IH]. intros s -> As tc.
    destruct (unifyNext_good e A B OK s tc As) as [[r t] [k [G K]]]. unfold goodRes in G. cbn [fst] in G.
    destruct r as [| |s'].
    - exists (HNo, t), (S k). split; [split; exact I|]. intros n fuel L1 L2. destruct n; [lia|]. cbn [unifyHLoop]. rewrite (K fuel) by lia. reflexivity.
    - exists (HTimeout, t), (S k). split; [split; exact I|]. intros n fuel L1 L2. destruct n; [lia|]. cbn [unifyHLoop]. rewrite (K fuel) by lia. reflexivity.
    - destruct (norm_ok s' G) as [x N]. pose proof (next_after e A B OK _ _ _ _ _ As (K k (le_n _))) as AF.
      destruct (on && hentyMatch x filter) eqn:EM.
      + apply andb_true_iff in EM. destruct EM as [Eon EM]. destruct (IH _ AF s' eq_refl G t) as [r' [k' [[G' AF'] K']]].
        exists r', (S (k + k')). split; [split; [exact G'|destruct (fst r'); try exact I; eapply t_trans; eassumption]|]. intros n fuel L1 L2. destruct n; [lia|]. cbn [unifyHLoop]. rewrite (K fuel) by lia. cbn [rbind fst snd].
        rewrite Eon, N. cbn [rbind]. rewrite EM. rewrite <- Eon. apply K'; lia.
      + exists (HYes (mkH s' (if on then filter ++ [x] else filter)), t), (S k). split; [split; [exact G|exact AF]|]. intros n fuel L1 L2. destruct n; [lia|]. cbn [unifyHLoop]. rewrite (K fuel) by lia. cbn [rbind fst snd].
        destruct on; [|reflexivity]. rewrite N. cbn [rbind andb] in *. rewrite EM. reflexivity.
  Qed.
  Lemma next_endsH h tc : answer e A B (h_s h) -> exists r k, (goodH r /\ match fst r with HYes h' => clos_trans uout (nxt e A B) (UDone (h_s h')) (UDone (h_s h)) | _ => True end) /\ forall fuel, k <= fuel -> unifyHNext fuel e on A B h tc = Ok r.
  Proof. intros As. destruct (loop_ends (h_filter h) (h_s h) As tc) as [r [k [G K]]]. exists r, k. split; [exact G|]. intros fuel L. apply K; exact L. Qed.
End Answers.
