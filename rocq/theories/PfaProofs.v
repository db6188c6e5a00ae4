(* PfaProofs.v -- proofs about PfaModel: adding, deleting, parents, known subproofs *)
From Coq Require Import ZifyBool ZifyNat.
From Verif Require Import Base VerModel VerSpec ParModel SqModel SqSpec SqProofs SqAttr SqGood TrcWork StmScope StmTab VerStep NmbProofs PfaModel PfaSpec.
Open Scope nat_scope.

Lemma wf_node db z kids : wfTree db (Node z kids) -> arity db z = Some (length kids) /\ Forall (wfTree db) kids.
Proof. intros H. inversion H; auto. Qed.

(* the place of a subtree in the proof, and what replacing it does *)
Lemma node_split T k path u : nodeAt T k path u ->
  exists a b, rpn T = a ++ rpn u ++ b /\ length a + sz u = k + 1.
Proof.
  induction 1 as [t|z kids j c k path u N Q [a [b [E L]]]].
  - exists [], []. rewrite app_nil_r. pose proof (sz_pos t). split; [reflexivity|cbn [length]; lia].
  - apply nth_error_split in N. destruct N as [k1 [k2 [-> <-]]].
    exists (flat_map rpn k1 ++ a), (b ++ flat_map rpn k2 ++ [z]). split.
    + cbn [rpn]. rewrite flat_map_app. cbn [flat_map]. rewrite E. rewrite <- !app_assoc. reflexivity.
    + rewrite app_length, firstn_app, firstn_all, Nat.sub_diag, firstn_O, app_nil_r. lia.
Qed.
Lemma put_split db T k path u : nodeAt T k path u -> forall v a b, rpn T = a ++ rpn u ++ b -> length a + sz u = k + 1 ->
  exists T', putAt v T path T' /\ rpn T' = a ++ rpn v ++ b /\ (wfTree db T -> wfTree db v -> wfTree db T') /\
    nodeAt T' (length a + sz v - 1) path v.
Proof.
  induction 1 as [t|z kids j c k path u N Q IH]; intros v a b E L.
  - assert (A : a = []). { pose proof (sz_pos t). destruct a; [reflexivity|]. cbn [length] in L. lia. }
    subst a. apply (f_equal (@length Z)) in E. rewrite !app_length in E. destruct b; [|simpl in E; lia].
    exists v. split; [constructor|]. split; [rewrite app_nil_r; reflexivity|]. split; [auto|].
    replace (length (@nil Z) + sz v - 1) with (sz v - 1) by reflexivity. constructor.
  - apply nth_error_split in N. destruct N as [k1 [k2 [-> Lk]]].
    destruct (node_split _ _ _ _ Q) as [a' [b' [E' L']]].
    assert (A : a = flat_map rpn k1 ++ a' /\ rpn u ++ b = rpn u ++ b' ++ flat_map rpn k2 ++ [z]).
    { cbn [rpn] in E. rewrite flat_map_app in E. cbn [flat_map] in E. rewrite E' in E. rewrite <- !app_assoc in E.
      rewrite <- Lk in L. rewrite firstn_app, firstn_all, Nat.sub_diag, firstn_O, app_nil_r in L.
      assert (LL : length (flat_map rpn k1 ++ a') = length a) by (rewrite app_length; lia).
      rewrite app_assoc in E. revert E LL. generalize (flat_map rpn k1 ++ a') as x. generalize (rpn u ++ b) as p.
      generalize (rpn u ++ b' ++ flat_map rpn k2 ++ [z]) as q. intros q p x E LL.
      clear - E LL. revert a E LL. induction x as [|y x IH]; intros [|w a] E LL; try discriminate; [split; auto; exact (eq_sym E)|].
      simpl in *. injection E as -> E. destruct (IH a E) as [-> ->]; auto. }
    destruct A as [-> B]. apply app_inv_head in B. subst b.
    destruct (IH v a' b' E' L') as [c' [P1 [P2 [P3 P4]]]].
    exists (Node z (k1 ++ c' :: k2)). split; [rewrite <- Lk; constructor; exact P1|]. split.
    + cbn [rpn]. rewrite flat_map_app. cbn [flat_map]. rewrite P2. rewrite <- !app_assoc. reflexivity.
    + split.
      * intros W V. destruct (wf_node _ _ _ W) as [W1 W2]. constructor.
        -- rewrite app_length in *. exact W1.
        -- apply Forall_app in W2. destruct W2 as [W2 W3]. inversion W3; subst. apply Forall_app. split; [exact W2|].
           constructor; auto.
      * rewrite app_length. pose proof (sz_pos v).
        replace (length (flat_map rpn k1) + length a' + sz v - 1) with
          (length (flat_map rpn (firstn j (k1 ++ c' :: k2))) + (length a' + sz v - 1)).
        -- eapply na_kid; [|exact P4]. rewrite <- Lk. rewrite nth_error_app2, Nat.sub_diag by lia. reflexivity.
        -- rewrite <- Lk, firstn_app, firstn_all, Nat.sub_diag, firstn_O, app_nil_r. lia.
Qed.

Lemma splice_eq {A} (a m b new : list A) : splice (a ++ m ++ b) (length a + length m - 1) (length m) new = a ++ new ++ b \/ m = [].
Proof.
  destruct m as [|x m]; [right; reflexivity|left]. unfold splice. cbn [length].
  replace (length a + S (length m) - 1 + 1 - S (length m)) with (length a) by lia.
  replace (length a + S (length m) - 1 + 1) with (length (a ++ x :: m)) by (rewrite app_length; simpl; lia).
  assert (F : firstn (length a) (a ++ (x :: m) ++ b) = a) by (rewrite firstn_app, firstn_all, Nat.sub_diag, firstn_O, app_nil_r; reflexivity).
  assert (G : skipn (length (a ++ x :: m)) (a ++ (x :: m) ++ b) = b) by (rewrite app_assoc, skipn_app, skipn_all, Nat.sub_diag; reflexivity).
  rewrite F, G. reflexivity.
Qed.

Lemma subLen_node db T k path u : wfTree db T -> nodeAt T k path u -> subproofLen db (rpn T) k = Ok (sz u).
Proof.
  intros W N. pose proof (nodeAt_bound _ _ _ _ N) as B.
  destruct (sub_len_exact db T k W B) as [n [_ [S2 [S3 [_ S5]]]]].
  destruct (node_split _ _ _ _ N) as [a [b [E L]]]. pose proof (sz_pos u).
  rewrite S2. f_equal. symmetry. apply S5; [lia|]. exists u. split.
  - clear -W N. induction N as [t|z kids j c k path u Nk Q IH]; [exact W|]. apply IH.
    apply wf_node in W. destruct W as [_ W]. rewrite Forall_forall in W. apply W. eapply nth_error_In. exact Nk.
  - unfold endingAt. rewrite E. replace (k + 1 - sz u) with (length a) by lia.
    rewrite skipn_app, skipn_all, Nat.sub_diag. cbn [app skipn]. rewrite firstn_app, firstn_all, Nat.sub_diag, firstn_O, app_nil_r. reflexivity.
Qed.

(* ---------- list bookkeeping ---------- *)
Lemma nth_skipn_cons {A} (l : list A) k x d : nth_error l k = Some x -> skipn k l = nth k l d :: skipn (k + 1) l.
Proof.
  intros H. rewrite Nat.add_1_r. rewrite (nth_error_nth _ _ d H). apply skipn_at. exact H.
Qed.
Lemma splice_len {A} (l : list A) k n new : k < length l -> length (splice l k n new) = (k + 1 - n) + length new + (length l - (k + 1)).
Proof. intros H. unfold splice. rewrite !app_length, firstn_length, skipn_length. lia. Qed.
Lemma splice_nth {A} (l : list A) k n new i : k < length l ->
  nth_error (splice l k n new) i =
    if i <? k + 1 - n then nth_error l i
    else if i <? k + 1 - n + length new then nth_error new (i - (k + 1 - n))
    else nth_error l (i - (k + 1 - n + length new) + (k + 1)).
Proof.
  intros H. unfold splice. set (a := k + 1 - n).
  assert (La : length (firstn a l) = a) by (rewrite firstn_length; lia).
  destruct (i <? a) eqn:E1.
  - rewrite nth_error_app1 by lia. apply nth_error_firstn_lt. lia.
  - rewrite nth_error_app2 by lia. rewrite La. destruct (i <? a + length new) eqn:E2.
    + rewrite nth_error_app1 by lia. reflexivity.
    + rewrite nth_error_app2 by lia. rewrite nth_error_skipn_add. f_equal. lia.
Qed.
Lemma node_wf db T k path u : wfTree db T -> nodeAt T k path u -> wfTree db u.
Proof.
  intros W N. induction N as [t|z kids j c k path u Nk Q IH]; [exact W|]. apply IH.
  apply wf_node in W. destruct W as [_ W]. rewrite Forall_forall in W. apply W. eapply nth_error_In. exact Nk.
Qed.
Lemma wf_unknown db : wfTree db unknown.
Proof. constructor; [reflexivity|constructor]. Qed.
Lemma splice_rpn T k u a b v : rpn T = a ++ rpn u ++ b -> length a + sz u = k + 1 -> splice (rpn T) k (sz u) (rpn v) = a ++ rpn v ++ b.
Proof.
  intros E L. rewrite E. pose proof (sz_pos u). destruct (splice_eq a (rpn u) b (rpn v)) as [X|X].
  - replace k with (length a + sz u - 1) by lia. exact X.
  - rewrite X in H. simpl in H. lia.
Qed.

(* any splice of the proof is the replacement of a subtree *)
Lemma put_ok db T k path u v : wfTree db T -> nodeAt T k path u -> wfTree db v ->
  exists T', putAt v T path T' /\ rpn T' = splice (rpn T) k (sz u) (rpn v) /\ wfTree db T' /\
    nodeAt T' (k + sz v - sz u) path v.
Proof.
  intros W N V. destruct (node_split _ _ _ _ N) as [a [b [E L]]].
  destruct (put_split db _ _ _ _ N v a b E L) as [T' [P1 [P2 [P3 P4]]]]. exists T'.
  split; [exact P1|]. split; [rewrite P2; symmetry; eapply splice_rpn; eassumption|]. split; [auto|].
  pose proof (sz_pos u). replace (k + sz v - sz u) with (length a + sz v - 1) by lia. exact P4.
Qed.
Lemma splice_in {A} (l : list A) k n new x : In x (splice l k n new) -> In x l \/ In x new.
Proof.
  unfold splice. rewrite !in_app_iff. intros [H|[H|H]]; [left; eapply firstn_In_own|right; exact H|left; eapply In_skipn]; eassumption.
Qed.

Theorem delete_ok db s T k path u : pipOk db s T -> nodeAt T k path u -> nth_error (pf s) k <> Some zUnk ->
  exists s' T', deleteSubProof db s k = Ok s' /\ pipOk db s' T' /\ putAt unknown T path T' /\
    nodeAt T' (k + 1 - sz u) path unknown /\
    pf s' = splice (pf s) k (sz u) [zUnk] /\ tg s' = splice (tg s) k (sz u) [nth k (tg s) []] /\
    sr s' = splice (sr s) k (sz u) [[]] /\ us s' = splice (us s) k (sz u) [nth k (us s) []].
Proof.
  intros [P1 P2 P3 P4 P5 P6 P7] N NU. pose proof (nodeAt_bound _ _ _ _ N) as B. rewrite P2 in *.
  pose proof (nodeAt_root _ _ _ _ N) as R. pose proof (sz_pos u).
  destruct (node_split _ _ _ _ N) as [a0 [b0 [_ L0]]].
  destruct (nth_error (tg s) k) as [t|] eqn:Et; [|apply nth_error_None in Et; lia].
  destruct (nth_error (sr s) k) as [r|] eqn:Er; [|apply nth_error_None in Er; lia].
  destruct (nth_error (us s) k) as [w|] eqn:Eu; [|apply nth_error_None in Eu; lia].
  destruct (put_ok db T k path u unknown P1 N (wf_unknown db)) as [T' [Q1 [Q2 [Q3 Q4]]]].
  eexists. exists T'. split.
  { unfold deleteSubProof. rewrite P2, R. cbn [rget rbind].
    replace (rootOf u =? zUnk)%Z with false by (symmetry; apply Z.eqb_neq; intros X; apply NU; rewrite R, X; reflexivity).
    rewrite (subLen_node db T k path u P1 N). cbn [rbind]. rewrite Er. cbn [rget rbind]. reflexivity. }
  cbn [rpn unknown flat_map app length] in Q2, Q4.
  split; [|split; [exact Q1|split]].
  - constructor; cbn [pf tg sr us]; auto.
    + intros z I. rewrite Q2 in I. apply splice_in in I. destruct I as [I|[<-|[]]]; [apply P3, I|reflexivity].
    + fold (splice (rpn T) k (sz u) [zUnk]). rewrite splice_len by lia. rewrite app_length, firstn_length, skipn_length. simpl. lia.
    + fold (splice (rpn T) k (sz u) [zUnk]). rewrite splice_len by lia. change ([] :: skipn (k + 1) (sr s)) with ([[]] ++ skipn (k + 1) (sr s)).
      fold (splice (sr s) k (sz u) [[]]). rewrite splice_len by lia. simpl. lia.
    + fold (splice (rpn T) k (sz u) [zUnk]). rewrite splice_len by lia. rewrite app_length, firstn_length, skipn_length. simpl. lia.
    + intros i. change ([] :: skipn (k + 1) (sr s)) with ([[]] ++ skipn (k + 1) (sr s)).
      fold (splice (rpn T) k (sz u) [zUnk]). fold (splice (sr s) k (sz u) [[]]).
      rewrite !splice_nth by lia. cbn [length]. destruct (i <? k + 1 - sz u) eqn:E1; [apply P7|].
      destruct (i <? k + 1 - sz u + 1) eqn:E2; [|apply P7].
      replace (i - (k + 1 - sz u)) with 0 by lia. intros _. reflexivity.
  - replace (k + 1 - sz u) with (k + sz unknown - sz u) by (simpl; lia). exact Q4.
  - cbn [pf tg sr us]. split; [reflexivity|]. unfold splice.
    rewrite (nth_skipn_cons _ _ _ [] Et), (nth_skipn_cons _ _ _ [] Eu). auto.
Qed.

Theorem add_ok db s T k path u v : pipOk db s T -> nodeAt T k path u -> nth_error (pf s) k = Some zUnk ->
  wfTree db v -> noRefs (rpn v) ->
  exists s' T', addSubProof s (rpn v) k = Ok s' /\ pipOk db s' T' /\ putAt v T path T' /\
    nodeAt T' (k + sz v - 1) path v /\
    pf s' = splice (pf s) k 1 (rpn v) /\ tg s' = splice (tg s) k 1 (repeat [] (sz v - 1) ++ [nth k (tg s) []]) /\
    sr s' = splice (sr s) k 1 (repeat [] (sz v)) /\ us s' = splice (us s) k 1 (repeat [] (sz v - 1) ++ [nth k (us s) []]).
Proof.
  intros [P1 P2 P3 P4 P5 P6 P7] N NU V NV. pose proof (nodeAt_bound _ _ _ _ N) as B. rewrite P2 in *.
  pose proof (nodeAt_root _ _ _ _ N) as R. pose proof (sz_pos v).
  assert (SU : sz u = 1).
  { rewrite NU in R. injection R as R. pose proof (node_wf _ _ _ _ _ P1 N) as Wu. destruct u as [z kids].
    cbn [rootOf] in R. subst z. apply wf_node in Wu. destruct Wu as [A _]. cbn in A. injection A as A.
    destruct kids; [reflexivity|discriminate]. }
  destruct (nth_error (tg s) k) as [t|] eqn:Et; [|apply nth_error_None in Et; lia].
  pose proof (P7 k NU) as Er.
  destruct (nth_error (us s) k) as [w|] eqn:Eu; [|apply nth_error_None in Eu; lia].
  destruct (put_ok db T k path u v P1 N V) as [T' [Q1 [Q2 [Q3 Q4]]]]. rewrite SU in *.
  assert (NE : rpn v <> []) by (intros X; rewrite X in H; simpl in H; lia).
  assert (SP : forall (l : list (list Z)) x, nth_error l k = Some x ->
    firstn k l ++ repeat [] (sz v - 1) ++ skipn k l = splice l k 1 (repeat [] (sz v - 1) ++ [nth k l []])).
  { intros l x El. unfold splice. replace (k + 1 - 1) with k by lia. rewrite (nth_skipn_cons _ _ _ [] El), <- !app_assoc. reflexivity. }
  assert (RR : forall x : list Z, repeat [] (sz v - 1) ++ [[]] = repeat ([] : list Z) (sz v)).
  { intros _. change [[]] with (repeat ([] : list Z) 1). rewrite <- repeat_app. f_equal. lia. }
  assert (E : addSubProof s (rpn v) k = Ok (mkPip (splice (rpn T) k 1 (rpn v))
    (splice (tg s) k 1 (repeat [] (sz v - 1) ++ [nth k (tg s) []])) (splice (sr s) k 1 (repeat [] (sz v)))
    (splice (us s) k 1 (repeat [] (sz v - 1) ++ [nth k (us s) []])))).
  { unfold addSubProof. rewrite P2, NU. cbn [rget rbind]. rewrite Z.eqb_refl. cbn [negb]. rewrite Er. cbn [rget rbind].
    destruct (rpn v) as [|z0 r0] eqn:Ev; [congruence|]. rewrite <- Ev in *. cbn [length Nat.eqb negb].
    rewrite (SP _ _ Et), (SP _ _ Er), (SP _ _ Eu). rewrite (nth_error_nth _ _ [] Er), (RR []).
    do 2 f_equal. unfold splice. replace (k + 1 - 1) with k by lia. reflexivity. }
  eexists. exists T'. split; [exact E|].
  split; [|split; [exact Q1|split; [exact Q4|cbn [pf tg sr us]; auto]]].
  constructor; cbn [pf tg sr us]; auto.
  - intros z I. rewrite Q2 in I. apply splice_in in I. destruct I as [I|I]; [apply P3, I|apply NV, I].
  - rewrite !splice_len by lia. rewrite app_length, repeat_length. simpl. lia.
  - rewrite !splice_len by lia. rewrite repeat_length. lia.
  - rewrite !splice_len by lia. rewrite app_length, repeat_length. simpl. lia.
  - intros i. rewrite !splice_nth by lia. rewrite repeat_length. destruct (i <? k + 1 - 1) eqn:E1; [apply P7|].
    destruct (i <? k + 1 - 1 + sz v) eqn:E2; [|apply P7].
    intros _. apply nth_error_repeat. lia.
Qed.

(* ---------- replacing a subproof ---------- *)
Lemma splice_splice {A} (l : list A) k n x new : 1 <= n <= k + 1 -> k < length l ->
  splice (splice l k n [x]) (k + 1 - n) 1 new = splice l k n new.
Proof.
  intros H1 H2. unfold splice. replace (k + 1 - n + 1 - 1) with (k + 1 - n) by lia.
  assert (La : length (firstn (k + 1 - n) l) = k + 1 - n) by (rewrite firstn_length; lia).
  set (a := firstn (k + 1 - n) l) in *. rewrite <- La. f_equal; [|f_equal].
  - rewrite firstn_app, firstn_all, Nat.sub_diag, firstn_O, app_nil_r. reflexivity.
  - rewrite skipn_app. replace (length a + 1 - length a) with 1 by lia. rewrite skipn_all2 by lia. reflexivity.
Qed.
Lemma putAt_comp v w T path T' : putAt w T path T' -> forall T'', putAt v T' path T'' -> putAt v T path T''.
Proof.
  induction 1 as [t|z ks1 k ks2 path k' P IH]; intros T'' Q.
  - inversion Q; subst. constructor.
  - remember (Node z (ks1 ++ k' :: ks2)) as tt eqn:Et. remember ((z, length ks1) :: path) as pp eqn:Ep.
    destruct Q as [?|z0 k1 k0 k2 p0 k0' Q']; [discriminate|]. injection Et as -> E1. injection Ep as L ->.
    assert (X : k1 = ks1 /\ k0 :: k2 = k' :: ks2).
    { clear -E1 L. revert ks1 E1 L. induction k1 as [|x k1 IH]; intros [|y ks1] E L; try discriminate; [auto|].
      simpl in *. injection E as -> E. destruct (IH ks1 E) as [-> ->]; auto. }
    destruct X as [-> X]. injection X as -> ->. constructor. apply IH, Q'.
Qed.
Theorem replace_ok db s T k path u v : pipOk db s T -> nodeAt T k path u -> wfTree db v -> noRefs (rpn v) ->
  exists s' T', replaceSubProof db s (rpn v) k = Ok s' /\ pipOk db s' T' /\ putAt v T path T' /\
    pf s' = splice (pf s) k (sz u) (rpn v) /\ tg s' = splice (tg s) k (sz u) (repeat [] (sz v - 1) ++ [nth k (tg s) []]) /\
    sr s' = splice (sr s) k (sz u) (repeat [] (sz v)) /\ us s' = splice (us s) k (sz u) (repeat [] (sz v - 1) ++ [nth k (us s) []]).
Proof.
  intros P N V NV. pose proof P as [P1 P2 P3 P4 P5 P6 P7]. pose proof (nodeAt_bound _ _ _ _ N) as B.
  pose proof (sz_pos u). destruct (node_split _ _ _ _ N) as [a0 [b0 [_ L0]]].
  assert (SL : subproofLen db (pf s) k = Ok (sz u)) by (rewrite P2; eapply subLen_node; eassumption).
  unfold replaceSubProof. rewrite SL. cbn [rbind].
  pose proof (nodeAt_root _ _ _ _ N) as R.
  destruct (Z.eq_dec (rootOf u) zUnk) as [E|E].
  - assert (SU : sz u = 1).
    { pose proof (node_wf _ _ _ _ _ P1 N) as Wu. destruct u as [z kids].
      cbn [rootOf] in E. subst z. apply wf_node in Wu. destruct Wu as [A _]. cbn in A. injection A as A.
      destruct kids; [reflexivity|discriminate]. }
    assert (D : deleteSubProof db s k = Ok s).
    { unfold deleteSubProof. rewrite P2, R, E. cbn [rget rbind]. rewrite Z.eqb_refl. reflexivity. }
    rewrite D. cbn [rbind]. rewrite SU. replace (k + 1 - 1) with k by lia.
    destruct (add_ok db s T k path u v P N) as [s' [T' [A1 [A2 [A3 [_ A4]]]]]]; auto.
    { rewrite P2, R, E. reflexivity. }
    exists s', T'. auto.
  - destruct (delete_ok db s T k path u P N) as [s1 [T1 [D1 [D2 [D3 [D4 [D5 [D6 [D7 D8]]]]]]]]].
    { rewrite P2, R. congruence. }
    rewrite D1. cbn [rbind].
    destruct (add_ok db s1 T1 (k + 1 - sz u) path unknown v D2 D4) as [s' [T' [A1 [A2 [A3 [_ [A5 [A6 [A7 A8]]]]]]]]]; auto.
    { rewrite D5, splice_nth by (rewrite P2; lia). replace (k + 1 - sz u <? k + 1 - sz u) with false by lia.
      cbn [length]. replace (k + 1 - sz u <? k + 1 - sz u + 1) with true by lia. rewrite Nat.sub_diag. reflexivity. }
    exists s', T'. split; [exact A1|]. split; [exact A2|]. split; [eapply putAt_comp; eassumption|].
    rewrite A5, A6, A7, A8, D5, D6, D7, D8.
    assert (NT : forall l : list (list Z), length l = length (pf s) ->
      nth (k + 1 - sz u) (splice l k (sz u) [nth k l []]) [] = nth k l []).
    { intros l Ll. apply nth_error_nth. rewrite splice_nth by (rewrite Ll, P2; lia).
      replace (k + 1 - sz u <? k + 1 - sz u) with false by lia. cbn [length].
      replace (k + 1 - sz u <? k + 1 - sz u + 1) with true by lia. rewrite Nat.sub_diag. reflexivity. }
    rewrite !NT by assumption. rewrite P2 in *. rewrite !splice_splice by lia. auto.
Qed.

(* ---------- parents ---------- *)
Lemma nodeAt_comp T k path u : nodeAt T k path u -> forall i p w, nodeAt u i p w ->
  nodeAt T (k + 1 - sz u + i) (path ++ p) w.
Proof.
  induction 1 as [t|z kids j c k path u N Q IH]; intros i p w H.
  - pose proof (sz_pos t). replace (sz t - 1 + 1 - sz t + i) with i by lia. exact H.
  - cbn [app]. pose proof (nodeAt_bound _ _ _ _ Q). destruct (node_split _ _ _ _ Q) as [a [b [_ L]]].
    replace (length (flat_map rpn (firstn j kids)) + k + 1 - sz u + i) with (length (flat_map rpn (firstn j kids)) + (k + 1 - sz u + i)) by lia.
    eapply na_kid; [exact N|]. apply IH. exact H.
Qed.
Lemma nodeAt_inside T k path u i p w : nodeAt T k path u -> nodeAt T i p w -> k + 1 - sz u <= i <= k ->
  exists p', p = path ++ p' /\ nodeAt u (i - (k + 1 - sz u)) p' w.
Proof.
  intros N M R. destruct (node_split _ _ _ _ N) as [a [b [_ L]]]. pose proof (sz_pos u).
  destruct (nodeAt_total u (i - (k + 1 - sz u))) as [p' [w' N']]; [lia|].
  pose proof (nodeAt_comp _ _ _ _ N _ _ _ N') as C. replace (k + 1 - sz u + (i - (k + 1 - sz u))) with i in C by lia.
  destruct (nodeAt_unique _ _ _ _ M _ _ C) as [-> ->]. exists p'. auto.
Qed.
Lemma nodeAt_snoc T k q u : nodeAt T k q u -> forall path z j, q = path ++ [(z, j)] ->
  exists k' kids, nodeAt T k' path (Node z kids) /\ nth_error kids j = Some u /\
    k = k' + 1 - sz (Node z kids) + length (flat_map rpn (firstn j kids)) + sz u - 1.
Proof.
  induction 1 as [t|z0 kids j0 c k q u N Q IH]; intros path z j E; [destruct path; discriminate|].
  destruct path as [|[z1 j1] path]; cbn [app] in E.
  - injection E as -> -> ->. inversion Q; subst. exists (sz (Node z kids) - 1), kids. split; [constructor|]. split; [exact N|].
    pose proof (sz_pos (Node z kids)). pose proof (sz_pos u). lia.
  - injection E as -> -> ->. destruct (IH path z j eq_refl) as [k' [ks [M1 [M2 M3]]]].
    exists (length (flat_map rpn (firstn j1 kids)) + k'), ks. split; [eapply na_kid; eassumption|]. split; [exact M2|].
    destruct (node_split _ _ _ _ M1) as [a [b [_ L]]]. pose proof (sz_pos (Node z ks)). pose proof (sz_pos u). lia.
Qed.

Lemma norefs_node z kids : noRefs (rpn (Node z kids)) -> isRef z = false /\ Forall (fun k => noRefs (rpn k)) kids.
Proof.
  intros H. split; [apply H; cbn [rpn]; rewrite in_app_iff; right; left; reflexivity|].
  apply Forall_forall. intros k I x Ix. apply H. cbn [rpn]. rewrite in_app_iff. left. apply in_flat_map. eauto.
Qed.
Lemma norefs_unk db z n : arity db z = Some n -> isRef z = false -> (z < 0)%Z -> legalCodes [z] -> z = zUnk.
Proof. intros _ R N L. destruct (L z) as [C|[C|C]]; [left; reflexivity|lia|exact C|congruence]. Qed.

Lemma parentLoop_tree db t : wfTree db t -> noRefs (rpn t) -> legalCodes (rpn t) -> forall r i sp, (0 <= sp)%Z ->
  parentLoop db (rpn t ++ r) i sp = parentLoop db r (i + sz t) (sp + 1).
Proof.
  induction t as [z kids IH] using tree_ind2. intros W NR LC r i sp Hs.
  destruct (wf_node _ _ _ W) as [A F]. destruct (norefs_node _ _ NR) as [R1 R2].
  assert (K : forall r i sp, (0 <= sp)%Z -> parentLoop db (flat_map rpn kids ++ r) i sp = parentLoop db r (i + length (flat_map rpn kids)) (sp + Z.of_nat (length kids))).
  { assert (LK : Forall (fun k => legalCodes (rpn k)) kids).
    { apply Forall_forall. intros k I. eapply legal_kid; eassumption. }
    clear -IH F R2 LK. induction kids as [|k kids IHk]; intros r i sp Hs.
    - cbn [flat_map app length]. f_equal; lia.
    - inversion IH; subst. inversion F; subst. inversion R2; subst. inversion LK; subst.
      cbn [flat_map length]. rewrite <- app_assoc. rewrite H1 by auto. rewrite IHk by (auto; lia). rewrite app_length. f_equal; lia. }
  cbn [rpn]. rewrite <- app_assoc. rewrite K by exact Hs. cbn [app parentLoop].
  assert (SZ : length (flat_map rpn kids) + 1 = sz (Node z kids)) by (rewrite sz_node; lia).
  apply arity_cases in A. destruct A as [[A1 A2]|[A1 [st [A2 A3]]]].
  - assert (z = zUnk).
    { destruct (LC z) as [C|[C|C]]; [cbn [rpn]; rewrite in_app_iff; right; left; reflexivity|lia|exact C|congruence]. }
    subst z. replace (zUnk <? 0)%Z with true by reflexivity. rewrite Z.eqb_refl. cbn [negb].
    destruct kids; [|discriminate]. cbn [length]. f_equal; [simpl; lia|lia].
  - replace (z <? 0)%Z with false by lia. rewrite A2. cbn [rget rbind].
    destruct A3 as [[A3 A4]|[A3 A4]].
    + destruct kids; [|discriminate]. destruct A4 as [-> | ->]; (f_equal; [simpl; lia|cbn [length]; lia]).
    + cbv zeta. rewrite <- A3. replace (sp + Z.of_nat (length kids) - Z.of_nat (length kids) + 1 <=? 0)%Z with false by lia.
      destruct A4 as [-> | ->]; (f_equal; [rewrite app_length; simpl; lia|lia]).
Qed.
Lemma parentLoop_trees db kids : Forall (fun t => wfTree db t /\ noRefs (rpn t) /\ legalCodes (rpn t)) kids -> forall r i sp, (0 <= sp)%Z ->
  parentLoop db (flat_map rpn kids ++ r) i sp = parentLoop db r (i + length (flat_map rpn kids)) (sp + Z.of_nat (length kids)).
Proof.
  induction 1 as [|k kids [A [B C]] F IH]; intros r i sp Hs.
  - cbn [flat_map app length]. f_equal; lia.
  - cbn [flat_map length]. rewrite <- app_assoc, parentLoop_tree by auto. rewrite IH by lia. rewrite app_length. f_equal; lia.
Qed.
Lemma node_norefs T k path u : nodeAt T k path u -> noRefs (rpn T) -> noRefs (rpn u).
Proof. intros N H z I. apply H. destruct (node_split _ _ _ _ N) as [a [b [-> _]]]. rewrite !in_app_iff. auto. Qed.
Lemma node_legal T k path u : nodeAt T k path u -> legalCodes (rpn T) -> legalCodes (rpn u).
Proof. intros N H z I. apply H. destruct (node_split _ _ _ _ N) as [a [b [-> _]]]. rewrite !in_app_iff. auto. Qed.

Theorem parent_ok db T k path z j u : wfTree db T -> noRefs (rpn T) -> legalCodes (rpn T) ->
  nodeAt T k (path ++ [(z, j)]) u ->
  exists k' kids, nodeAt T k' path (Node z kids) /\ nth_error kids j = Some u /\ getParentStep db (rpn T) k = Ok k'.
Proof.
  intros W NR LC N. destruct (nodeAt_snoc _ _ _ _ N path z j eq_refl) as [k' [kids [M1 [M2 M3]]]].
  exists k', kids. split; [exact M1|]. split; [exact M2|].
  destruct (node_split _ _ _ _ M1) as [a [b [E L]]]. pose proof (sz_pos u) as Pu.
  pose proof (node_wf _ _ _ _ _ W M1) as Wn. destruct (wf_node _ _ _ Wn) as [A F].
  destruct (norefs_node _ _ (node_norefs _ _ _ _ M1 NR)) as [R1 R2].
  pose proof (node_legal _ _ _ _ M1 LC) as LN.
  destruct (nth_error_split _ _ M2) as [k1 [k2 [EK LK]]].
  assert (F1 : firstn j kids = k1) by (rewrite EK, <- LK, firstn_app, firstn_all, Nat.sub_diag, firstn_O, app_nil_r; reflexivity).
  rewrite F1 in M3. rewrite sz_node, EK, flat_map_app in L, M3. cbn [flat_map] in L, M3. rewrite !app_length in L, M3.
  assert (SK : skipn (S k) (rpn T) = flat_map rpn k2 ++ [z] ++ b).
  { rewrite E. cbn [rpn]. rewrite EK, flat_map_app. cbn [flat_map].
    replace (a ++ ((flat_map rpn k1 ++ rpn u ++ flat_map rpn k2) ++ [z]) ++ b) with
      ((a ++ flat_map rpn k1 ++ rpn u) ++ flat_map rpn k2 ++ [z] ++ b) by (rewrite <- !app_assoc; reflexivity).
    replace (S k) with (length (a ++ flat_map rpn k1 ++ rpn u)) by (rewrite !app_length; lia).
    rewrite skipn_app, skipn_all, Nat.sub_diag. reflexivity. }
  unfold getParentStep. rewrite SK. rewrite parentLoop_trees; [|clear SK E|lia].
  2:{ rewrite EK in F, R2. apply Forall_app in F. destruct F as [_ F]. inversion F; subst.
      apply Forall_app in R2. destruct R2 as [_ R2]. inversion R2; subst.
      rewrite Forall_forall in *. intros t I. split; [auto|]. split; [auto|].
      apply (legal_kid z (k1 ++ u :: k2)); [exact LN|]. apply in_or_app. right. right. exact I. }
  cbn [app parentLoop].
  apply arity_cases in A. destruct A as [[A1 A2]|[A1 [st [A2 A3]]]].
  { rewrite EK, app_length in A2. simpl in A2. lia. }
  replace (z <? 0)%Z with false by lia. rewrite A2. cbn [rget rbind].
  destruct A3 as [[A3 A4]|[A3 A4]]; [rewrite EK, app_length in A3; simpl in A3; lia|].
  cbv zeta. rewrite <- A3. rewrite EK, app_length. cbn [length].
  match goal with |- context [(?x <=? 0)%Z] => replace (x <=? 0)%Z with true by lia end.
  destruct A4 as [-> | ->]; cbn [rbind]; f_equal; lia.
Qed.
Theorem parent_root db T : wfTree db T -> getParentStep db (rpn T) (sz T - 1) = Ok (sz T - 1).
Proof.
  intros W. pose proof (sz_pos T). unfold getParentStep. rewrite skipn_all2 by lia. cbn [parentLoop rbind].
  replace (S (sz T - 1) =? sz T) with true by lia. reflexivity.
Qed.

(* ---------- known subproofs ---------- *)
Definition known (t : tree) : bool := negb (existsb (Z.eqb zUnk) (rpn t)).
Fixpoint kflags (t : tree) : list bool :=
  match t with Node z kids => flat_map kflags kids ++ [known t] end.
Lemma known_iff t : known t = true <-> ~ In zUnk (rpn t).
Proof.
  unfold known. rewrite negb_true_iff. split.
  - intros H I. assert (X : existsb (Z.eqb zUnk) (rpn t) = true) by (apply existsb_exists; exists zUnk; split; [exact I|apply Z.eqb_refl]). congruence.
  - intros H. destruct (existsb (Z.eqb zUnk) (rpn t)) eqn:E; [|reflexivity]. apply existsb_exists in E.
    destruct E as [x [I E]]. apply Z.eqb_eq in E. subst x. contradiction.
Qed.
Lemma kflags_len t : length (kflags t) = sz t.
Proof.
  induction t as [z kids IH] using tree_ind2. rewrite sz_node. cbn [kflags]. rewrite app_length. cbn [length]. f_equal.
  induction IH as [|k kids E F IHk]; [reflexivity|]. cbn [flat_map]. rewrite !app_length. lia.
Qed.
Lemma kflags_at T k path u : nodeAt T k path u -> nth_error (kflags T) k = Some (known u).
Proof.
  assert (FL : forall ks, length (flat_map kflags ks) = length (flat_map rpn ks)).
  { induction ks as [|a ks IH]; [reflexivity|]. cbn [flat_map]. rewrite !app_length, kflags_len. lia. }
  induction 1 as [t|z kids j c k path u N Q IH].
  - destruct t as [z kids]. cbn [kflags]. rewrite nth_error_app2 by (rewrite FL, sz_node; lia).
    replace (sz (Node z kids) - 1 - length (flat_map kflags kids)) with 0 by (rewrite FL, sz_node; lia). reflexivity.
  - pose proof (nodeAt_bound _ _ _ _ Q). destruct (nth_error_split _ _ N) as [k1 [k2 [-> <-]]].
    rewrite firstn_app, firstn_all, Nat.sub_diag, firstn_O, app_nil_r.
    cbn [kflags]. rewrite flat_map_app. cbn [flat_map].
    rewrite nth_error_app1 by (rewrite !app_length, kflags_len, FL; lia).
    rewrite nth_error_app2 by (rewrite FL; lia). rewrite FL.
    rewrite nth_error_app1 by (rewrite kflags_len; lia). rewrite <- IH. f_equal. lia.
Qed.
Lemma knownLoop_tree db t : wfTree db t -> noRefs (rpn t) -> legalCodes (rpn t) -> forall r stk,
  knownLoop db (rpn t ++ r) stk = (do y <- knownLoop db r (known t :: stk); Ok (kflags t ++ fst y, snd y)).
Proof.
  induction t as [z kids IH] using tree_ind2. intros W NR LC r stk.
  destruct (wf_node _ _ _ W) as [A F]. destruct (norefs_node _ _ NR) as [R1 R2].
  assert (K : forall r stk, knownLoop db (flat_map rpn kids ++ r) stk =
    (do y <- knownLoop db r (rev (map known kids) ++ stk); Ok (flat_map kflags kids ++ fst y, snd y))).
  { assert (LK : Forall (fun k => legalCodes (rpn k)) kids).
    { apply Forall_forall. intros k I. eapply legal_kid; eassumption. }
    clear -IH F R2 LK. induction kids as [|k kids IHk]; intros r stk.
    - cbn [flat_map app map rev]. destruct (knownLoop db r stk) as [[a b]| | |]; reflexivity.
    - inversion IH; subst. inversion F; subst. inversion R2; subst. inversion LK; subst.
      cbn [flat_map map rev]. rewrite <- app_assoc. rewrite H1 by auto. rewrite IHk by auto. rewrite <- app_assoc. cbn [app].
      destruct (knownLoop db r (rev (map known kids) ++ known k :: stk)) as [[a b]| | |]; cbn [rbind fst snd]; try reflexivity.
      rewrite app_assoc. reflexivity. }
  cbn [rpn]. rewrite <- app_assoc. rewrite K. cbn [app knownLoop kflags].
  apply arity_cases in A. destruct A as [[A1 A2]|[A1 [st [A2 A3]]]].
  - assert (z = zUnk).
    { destruct (LC z) as [C|[C|C]]; [cbn [rpn]; rewrite in_app_iff; right; left; reflexivity|lia|exact C|congruence]. }
    subst z. destruct kids; [|discriminate]. cbn [flat_map app map rev].
    replace (zUnk <? 0)%Z with true by reflexivity. rewrite Z.eqb_refl. cbn [negb rbind fst snd].
    change (known (Node zUnk [])) with false.
    destruct (knownLoop db r (false :: stk)) as [[a b]| | |]; reflexivity.
  - replace (z <? 0)%Z with false by lia. rewrite A2. cbn [rget rbind].
    assert (ZU : (zUnk =? z)%Z = false) by (unfold zUnk; lia).
    assert (KN : known (Node z kids) = forallb (fun b => b) (map known kids)).
    { unfold known. cbn [rpn]. rewrite existsb_app. cbn [existsb]. rewrite ZU. cbn [orb]. rewrite orb_false_r.
      clear. induction kids as [|k kids IH]; [reflexivity|]. cbn [flat_map map forallb]. rewrite existsb_app, negb_orb, IH. reflexivity. }
    destruct A3 as [[A3 A4]|[A3 A4]].
    + destruct kids; [|discriminate]. cbn [flat_map app map rev]. rewrite KN. cbn [map forallb].
      destruct A4 as [-> | ->]; cbn [rbind fst snd];
        destruct (knownLoop db r (true :: stk)) as [[a b]| | |]; reflexivity.
    + assert (FA : forall l : list bool, forallb (fun b => b) (rev l) = forallb (fun b => b) l).
      { clear. induction l as [|x l IH]; [reflexivity|]. cbn [rev forallb]. rewrite forallb_app, IH. cbn [forallb]. destruct x, (forallb (fun b => b) l); reflexivity. }
      assert (LR : length (rev (map known kids)) = length (s_reqHyps st)) by (rewrite rev_length, map_length; exact A3).
      destruct A4 as [-> | ->]; cbv zeta;
        (rewrite app_length, LR; replace (length (s_reqHyps st) + length stk <? length (s_reqHyps st)) with false by lia;
         rewrite <- LR, firstn_app, firstn_all, Nat.sub_diag, firstn_O, app_nil_r, skipn_app, skipn_all, Nat.sub_diag;
         cbn [rbind fst snd app skipn]; rewrite FA, <- KN;
         destruct (knownLoop db r (known (Node z kids) :: stk)) as [[a b]| | |]; cbn [rbind fst snd]; try reflexivity;
         rewrite <- app_assoc; reflexivity).
Qed.
Theorem known_ok db T : wfTree db T -> noRefs (rpn T) -> legalCodes (rpn T) -> getKnownSubProofs db (rpn T) = Ok (kflags T).
Proof.
  intros W NR LC. unfold getKnownSubProofs. rewrite <- (app_nil_r (rpn T)). rewrite knownLoop_tree by assumption.
  cbn [knownLoop rbind fst snd length Nat.eqb]. rewrite app_nil_r. reflexivity.
Qed.
