(* StmScope.v -- lemmas about depth, scope and the numbering of symbols. *)
From Verif Require Import Base LabModel StmModel StmSpec StmTab.
From Coq Require Import Permutation Sorted.
Open Scope nat_scope.

Definition delta (k : kind) : Z := match k with K_lb => 1 | K_rb => -1 | _ => 0 end.

Lemma skipn_at {A} (i : A) : forall m l, nth_error l m = Some i -> skipn m l = i :: skipn (S m) l.
Proof.
  induction m as [|m IH]; intros l H; (destruct l; [discriminate|]).
  - cbn in *. congruence.
  - cbn in H. apply IH in H. exact H.
Qed.
Section Scope.
  Variable sts : list sinp.
  Notation depth := (depth sts).
  Notation stAt := (stAt sts).
  Notation inScope := (inScope sts).

  Lemma balance_app a b : balance (a ++ b) = (balance a + balance b)%Z.
  Proof. induction a as [|i a IH]; cbn [app balance]; [lia|]. rewrite IH. lia. Qed.
  Lemma depth_S n i : stAt n i -> depth (S n) = (depth n + delta (si_kind i))%Z.
  Proof.
    intros [H0 H]. unfold depth. replace (S n - 1) with (S (n - 1)) by lia.
    assert (E : firstn (S (n - 1)) sts = firstn (n - 1) sts ++ [i]).
    { clear H0. revert H. generalize (n - 1). intros m. revert sts. induction m as [|m IH]; intros l H.
      - destruct l; [discriminate|]. injection H as ->. reflexivity.
      - destruct l; [discriminate|]. cbn in H. cbn [firstn app]. f_equal. now apply IH. }
    rewrite E, balance_app. cbn [balance]. unfold delta. lia.
  Qed.
  Lemma stAt_fun n i j : stAt n i -> stAt n j -> i = j.
  Proof. intros [_ A] [_ B]. congruence. Qed.
  Lemma kindAt_at n i k : stAt n i -> (kindAt sts n k <-> si_kind i = k).
  Proof.
    intros H. split; [|intros E; exists i; auto]. intros (j & H1 & H2). now rewrite (stAt_fun _ _ _ H H1).
  Qed.
  Lemma hasTok_at n i x : stAt n i -> (hasTok sts n x <-> In x (si_toks i)).
  Proof.
    intros H. split; [|intros E; exists i; auto]. intros (j & H1 & H2). now rewrite (stAt_fun _ _ _ H H1).
  Qed.
  Lemma toksAt_at n i l : stAt n i -> (toksAt sts n l <-> si_toks i = l).
  Proof.
    intros H. split; [|intros E; exists i; auto]. intros (j & H1 & H2). now rewrite (stAt_fun _ _ _ H H1).
  Qed.
  Lemma stAt_lt n i : stAt n i -> 0 < n <= length sts.
  Proof. intros [H0 H]. assert (n - 1 < length sts) by (apply nth_error_Some; congruence). lia. Qed.
  Lemma stAt_ex n : 0 < n <= length sts -> exists i, stAt n i.
  Proof. intros H. destruct (nth_some sts (n - 1)) as (i & E); [lia|]. exists i. split; [lia|exact E]. Qed.

  Lemma inScope_lt h n : inScope h n -> 0 < h < n.
  Proof. now intros [H _]. Qed.
  Lemma inScope_trans h d n : inScope h d -> inScope d n -> inScope h n.
  Proof.
    intros [A B] [C D]. split; [lia|]. intros t Ht. destruct (le_lt_dec t d) as [H|H].
    - apply B. lia.
    - specialize (B d ltac:(lia)). specialize (D t ltac:(lia)). lia.
  Qed.
  Lemma inScope_depth h h' n : inScope h n -> h < h' <= n -> (depth h <= depth h')%Z.
  Proof. intros [_ H]. apply H. Qed.
  Lemma inScope_S h n : 0 < n -> (inScope h (S n) <->
    (h = n /\ (depth n <= depth (S n))%Z) \/ (inScope h n /\ (depth h <= depth (S n))%Z)).
  Proof.
    intros Hn. split.
    - intros [A B]. destruct (Nat.eq_dec h n) as [->|N].
      + left. split; [reflexivity|]. apply B. lia.
      + right. split; [|apply B; lia]. split; [lia|]. intros t Ht. apply B. lia.
    - intros [[ -> H]|[[A B] H]].
      + split; [lia|]. intros t Ht. replace t with (S n) by lia. exact H.
      + split; [lia|]. intros t Ht. destruct (Nat.eq_dec t (S n)) as [->|N]; [exact H|]. apply B. lia.
  Qed.
  (* a statement that neither opens nor closes a block *)
  Lemma inScope_plain h n i : stAt n i -> delta (si_kind i) = 0%Z ->
    (inScope h (S n) <-> h = n \/ inScope h n).
  Proof.
    intros HS HD. pose proof (depth_S _ _ HS) as ED. rewrite HD, Z.add_0_r in ED.
    rewrite inScope_S by (destruct HS; lia). rewrite ED. split.
    - intros [[H _]|[H _]]; auto.
    - intros [ -> |H]; [left; split; [reflexivity|lia]|]. right. split; [exact H|].
      pose proof (inScope_lt _ _ H). apply (inScope_depth _ _ _ H). lia.
  Qed.
  Lemma inScope_lb h n i : stAt n i -> si_kind i = K_lb ->
    (inScope h (S n) <-> h = n \/ inScope h n).
  Proof.
    intros HS HD. pose proof (depth_S _ _ HS) as ED. rewrite HD in ED. unfold delta in ED.
    rewrite inScope_S by (destruct HS; lia). split.
    - intros [[H _]|[H _]]; auto.
    - intros [ -> |H]; [left; split; [reflexivity|lia]|]. right. split; [exact H|].
      pose proof (inScope_lt _ _ H). pose proof (inScope_depth _ n _ H ltac:(lia)). lia.
  Qed.
  Lemma inScope_rb h n i : stAt n i -> si_kind i = K_rb ->
    (inScope h (S n) <-> inScope h n /\ (depth h < depth n)%Z).
  Proof.
    intros HS HD. pose proof (depth_S _ _ HS) as ED. rewrite HD in ED. unfold delta in ED.
    rewrite inScope_S by (destruct HS; lia). split.
    - intros [[ -> H]|[H H']]; [lia|]. split; [exact H|lia].
    - intros [H H']. right. split; [exact H|lia].
  Qed.

  (* ---- tokens ---- *)
  Let toks := declTokens 1 sts.
  Lemma decl_app : forall a b m, declTokens m (a ++ b) = declTokens m a ++ declTokens (m + length a) b.
  Proof.
    induction a as [|i a IH]; intros b m; cbn [app declTokens length]; [now rewrite Nat.add_0_r|].
    rewrite IH, <- app_assoc. now replace (S m + length a) with (m + S (length a)) by lia.
  Qed.
  Definition ownToks (n : nat) (i : sinp) : list mtok :=
    if isDecl (si_kind i) then map (fun x => mkTok x (isV (si_kind i)) n) (si_toks i) else [].
  Definition oldOf (n : nat) : nat := length (declTokens 1 (firstn (n - 1) sts)).
  Lemma firstn_at n i : stAt n i -> sts = firstn (n - 1) sts ++ i :: skipn n sts.
  Proof.
    intros [H0 H]. rewrite <- (firstn_skipn (n - 1) sts) at 1. f_equal.
    replace n with (S (n - 1)) at 2 by lia. apply skipn_at. exact H.
  Qed.
  Lemma firstn_lenm n : 0 < n <= S (length sts) -> length (firstn (n - 1) sts) = n - 1.
  Proof. intros H. rewrite firstn_length. lia. Qed.
  Lemma toks_split n i : stAt n i ->
    toks = declTokens 1 (firstn (n - 1) sts) ++ ownToks n i ++ declTokens (S n) (skipn n sts).
  Proof.
    intros H. unfold toks. rewrite (firstn_at _ _ H) at 1. rewrite decl_app. f_equal.
    pose proof (stAt_lt _ _ H). rewrite firstn_lenm by lia. cbn [declTokens].
    replace (1 + (n - 1)) with n by lia. reflexivity.
  Qed.
  Lemma decl_bounds : forall l m k, In k (declTokens m l) -> m <= mt_stmt k < m + length l.
  Proof.
    induction l as [|i l IH]; intros m k H; [destruct H|]. cbn [declTokens] in H. apply in_app_or in H.
    cbn [length]. destruct H as [H|H].
    - destruct (isDecl (si_kind i)); [|destruct H]. apply in_map_iff in H. destruct H as (x & <- & _). cbn. lia.
    - apply IH in H. lia.
  Qed.
  Lemma oldOf_S n i : stAt n i -> oldOf (S n) = oldOf n + (if isDecl (si_kind i) then length (si_toks i) else 0).
  Proof.
    intros H. unfold oldOf. pose proof (stAt_lt _ _ H). replace (S n - 1) with (S (n - 1)) by lia.
    assert (E : firstn (S (n - 1)) sts = firstn (n - 1) sts ++ [i]).
    { rewrite (firstn_at _ _ H) at 1. rewrite firstn_app, firstn_lenm by lia.
      rewrite firstn_all2 by (rewrite firstn_lenm; lia). f_equal.
      replace (S (n - 1) - (n - 1)) with 1 by lia. reflexivity. }
    rewrite E, decl_app, app_length. f_equal. cbn [declTokens]. rewrite app_nil_r.
    destruct (isDecl (si_kind i)); [apply map_length|reflexivity].
  Qed.
  Lemma oldOf_1 : oldOf 1 = 0.
  Proof. reflexivity. Qed.
  Lemma own_at n i j : stAt n i -> isDecl (si_kind i) = true -> forall x, nth_error (si_toks i) j = Some x ->
    nth_error toks (oldOf n + j) = Some (mkTok x (isV (si_kind i)) n).
  Proof.
    intros H HD x HX. rewrite (toks_split _ _ H). fold (oldOf n).
    rewrite nth_error_app2 by (unfold oldOf; lia). replace (oldOf n + j - length _) with j by (unfold oldOf; lia).
    unfold ownToks. rewrite HD. rewrite nth_error_app1.
    - now rewrite nth_error_map, HX.
    - rewrite map_length. apply nth_error_Some. congruence.
  Qed.
  (* a token belongs to the statement whose range contains it *)
  Lemma tok_before n t k : 0 < n <= S (length sts) -> nth_error toks t = Some k ->
    (t < oldOf n <-> mt_stmt k < n).
  Proof.
    intros Hn HT. unfold toks in HT. rewrite <- (firstn_skipn (n - 1) sts), decl_app in HT.
    rewrite firstn_lenm in HT by lia. fold (oldOf n) in HT.
    destruct (lt_dec t (oldOf n)) as [H|H].
    - rewrite nth_error_app1 in HT by exact H. apply nth_error_In in HT. apply decl_bounds in HT.
      rewrite firstn_lenm in HT by lia. lia.
    - rewrite nth_error_app2 in HT by (unfold oldOf in H; lia). apply nth_error_In in HT. apply decl_bounds in HT. lia.
  Qed.
  Lemma tok_own n i t k : stAt n i -> nth_error toks t = Some k ->
    (mt_stmt k = n <-> oldOf n <= t < oldOf (S n)).
  Proof.
    intros H HT. pose proof (stAt_lt _ _ H).
    pose proof (tok_before n t k ltac:(lia) HT). pose proof (tok_before (S n) t k ltac:(lia) HT). lia.
  Qed.
  Lemma tok_declares t k : nth_error toks t = Some k -> declares sts (mt_stmt k) (mt_name k) (mt_var k).
  Proof.
    intros HT. assert (B := HT). apply nth_error_In in B. apply decl_bounds in B. cbn in B.
    destruct (stAt_ex (mt_stmt k)) as (i & Hi); [lia|].
    pose proof (proj1 (tok_own _ _ _ _ Hi HT) eq_refl) as R. rewrite (oldOf_S _ _ Hi) in R.
    destruct (isDecl (si_kind i)) eqn:HD; [|lia].
    destruct (nth_some (si_toks i) (t - oldOf (mt_stmt k))) as (x & HX); [lia|].
    pose proof (own_at _ _ _ Hi HD _ HX) as E. replace (oldOf (mt_stmt k) + (t - oldOf (mt_stmt k))) with t in E by lia.
    rewrite HT in E. injection E as E. rewrite E. cbn [mt_name mt_var mt_stmt].
    assert (ES : mt_stmt k = mt_stmt k) by reflexivity.
    split; [|exists i; split; [exact Hi|now apply nth_error_In in HX]].
    exists i. split; [exact Hi|]. destruct (si_kind i); try discriminate HD; reflexivity.
  Qed.
  Lemma declares_tok h x v : declares sts h x v -> exists t k, nth_error toks t = Some k /\
    mt_name k = x /\ mt_var k = v /\ mt_stmt k = h.
  Proof.
    intros [(i & Hi & HK) HX]. apply (hasTok_at _ _ _ Hi) in HX. apply In_nth_error in HX. destruct HX as (j & HX).
    assert (HD : isDecl (si_kind i) = true) by (rewrite HK; now destruct v).
    exists (oldOf h + j), (mkTok x (isV (si_kind i)) h). split; [now apply own_at|].
    cbn. rewrite HK. destruct v; auto.
  Qed.
  Lemma denotes_visible t x n : denotes sts toks t x n -> visible sts x (tkVar toks t) n.
  Proof.
    intros (k & HK & <- & HS). exists (mt_stmt k). split; [|exact HS]. unfold tkVar. rewrite HK.
    now apply tok_declares in HK.
  Qed.
  Lemma visible_denotes x v n : visible sts x v n -> exists t, denotes sts toks t x n /\ tkVar toks t = v.
  Proof.
    intros (h & HD & HS). destruct (declares_tok _ _ _ HD) as (t & k & H1 & H2 & H3 & H4).
    exists t. split; [|unfold tkVar; now rewrite H1]. exists k. rewrite H4. auto.
  Qed.
  Lemma denotes_up t x d n : denotes sts toks t x d -> inScope d n -> denotes sts toks t x n.
  Proof. intros (k & H1 & H2 & H3) H. exists k. split; [exact H1|]. split; [exact H2|]. eapply inScope_trans; eauto. Qed.
  Lemma denotes_name t x y n m : denotes sts toks t x n -> denotes sts toks t y m -> x = y.
  Proof. intros (k & H1 & H2 & _) (k' & H3 & H4 & _). congruence. Qed.
End Scope.
