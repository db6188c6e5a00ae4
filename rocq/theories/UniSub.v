(* UniSub.v -- proofs about UniModel: replacing a variable in both schemes *)
From Coq Require Import ZifyBool ZifyNat.
From Verif Require Import Base UniModel.
Open Scope nat_scope.

Definition sub1 (x : nat) (w l : list nat) : list nat := flat_map (fun t => if t =? x then w else [t]) l.
Definition seg (l : list nat) (s n : nat) : list nat := firstn n (skipn s l).
Lemma sub1_app x w a b : sub1 x w (a ++ b) = sub1 x w a ++ sub1 x w b.
Proof. apply flat_map_app. Qed.
Lemma sub1_id x w l : ~ In x l -> sub1 x w l = l.
Proof.
  induction l as [|t l IH]; intros N; [reflexivity|]. cbn [sub1 flat_map]. destruct (t =? x) eqn:E.
  - exfalso. apply N. left. apply Nat.eqb_eq. exact E.
  - cbn [app]. f_equal. apply IH. intros I. apply N. right. exact I.
Qed.
Lemma sub1_in x w l t : In t (sub1 x w l) -> (In t w /\ In x l) \/ (In t l /\ t <> x).
Proof.
  unfold sub1. intros I. apply in_flat_map in I. destruct I as [u [I J]]. destruct (u =? x) eqn:E.
  - apply Nat.eqb_eq in E. subst u. left. auto.
  - destruct J as [<-|[]]. right. split; [exact I|lia].
Qed.
Lemma sub1_out x w l t : In t l -> t <> x -> In t (sub1 x w l).
Proof. intros I N. unfold sub1. apply in_flat_map. exists t. split; [exact I|]. replace (t =? x) with false by lia. left. reflexivity. Qed.
Lemma sub1_flat x w (f : nat -> list nat) l : sub1 x w (flat_map f l) = flat_map (fun t => sub1 x w (f t)) l.
Proof. induction l as [|t l IH]; [reflexivity|]. cbn [flat_map]. rewrite sub1_app, IH. reflexivity. Qed.
Lemma sub1_hit x w l : sub1 x w (x :: l) = w ++ sub1 x w l.
Proof. cbn [sub1 flat_map]. rewrite Nat.eqb_refl. reflexivity. Qed.
Lemma sub1_miss x w t l : t <> x -> sub1 x w (t :: l) = t :: sub1 x w l.
Proof. intros N. cbn [sub1 flat_map]. replace (t =? x) with false by lia. reflexivity. Qed.

(* ---------- the loop ---------- *)
Fixpoint walk (flag : bool) (x j : nat) (R : list nat) (P q : nat) (ss : list (nat * nat)) : nat * list (nat * nat) :=
  match R with
  | [] => (q, ss)
  | t :: R' =>
      if t =? x then
        let here := flag && (S P <=? q) in
        walk flag x j R' (P + j) (if here then q + j - 1 else q) (if here && (S P <? q) then map (adj j (S P)) ss else ss)
      else walk flag x j R' (P + 1) q ss
  end.
Lemma findAt_none x l i : ~ In x l -> findAt x l i = None.
Proof.
  revert i. induction l as [|t l IH]; intros i N; [reflexivity|]. cbn [findAt]. destruct (t =? x) eqn:E.
  - exfalso. apply N. left. lia.
  - apply IH. intros I. apply N. right. exact I.
Qed.
Lemma findAt_some x a l i : ~ In x a -> findAt x (a ++ x :: l) i = Some (i + length a).
Proof.
  revert i. induction a as [|t a IH]; intros i N; cbn [app findAt length].
  - rewrite Nat.eqb_refl, Nat.add_0_r. reflexivity.
  - destruct (t =? x) eqn:E; [exfalso; apply N; left; lia|]. rewrite IH; [f_equal; lia|].
    intros I. apply N. right. exact I.
Qed.
Lemma subLoop_walk flag x w : ~ In x w -> forall R pre k q ss fuel, ~ In x pre -> 1 <= k -> k <= length pre + 1 -> length R < fuel ->
  (1 <= length w \/ 1 <= length pre \/ hd_error R <> Some x) ->
  subLoop fuel flag x w (pre ++ R) k q ss =
    Ok (pre ++ sub1 x w R, fst (walk flag x (length w) R (length pre) q ss), snd (walk flag x (length w) R (length pre) q ss)).
Proof.
  intros Nw. induction R as [|t R IH]; intros pre k q ss fuel Np K1 K2 HF HD.
  - destruct fuel; [cbn in HF; lia|]. cbn [subLoop]. rewrite app_nil_r. unfold elemFrom. destruct k as [|i]; [lia|].
    replace (i <=? length pre) with true by lia. cbn [rbind]. rewrite findAt_none; [cbn [sub1 flat_map walk fst snd]; rewrite app_nil_r; reflexivity|].
    intros I. apply Np. rewrite <- (firstn_skipn i pre). apply in_app_iff. right. exact I.
  - destruct (Nat.eq_dec t x) as [->|N].
    + destruct fuel; [cbn in HF; lia|]. cbn [subLoop]. unfold elemFrom at 1. destruct k as [|i]; [lia|].
      replace (i <=? length (pre ++ x :: R)) with true by (rewrite app_length; cbn; lia). cbn [rbind].
      rewrite skipn_app. replace (i - length pre) with 0 by lia. cbn [skipn].
      rewrite findAt_some; [|intros I; apply Np; rewrite <- (firstn_skipn i pre); apply in_app_iff; right; exact I].
      rewrite skipn_length. replace (S i + (length pre - i)) with (S (length pre)) by lia.
      replace (S (length pre) - 1) with (length pre) by lia.
      rewrite firstn_app, Nat.sub_diag, firstn_O, app_nil_r, firstn_all.
      replace (skipn (S (length pre)) (pre ++ x :: R)) with R.
      2:{ rewrite skipn_app. rewrite skipn_all2 by lia. replace (S (length pre) - length pre) with 1 by lia. reflexivity. }
      rewrite app_assoc. cbn in HF. rewrite IH; cbn [walk].
      * rewrite Nat.eqb_refl, sub1_hit, app_assoc, app_length. reflexivity.
      * intros I. apply in_app_iff in I. tauto.
      * destruct HD as [HD|[HD|HD]]; [lia|lia|cbn in HD; congruence].
      * rewrite app_length. lia.
      * lia.
      * rewrite app_length. destruct HD as [HD|[HD|HD]]; [auto|right; left; lia|cbn in HD; congruence].
    + replace (pre ++ t :: R) with ((pre ++ [t]) ++ R) by (rewrite <- app_assoc; reflexivity). rewrite IH.
      * cbn [walk]. replace (t =? x) with false by lia. rewrite sub1_miss, app_length by exact N. cbn [length].
        rewrite <- app_assoc. reflexivity.
      * intros I. apply in_app_iff in I. destruct I as [I|[I|[]]]; auto.
      * exact K1.
      * rewrite app_length. lia.
      * cbn in HF. lia.
      * right. left. rewrite app_length. cbn. lia.
Qed.
Lemma walk_false x j R : forall P q ss, walk false x j R P q ss = (q, ss).
Proof. induction R as [|t R IH]; intros P q ss; [reflexivity|]. cbn [walk]. destruct (t =? x); cbn [andb]; apply IH. Qed.
Lemma walk_past flag x j R : forall P q ss, q <= P -> walk flag x j R P q ss = (q, ss).
Proof.
  induction R as [|t R IH]; intros P q ss H; [reflexivity|]. cbn [walk]. destruct (t =? x).
  - replace (S P <=? q) with false by lia. rewrite andb_false_r. cbn [andb]. apply IH. lia.
  - apply IH. lia.
Qed.
Definition cur (x : nat) (w : list nat) (P : nat) (L : list nat) (y : nat) : nat :=
  if y <=? P then y else P + length (sub1 x w (firstn (y - P) L)) + (y - P - length L).
Definition curSeg x w P L (v : nat * nat) : nat * nat := (cur x w P L (fst v), cur x w P L (fst v + snd v) - cur x w P L (fst v)).
Lemma cur_mono_step x w t L m : length (sub1 x w (firstn (S m) (t :: L))) = (if t =? x then length w else 1) + length (sub1 x w (firstn m L)).
Proof. cbn [firstn sub1 flat_map]. rewrite app_length. destruct (t =? x); reflexivity. Qed.
Lemma cur_ge x w P L y : P <= y -> P <= cur x w P L y.
Proof. intros H. unfold cur. destruct (y <=? P) eqn:E; lia. Qed.
Lemma cur_mono x w P L y z : y <= z -> cur x w P L y <= cur x w P L z.
Proof.
  intros H. unfold cur. destruct (y <=? P) eqn:E1, (z <=? P) eqn:E2; try lia.
  assert (X : length (sub1 x w (firstn (y - P) L)) + (y - P - length L) <= length (sub1 x w (firstn (z - P) L)) + (z - P - length L)); [|lia].
  destruct (le_lt_dec (length L) (y - P)).
  - rewrite !firstn_all2 by lia. lia.
  - replace (y - P - length L) with 0 by lia. rewrite <- (firstn_skipn (y - P) (firstn (z - P) L)), firstn_firstn, Nat.min_l by lia.
    rewrite sub1_app, app_length. lia.
Qed.
Lemma adj_cur x w t P L v : t = x -> curSeg x w (P + length w) L (adj (length w) (S P) v) = curSeg x w P (t :: L) v.
Proof.
  intros ->. destruct v as [s n].
  assert (C : forall y, cur x w P (x :: L) y = cur x w (P + length w) L (if S P <=? y then y + length w - 1 else y)).
  { intros y. unfold cur. destruct (y <=? P) eqn:E.
    - replace (S P <=? y) with false by lia. replace (y <=? P + length w) with true by lia. reflexivity.
    - replace (S P <=? y) with true by lia. destruct (y - P) as [|m] eqn:Em; [lia|].
      rewrite cur_mono_step, Nat.eqb_refl. cbn [length]. destruct (y + length w - 1 <=? P + length w) eqn:F.
      + replace m with 0 by lia. cbn. lia.
      + replace (y + length w - 1 - (P + length w)) with m by lia. lia. }
  unfold curSeg, adj. cbn [fst snd]. rewrite (C s), (C (s + n)).
  destruct (S P <=? s) eqn:E1; cbn [fst snd].
  - replace (S P <=? s + n) with true by lia. replace (s + length w - 1 + n) with (s + n + length w - 1) by lia. reflexivity.
  - destruct (S P <=? s + n) eqn:E2; cbn [fst snd]; [|reflexivity].
    replace (s + (n + length w - 1)) with (s + n + length w - 1) by lia. reflexivity.
Qed.
Lemma miss_cur x w t P L v : t <> x -> curSeg x w (P + 1) L v = curSeg x w P (t :: L) v.
Proof.
  intros N. assert (C : forall y, cur x w (P + 1) L y = cur x w P (t :: L) y).
  { intros y. unfold cur. destruct (y <=? P) eqn:E.
    - replace (y <=? P + 1) with true by lia. reflexivity.
    - destruct (y - P) as [|m] eqn:Em; [lia|]. rewrite cur_mono_step. replace (t =? x) with false by lia. cbn [length].
      destruct (y <=? P + 1) eqn:F.
      + replace m with 0 by lia. cbn. lia.
      + replace (y - (P + 1)) with m by lia. lia. }
  unfold curSeg. rewrite !C. reflexivity.
Qed.
Lemma walk_true x w R : forall L P ss, walk true x (length w) (L ++ x :: R) P (P + length L + 1) ss =
  (P + length (sub1 x w L) + length w, map (curSeg x w P L) ss).
Proof.
  induction L as [|t L IH]; intros P ss; cbn [app walk length].
  - rewrite Nat.eqb_refl. replace (S P <=? P + 0 + 1) with true by lia. replace (S P <? P + 0 + 1) with false by lia. cbn [andb].
    rewrite walk_past by lia. f_equal; [cbn; lia|]. symmetry. rewrite <- (map_id ss) at 2. apply map_ext. intros [s n].
    unfold curSeg, cur. cbn [fst snd]. rewrite !firstn_nil. cbn [length sub1 flat_map].
    destruct (s <=? P) eqn:E1, (s + n <=? P) eqn:E2; f_equal; lia.
  - destruct (t =? x) eqn:E.
    + replace (S P <=? P + S (length L) + 1) with true by lia. replace (S P <? P + S (length L) + 1) with true by lia. cbn [andb].
      replace (P + S (length L) + 1 + length w - 1) with (P + length w + length L + 1) by lia. rewrite IH. rewrite map_map.
      apply Nat.eqb_eq in E. subst t. rewrite sub1_hit, app_length. f_equal; [lia|]. apply map_ext. intros v. apply adj_cur. reflexivity.
    + replace (P + S (length L) + 1) with (P + 1 + length L + 1) by lia. rewrite IH. apply Nat.eqb_neq in E.
      rewrite sub1_miss by exact E. cbn [length]. f_equal; [lia|]. apply map_ext. intros v. apply miss_cur. exact E.
Qed.

(* ---------- doSubst ---------- *)
Lemma doSubst_ok (flag : bool) x w (s : ust) : let X := if flag then u_A s else u_B s in
  ~ In x w -> nth_error X (u_p s) = Some x -> (1 <= length w \/ (hd_error (u_A s) <> Some x /\ hd_error (u_B s) <> Some x)) ->
  doSubst flag x w s = Ok (mkU (sub1 x w (u_A s)) (sub1 x w (u_B s)) (length (sub1 x w (firstn (u_p s) X)) + length w) (u_stk s)
    (map (fun v => fst (curSeg x w 0 (firstn (u_p s) X) v)) (combine (u_starts s) (u_lens s)))
    (map (fun v => snd (curSeg x w 0 (firstn (u_p s) X) v)) (combine (u_starts s) (u_lens s))) (u_tmp s) (u_tc s)).
Proof.
  intros X Nw NX HD. unfold doSubst. assert (N0 : ~ In x (@nil nat)) by (intros []).  assert (K0 : 1 <= length (@nil nat) + 1) by (cbn; lia).
  assert (SP : forall Y, nth_error Y (u_p s) = Some x -> exists R, Y = firstn (u_p s) Y ++ x :: R /\ length (firstn (u_p s) Y) = u_p s).
  { intros Y HY. apply nth_error_split in HY. destruct HY as [l1 [l2 [-> E]]]. exists l2. rewrite <- E.
    rewrite firstn_app, firstn_all, Nat.sub_diag, firstn_O, app_nil_r. auto. }
  destruct (SP X NX) as [R [EX LX]].
  pose proof (subLoop_walk flag x w Nw (u_A s) [] 1 (u_p s + 1) (combine (u_starts s) (u_lens s)) (S (length (u_A s)))
    N0 (le_n 1) K0 (Nat.lt_succ_diag_r _)) as W1. cbn [app length] in W1.
  rewrite W1 by tauto. clear W1. cbn [rbind].
  match goal with |- context [subLoop _ (negb flag) x w _ 1 ?q ?ss] =>
    pose proof (subLoop_walk (negb flag) x w Nw (u_B s) [] 1 q ss (S (length (u_B s)))
      N0 (le_n 1) K0 (Nat.lt_succ_diag_r _)) as W2 end. cbn [app length] in W2.
  rewrite W2 by tauto. clear W2. cbn [rbind].
  pose proof (walk_true x w R (firstn (u_p s) X) 0 (combine (u_starts s) (u_lens s))) as WT. rewrite LX, <- EX in WT. cbn [plus] in WT.
  destruct flag; cbn [negb]; subst X.
  - rewrite (walk_false x (length w) (u_B s)). cbn [fst snd]. rewrite WT. cbn [fst snd]. rewrite !map_map. reflexivity.
  - rewrite (walk_false x (length w) (u_A s)). cbn [fst snd]. rewrite WT. cbn [fst snd]. rewrite !map_map. reflexivity.
Qed.
