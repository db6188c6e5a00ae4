From Verif Require Import Base VstrModel VstrSpec VstrProofs BigModel BigSpec.
Open Scope nat_scope.
Open Scope Z_scope.
Local Notation len := (@List.length nat).

Lemma value_go s : forall n, fold_left (fun n c => 10 * n + (Z.of_nat c - 48)) s n = n * 10 ^ Z.of_nat (len s) + value s.
Proof.
  induction s as [|c s IH]; intros n; unfold value; cbn [fold_left List.length]; [rewrite Z.pow_0_r; lia|].
  rewrite IH, (IH (10 * 0 + _)), Nat2Z.inj_succ, Z.pow_succ_r by lia. lia.
Qed.
Lemma value_cons c s : value (c :: s) = (Z.of_nat c - 48) * 10 ^ Z.of_nat (len s) + value s.
Proof. unfold value at 1. cbn [fold_left]. rewrite value_go. lia. Qed.
Lemma value_app s t : value (s ++ t) = value s * 10 ^ Z.of_nat (len t) + value t.
Proof. unfold value at 1. rewrite fold_left_app. fold (value s). apply value_go. Qed.
Lemma value_bound s : digits s -> 0 <= value s < 10 ^ Z.of_nat (len s).
Proof.
  induction 1 as [|c s H _ IH]; [cbn; lia|]. rewrite value_cons. cbn [List.length]. rewrite Nat2Z.inj_succ, Z.pow_succ_r by lia.
  unfold isDigit in H. nia.
Qed.
Lemma value_lead c s : digits (c :: s) -> c <> 48%nat -> 10 ^ Z.of_nat (len s) <= value (c :: s).
Proof. intros H N. inversion H; subst. rewrite value_cons. pose proof (value_bound s H3). unfold isDigit in H2. nia. Qed.
Lemma canonical_len s n : canonical s -> value s < 10 ^ Z.of_nat n -> (len s <= n)%nat.
Proof.
  intros [D C] H. destruct s as [|c s]; [cbn; lia|]. assert (c <> 48%nat) by (intros ->; now apply (C s)).
  pose proof (value_lead c s D H0). destruct (le_lt_dec (len (c :: s)) n); [auto|]. cbn [List.length] in *.
  assert (10 ^ Z.of_nat n <= 10 ^ Z.of_nat (len s)) by (apply Z.pow_le_mono_r; lia). lia.
Qed.
Lemma value_inj s t : canonical s -> canonical t -> value s = value t -> s = t.
Proof.
  intros Hs Ht E.
  assert (L : len s = len t).
  { apply Nat.le_antisymm; eapply canonical_len; eauto; [rewrite E; apply value_bound, Ht|rewrite <- E; apply value_bound, Hs]. }
  destruct Hs as [Ds _], Ht as [Dt _]. revert t L Dt E. induction Ds as [|c s Hc Ds IH]; intros t L Dt E; destruct t as [|d t]; try discriminate; auto.
  inversion Dt as [|? ? Hd Dt']; subst. injection L as L. rewrite !value_cons, L in E.
  pose proof (value_bound s Ds). pose proof (value_bound t Dt'). rewrite L in H. unfold isDigit in *.
  assert (c = d) by nia. subst d. f_equal. apply IH; auto. lia.
Qed.

Lemma dropZeros_ok : forall f s, digits s -> (len s < f)%nat -> exists t, dropZeros f s = Ok t /\ canonical t /\ value t = value s.
Proof.
  induction f as [|f IH]; intros s D L; [lia|]. cbn [dropZeros].
  assert (Z : forall c r, s = c :: r -> c = 48%nat -> exists t, (do t <- right_ s 2; dropZeros f t) = Ok t /\ canonical t /\ value t = value s).
  { intros c r -> ->. assert (R : right_ (48%nat :: r) 2 = Ok r).
    { change 2%Z with (Z.of_nat 2). rewrite right_ok.
      - unfold substr. cbn [List.length]. replace (S (len r) + 1 - 2)%nat with (len r) by lia. cbn [Nat.sub skipn]. now rewrite firstn_all.
      - eapply Forall_impl; [|exact D]. unfold isDigit. intros; lia.
      - cbn [List.length]; lia. }
    rewrite R. cbn [rbind]. inversion D; subst. destruct (IH r H2) as (t & E & C & V); [cbn in L; lia|]. exists t. split; [exact E|]. split; [exact C|].
    rewrite V, value_cons. cbn. lia. }
  destruct s as [|c r]; [exists []; repeat split; auto; discriminate|].
  destruct (Nat.eq_dec c 48) as [->|N]; [now apply (Z 48%nat r)|].
  assert (E : (match (c :: r)%list with (48 :: _)%list%nat => do t <- right_ (c :: r) 2; dropZeros f t | _ => Ok (c :: r)%list end) = Ok (c :: r)).
  { do 48 (destruct c as [|c]; [reflexivity|]). destruct c; [congruence|reflexivity]. }
  rewrite E. exists (c :: r). repeat split; auto. intros r' H. congruence.
Qed.

(* the last p characters *)
Definition lastn (p : nat) (s : list nat) : list nat := skipn (len s - p) s.
Lemma lastn_all p s : (len s <= p)%nat -> lastn p s = s.
Proof. intros H. unfold lastn. now replace (len s - p)%nat with 0%nat by lia. Qed.
Lemma lastn_len p s : (p <= len s)%nat -> len (lastn p s) = p.
Proof. intros H. unfold lastn. rewrite skipn_length. lia. Qed.
Lemma skipn_nth {A} (l : list A) n x : nth_error l n = Some x -> skipn n l = x :: skipn (S n) l.
Proof. revert n. induction l as [|a l IH]; intros [|n] H; try discriminate; cbn in *; [congruence|]. now apply IH. Qed.
Lemma digitAt_ok s p : digits s -> exists d, digitAt s (S p) = Ok d /\ 0 <= d <= 9 /\ value (lastn (S p) s) = d * 10 ^ Z.of_nat p + value (lastn p s).
Proof.
  intros D. unfold digitAt. destruct (Nat.leb_spec (S p) (len s)).
  - destruct (nth_error s (len s - S p)) as [c|] eqn:E; [|apply nth_error_None in E; lia]. cbn [rget rbind].
    exists (Z.of_nat c - 48). split; [reflexivity|]. assert (isDigit c) by (eapply Forall_forall; [exact D|eapply nth_error_In; eauto]).
    unfold isDigit in H0. split; [lia|]. unfold lastn. rewrite (skipn_nth _ _ _ E), value_cons.
    replace (S (len s - S p)) with (len s - p)%nat by lia. rewrite skipn_length. now replace (len s - (len s - p))%nat with p by lia.
  - exists 0. split; [reflexivity|]. split; [lia|]. rewrite !lastn_all by lia. lia.
Qed.
Lemma addLoop_ok s1 s2 : digits s1 -> digits s2 -> forall k p carry cells,
  digits cells -> len cells = p -> 0 <= carry <= 1 ->
  value cells + carry * 10 ^ Z.of_nat p = value (lastn p s1) + value (lastn p s2) ->
  exists c' cs', addLoop s1 s2 (S p) k carry cells = Ok (c', cs') /\ digits cs' /\ len cs' = (p + k)%nat /\ 0 <= c' <= 1 /\
    value cs' + c' * 10 ^ Z.of_nat (p + k) = value (lastn (p + k) s1) + value (lastn (p + k) s2).
Proof.
  intros D1 D2. induction k as [|k IH]; intros p carry cells DC L HC V; cbn [addLoop].
  - exists carry, cells. rewrite Nat.add_0_r. auto.
  - destruct (digitAt_ok s1 p D1) as (d1 & E1 & B1 & V1). destruct (digitAt_ok s2 p D2) as (d2 & E2 & B2 & V2).
    rewrite E1. cbn [rbind]. rewrite E2. cbn [rbind].
    assert (X : exists ds c', (if 9 <? d1 + d2 + carry then (d1 + d2 + carry - 10, 1) else (d1 + d2 + carry, 0)) = (ds, c') /\
      0 <= ds <= 9 /\ 0 <= c' <= 1 /\ ds + 10 * c' = d1 + d2 + carry).
    { destruct (Z.ltb_spec 9 (d1 + d2 + carry)); eexists _, _; split; try reflexivity; lia. }
    destruct X as (ds & c' & -> & Bd & Bc & E). destruct (IH (S p) c' (Z.to_nat (ds + 48) :: cells)) as (c2 & cs & R).
    + constructor; [unfold isDigit; lia|exact DC].
    + cbn. now rewrite L.
    + exact Bc.
    + rewrite value_cons, V1, V2, L, Z2Nat.id by lia. rewrite Nat2Z.inj_succ, Z.pow_succ_r by lia.
      pose proof (Z.pow_pos_nonneg 10 (Z.of_nat p)). nia.
    + exists c2, cs. replace (p + S k)%nat with (S p + k)%nat by lia. exact R.
Qed.
Theorem bigAdd_ok s1 s2 : digits s1 -> digits s2 -> exists t, bigAdd s1 s2 = Ok t /\ canonical t /\ value t = value s1 + value s2.
Proof.
  intros D1 D2. unfold bigAdd. set (m := if (len s1 <? len s2)%nat then len s2 else len s1).
  assert (M : (len s1 <= m /\ len s2 <= m)%nat) by (subst m; destruct (Nat.ltb_spec (len s1) (len s2)); lia).
  destruct (addLoop_ok s1 s2 D1 D2 m 0%nat 0 []) as (c & cs & E & DC & L & B & V); try constructor; try lia.
  { unfold lastn. now rewrite !Nat.sub_0_r, !skipn_all. }
  rewrite E. cbn [rbind fst snd]. rewrite !lastn_all in V by lia.
  destruct (dropZeros_ok (S (len (Z.to_nat (c + 48) :: cs))) (Z.to_nat (c + 48) :: cs)) as (t & T1 & T2 & T3).
  - constructor; [unfold isDigit; lia|exact DC].
  - lia.
  - exists t. split; [exact T1|]. split; [exact T2|]. rewrite T3, value_cons, L, Z2Nat.id by lia. lia.
Qed.

Lemma cmpl_digit c : isDigit c -> isDigit (cmpl9 c) /\ Z.of_nat (cmpl9 c) - 48 = 9 - (Z.of_nat c - 48).
Proof. unfold isDigit, cmpl9. lia. Qed.
Lemma cmpl_digits s : digits s -> digits (map cmpl9 s).
Proof. induction 1; constructor; auto. now apply cmpl_digit. Qed.
Lemma cmpl_value s : digits s -> value (map cmpl9 s) = 10 ^ Z.of_nat (len s) - 1 - value s.
Proof.
  induction 1 as [|c s H D IH]; [reflexivity|]. cbn [map]. rewrite !value_cons, map_length, IH. cbn [List.length].
  rewrite Nat2Z.inj_succ, Z.pow_succ_r by lia. destruct (cmpl_digit c H) as [_ ->]. lia.
Qed.
Lemma zeros_value n t : value (repeat 48%nat n ++ t) = value t.
Proof. induction n; [reflexivity|]. cbn [repeat app]. rewrite value_cons, IHn. cbn. lia. Qed.
Lemma zeros_digits n : digits (repeat 48%nat n).
Proof. induction n; constructor; auto. unfold isDigit; lia. Qed.
Theorem bigSub_ok s1 s2 : digits s1 -> digits s2 -> value s2 <= value s1 ->
  exists t, bigSub s1 s2 = Ok t /\ canonical t /\ value t = value s1 - value s2.
Proof.
  intros D1 D2 H. unfold bigSub. destruct (bigAdd_ok (map cmpl9 s1) s2 (cmpl_digits _ D1) D2) as (b & -> & C & V). cbn [rbind].
  rewrite (cmpl_value s1 D1) in V. pose proof (value_bound s2 D2).
  assert (L : (len b <= len s1)%nat) by (apply canonical_len; [exact C|lia]).
  set (b' := if (len b <? len s1)%nat then _ else b).
  assert (B : digits b' /\ len b' = len s1 /\ value b' = value b).
  { subst b'. destruct (Nat.ltb_spec (len b) (len s1)).
    - rewrite app_length, repeat_length, zeros_value. split; [|lia]. apply Forall_app. split; [apply zeros_digits|apply C].
    - split; [apply C|lia]. }
  destruct B as (B1 & B2 & B3). clearbody b'.
  destruct (dropZeros_ok (S (len b')) (map cmpl9 b')) as (t & T1 & T2 & T3); [now apply cmpl_digits|rewrite map_length; lia|].
  exists t. split; [exact T1|]. split; [exact T2|]. rewrite T3, cmpl_value, B2, B3 by exact B1. lia.
Qed.
