(* CmpCodec.v -- the compressed label numbers (C10). *)
From Verif Require Import Base VerModel TokModel ParModel CmpModel.
Open Scope nat_scope.

Lemma decodeGo_digit bg acc c r : 85 <= c <= 89 ->
  decodeGo bg acc (c :: r) =
  decodeGo bg (if (acc =? 0)%Z then Z.of_nat (c - 85) + 1
               else acc * 5 + Z.of_nat (c - 85) + 1 - (if bg then 1 else 0))%Z r.
Proof.
  intros H. cbn [decodeGo].
  assert (E1 : (85 <=? c) = true) by (apply Nat.leb_le; lia).
  assert (E2 : (c <=? 89) = true) by (apply Nat.leb_le; lia). rewrite E1, E2. reflexivity.
Qed.
Lemma decodeGo_letter bg acc c : 65 <= c <= 84 -> decodeGo bg acc [c] = Some (acc * 20 + Z.of_nat (c - 65))%Z.
Proof.
  intros H. cbn [decodeGo].
  assert (E1 : (85 <=? c) = false) by (apply Nat.leb_gt; lia).
  assert (E2 : (c <=? 84) = true) by (apply Nat.leb_le; lia).
  assert (E3 : (65 <=? c) = true) by (apply Nat.leb_le; lia). rewrite E1, E2, E3. reflexivity.
Qed.

Lemma mod5 a : a mod 5 < 5.
Proof. apply Nat.mod_upper_bound. lia. Qed.
Lemma mod20 a : a mod 20 < 20.
Proof. apply Nat.mod_upper_bound. lia. Qed.
Lemma div5 a : a = 5 * (a / 5) + a mod 5.
Proof. apply Nat.div_mod. lia. Qed.
Lemma div20 a : a = 20 * (a / 20) + a mod 20.
Proof. apply Nat.div_mod. lia. Qed.

Lemma decode_digits : forall fuel j r, j <= fuel -> (j > 0) ->
  decodeGo false 0 (encDigits fuel j ++ r) = decodeGo false (Z.of_nat j) r.
Proof.
  induction fuel as [|f IH]; intros j r Hf Hj; [lia|]. cbn [encDigits].
  destruct (Nat.eqb_spec j 0); [lia|]. rewrite <- app_assoc. cbn [app].
  pose proof (div5 (j - 1)) as D. pose proof (mod5 (j - 1)) as M.
  destruct (Nat.eq_dec ((j - 1) / 5) 0) as [E|E].
  - rewrite E in *. assert (Z0 : encDigits f 0 = []) by (destruct f; reflexivity). rewrite Z0. cbn [app].
    rewrite decodeGo_digit by lia. cbn [Z.eqb]. f_equal. lia.
  - rewrite IH by lia. rewrite decodeGo_digit by lia.
    destruct (Z.eqb_spec (Z.of_nat ((j - 1) / 5)) 0); [lia|]. f_equal. lia.
Qed.

Lemma decode_encode n : decodeLabel false (encodeLabel n) = Some (Z.of_nat n).
Proof.
  unfold decodeLabel, encodeLabel. pose proof (div20 n) as D. pose proof (mod20 n) as M.
  destruct (Nat.eq_dec (n / 20) 0) as [E|E].
  - rewrite E in *. cbn [encDigits app]. rewrite decodeGo_letter by lia. f_equal. lia.
  - rewrite decode_digits by lia. rewrite decodeGo_letter by lia. f_equal. lia.
Qed.

Lemma encode_inj a b : encodeLabel a = encodeLabel b -> a = b.
Proof.
  intros H. pose proof (decode_encode a) as A. rewrite H, decode_encode in A. injection A. lia.
Qed.

Definition isDigit (c : nat) : Prop := 85 <= c <= 89.
Definition isLetter (c : nat) : Prop := 65 <= c <= 84.

Lemma encDigits_all : forall f j, Forall isDigit (encDigits f j).
Proof.
  induction f as [|f IH]; intros j; cbn [encDigits]; [constructor|]. destruct (j =? 0); [constructor|].
  apply Forall_app. split; auto. constructor; [|constructor]. unfold isDigit. pose proof (mod5 (j - 1)). lia.
Qed.

Lemma encode_shape n : exists ds c, encodeLabel n = ds ++ [c] /\ Forall isDigit ds /\ isLetter c.
Proof.
  exists (encDigits (n / 20) (n / 20)), (65 + n mod 20). split; auto. split; [apply encDigits_all|].
  unfold isLetter. pose proof (mod20 n). lia.
Qed.

Lemma digits_letter_prefix : forall ds1 ds2 c1 c2 r, Forall isDigit ds1 -> Forall isDigit ds2 ->
  isLetter c1 -> isLetter c2 -> ds2 ++ [c2] = (ds1 ++ [c1]) ++ r -> r = [].
Proof.
  induction ds1 as [|d ds1 IH]; intros ds2 c1 c2 r H1 H2 L1 L2 E.
  - cbn [app] in E. destruct ds2 as [|e ds2]; cbn [app] in E.
    + injection E as _ E. auto.
    + injection E as -> _. exfalso. apply Forall_inv in H2. unfold isDigit, isLetter in *. lia.
  - cbn [app] in E. destruct ds2 as [|e ds2]; cbn [app] in E.
    + injection E as -> _. exfalso. apply Forall_inv in H1. unfold isDigit, isLetter in *. lia.
    + injection E as _ E. apply (IH ds2 c1 c2 r); auto; [apply Forall_inv_tail in H1|apply Forall_inv_tail in H2]; auto.
Qed.

Lemma encode_prefix_free a b r : encodeLabel b = encodeLabel a ++ r -> r = [] /\ a = b.
Proof.
  intros E. destruct (encode_shape a) as [da [ca [Ea [Fa La]]]]. destruct (encode_shape b) as [db [cb [Eb [Fb Lb]]]].
  assert (r = []).
  { rewrite Ea, Eb in E. eapply digits_letter_prefix; [exact Fa|exact Fb|exact La|exact Lb|exact E]. }
  split; auto. subst r. rewrite app_nil_r in E. symmetry. apply encode_inj; auto.
Qed.

(* value of a string of digits *)
Lemma encDigits_surj ds : Forall isDigit ds -> exists j, (ds = [] <-> j = 0) /\ forall f, j <= f -> encDigits f j = ds.
Proof.
  induction ds as [|d ds IH] using rev_ind; intros H.
  - exists 0. split; [tauto|]. intros [|f] _; reflexivity.
  - apply Forall_app in H. destruct H as [H1 H2]. apply Forall_inv in H2. destruct (IH H1) as [j [J1 J2]].
    unfold isDigit in H2. exists (5 * j + (d - 85) + 1). split.
    + split; intros E; [destruct ds; discriminate|lia].
    + intros f Hf. destruct f as [|f]; [lia|]. cbn [encDigits].
      destruct (Nat.eqb_spec (5 * j + (d - 85) + 1) 0); [lia|].
      replace (5 * j + (d - 85) + 1 - 1) with (j * 5 + (d - 85)) by lia.
      rewrite Nat.div_add_l by lia. rewrite (Nat.div_small (d - 85) 5) by lia. rewrite Nat.add_0_r.
      rewrite J2 by lia. f_equal. f_equal.
      rewrite (Nat.add_comm (j * 5)), Nat.mod_add by lia. rewrite Nat.mod_small by lia. lia.
Qed.

Lemma encode_surj ds c : Forall isDigit ds -> isLetter c -> exists n, encodeLabel n = ds ++ [c].
Proof.
  intros H L. destruct (encDigits_surj ds H) as [j [_ J]]. unfold isLetter in L. exists (j * 20 + (c - 65)).
  unfold encodeLabel. rewrite Nat.div_add_l by lia. rewrite (Nat.div_small (c - 65) 20) by lia. rewrite Nat.add_0_r.
  rewrite J by lia. f_equal. f_equal. rewrite (Nat.add_comm (j * 20)), Nat.mod_add by lia. rewrite Nat.mod_small by lia. lia.
Qed.

Lemma countDigits_len : forall f j, countDigits f j = length (encDigits f j).
Proof.
  induction f as [|f IH]; intros j; cbn [countDigits encDigits]; auto. destruct (j =? 0); auto.
  rewrite app_length, IH. simpl. lia.
Qed.
Lemma numChrs_len n : numChrs n = length (encodeLabel n).
Proof. unfold numChrs, encodeLabel. rewrite app_length, countDigits_len. simpl. lia. Qed.

Lemma encDigits_mono : forall f i j, i <= j -> j <= f -> length (encDigits f i) <= length (encDigits f j).
Proof.
  induction f as [|f IH]; intros i j H Hf; cbn [encDigits]; auto.
  destruct (Nat.eqb_spec i 0); [simpl; lia|]. destruct (Nat.eqb_spec j 0); [lia|].
  rewrite !app_length. cbn [length]. pose proof (div5 (i - 1)). pose proof (div5 (j - 1)).
  pose proof (mod5 (i - 1)). pose proof (mod5 (j - 1)).
  assert ((i - 1) / 5 <= (j - 1) / 5) by (apply Nat.div_le_mono; lia).
  specialize (IH ((i - 1) / 5) ((j - 1) / 5)). lia.
Qed.
Lemma encDigits_fuel : forall f f' j, j <= f -> j <= f' -> encDigits f j = encDigits f' j.
Proof.
  induction f as [|f IH]; intros f' j H H'.
  - assert (j = 0) by lia. subst. destruct f'; reflexivity.
  - destruct f' as [|f']. + assert (j = 0) by lia. subst. reflexivity.
    + cbn [encDigits]. destruct (Nat.eqb_spec j 0); auto.
      pose proof (div5 (j - 1)). rewrite (IH f') by lia. reflexivity.
Qed.
(* larger numbers never have shorter encodings *)
Lemma encode_mono a b : a <= b -> length (encodeLabel a) <= length (encodeLabel b).
Proof.
  intros H. unfold encodeLabel. rewrite !app_length. cbn [length].
  assert (a / 20 <= b / 20) by (apply Nat.div_le_mono; lia).
  rewrite (encDigits_fuel (a / 20) (b / 20) (a / 20)) by lia.
  pose proof (encDigits_mono (b / 20) (a / 20) (b / 20)). lia.
Qed.

(* the obsolete decoding agrees up to 119 and on nothing above *)
Lemma decodeGo_true_small n : n < 120 -> decodeLabel true (encodeLabel n) = Some (Z.of_nat n).
Proof.
  intros H. do 120 (destruct n as [|n]; [reflexivity|]). lia.
Qed.
