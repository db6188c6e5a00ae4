(* DateProofs.v *)
From Coq Require Import NArith.
From Verif Require Import Base VstrModel VstrSpec VstrProofs FatlSpec FatlProofs DateModel DateSpec.
Open Scope Z_scope.

Definition digit (c : nat) : Prop := (48 <= c <= 57)%nat.
Fixpoint rv (r : list nat) : Z := match r with [] => 0 | c :: r => Z.of_nat (c - 48) + 10 * rv r end.
Definition val10 (l : list nat) : N := fold_left (fun v c => (10 * v + N.of_nat (c - 48))%N) l 0%N.
Lemma rv_val10 l : rv (rev l) = Z.of_N (val10 l).
Proof.
  unfold val10. induction l as [|c l IH] using rev_ind; [reflexivity|]. rewrite rev_app_distr, fold_left_app. cbn [rev app rv fold_left].
  rewrite IH. lia.
Qed.
Lemma valLoop_digits r : Forall digit r -> forall rest n d p neg, 0 <= p ->
  valLoop (r ++ rest) n d p neg = valLoop rest (n + rv r * p * d) d (p * 10 ^ Z.of_nat (length r)) neg.
Proof.
  induction 1 as [|c r Hc Hr IH]; intros rest n d p neg Hp; cbn [app valLoop rv length].
  - f_equal; [lia|]. change (Z.of_nat 0) with 0. lia.
  - unfold digit in Hc. destruct (Nat.eqb_spec c 46); [lia|]. destruct (Nat.eqb_spec c 45); [lia|].
    unfold isDigit. destruct (Nat.leb_spec 48 c); [|lia]. destruct (Nat.leb_spec c 57); [|lia]. cbn [andb].
    rewrite IH by lia. rewrite Nat2Z.inj_succ, Z.pow_succ_r by lia. f_equal; ring.
Qed.
Lemma valL_dec n l : isDecimal n l -> (Z.of_N n <= longMax) -> valL l = Ok (Z.of_N n).
Proof.
  intros (A & B & C & D) Hn. unfold valL. assert (Forall digit (rev l)) as R by (apply Forall_rev; exact B).
  rewrite <- (app_nil_r (rev l)), (valLoop_digits _ R) by lia. cbn [valLoop]. rewrite rv_val10. unfold val10. rewrite C.
  rewrite Z.add_0_l, !Z.mul_1_r, Z.quot_1_r. unfold long. destruct (Z.leb_spec (- longMax - 1) (Z.of_N n)); [|unfold longMax in *; lia].
  destruct (Z.leb_spec (Z.of_N n) longMax); [reflexivity|lia].
Qed.
Lemma valL_neg n l : isDecimal n l -> (Z.of_N n <= longMax + 1) -> valL (45%nat :: l) = Ok (- Z.of_N n).
Proof.
  intros (A & B & C & D) Hn. unfold valL. assert (Forall digit (rev l)) as R by (apply Forall_rev; exact B).
  cbn [rev]. rewrite (valLoop_digits _ R) by lia. cbn [valLoop Nat.eqb]. rewrite rv_val10. unfold val10. rewrite C.
  rewrite Z.add_0_l, !Z.mul_1_r, Z.quot_1_r. unfold long. destruct (Z.leb_spec (- longMax - 1) (- Z.of_N n)); [|unfold longMax in *; lia].
  destruct (Z.leb_spec (- Z.of_N n) longMax); [reflexivity|unfold longMax in *; lia].
Qed.

(* ---------- printing ---------- *)
Lemma digits_ok : forall fuel n, 0 <= n -> n < 2 ^ Z.of_nat fuel -> (0 < fuel)%nat -> isDecimal (Z.to_N n) (digits fuel n).
Proof.
  induction fuel as [|f IH]; intros n Hn Hb Hf; [lia|]. cbn [digits]. destruct (Z.ltb_spec n 10) as [H|H].
  - split; [discriminate|]. split; [constructor; [lia|constructor]|]. split; [cbn; lia|]. cbn. intros E. f_equal. exact E.
  - assert (0 < n / 10) as H1 by (apply Z.div_str_pos; lia).
    pose proof (Z.div_mod n 10 ltac:(lia)) as Hdm. pose proof (Z.mod_pos_bound n 10 ltac:(lia)) as Hmp.
    rewrite Nat2Z.inj_succ, Z.pow_succ_r in Hb by lia.
    set (q := n / 10) in *. set (r := n mod 10) in *. clearbody q r.
    assert (q < 2 ^ Z.of_nat f) as Hq by lia.
    assert (0 < f)%nat as Hf0. { destruct f; [|lia]. change (2 ^ Z.of_nat 0) with 1 in Hq. lia. }
    destruct (IH q ltac:(lia) Hq Hf0) as (A & B & C & D). split; [destruct (digits f q); discriminate|]. split.
    + apply Forall_app. split; [exact B|]. constructor; [lia|constructor].
    + split.
      * rewrite fold_left_app, C. cbn [fold_left]. lia.
      * destruct (digits f q) as [|c0 l0] eqn:E; [congruence|]. cbn [hd app]. intros H0. exfalso.
        cbn [hd] in D. specialize (D H0). injection D as -> ->. cbn in C. lia.
Qed.
Lemma log2_lt n : 0 <= n -> n < 2 ^ Z.of_nat (S (Z.to_nat (Z.log2 n))).
Proof.
  intros H. rewrite Nat2Z.inj_succ, Z2Nat.id by apply Z.log2_nonneg. destruct (Z.eq_dec n 0) as [->|N]; [cbn; lia|].
  apply Z.log2_spec. lia.
Qed.
Lemma printInt_ok n : 0 <= n -> isDecimal (Z.to_N n) (printInt n).
Proof.
  intros H. unfold printInt. destruct (Z.ltb_spec n 0); [lia|]. rewrite Z.abs_eq by lia. cbn [app]. apply digits_ok; [lia|apply log2_lt; lia|lia].
Qed.
Lemma printInt_neg n : n < 0 -> exists l, printInt n = 45%nat :: l /\ isDecimal (Z.to_N (- n)) l.
Proof.
  intros H. unfold printInt. destruct (Z.ltb_spec n 0); [|lia]. rewrite Z.abs_neq by lia. cbn [app]. eexists. split; [reflexivity|].
  apply digits_ok; [lia|apply log2_lt; lia|lia].
Qed.
Lemma str_print n : str n = printInt n.
Proof.
  unfold str. rewrite rev_app_distr. cbn [rev app].
  assert (forall r, dropZero (46%nat :: r) = 46%nat :: r) as H by (intros [|? ?]; reflexivity).
  cbn [dropZero Nat.eqb]. change (match rev (printInt n) with [] => 46%nat :: rev (printInt n) | _ :: _ => 46%nat :: rev (printInt n) end) with (dropZero (46%nat :: rev (printInt n))).
  rewrite H. cbn [Nat.eqb]. apply rev_involutive.
Qed.

(* ---------- splitting ---------- *)
Lemma instrFrom_dash a : forall i b, ~ In 45%nat a -> instrFrom (a ++ 45%nat :: b) i dash = (i + length a + 1)%nat.
Proof.
  induction a as [|c a IH]; intros i b H; cbn [app instrFrom dash].
  - cbn. lia.
  - destruct (Nat.eqb_spec c 45) as [->|N]; [exfalso; apply H; left; reflexivity|]. cbn [andb].
    change [45%nat] with dash. rewrite IH by (intros K; apply H; right; exact K). cbn [length]. lia.
Qed.
Lemma instr_dash p a b : ~ In 45%nat a -> instr (Z.of_nat (length p) + 1) (p ++ a ++ 45%nat :: b) dash = (length p + length a + 1)%nat.
Proof.
  intros H. unfold instr. destruct (Z.ltb_spec (Z.of_nat (length p) + 1) 1); [lia|].
  destruct (Z.ltb_spec (Z.of_nat (length (p ++ a ++ 45%nat :: b))) (Z.of_nat (length p) + 1)) as [K|K].
  - rewrite !app_length in K. cbn [length] in K. lia.
  - replace (Z.to_nat (Z.of_nat (length p) + 1 - 1)) with (length p) by lia.
    rewrite skipn_app, skipn_all, Nat.sub_diag. cbn [skipn app]. apply instrFrom_dash, H.
Qed.
Lemma digits_no_dash n l : isDecimal n l -> ~ In 45%nat l.
Proof. intros (_ & B & _) H. rewrite Forall_forall in B. specialize (B _ H). lia. Qed.
Lemma isStr_dec n l : isDecimal n l -> isStr l.
Proof. intros (_ & B & _). eapply Forall_impl; [|exact B]. cbn. lia. Qed.
Lemma month_cases m ms : 1 <= m <= 12 -> nth_error monthNames (Z.to_nat (m - 1)) = Some ms ->
  length ms = 3%nat /\ isStr ms /\ ~ In 45%nat ms /\ mid MONTHS (m * 3 - 2) 3 = Ok ms /\
  Z.quot (Z.of_nat (instr 1 MONTHS ms) - 1) 3 + 1 = m.
Proof.
  intros Hm H. assert (m = 1 \/ m = 2 \/ m = 3 \/ m = 4 \/ m = 5 \/ m = 6 \/ m = 7 \/ m = 8 \/ m = 9 \/ m = 10 \/ m = 11 \/ m = 12) as C by lia.
  repeat (destruct C as [->|C]; [vm_compute in H; injection H as <-; repeat split; try (vm_compute; congruence); try (repeat constructor); vm_compute; intuition discriminate|]).
  subst m. vm_compute in H; injection H as <-; repeat split; try (vm_compute; congruence); try (repeat constructor); vm_compute; intuition discriminate.
Qed.
Lemma month_name m : 1 <= m <= 12 -> exists ms, nth_error monthNames (Z.to_nat (m - 1)) = Some ms.
Proof. intros Hm. destruct (nth_error monthNames (Z.to_nat (m - 1))) as [x|] eqn:E; [eauto|]. apply nth_error_None in E. cbn in E. lia. Qed.

(* what parseDate reads in ds-rest *)
Lemma parse_split ds rest : isStr (ds ++ 45%nat :: rest) -> ~ In 45%nat ds ->
  let s := ds ++ 45%nat :: rest in
  instr 1 s dash = (length ds + 1)%nat /\ left_ s (Z.of_nat (instr 1 s dash) - 1) = Ok ds /\
  mid s (Z.of_nat (instr 1 s dash) + 1) 3 = Ok (firstn 3 rest).
Proof.
  intros Hs Hd s. assert (instr 1 s dash = (length ds + 1)%nat) as E by (apply (instr_dash [] ds rest Hd)). rewrite E.
  split; [reflexivity|]. split.
  - unfold left_. rewrite mid_ok by (assumption || lia). f_equal.
    replace (Z.to_nat (Z.of_nat (length ds + 1) - 1)) with (length ds) by lia. cbn [skipn Z.sub Z.to_nat].
    change (Z.to_nat (1 - 1)) with 0%nat. cbn [skipn]. unfold s. rewrite firstn_app, firstn_all, Nat.sub_diag. cbn. apply app_nil_r.
  - rewrite mid_ok; [|assumption|unfold s; rewrite app_length; cbn [length]; lia]. f_equal. change (Z.to_nat 3) with 3%nat.
    replace (Z.to_nat (Z.of_nat (length ds + 1) + 1 - 1)) with (length ds + 1)%nat by lia.
    unfold s. rewrite skipn_app, skipn_all2 by lia. replace (length ds + 1 - length ds)%nat with 1%nat by lia. reflexivity.
Qed.
Lemma right_split ds ms ys : isStr (ds ++ 45%nat :: ms ++ 45%nat :: ys) -> ~ In 45%nat ds -> ~ In 45%nat ms ->
  let s := ds ++ 45%nat :: ms ++ 45%nat :: ys in
  right_ s (Z.of_nat (instr (Z.of_nat (instr 1 s dash) + 1) s dash) + 1) = Ok ys.
Proof.
  intros Hs Hd Hm s. destruct (parse_split ds (ms ++ 45%nat :: ys) Hs Hd) as (E & _ & _). fold s in E. rewrite E.
  assert (instr (Z.of_nat (length ds + 1) + 1) s dash = (length ds + 1 + length ms + 1)%nat) as E2.
  { pose proof (instr_dash (ds ++ [45%nat]) ms ys Hm) as H. rewrite app_length in H. cbn [length] in H. unfold s.
    rewrite <- app_assoc in H. cbn [app] in H. exact H. }
  rewrite E2.
  assert (length s = length ds + 1 + length ms + 1 + length ys)%nat as Ls by (unfold s; rewrite app_length; cbn [length]; rewrite app_length; cbn [length]; lia).
  replace (Z.of_nat (length ds + 1 + length ms + 1) + 1) with (Z.of_nat (length ds + 1 + length ms + 1 + 1)) by lia.
  rewrite right_ok by (assumption || lia). f_equal. unfold substr.
  assert (skipn (length ds + 1 + length ms + 1 + 1 - 1) s = ys) as ->.
  { unfold s. replace (ds ++ 45%nat :: ms ++ 45%nat :: ys) with ((ds ++ 45%nat :: ms ++ [45%nat]) ++ ys) by (rewrite <- app_assoc; cbn [app]; rewrite <- app_assoc; reflexivity).
    rewrite skipn_app, skipn_all2 by (rewrite app_length; cbn [length]; rewrite app_length; cbn [length]; lia). cbn [app].
    rewrite app_length. cbn [length]. rewrite app_length. cbn [length].
    replace (length ds + 1 + length ms + 1 + 1 - 1 - (length ds + S (length ms + 1)))%nat with 0%nat by lia. reflexivity. }
  apply firstn_all2. lia.
Qed.
Lemma long_ok n : - longMax - 1 <= n <= longMax -> long n = Ok n.
Proof. intros H. unfold long. destruct (Z.leb_spec (- longMax - 1) n); [|lia]. destruct (Z.leb_spec n longMax); [reflexivity|lia]. Qed.
Lemma longMax_eq : longMax = 9223372036854775807.
Proof. reflexivity. Qed.
Lemma written_str s d m y : written s d m y -> isStr s.
Proof.
  intros (Hd & Hm & Hy & ds & ms & ys & -> & D & M & Y). destruct (month_cases m ms Hm M) as (_ & S & _).
  unfold isStr in *. repeat (apply Forall_app; split); try exact S; try (constructor; [lia|constructor]); eapply isStr_dec; eassumption.
Qed.
(* the year as parseDate gives it *)
Definition century (y : Z) : Z := if y <? 100 then (if y <? 93 then y + 2000 else y + 1900) else y.
Lemma parse_written s d m y : written s d m y ->
  parseDate s = Ok ((d <? 1) || (31 <? d), d, m, century y).
Proof.
  intros W. pose proof (written_str _ _ _ _ W) as Hs. destruct W as (Hd & Hm & Hy & ds & ms & ys & -> & D & M & Y).
  destruct (month_cases m ms Hm M) as (L3 & Sm & Dm & _ & Q).
  cbn [app] in *. pose proof (digits_no_dash _ _ D) as Dd.
  destruct (parse_split ds (ms ++ 45%nat :: ys) Hs Dd) as (E & E1 & E2). unfold parseDate. rewrite E1. cbn [rbind].
  rewrite (valL_dec _ _ D) by (unfold longMax; lia). cbn [rbind]. rewrite E2. cbn [rbind].
  rewrite (right_split ds ms ys Hs Dd Dm). cbn [rbind]. rewrite (valL_dec _ _ Y) by (unfold longMax; lia). cbn [rbind].
  rewrite firstn_app, L3, firstn_all2 by lia. cbn [Nat.sub firstn]. rewrite app_nil_r, Q. rewrite !Z2N.id by lia.
  assert ((if y <? 100 then if y <? 93 then long (y + 2000) else long (y + 1900) else Ok y) = Ok (century y)) as ->.
  { unfold century. destruct (Z.ltb_spec y 100); [|reflexivity]. destruct (Z.ltb_spec y 93); apply long_ok; unfold longMax; lia. }
  cbn [rbind]. f_equal. f_equal. f_equal. f_equal.
  destruct (Z.ltb_spec m 1); [lia|]. destruct (Z.ltb_spec 12 m); [lia|]. rewrite !orb_false_r. reflexivity.
Qed.
Lemma build_written d m y : 0 <= d <= longMax -> 1 <= m <= 12 -> 0 <= y <= longMax ->
  exists s, buildDate d m y = Ok s /\ written s d m y.
Proof.
  intros Hd Hm Hy. destruct (month_name m Hm) as [ms M]. destruct (month_cases m ms Hm M) as (_ & _ & _ & Md & _).
  unfold buildDate. rewrite Md. cbn [rbind]. eexists. split; [reflexivity|]. unfold longMax in *. split; [lia|]. split; [lia|]. split; [lia|].
  exists (str d), ms, (str y). split; [reflexivity|]. rewrite !str_print. repeat split; try (apply printInt_ok; lia); exact M.
Qed.
Lemma written_inj s s' d m y : written s d m y -> written s' d m y -> s = s'.
Proof.
  intros (_ & _ & _ & ds & ms & ys & -> & D & M & Y) (_ & _ & _ & ds' & ms' & ys' & -> & D' & M' & Y').
  rewrite (decimal_unique _ _ _ D D'), (decimal_unique _ _ _ Y Y'). congruence.
Qed.

(* ---------- the format check ---------- *)
Lemma sameText_spec a : forall b, sameText a b = true <-> a = b.
Proof.
  induction a as [|x a IH]; intros [|y b]; cbn; try (split; [discriminate|discriminate] || tauto); try (split; congruence).
  rewrite andb_true_iff, IH, Nat.eqb_eq. split; [intros [-> ->]; reflexivity|intros E; injection E as -> ->; auto].
Qed.
Lemma format_written s d m y : written s d m y -> 100 <= y -> formatOk s = Ok true.
Proof.
  intros W Hy. unfold formatOk. rewrite (parse_written _ _ _ _ W). cbn [rbind].
  unfold century. destruct (Z.ltb_spec y 100); [lia|].
  pose proof W as (Hd & Hm & Hy2 & _). destruct (build_written d m y) as (t & E & W2); [unfold longMax; lia|exact Hm|unfold longMax; lia|].
  rewrite E. cbn [rbind]. f_equal. apply sameText_spec. eapply written_inj; eassumption.
Qed.
Lemma long_inv n v : long n = Ok v -> v = n /\ - longMax - 1 <= n <= longMax.
Proof.
  unfold long. destruct (Z.leb_spec (- longMax - 1) n); [|discriminate]. destruct (Z.leb_spec n longMax); [|discriminate].
  intros E. apply Ok_inj in E. subst v. split; [reflexivity|]. split; assumption.
Qed.
Lemma instr_le start s m : m <> [] -> (instr start s m <= length s)%nat.
Proof.
  intros Hm. destruct (instr_ok start s m Hm) as [[E _]|(q & E & O & _)]; [lia|]. apply occurs_bound in O. destruct m; [congruence|cbn in O; lia].
Qed.
Lemma isStr_app a b : isStr (a ++ b) -> isStr a /\ isStr b.
Proof. apply Forall_app. Qed.
(* the day and the month that parseDate can give *)
Lemma parse_parts s e d m y : parseDate s = Ok (e, d, m, y) -> 1 <= m <= 13 /\ - longMax - 1 <= d <= longMax /\ - longMax - 1 <= y <= longMax.
Proof.
  unfold parseDate. intros H. apply rbind_ok in H as (l & _ & H). apply rbind_ok in H as (dd & Hd & H). apply rbind_ok in H as (m3 & _ & H).
  apply rbind_ok in H as (r & _ & H). apply rbind_ok in H as (y0 & Hy & H). apply rbind_ok in H as (yy & Hyy & H). apply Ok_inj in H.
  unfold valL in Hd, Hy. destruct (valLoop (rev l) 0 1 1 false) as [a b]. destruct (valLoop (rev r) 0 1 1 false) as [a2 b2].
  apply long_inv in Hd. apply long_inv in Hy.
  assert (- longMax - 1 <= yy <= longMax) as Ry.
  { destruct (y0 <? 100); [destruct (y0 <? 93); apply long_inv in Hyy; lia|]. injection Hyy as <-. lia. }
  injection H as _ <- <- <-. split; [|lia].
  assert (instr 1 MONTHS m3 <= 37)%nat as B.
  { destruct m3 as [|c m3]; [vm_compute; lia|]. pose proof (instr_le 1 MONTHS (c :: m3) ltac:(discriminate)) as K. change (length MONTHS) with 36%nat in K. lia. }
  set (k := instr 1 MONTHS m3) in *. clearbody k. 
  assert (Z.of_nat k = 0 \/ 1 <= Z.of_nat k) as [K|K] by lia.
  - rewrite K. cbn. lia.
  - pose proof (Z.quot_le_mono (Z.of_nat k - 1) 36 3 ltac:(lia) ltac:(lia)) as U. change (Z.quot 36 3) with 12 in U.
    pose proof (Z.quot_pos (Z.of_nat k - 1) 3 ltac:(lia) ltac:(lia)). lia.
Qed.
Lemma no_dash_month c r : instr 1 MONTHS (45%nat :: c :: r) = 0%nat.
Proof. reflexivity. Qed.
Lemma format_inv s : isStr s -> formatOk s = Ok true -> exists d m y, written s d m y /\ 100 <= y.
Proof.
  intros Hs H. unfold formatOk in H. apply rbind_ok in H as ([[[e d] m] y] & Hp & H). apply rbind_ok in H as (t & Hb & H).
  apply Ok_inj, sameText_spec in H. subst t. destruct (parse_parts _ _ _ _ _ Hp) as (Hm & Hd & Hy).
  unfold buildDate in Hb. apply rbind_ok in Hb as (m3 & Em & Hb). apply Ok_inj in Hb. cbn [dash app] in Hb. rewrite !str_print in Hb.
  (* the day is not negative *)
  assert (0 <= d) as D0.
  { destruct (Z.le_gt_cases 0 d) as [K|K]; [exact K|]. exfalso. destruct (printInt_neg d K) as (l & El & Dl). rewrite El in Hb. cbn [app] in Hb.
    rewrite <- Hb in Hp, Hs. destruct (parse_split [] _ Hs (fun x => x)) as (_ & P1 & _). cbn [app] in P1.
    unfold parseDate in Hp. rewrite P1 in Hp. cbn [rbind] in Hp. change (valL []) with (Ok 0) in Hp. cbn [rbind] in Hp.
    apply rbind_ok in Hp as (? & _ & Hp). apply rbind_ok in Hp as (? & _ & Hp). apply rbind_ok in Hp as (? & _ & Hp). apply rbind_ok in Hp as (? & _ & Hp).
    apply Ok_inj in Hp. injection Hp as _ Hd0 _ _. lia. }
  pose proof (printInt_ok d D0) as Dd. pose proof (digits_no_dash _ _ Dd) as Nd.
  assert (exists c yr, printInt y = c :: yr) as (c0 & yr & Ey).
  { destruct (Z.le_gt_cases 0 y) as [K|K]; [|destruct (printInt_neg y K) as (l & -> & _); eauto].
    destruct (printInt_ok y K) as (Ne & _). destruct (printInt y) as [|c0 yr]; [congruence|eauto]. }
  rewrite <- Hb in Hp, Hs. destruct (parse_split _ _ Hs Nd) as (P0 & P1 & P2).
  (* the month is a real one *)
  assert (m <= 12) as M12.
  { destruct (Z.le_gt_cases m 12) as [K|K]; [exact K|]. exfalso. assert (m = 13) as -> by lia. change (mid MONTHS (13 * 3 - 2) 3) with (Ok (@nil nat)) in Em.
    apply Ok_inj in Em. subst m3. cbn [app] in *. rewrite Ey in P2. cbn [firstn] in P2.
    unfold parseDate in Hp. rewrite P1 in Hp. cbn [rbind] in Hp. apply rbind_ok in Hp as (dd & _ & Hp). rewrite <- Ey in P2. rewrite P2 in Hp. cbn [rbind] in Hp.
    rewrite no_dash_month in Hp. apply rbind_ok in Hp as (? & _ & Hp). apply rbind_ok in Hp as (? & _ & Hp). apply rbind_ok in Hp as (? & _ & Hp).
    apply Ok_inj in Hp. injection Hp as _ _ Hm13 _. cbn in Hm13. lia. }
  destruct (month_name m ltac:(lia)) as [ms Ms]. destruct (month_cases m ms ltac:(lia) Ms) as (L3 & Sm & Dm & Md & Q).
  rewrite Md in Em. apply Ok_inj in Em. subst m3.
  assert (valL (printInt y) = Ok y) as Vy.
  { destruct (Z.le_gt_cases 0 y) as [K|K].
    - rewrite (valL_dec _ _ (printInt_ok y K)); [f_equal; lia|]. lia.
    - destruct (printInt_neg y K) as (l & -> & Dl). rewrite (valL_neg _ _ Dl); [f_equal; lia|]. lia. }
  assert (100 <= y) as Y100.
  { unfold parseDate in Hp. rewrite P1 in Hp. cbn [rbind] in Hp. apply rbind_ok in Hp as (dd & _ & Hp). rewrite P2 in Hp. cbn [rbind] in Hp.
    rewrite (right_split _ ms (printInt y) Hs Nd Dm) in Hp. cbn [rbind] in Hp. rewrite Vy in Hp. cbn [rbind] in Hp.
    apply rbind_ok in Hp as (yy & Hyy & Hp). apply Ok_inj in Hp. injection Hp as _ _ _ ->.
    destruct (Z.ltb_spec y 100) as [K|K]; [|exact K]. destruct (Z.ltb_spec y 93); apply long_inv in Hyy; lia. }
  exists d, m, y. split; [|exact Y100]. unfold longMax in *. split; [lia|]. split; [lia|]. split; [lia|].
  exists (printInt d), ms, (printInt y). split; [symmetry; exact Hb|]. split; [exact Dd|]. split; [exact Ms|]. apply printInt_ok. lia.
Qed.

(* ---------- comparing ---------- *)
Definition dcmp (a b : option (Z * Z * Z)) : Z :=
  match a, b with
  | None, None => 0 | None, _ => -1 | _, None => 1
  | Some (d1, m1, y1), Some (d2, m2, y2) =>
      let x := d1 + m1 * 32 + y1 * 500 in let y := d2 + m2 * 32 + y2 * 500 in if x <? y then -1 else if x =? y then 0 else 1
  end.
Lemma field_parse s d m y : field s (Some (d, m, y)) -> parseDate s = Ok (false, d, m, y) /\ s <> [] /\ day d m /\ 100 <= y < 2 ^ 53.
Proof.
  intros (W & [H1 H2] & Y). rewrite (parse_written _ _ _ _ W). unfold century.
  destruct (Z.ltb_spec y 100); [lia|]. destruct (Z.ltb_spec d 1); [lia|]. destruct (Z.ltb_spec 31 d); [lia|]. split; [reflexivity|].
  split; [|split; [split; assumption|exact Y]]. destruct W as (_ & _ & _ & ds & ms & ys & -> & _). destruct ds; discriminate.
Qed.
Lemma compare_field s1 s2 v1 v2 : field s1 v1 -> field s2 v2 -> compareDates s1 s2 = Ok (dcmp v1 v2).
Proof.
  destruct v1 as [[[d1 m1] y1]|], v2 as [[[d2 m2] y2]|]; intros F1 F2.
  - destruct (field_parse _ _ _ _ F1) as (P1 & N1 & [A1 B1] & Y1). destruct (field_parse _ _ _ _ F2) as (P2 & N2 & [A2 B2] & Y2).
    unfold compareDates. destruct s1 as [|c1 r1]; [congruence|]. destruct s2 as [|c2 r2]; [congruence|]. rewrite P1, P2. cbn [rbind].
    change (2 ^ 53) with 9007199254740992 in *.
    rewrite (long_ok (y1 * 500)) by (rewrite longMax_eq; lia). cbn [rbind].
    rewrite (long_ok (d1 + m1 * 32 + y1 * 500)) by (rewrite longMax_eq; lia). cbn [rbind].
    rewrite (long_ok (y2 * 500)) by (rewrite longMax_eq; lia). cbn [rbind].
    rewrite (long_ok (d2 + m2 * 32 + y2 * 500)) by (rewrite longMax_eq; lia). cbn [rbind].
    reflexivity.
  - destruct (field_parse _ _ _ _ F1) as (_ & N1 & _). cbn in F2. subst s2. destruct s1; [congruence|reflexivity].
  - destruct (field_parse _ _ _ _ F2) as (_ & N1 & _). cbn in F1. subst s1. destruct s2; [congruence|reflexivity].
  - cbn in F1, F2. subst. reflexivity.
Qed.
Definition goodField (v : option (Z * Z * Z)) : Prop := match v with None => True | Some (d, m, y) => day d m end.
Lemma field_good s v : field s v -> goodField v.
Proof. destruct v as [[[d m] y]|]; [|exact (fun _ => I)]. intros (_ & D & _). exact D. Qed.
Lemma dcmp_ok v1 v2 : goodField v1 -> goodField v2 ->
  (dcmp v1 v2 = -1 /\ before v1 v2) \/ (dcmp v1 v2 = 0 /\ v1 = v2) \/ (dcmp v1 v2 = 1 /\ before v2 v1).
Proof.
  destruct v1 as [[[d1 m1] y1]|], v2 as [[[d2 m2] y2]|]; cbn [goodField dcmp before]; auto.
  intros [A1 B1] [A2 B2]. unfold earlier. cbv zeta.
  destruct (Z.ltb_spec (d1 + m1 * 32 + y1 * 500) (d2 + m2 * 32 + y2 * 500)); [left; split; [reflexivity|]; lia|].
  destruct (Z.eqb_spec (d1 + m1 * 32 + y1 * 500) (d2 + m2 * 32 + y2 * 500)).
  - right; left. split; [reflexivity|]. assert (y1 = y2) by lia. assert (m1 = m2) by lia. assert (d1 = d2) by lia. subst. reflexivity.
  - right; right. split; [reflexivity|]. lia.
Qed.
Lemma compare_ok s1 s2 v1 v2 : field s1 v1 -> field s2 v2 ->
  (compareDates s1 s2 = Ok (-1) /\ before v1 v2) \/ (compareDates s1 s2 = Ok 0 /\ v1 = v2) \/ (compareDates s1 s2 = Ok 1 /\ before v2 v1).
Proof.
  intros F1 F2. rewrite (compare_field _ _ _ _ F1 F2).
  destruct (dcmp_ok v1 v2 (field_good _ _ F1) (field_good _ _ F2)) as [[-> H]|[[-> H]|[-> H]]]; auto.
Qed.
Lemma before_irrefl v : ~ before v v.
Proof. destruct v as [[[d m] y]|]; cbn; [|auto]. unfold earlier. lia. Qed.
Lemma before_trans a b c : before a b -> before b c -> before a c.
Proof. destruct a as [[[d m] y]|], b as [[[d2 m2] y2]|], c as [[[d3 m3] y3]|]; cbn; auto; try tauto. unfold earlier. lia. Qed.
Lemma mostRecent_ok a b c va vb vc : field a va -> field b vb -> field c vc ->
  exists s v, mostRecent a b c = Ok s /\ field s v /\ In (s, v) [(a, va); (b, vb); (c, vc)] /\ ~ before v va /\ ~ before v vb /\ ~ before v vc.
Proof.
  intros Fa Fb Fc. unfold mostRecent.
  assert (forall x y, before x y -> ~ before y x) as Asym by (intros x y H1 H2; apply (before_irrefl x); eapply before_trans; eassumption).
  destruct (compare_ok a b va vb Fa Fb) as [[-> H]|[[-> H]|[-> H]]]; cbn [rbind Z.eqb Pos.eqb].
  - destruct (compare_ok b c vb vc Fb Fc) as [[-> K]|[[-> K]|[-> K]]]; cbn [rbind Z.eqb Pos.eqb].
    + exists c, vc. split; [reflexivity|]. split; [exact Fc|]. split; [cbn; auto|]. repeat split; auto using before_irrefl. apply Asym. eapply before_trans; eassumption.
    + exists b, vb. split; [reflexivity|]. split; [exact Fb|]. split; [cbn; auto|]. subst vc. repeat split; auto using before_irrefl.
    + exists b, vb. split; [reflexivity|]. split; [exact Fb|]. split; [cbn; auto|]. repeat split; auto using before_irrefl.
  - subst vb. destruct (compare_ok a c va vc Fa Fc) as [[-> K]|[[-> K]|[-> K]]]; cbn [rbind Z.eqb Pos.eqb].
    + exists c, vc. split; [reflexivity|]. split; [exact Fc|]. split; [cbn; auto|]. repeat split; auto using before_irrefl.
    + exists a, va. split; [reflexivity|]. split; [exact Fa|]. split; [cbn; auto|]. subst vc. repeat split; auto using before_irrefl.
    + exists a, va. split; [reflexivity|]. split; [exact Fa|]. split; [cbn; auto|]. repeat split; auto using before_irrefl.
  - destruct (compare_ok a c va vc Fa Fc) as [[-> K]|[[-> K]|[-> K]]]; cbn [rbind Z.eqb Pos.eqb].
    + exists c, vc. split; [reflexivity|]. split; [exact Fc|]. split; [cbn; auto|]. repeat split; auto using before_irrefl. apply Asym. eapply before_trans; eassumption.
    + exists a, va. split; [reflexivity|]. split; [exact Fa|]. split; [cbn; auto|]. subst vc. repeat split; auto using before_irrefl.
    + exists a, va. split; [reflexivity|]. split; [exact Fa|]. split; [cbn; auto|]. repeat split; auto using before_irrefl.
Qed.

(* ---------- today, and the day before ---------- *)
Lemma date_ok d m y : day d m -> 1000 <= y <= longMax -> exists s, date d m y = Ok s /\ written s d m y.
Proof.
  intros [Hd Hm] Hy. unfold longMax in *. destruct (month_name m Hm) as [ms M]. destruct (month_cases m ms Hm M) as (_ & _ & _ & Md & _).
  unfold date. rewrite Md. cbn [rbind]. eexists. split; [reflexivity|].
  pose proof (printInt_ok y ltac:(lia)) as Dy.
  assert (4 <= length (printInt y))%nat as L4.
  { destruct Dy as (N & B & C & D). assert (forall l, Forall (fun c => 48 <= c <= 57)%nat l -> (fold_left (fun v c => (10 * v + N.of_nat (c - 48))%N) l 0 < 10 ^ N.of_nat (length l))%N) as Bd.
    { intros l F. induction l as [|c l IH] using rev_ind; [cbn; lia|]. apply Forall_app in F as [F1 F2]. inversion F2; subst.
      specialize (IH F1). rewrite fold_left_app, app_length. cbn [fold_left length]. replace (N.of_nat (length l + 1)) with (N.succ (N.of_nat (length l))) by lia.
      rewrite N.pow_succ_r'. lia. }
    specialize (Bd _ B). rewrite C in Bd. destruct (Nat.le_gt_cases 4 (length (printInt y))) as [K|K]; [exact K|].
    assert (10 ^ N.of_nat (length (printInt y)) <= 10 ^ 3)%N by (apply N.pow_le_mono_r; lia). change (10 ^ 3)%N with 1000%N in *. lia. }
  replace (4 - length (printInt y))%nat with 0%nat by lia. cbn [repeat app].
  split; [lia|]. split; [lia|]. split; [lia|]. exists (printInt d), ms, (printInt y). split; [reflexivity|].
  split; [apply printInt_ok; lia|]. split; [exact M|exact Dy].
Qed.
Lemma decrement_ok d m y : day d m -> let '(d', m', y') := decrement d m y in
  day d' m' /\ earlier d' m' y' d m y /\
  forall d2 m2 y2, day d2 m2 -> earlier d2 m2 y2 d m y -> (d2, m2, y2) = (d', m', y') \/ earlier d2 m2 y2 d' m' y'.
Proof.
  intros [Hd Hm]. unfold decrement. destruct (Z.ltb_spec 1 d); [|destruct (Z.ltb_spec 1 m)].
  - split; [split; lia|]. split; [unfold earlier; lia|]. intros d2 m2 y2 [A B] E. unfold earlier in *.
    destruct (Z.eq_dec y2 y), (Z.eq_dec m2 m), (Z.eq_dec d2 (d - 1)); subst; auto; right; lia.
  - split; [split; lia|]. split; [unfold earlier; lia|]. intros d2 m2 y2 [A B] E. unfold earlier in *.
    destruct (Z.eq_dec y2 y), (Z.eq_dec m2 (m - 1)), (Z.eq_dec d2 31); subst; auto; right; lia.
  - split; [split; lia|]. split; [unfold earlier; lia|]. intros d2 m2 y2 [A B] E. unfold earlier in *.
    destruct (Z.eq_dec y2 (y - 1)), (Z.eq_dec m2 12), (Z.eq_dec d2 31); subst; auto; right; lia.
Qed.

(* ---------- short strings are always handled ---------- *)
Lemma valLoop_bound r : forall n d p neg k, 0 <= n -> 0 < d -> 0 < p -> n < d * p -> p <= 10 ^ Z.of_nat k ->
  let '(a, b) := valLoop r n d p neg in 0 < b /\ Z.abs a < b * 10 ^ Z.of_nat (k + length r).
Proof.
  induction r as [|c r IH]; intros n d p neg k Hn Hd Hp Hb Hk; cbn [valLoop length].
  - split; [exact Hd|]. rewrite Nat.add_0_r. assert (n < d * 10 ^ Z.of_nat k) by nia. destruct neg; lia.
  - assert (1 <= 10 ^ Z.of_nat k) as P1 by (pose proof (Z.pow_pos_nonneg 10 (Z.of_nat k)); lia).
    assert (10 ^ Z.of_nat (S k) = 10 * 10 ^ Z.of_nat k) as PS by (rewrite Nat2Z.inj_succ, Z.pow_succ_r by lia; reflexivity).
    replace (k + S (length r))%nat with (S k + length r)%nat by lia.
    destruct (Nat.eqb c 46); [apply IH; nia|]. destruct (Nat.eqb c 45); [apply IH; nia|].
    unfold isDigit. destruct (Nat.leb_spec 48 c), (Nat.leb_spec c 57); cbn [andb]; try (apply IH; nia).


Qed.
Lemma valL_total s : (length s <= 18)%nat -> exists v, valL s = Ok v /\ Z.abs v < 10 ^ 18.
Proof.
  intros H. unfold valL. pose proof (valLoop_bound (rev s) 0 1 1 false 0 ltac:(lia) ltac:(lia) ltac:(lia) ltac:(lia) ltac:(cbn; lia)) as B.
  destruct (valLoop (rev s) 0 1 1 false) as [a b]. destruct B as [B1 B2]. rewrite Nat.add_0_l, rev_length in B2.
  assert (10 ^ Z.of_nat (length s) <= 10 ^ 18) as P by (apply Z.pow_le_mono_r; lia).
  assert (Z.abs (Z.quot a b) < 10 ^ 18) as Q.
  { rewrite Z.quot_abs_l || idtac. pose proof (Z.quot_abs a b ltac:(lia)) as E. rewrite (Z.abs_eq b) in E by lia. rewrite <- E.
    apply Z.quot_lt_upper_bound; [lia|exact B1|]. nia. }
  exists (Z.quot a b). split; [|exact Q]. apply long_ok. change (10 ^ 18) with 1000000000000000000 in Q. rewrite longMax_eq. lia.
Qed.
Lemma parse_total s : isStr s -> (length s <= 18)%nat -> exists r, parseDate s = Ok r.
Proof.
  intros Hs Hl. unfold parseDate. set (j := instr 1 s dash).
  assert (j <= length s)%nat as Hj by (apply instr_le; discriminate).
  unfold left_. rewrite mid_ok by (assumption || lia). cbn [rbind].
  destruct (valL_total (firstn (Z.to_nat (Z.of_nat j - 1)) (skipn (Z.to_nat (1 - 1)) s))) as (v & -> & _).
  { rewrite firstn_length, skipn_length. lia. } cbn [rbind].
  rewrite mid_ok by (assumption || lia). cbn [rbind]. set (j2 := instr (Z.of_nat j + 1) s dash).
  assert (j2 <= length s)%nat as Hj2 by (apply instr_le; discriminate).
  replace (Z.of_nat j2 + 1) with (Z.of_nat (j2 + 1)) by lia. rewrite right_ok by (assumption || lia). cbn [rbind].
  destruct (valL_total (substr s (j2 + 1) (length s))) as (y & -> & Hy). { unfold substr. rewrite firstn_length, skipn_length. lia. }
  cbn [rbind]. change (10 ^ 18) with 1000000000000000000 in Hy.
  assert (exists yy, (if y <? 100 then if y <? 93 then long (y + 2000) else long (y + 1900) else Ok y) = Ok yy) as [yy ->].
  { destruct (y <? 100); [|eauto]. destruct (y <? 93); eexists; apply long_ok; rewrite longMax_eq; lia. }
  cbn [rbind]. eauto.
Qed.
Lemma format_total s : isStr s -> (length s <= 18)%nat -> exists b, formatOk s = Ok b.
Proof.
  intros Hs Hl. destruct (parse_total s Hs Hl) as [[[[e d] m] y] E]. destruct (parse_parts _ _ _ _ _ E) as (Hm & _).
  unfold formatOk. rewrite E. cbn [rbind]. unfold buildDate.
  rewrite mid_ok; [cbn [rbind]; eauto| |change (length MONTHS) with 36%nat; lia].
  repeat constructor.
Qed.
Lemma format_exact s : isStr s -> (formatOk s = Ok true <-> exists d m y, written s d m y /\ 100 <= y).
Proof.
  intros Hs. split; [apply format_inv, Hs|]. intros (d & m & y & W & Hy). eapply format_written; eassumption.
Qed.
Lemma build_parse d m y : day d m -> 100 <= y < 2 ^ 53 ->
  exists s, buildDate d m y = Ok s /\ written s d m y /\ parseDate s = Ok (false, d, m, y).
Proof.
  intros D Y. pose proof D as [Hd Hm]. change (2 ^ 53) with 9007199254740992 in *.
  destruct (build_written d m y) as (s & E & W); [rewrite longMax_eq; lia|exact Hm|rewrite longMax_eq; lia|].
  exists s. split; [exact E|]. split; [exact W|]. apply field_parse. repeat split; try assumption; try apply D; try apply Y; apply W.
Qed.
