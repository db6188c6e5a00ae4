(* OrdBest.v -- more-used labels first is the cheapest order. *)
From Coq Require Import Permutation.
From Verif Require Import Base VerModel TokModel ParModel CmpModel CmpCodec OrdModel OrdSpec OrdKnap OrdLens OrdFill OrdProofs.
Open Scope nat_scope.

Definition sum (l : list nat) : nat := fold_right Nat.add 0 l.
Lemma sum_app a b : sum (a ++ b) = sum a + sum b.
Proof. induction a; cbn [app sum fold_right] in *; unfold sum in *; cbn; lia. Qed.
Lemma sum_perm a b : Permutation a b -> sum a = sum b.
Proof. intros P. induction P; unfold sum in *; cbn [fold_right] in *; lia. Qed.

(* the t largest elements have the largest sum *)
Lemma top_sum a b a' b' : length a' = length a -> Permutation (a ++ b) (a' ++ b') ->
  (forall x y, In x a -> In y b -> y <= x) -> sum a' <= sum a.
Proof.
  intros HL HP HT.
  assert (V : exists v, (forall x, In x a -> v <= x) /\ (forall y, In y b -> y <= v)).
  { destruct b as [|y0 b0].
    - exists 0. split; [intros; lia|intros y []].
    - exists (fold_right Nat.max 0 (y0 :: b0)). split.
      + intros x Hx. clear - HT Hx. induction (y0 :: b0) as [|y l IH]; cbn [fold_right]; [lia|].
        pose proof (HT x y Hx (or_introl eq_refl)). assert (fold_right Nat.max 0 l <= x); [|lia].
        apply IH. intros; apply HT; auto. right; auto.
      + intros y Hy. clear - Hy. induction (y0 :: b0) as [|z l IH]; [destruct Hy|]. cbn [fold_right]. destruct Hy as [->|Hy]; [lia|].
        specialize (IH Hy). lia. }
  destruct V as [v [V1 V2]].
  set (ex := fun l => sum (map (fun x => x - v) l)).
  assert (E0 : forall l, sum l <= v * length l + ex l).
  { unfold ex, sum. induction l as [|x l IH]; cbn [map fold_right length]; lia. }
  assert (E1 : sum a = v * length a + ex a).
  { clear - V1. unfold ex, sum. induction a as [|x l IH]; cbn [map fold_right length]; [lia|].
    pose proof (V1 x (or_introl eq_refl)). rewrite IH by (intros; apply V1; right; auto). lia. }
  assert (E2 : ex b = 0).
  { clear - V2. unfold ex, sum. induction b as [|x l IH]; cbn [map fold_right length]; [lia|].
    pose proof (V2 x (or_introl eq_refl)). rewrite IH by (intros; apply V2; right; auto). lia. }
  assert (E3 : ex (a ++ b) = ex (a' ++ b')).
  { unfold ex. apply sum_perm. apply Permutation_map. exact HP. }
  unfold ex in *. rewrite !map_app, !sum_app in E3. specialize (E0 a'). rewrite HL in E0. lia.
Qed.

Fixpoint wsum (c : nat -> nat) (k : nat) (l : list nat) : nat :=
  match l with [] => 0 | x :: r => x * c k + wsum c (S k) r end.

Lemma wsum_add c1 c2 : forall l k, wsum (fun p => c1 p + c2 p) k l = wsum c1 k l + wsum c2 k l.
Proof. induction l as [|x l IH]; intros k; cbn [wsum]; [lia|]. rewrite IH. lia. Qed.
Lemma wsum_ext c1 c2 : forall l k, (forall p, k <= p < k + length l -> c1 p = c2 p) -> wsum c1 k l = wsum c2 k l.
Proof.
  induction l as [|x l IH]; intros k H; cbn [wsum]; auto. rewrite (H k) by (cbn [length]; lia).
  rewrite (IH (S k)); auto. intros; apply H; cbn [length]; lia.
Qed.
Lemma wsum_app c : forall a b k, wsum c k (a ++ b) = wsum c k a + wsum c (k + length a) b.
Proof.
  induction a as [|x a IH]; intros b k; cbn [app wsum length]; [rewrite Nat.add_0_r; auto|].
  rewrite IH. replace (S k + length a) with (k + S (length a)) by lia. lia.
Qed.
Lemma wsum_const v : forall l k, wsum (fun _ => v) k l = v * sum l.
Proof. induction l as [|x l IH]; intros k; cbn [wsum]; unfold sum in *; cbn [fold_right]; [lia|]. rewrite IH. lia. Qed.

Section R.
  Variable c : nat -> nat.
  Hypothesis mono : forall a b, a <= b -> c a <= c b.
  Variables u u' : list nat.
  Hypothesis HP : Permutation u u'.
  Hypothesis HO : forall p q up uq, nth_error u p = Some up -> nth_error u q = Some uq -> uq < up -> c p <= c q.

  Definition ind1 (C p : nat) : nat := if S C <=? c p then 1 else 0.
  Lemma threshold C : forall N, exists t, t <= N /\ (forall p, p < t -> c p <= C) /\ (forall p, t <= p < N -> S C <= c p).
  Proof.
    induction N as [|N [t [A [B D]]]].
    - exists 0. repeat split; intros; lia.
    - destruct (Nat.le_gt_cases (S C) (c N)) as [E|E].
      + exists t. split; [lia|]. split; [auto|]. intros p Hp. destruct (Nat.eq_dec p N) as [->|]; [auto|apply D; lia].
      + exists (S N). split; [lia|]. split; [|lia]. intros p Hp. specialize (mono p N ltac:(lia)). lia.
  Qed.
  Lemma layer C : wsum (ind1 C) 0 u <= wsum (ind1 C) 0 u'.
  Proof.
    destruct (threshold C (length u)) as [t [T1 [T2 T3]]].
    assert (LU : length u' = length u) by (symmetry; apply Permutation_length; auto).
    assert (W : forall l, length l = length u -> wsum (ind1 C) 0 l = sum (skipn t l)).
    { intros l Hl. rewrite <- (firstn_skipn t l) at 1. rewrite wsum_app.
      rewrite (wsum_ext (ind1 C) (fun _ => 0)).
      2:{ intros p Hp. rewrite firstn_length in Hp. unfold ind1. specialize (T2 p ltac:(lia)). destruct (Nat.leb_spec (S C) (c p)); lia. }
      rewrite (wsum_ext (ind1 C) (fun _ => 1)).
      2:{ intros p Hp. rewrite skipn_length, firstn_length in Hp. unfold ind1. specialize (T3 p ltac:(lia)). destruct (Nat.leb_spec (S C) (c p)); lia. }
      rewrite !wsum_const. lia. }
    rewrite !W by auto.
    assert (TS : sum (firstn t u') <= sum (firstn t u)).
    { apply (top_sum (firstn t u) (skipn t u) (firstn t u') (skipn t u')).
      - rewrite !firstn_length. lia.
      - rewrite !firstn_skipn. exact HP.
      - intros x y Hx Hy. apply In_nth_error in Hx, Hy. destruct Hx as [p Hx], Hy as [q Hy].
        assert (Lp : p < t). { assert (p < length (firstn t u)) by (apply nth_error_Some; congruence). rewrite firstn_length in *; lia. }
        assert (Hx' : nth_error u p = Some x).
        { rewrite <- (firstn_skipn t u), nth_error_app1; auto. apply nth_error_Some. congruence. }
        assert (Hy' : nth_error u (t + q) = Some y).
        { rewrite <- (firstn_skipn t u), nth_error_app2; rewrite firstn_length; [|lia]. replace (t + q - Nat.min t (length u)) with q by lia. auto. }
        assert (Lq : t + q < length u) by (apply nth_error_Some; congruence).
        destruct (Nat.le_gt_cases y x) as [|C0]; auto. specialize (HO _ _ _ _ Hy' Hx' C0).
        specialize (T2 p Lp). specialize (T3 (t + q) ltac:(lia)). lia. }
    pose proof (sum_perm _ _ HP) as SP. rewrite <- (firstn_skipn t u), <- (firstn_skipn t u') in SP.
    rewrite !sum_app in SP. lia.
  Qed.
  Lemma rearr : wsum c 0 u <= wsum c 0 u'.
  Proof.
    assert (A : forall C, wsum (fun p => Nat.min C (c p)) 0 u <= wsum (fun p => Nat.min C (c p)) 0 u').
    { induction C as [|C IH].
      - rewrite !(wsum_ext (fun p => Nat.min 0 (c p)) (fun _ => 0)) by (intros; auto). rewrite !wsum_const. lia.
      - assert (E : forall l, wsum (fun p => Nat.min (S C) (c p)) 0 l = wsum (fun p => Nat.min C (c p)) 0 l + wsum (ind1 C) 0 l).
        { intros l. rewrite <- wsum_add. apply wsum_ext. intros p _. unfold ind1. destruct (Nat.leb_spec (S C) (c p)); lia. }
        rewrite !E. pose proof (layer C). lia. }
    specialize (A (c (length u))).
    assert (LU : length u' = length u) by (symmetry; apply Permutation_length; auto).
    rewrite !(wsum_ext (fun p => Nat.min (c (length u)) (c p)) c) in A; auto; intros p Hp;
      specialize (mono p (length u) ltac:(lia)); lia.
  Qed.
End R.

Lemma letters_wsum (cl : nat -> nat) proof nreq : forall l k,
  letters cl proof (nreq + k) l = wsum (fun p => cl (nreq + p)) k (map (fun z => uses z proof) l).
Proof.
  induction l as [|z l IH]; intros k; cbn [letters map wsum]; auto. rewrite <- IH.
  replace (nreq + S k) with (S (nreq + k)) by lia. reflexivity.
Qed.

Lemma order_best fuel n nreq nameLen width ind proof expl e :
  orderIn n nameLen width ind proof expl -> length expl + 1 < fuel ->
  orderLabels fuel n nreq nameLen width ind proof expl = Ok e ->
  forall e', Permutation expl e' ->
    letters (fun k => length (encodeLabel k)) proof nreq e <= letters (fun k => length (encodeLabel k)) proof nreq e'.
Proof.
  intros HI HF HE e' HP. destruct (order_ok fuel n nreq nameLen width ind proof expl HI HF) as [e0 [A [B C]]].
  rewrite HE in A. injection A as <-.
  pose proof (letters_wsum (fun k => length (encodeLabel k)) proof nreq) as W.
  replace nreq with (nreq + 0) by lia. rewrite !W. apply rearr.
  - intros a b Hab. apply encode_mono. lia.
  - apply Permutation_map. etransitivity; [symmetry; exact B|exact HP].
  - intros p q up uq Hp Hq Hu. rewrite nth_error_map in Hp, Hq.
    destruct (nth_error e p) as [zp|] eqn:Ep; [|discriminate]. destruct (nth_error e q) as [zq|] eqn:Eq; [|discriminate].
    injection Hp as <-. injection Hq as <-. rewrite <- !numChrs_len. eapply C; eauto.
Qed.

(* ---------- a label that does not fit on an empty line ---------- *)
Lemma fillGroups_stuck fuel room items k0 big : (forall it, In it items -> (1 <= it_size it)%Z) ->
  nth_error items k0 = Some big -> (room + 1 < it_size big)%Z ->
  forall k i s, f_used s = usedAt i items -> Permutation (f_out s) (stmLt i items) ->
  (0 <= f_off s <= room + 1)%Z -> i <= it_clen big < i + k ->
  fillGroups fuel room items i k s = Fuel.
Proof.
  intros HS Hb HB. induction k as [|k IH]; intros i s HU HP HO HK; [lia|].
  cbn [fillGroups]. destruct (groupWorth_ok i items) as [w [A [B C]]]. rewrite HU, A. cbn [rbind]. rewrite C, <- HU.
  rewrite <- HU in B.
  destruct (Nat.eq_dec (it_clen big) i) as [E|E].
  - rewrite (fillLoop_stuck room i items k0 big HS Hb E HB); auto.
    + rewrite HU. unfold usedAt. rewrite nth_error_map, Hb. cbn. unfold below. f_equal. apply Nat.ltb_ge. lia.
    + rewrite HU. unfold usedAt. rewrite usedStm_filter. exact HP.
  - assert (X : forall fuel un worth s, Inv i items (f_used s) worth -> un = unCount i items (f_used s) ->
      Permutation (f_out s) (usedStm items (f_used s)) -> (0 <= f_off s <= room + 1)%Z ->
      fillLoop fuel room i items un worth s = Fuel \/
      exists s' worth', fillLoop fuel room i items un worth s = Ok s' /\ Inv i items (f_used s') worth' /\
        unCount i items (f_used s') = 0 /\ Permutation (f_out s') (usedStm items (f_used s')) /\
        (0 <= f_off s' <= room + 1)%Z).
    { clear - HS. induction fuel as [|fuel IH]; intros un worth s HI HU HP HO; [left; reflexivity|].
      cbn [fillLoop]. destruct (Nat.eqb_spec un 0) as [E|E].
      - right. exists s, worth. repeat split; auto; lia.
      - assert (HW : (0 <= room - f_off s + 1)%Z) by lia.
        destruct (round_ok i items (f_used s) worth _ HI HS HW) as
          [j [inc [t [K1 [K2 [T1 [T2 [T3 [T4 [T5 [T6 [T7 _]]]]]]]]]]]].
        rewrite K1. cbn [rbind]. destruct (Z.ltb_spec j 0); [lia|]. rewrite T1. cbn [rbind].
        assert (HP2 : Permutation (f_out s ++ sc_out t) (usedStm items (sc_used t))).
        { rewrite T3. apply Permutation_app_tail. exact HP. }
        destruct (Nat.ltb_spec (length items) (length (f_out s ++ sc_out t))) as [C|C].
        { rewrite (Permutation_length HP2) in C. pose proof (used_le items (sc_used t)). lia. }
        cbv zeta. apply IH; cbn [f_used f_out f_off]; auto. destruct (Nat.eqb_spec (sc_un t) 0); lia. }
    destruct (X fuel _ w s B eq_refl) as [F|[s' [w' [L1 [L2 [L3 [L4 L5]]]]]]]; auto.
    { rewrite HU. unfold usedAt. rewrite usedStm_filter. exact HP. }
    { rewrite F. reflexivity. }
    rewrite L1. cbn [rbind]. pose proof (group_done _ _ _ _ L2 L3) as U'. apply IH; auto; [|lia].
    rewrite L4, U'. unfold usedAt. rewrite usedStm_filter. reflexivity.
Qed.

Lemma order_stuck fuel n nreq nameLen width ind proof expl :
  (forall z, In z expl -> (0 < z)%Z /\ In z proof) -> (forall z, In z proof -> (z < Z.of_nat n)%Z) ->
  (Z.of_nat ind + 3 <= width)%Z ->
  (exists z, In z expl /\ (width - Z.of_nat ind - 2 < Z.of_nat (nameLen z))%Z) ->
  orderLabels fuel n nreq nameLen width ind proof expl = Fuel.
Proof.
  intros HE HPr HW [z [Hz Hl]]. unfold orderLabels. rewrite refScan_ok by auto. cbn [rbind].
  rewrite refCounts_ok by (intros y Hy; destruct (HE y Hy) as [A B]; specialize (HPr y B); auto).
  cbn [rbind]. set (refs := map (fun z => uses z proof) expl).
  destruct (comprLens nreq refs) as [lens m] eqn:EC.
  assert (HRf : forall r, In r refs -> 1 <= r).
  { intros r Hr. apply in_map_iff in Hr. destruct Hr as [y [<- Hy]]. destruct (HE y Hy) as [_ B].
    unfold uses. apply (count_occ_In Z.eq_dec). auto. }
  destruct (comprLens_ok numChrs_mono nreq refs lens m HRf EC) as [K1 [K2 [K3 K4]]].
  assert (LR : length refs = length expl) by (apply map_length). rewrite LR in *.
  set (items := mkItems nameLen expl lens).
  assert (LI : length items = length expl) by (apply mkItems_len; auto).
  apply In_nth_error in Hz. destruct Hz as [k Hk].
  destruct (nth_error lens k) as [c|] eqn:Ec.
  2:{ apply nth_error_None in Ec. assert (k < length expl) by (apply nth_error_Some; congruence). lia. }
  assert (HIt : forall it, In it items -> (1 <= it_size it)%Z /\ 1 <= it_clen it <= m).
  { intros it Hit. apply In_nth_error in Hit. destruct Hit as [k' Hk']. unfold items in Hk'. rewrite mkItems_nth in Hk' by auto.
    destruct (nth_error expl k') as [y|] eqn:Ez; [|discriminate]. destruct (nth_error lens k') as [d|] eqn:Ed; [|discriminate].
    injection Hk' as <-. cbn [it_size it_clen]. split; [lia|]. apply K4. eapply nth_error_In; eauto. }
  rewrite (fillGroups_stuck fuel _ items k (mkItem z c (Z.of_nat (nameLen z) + 1))); [reflexivity| | | | | | |]; cbn [it_size it_clen f_used f_out f_off].
  - intros it Hit. apply (HIt it Hit).
  - unfold items. rewrite mkItems_nth by auto. rewrite Hk, Ec. reflexivity.
  - lia.
  - unfold usedAt. rewrite <- LI. clear - HIt. assert (A : forall it, In it items -> 1 <= it_clen it) by (intros it H; apply HIt; auto).
    clear HIt. induction items as [|it l IH]; cbn [length repeat map]; auto. f_equal.
    + unfold below. symmetry. apply Nat.ltb_ge. apply A. left; auto.
    + apply IH. intros; apply A; right; auto.
  - unfold stmLt. assert (X : filter (below 1) items = []).
    { clear - HIt. assert (A : forall it, In it items -> 1 <= it_clen it) by (intros it H; apply HIt; auto).
      clear HIt. induction items as [|it l IH]; cbn [filter]; auto. unfold below at 1.
      destruct (Nat.ltb_spec (it_clen it) 1); [specialize (A it (or_introl eq_refl)); lia|]. apply IH. intros; apply A; right; auto. }
    rewrite X. constructor.
  - lia.
  - assert (1 <= c <= m) by (apply K4; eapply nth_error_In; eauto). lia.
Qed.

Lemma order_all fuel n nreq nameLen width ind proof expl :
  NoDup expl ->
  (forall z, In z expl -> (0 < z)%Z /\ In z proof /\ 1 <= nameLen z) ->
  (forall z, In z proof -> (z < Z.of_nat n)%Z) ->
  (forall z, In z expl -> (Z.of_nat (nameLen z) <= width - Z.of_nat ind - 2)%Z) ->
  length expl + 1 < fuel ->
  exists e, orderLabels fuel n nreq nameLen width ind proof expl = Ok e /\ Permutation expl e /\
    (forall p q zp zq, nth_error e p = Some zp -> nth_error e q = Some zq -> uses zq proof < uses zp proof ->
       length (encodeLabel (nreq + p)) <= length (encodeLabel (nreq + q))) /\
    (forall e', Permutation expl e' ->
       letters (fun k => length (encodeLabel k)) proof nreq e <= letters (fun k => length (encodeLabel k)) proof nreq e').
Proof.
  intros H1 H2 H3 H4 HF. assert (HI : orderIn n nameLen width ind proof expl) by (constructor; auto).
  destruct (order_ok fuel n nreq nameLen width ind proof expl HI HF) as [e [A [B C]]].
  exists e. split; auto. split; auto. split.
  - intros p q zp zq. rewrite <- !numChrs_len. apply C.
  - eapply order_best; eauto.
Qed.
