(* OrdFill.v -- the loop that fills lines with labels. *)
From Coq Require Import Permutation.
From Verif Require Import Base VerModel TokModel ParModel CmpModel CmpCodec OrdModel OrdSpec OrdKnap OrdLens.
Open Scope nat_scope.

Definition ok1 (i : nat) (it : item) (u : bool) (w : Z) : Prop :=
  (u = true -> it_clen it <= i) /\ (it_clen it < i -> u = true) /\
  w = (if (it_clen it =? i) && negb u then it_size it else (-1)%Z).
Fixpoint Inv (i : nat) (items : list item) (used : list bool) (worth : list Z) : Prop :=
  match items, used, worth with
  | [], [], [] => True
  | it :: r, u :: us, w :: ws => ok1 i it u w /\ Inv i r us ws
  | _, _, _ => False
  end.
Fixpoint usedStm (items : list item) (used : list bool) : list Z :=
  match items, used with
  | it :: r, u :: us => if u then it_stmt it :: usedStm r us else usedStm r us
  | _, _ => []
  end.
Fixpoint unCount (i : nat) (items : list item) (used : list bool) : nat :=
  match items, used with
  | it :: r, u :: us => (if (it_clen it =? i) && negb u then 1 else 0) + unCount i r us
  | _, _ => 0
  end.
Fixpoint pick (inc : list bool) (worth : list Z) : Prop :=
  match inc, worth with
  | b :: bs, w :: ws => (b = true -> (0 <= w)%Z) /\ pick bs ws
  | _, _ => True
  end.
Definition trues (inc : list bool) : nat := length (filter (fun b => b) inc).

Lemma scan_ok i : forall items inc worth used, Inv i items used worth -> length inc = length items -> pick inc worth ->
  (forall it, In it items -> (1 <= it_size it)%Z) ->
  exists t, scan i items inc worth used = Ok t /\
    Inv i items (sc_used t) (sc_worth t) /\
    Permutation (usedStm items (sc_used t)) (usedStm items used ++ sc_out t) /\
    sc_off t = total inc (map it_size items) /\
    sc_un t = unCount i items (sc_used t) /\
    unCount i items (sc_used t) + trues inc = unCount i items used.
Proof.
  induction items as [|it items IH]; intros inc worth used HI HL HP HS.
  - destruct used, worth; try (destruct HI; fail). destruct inc; [|discriminate].
    eexists. split; [reflexivity|]. cbn. repeat split; auto.
  - destruct used as [|u us], worth as [|w ws]; try (destruct HI; fail). destruct inc as [|x xs]; [discriminate|].
    cbn [Inv] in HI. destruct HI as [[O1 [O2 O3]] HI]. cbn [pick] in HP. destruct HP as [P1 P2].
    cbn [length] in HL. pose proof (HS it (or_introl eq_refl)) as S1.
    assert (HL2 : length xs = length items) by lia.
    destruct (IH xs ws us HI HL2 P2 (fun a b => HS a (or_intror b))) as [t [T1 [T2 [T3 [T4 [T5 T6]]]]]].
    cbn [scan map total]. destruct x.
    + specialize (P1 eq_refl).
      destruct (Nat.eqb_spec (it_clen it) i) as [E|E]; [|cbn [andb] in O3; lia].
      destruct u; [cbn [andb negb] in O3; lia|]. cbn [andb negb] in O3. cbn [negb].
      destruct (Z.eqb_spec w (-1)); [lia|].
      rewrite T1. cbn [rbind]. eexists. split; [reflexivity|]. cbn [sc_used sc_worth sc_out sc_off sc_un Inv usedStm unCount].
      split.
      { split; [|exact T2]. unfold ok1. rewrite E, Nat.eqb_refl. cbn [andb negb]. repeat split; auto; lia. }
      split; [apply Permutation_cons_app; exact T3|].
      split; [lia|]. rewrite E, Nat.eqb_refl. cbn [andb negb]. unfold trues in *. cbn [filter length]. lia.
    + destruct ((it_clen it =? i) && negb u) eqn:C.
      * subst w. rewrite Z.eqb_refl. cbn [negb]. rewrite T1. cbn [rbind]. eexists. split; [reflexivity|].
        cbn [sc_used sc_worth sc_out sc_off sc_un Inv usedStm unCount]. rewrite C.
        split; [split; [unfold ok1; rewrite C; auto|exact T2]|].
        split; [destruct u; [apply andb_prop in C; destruct C; discriminate|exact T3]|].
        split; [lia|]. unfold trues in *. cbn [filter]. lia.
      * rewrite T1. cbn [rbind]. eexists. split; [reflexivity|].
        cbn [sc_used sc_worth sc_out sc_off sc_un Inv usedStm unCount]. rewrite C.
        split; [split; [unfold ok1; rewrite C; auto|exact T2]|].
        split; [destruct u; cbn [app]; [constructor|]; exact T3|].
        split; [lia|]. unfold trues in *. cbn [filter]. lia.
Qed.

(* dropping an item of negative worth improves a choice *)
Lemma drop_neg : forall inc worth, ~ pick inc worth -> forall size, length inc = length size ->
  (forall s, In s size -> (1 <= s)%Z) ->
  exists c, length c = length size /\ (total c size <= total inc size)%Z /\ (total inc worth < total c worth)%Z.
Proof.
  induction inc as [|b inc IH]; intros [|w worth] NP [|s size] HL HS; try discriminate; cbn [pick] in NP; try tauto.
  cbn [length] in HL. assert (HL2 : length inc = length size) by lia.
  destruct b.
  - destruct (Z.lt_ge_cases w 0) as [C|C].
    + exists (false :: inc). cbn [length total]. pose proof (HS s (or_introl eq_refl)). split; [lia|]. split; lia.
    + assert (NP2 : ~ pick inc worth) by tauto.
      destruct (IH worth NP2 size HL2 (fun a h => HS a (or_intror h))) as [c [C1 [C2 C3]]].
      exists (true :: c). cbn [length total]. split; [lia|]. split; lia.
  - assert (NP2 : ~ pick inc worth). { intros K. apply NP. split; [discriminate|auto]. }
    destruct (IH worth NP2 size HL2 (fun a h => HS a (or_intror h))) as [c [C1 [C2 C3]]].
    exists (false :: c). cbn [length total]. split; [lia|]. split; lia.
Qed.
Lemma pick_dec : forall inc worth, pick inc worth \/ ~ pick inc worth.
Proof.
  induction inc as [|b inc IH]; intros [|w worth]; cbn [pick]; auto.
  destruct (IH worth) as [A|A]; [|right; tauto].
  destruct b; [|left; split; [discriminate|auto]].
  destruct (Z.lt_ge_cases w 0); [right; intros [B _]; specialize (B eq_refl); lia|left; auto].
Qed.

(* one item alone *)
Lemma one_item : forall size worth k s w, length worth = length size -> nth_error size k = Some s -> nth_error worth k = Some w ->
  exists c, length c = length size /\ total c size = s /\ total c worth = w.
Proof.
  induction size as [|s0 size IH]; intros [|w0 worth] [|k] s w HL H1 H2; try discriminate; cbn [nth_error] in *.
  - injection H1 as ->. injection H2 as ->. exists (true :: repeat false (length size)).
    cbn [length total]. rewrite repeat_length, !total_false. repeat split; lia.
  - cbn [length] in HL. destruct (IH worth k s w ltac:(lia) H1 H2) as [c [A [B C]]].
    exists (false :: c). cbn [length total]. rewrite A, B, C. auto.
Qed.

Lemma inv_len i : forall items used worth, Inv i items used worth -> length used = length items /\ length worth = length items.
Proof.
  induction items as [|it items IH]; intros [|u us] [|w ws] H; cbn [Inv] in H; try tauto; auto.
  destruct H as [_ H]. apply IH in H. cbn [length]. lia.
Qed.
Lemma inv_find i : forall items used worth, Inv i items used worth -> 0 < unCount i items used ->
  exists k it, nth_error items k = Some it /\ nth_error worth k = Some (it_size it) /\ nth_error (map it_size items) k = Some (it_size it).
Proof.
  induction items as [|it items IH]; intros [|u us] [|w ws] H HU; cbn [Inv unCount] in *; try lia; try tauto.
  destruct H as [[O1 [O2 O3]] H]. destruct ((it_clen it =? i) && negb u) eqn:C.
  - exists 0, it. subst. auto.
  - destruct (IH us ws H) as [k [a [A1 [A2 A3]]]]; [lia|]. exists (S k), a. auto.
Qed.
Lemma trues_pos : forall inc worth, (0 < total inc worth)%Z -> 0 < trues inc.
Proof.
  induction inc as [|b inc IH]; intros [|w worth] H; cbn [total] in H; try lia.
  unfold trues in *. destruct b; cbn [filter length]; [lia|]. apply (IH worth). lia.
Qed.
Lemma used_le : forall items used, length (usedStm items used) <= length items.
Proof. induction items as [|it items IH]; intros [|u us]; cbn [usedStm length]; try lia. specialize (IH us). destruct u; cbn [length]; lia. Qed.

(* what one round of the while loop does *)
Lemma round_ok i items used worth width : Inv i items used worth ->
  (forall it, In it items -> (1 <= it_size it)%Z) -> (0 <= width)%Z ->
  exists j inc t, knapsack01 (map it_size items) worth width = Ok (j, inc) /\ (0 <= j)%Z /\
    scan i items inc worth used = Ok t /\
    Inv i items (sc_used t) (sc_worth t) /\
    Permutation (usedStm items (sc_used t)) (usedStm items used ++ sc_out t) /\
    (0 <= sc_off t <= width)%Z /\
    sc_un t = unCount i items (sc_used t) /\
    unCount i items (sc_used t) <= unCount i items used /\
    (0 < unCount i items used -> (forall it, In it items -> (it_size it <= width)%Z) ->
       unCount i items (sc_used t) < unCount i items used) /\
    fits (map it_size items) width inc.
Proof.
  intros HI HS HW. destruct (inv_len _ _ _ _ HI) as [L1 L2].
  assert (HS2 : forall s, In s (map it_size items) -> (1 <= s)%Z).
  { intros s Hs. apply in_map_iff in Hs. destruct Hs as [it [<- H]]. auto. }
  assert (L3 : length worth = length (map it_size items)) by (rewrite map_length; auto).
  destruct (knapsack_optimal (map it_size items) worth width L3 HS2 HW) as [best [inc [K1 [[K2 K3] [K4 K5]]]]].
  assert (HP : pick inc worth).
  { destruct (pick_dec inc worth) as [|NP]; auto. exfalso.
    destruct (drop_neg inc worth NP _ K2 HS2) as [c [C1 [C2 C3]]].
    assert (F : fits (map it_size items) width c) by (split; [auto|lia]). specialize (K5 c F). lia. }
  assert (K6 : length inc = length items) by (rewrite K2, map_length; auto).
  destruct (scan_ok i items inc worth used HI K6 HP HS) as [t [T1 [T2 [T3 [T4 [T5 T6]]]]]].
  exists best, inc, t. split; [exact K1|]. split.
  { rewrite <- (total_false worth (length (map it_size items))). apply K5.
    split; [apply repeat_length|rewrite total_false; lia]. }
  split; [exact T1|]. split; [exact T2|]. split; [exact T3|]. split.
  { rewrite T4. split; [|exact K3]. clear - HS2. revert inc. induction (map it_size items) as [|s l IH]; intros [|b c]; cbn [total]; try lia.
    specialize (IH (fun a h => HS2 a (or_intror h)) c). pose proof (HS2 s (or_introl eq_refl)). destruct b; lia. }
  split; [exact T5|]. split; [lia|]. split; [|split; auto].
  intros HU HF. destruct (inv_find _ _ _ _ HI HU) as [k [it [F1 [F2 F3]]]].
  destruct (one_item _ _ _ _ _ L3 F3 F2) as [c [C1 [C2 C3]]].
  assert (F : fits (map it_size items) width c).
  { split; auto. rewrite C2. apply HF. eapply nth_error_In; eauto. }
  specialize (K5 c F). pose proof (HS it (nth_error_In _ _ F1)) as S1.
  assert (TP : 0 < trues inc) by (apply (trues_pos inc worth); lia). lia.
Qed.

Lemma fillLoop_ok room i items : (forall it, In it items -> (1 <= it_size it <= room + 1)%Z) ->
  forall fuel un worth s, Inv i items (f_used s) worth -> un = unCount i items (f_used s) ->
  Permutation (f_out s) (usedStm items (f_used s)) -> (0 <= f_off s <= room + 1)%Z ->
  un + (if (f_off s =? 0)%Z || (un =? 0) then 0 else 1) < fuel ->
  exists s' worth', fillLoop fuel room i items un worth s = Ok s' /\ Inv i items (f_used s') worth' /\
    unCount i items (f_used s') = 0 /\ Permutation (f_out s') (usedStm items (f_used s')) /\
    (0 <= f_off s' <= room + 1)%Z /\ exists new, f_out s' = f_out s ++ new.
Proof.
  intros HS. induction fuel as [|fuel IH]; intros un worth s HI HU HP HO HF; [lia|].
  cbn [fillLoop]. destruct (Nat.eqb_spec un 0) as [E|E].
  - exists s, worth. repeat split; auto; try lia. exists []. rewrite app_nil_r. reflexivity.
  - assert (HW : (0 <= room - f_off s + 1)%Z) by lia.
    destruct (round_ok i items (f_used s) worth _ HI (fun it h => proj1 (HS it h)) HW) as
      [j [inc [t [K1 [K2 [T1 [T2 [T3 [T4 [T5 [T6 [T7 _]]]]]]]]]]]].
    rewrite K1. cbn [rbind]. destruct (Z.ltb_spec j 0); [lia|]. rewrite T1. cbn [rbind].
    assert (HP2 : Permutation (f_out s ++ sc_out t) (usedStm items (sc_used t))).
    { rewrite T3. apply Permutation_app_tail. exact HP. }
    destruct (Nat.ltb_spec (length items) (length (f_out s ++ sc_out t))) as [C|C].
    { rewrite (Permutation_length HP2) in C. pose proof (used_le items (sc_used t)). lia. }
    cbv zeta.
    destruct (IH (sc_un t) (sc_worth t) (mkFill (f_out s ++ sc_out t) (sc_used t)
      (if sc_un t =? 0 then (f_off s + sc_off t)%Z else 0%Z))) as [s' [w' [A1 [A2 [A3 [A4 [A5 [new A6]]]]]]]]; cbn [f_used f_out f_off]; auto.
    + destruct (Nat.eqb_spec (sc_un t) 0); lia.
    + rewrite T5 in *. destruct (Nat.eqb_spec (unCount i items (sc_used t)) 0) as [D|D]; [rewrite D, orb_true_r; destruct (Nat.eqb_spec un 0); lia|].
      rewrite Z.eqb_refl. cbn [orb]. destruct (Z.eqb_spec (f_off s) 0) as [Z0|Z0].
      * assert (unCount i items (sc_used t) < unCount i items (f_used s)).
        { apply T7; [lia|]. intros it Hit. specialize (HS it Hit). lia. }
        cbn [orb] in HF. lia.
      * cbn [orb] in HF. destruct (Nat.eqb_spec un 0); lia.
    + exists s', w'. rewrite A1. repeat split; auto; try lia. exists (sc_out t ++ new). rewrite A6. cbn [f_out]. rewrite app_assoc. reflexivity.
Qed.

Lemma scan_kept i : forall items inc worth used t k u, scan i items inc worth used = Ok t ->
  nth_error inc k = Some false -> nth_error items k <> None -> nth_error used k = Some u -> nth_error (sc_used t) k = Some u.
Proof.
  induction items as [|it items IH]; intros inc worth used t k u E HI HK HU.
  - destruct k; cbn in HK; congruence.
  - destruct inc as [|x xs], worth as [|w ws], used as [|u0 us]; try discriminate. cbn [scan] in E.
    assert (X : exists t', scan i items xs ws us = Ok t' /\ sc_used t = (if x then true else u0) :: sc_used t').
    { destruct x.
      - destruct (negb (it_clen it =? i)); [discriminate|]. destruct (w =? -1)%Z; [discriminate|].
        apply rbind_ok in E. destruct E as [t' [E1 E2]]. apply Ok_inj in E2. subst t. exists t'. auto.
      - destruct ((it_clen it =? i) && negb u0).
        + destruct (negb (w =? it_size it)%Z); [discriminate|].
          apply rbind_ok in E. destruct E as [t' [E1 E2]]. apply Ok_inj in E2. subst t. exists t'. auto.
        + apply rbind_ok in E. destruct E as [t' [E1 E2]]. apply Ok_inj in E2. subst t. exists t'. auto. }
    destruct X as [t' [E1 E2]]. rewrite E2. destruct k as [|k]; cbn [nth_error] in *.
    + injection HI as ->. exact HU.
    + eapply IH; eauto.
Qed.
Lemma fits_small size cap inc : fits size cap inc -> (forall s, In s size -> (1 <= s)%Z) ->
  forall k s, nth_error size k = Some s -> (cap < s)%Z -> nth_error inc k = Some false.
Proof.
  intros [F1 F2] HS k s Hk Hb.
  destruct (nth_error inc k) as [b|] eqn:E.
  - destruct b; [|reflexivity]. exfalso.
    assert (A : forall l c, (forall s, In s l -> (1 <= s)%Z) -> (0 <= total c l)%Z).
    { induction l as [|x l IHl]; intros [|b' d] Hl; cbn [total]; try lia.
      specialize (IHl d (fun s H => Hl s (or_intror H))). pose proof (Hl x (or_introl eq_refl)). destruct b'; lia. }
    assert (B : forall k l c, (forall s, In s l -> (1 <= s)%Z) -> nth_error l k = Some s -> nth_error c k = Some true -> (s <= total c l)%Z).
    { induction k0 as [|k0 IHk]; intros [|x l] [|b' c] Hl H1 H2; try discriminate; cbn [nth_error total] in *.
      - injection H1 as ->. injection H2 as ->. pose proof (A l c (fun s H => Hl s (or_intror H))). lia.
      - specialize (IHk l c (fun s H => Hl s (or_intror H)) H1 H2). pose proof (Hl x (or_introl eq_refl)). destruct b'; lia. }
    specialize (B k size inc HS Hk E). lia.
  - apply nth_error_None in E. assert (k < length size) by (apply nth_error_Some; congruence). lia.
Qed.

(* a label too long for an empty line keeps the loop going for ever *)
Lemma fillLoop_stuck room i items k big : (forall it, In it items -> (1 <= it_size it)%Z) ->
  nth_error items k = Some big -> it_clen big = i -> (room + 1 < it_size big)%Z ->
  forall fuel un worth s, Inv i items (f_used s) worth -> un = unCount i items (f_used s) ->
  nth_error (f_used s) k = Some false ->
  Permutation (f_out s) (usedStm items (f_used s)) -> (0 <= f_off s <= room + 1)%Z ->
  fillLoop fuel room i items un worth s = Fuel.
Proof.
  intros HS Hk Hc Hb. induction fuel as [|fuel IH]; intros un worth s HI HU HK HP HO; [reflexivity|].
  cbn [fillLoop]. assert (UN : 0 < unCount i items (f_used s)).
  { clear - Hk Hc HK. revert k items Hk HK. generalize (f_used s) as us. induction us as [|u us IHu]; intros [|k] [|it items] A B; try discriminate; cbn [nth_error unCount] in *.
    - injection A as ->. injection B as ->. rewrite Hc, Nat.eqb_refl. cbn. lia.
    - specialize (IHu k items A B). lia. }
  destruct (Nat.eqb_spec un 0); [lia|].
  assert (HW : (0 <= room - f_off s + 1)%Z) by lia.
  destruct (round_ok i items (f_used s) worth _ HI HS HW) as [j [inc [t [K1 [K2 [T1 [T2 [T3 [T4 [T5 [T6 [T7 T8]]]]]]]]]]]].
  rewrite K1. cbn [rbind]. destruct (Z.ltb_spec j 0); [lia|]. rewrite T1. cbn [rbind].
  assert (HP2 : Permutation (f_out s ++ sc_out t) (usedStm items (sc_used t))).
  { rewrite T3. apply Permutation_app_tail. exact HP. }
  destruct (Nat.ltb_spec (length items) (length (f_out s ++ sc_out t))) as [C|C].
  { rewrite (Permutation_length HP2) in C. pose proof (used_le items (sc_used t)). lia. }
  cbv zeta. apply IH; cbn [f_used f_out f_off]; auto.
  - apply (scan_kept i items inc worth (f_used s) t k false T1); auto; [|congruence].
    apply (fits_small _ _ _ T8) with (s := it_size big).
    + intros s0 Hs. apply in_map_iff in Hs. destruct Hs as [it [<- H0]]. auto.
    + rewrite nth_error_map, Hk. reflexivity.
    + lia.
  - destruct (Nat.eqb_spec (sc_un t) 0); lia.
Qed.
