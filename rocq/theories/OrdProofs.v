(* OrdProofs.v -- the label order is a permutation, and the best one. *)
From Coq Require Import Permutation.
From Verif Require Import Base VerModel TokModel ParModel CmpModel CmpCodec OrdModel OrdSpec OrdKnap OrdLens OrdFill.
Open Scope nat_scope.

Definition below (i : nat) (it : item) : bool := it_clen it <? i.
Definition usedAt (i : nat) (items : list item) : list bool := map (below i) items.

Lemma groupWorth_ok i : forall items, exists w, groupWorth i items (usedAt i items) = Ok w /\
  Inv i items (usedAt i items) w /\ groupCount i items = unCount i items (usedAt i items).
Proof.
  unfold usedAt, groupCount. induction items as [|it items [w [A [B C]]]]; cbn [map groupWorth].
  - exists []. cbn. auto.
  - cbn [filter unCount]. destruct (Nat.eqb_spec (it_clen it) i) as [E|E].
    + assert (Bf : below i it = false) by (unfold below; apply Nat.ltb_ge; lia). rewrite Bf, A. cbn [rbind].
      eexists. split; [reflexivity|]. cbn [Inv length andb negb]. split; [split; [|exact B]|lia]. unfold ok1.
      rewrite E, Nat.eqb_refl. cbn [andb negb]. repeat split; auto; lia.
    + rewrite A. cbn [rbind]. eexists. split; [reflexivity|].
      cbn [Inv andb]. split; [split; [|exact B]|lia]. unfold ok1, below.
      destruct (Nat.ltb_spec (it_clen it) i); destruct (Nat.eqb_spec (it_clen it) i); try lia; cbn [andb]; repeat split; auto; try discriminate; lia.
Qed.

Lemma group_done i : forall items used w, Inv i items used w -> unCount i items used = 0 -> used = usedAt (S i) items.
Proof.
  unfold usedAt. induction items as [|it items IH]; intros [|u us] [|w ws] H U; cbn [Inv] in H; try tauto; auto.
  cbn [unCount map] in *. destruct H as [[O1 [O2 O3]] H]. f_equal.
  - unfold below. destruct u.
    + symmetry. apply Nat.ltb_lt. specialize (O1 eq_refl). lia.
    + symmetry. apply Nat.ltb_ge. destruct (Nat.eqb_spec (it_clen it) i) as [E|E]; cbn [andb negb] in U; [lia|].
      destruct (Nat.lt_ge_cases (it_clen it) i) as [C|C]; [apply O2 in C; discriminate|lia].
  - eapply IH; eauto. destruct ((it_clen it =? i) && negb u); lia.
Qed.

Lemma usedStm_filter P : forall items, usedStm items (map P items) = map it_stmt (filter P items).
Proof. induction items as [|it items IH]; cbn [map usedStm filter]; auto. destruct (P it); cbn [map]; rewrite IH; auto. Qed.

Definition cntLt (i : nat) (items : list item) : nat := length (filter (below i) items).
Definition stmLt (i : nat) (items : list item) : list Z := map it_stmt (filter (below i) items).

Lemma unCount_le i : forall items used, unCount i items used <= length items.
Proof.
  induction items as [|it items IH]; intros [|u us]; cbn [unCount length]; try lia.
  specialize (IH us). destruct ((it_clen it =? i) && negb u); lia.
Qed.

Lemma fillGroups_ok fuel room items : (forall it, In it items -> (1 <= it_size it <= room + 1)%Z) ->
  length items + 1 < fuel -> forall k i s, f_used s = usedAt i items -> Permutation (f_out s) (stmLt i items) ->
  (0 <= f_off s <= room + 1)%Z ->
  exists s', fillGroups fuel room items i k s = Ok s' /\ Permutation (f_out s') (stmLt (i + k) items) /\
    (exists new, f_out s' = f_out s ++ new) /\
    forall j, i <= j <= i + k -> Permutation (firstn (cntLt j items) (f_out s')) (stmLt j items).
Proof.
  intros HS HF. induction k as [|k IH]; intros i s HU HP HO.
  - exists s. cbn [fillGroups]. rewrite Nat.add_0_r. split; auto. split; auto.
    split; [exists []; rewrite app_nil_r; auto|]. intros j Hj. replace j with i by lia.
    rewrite firstn_all2; auto. rewrite (Permutation_length HP). unfold stmLt, cntLt. rewrite map_length. lia.
  - cbn [fillGroups]. destruct (groupWorth_ok i items) as [w [A [B C]]]. rewrite HU, A. cbn [rbind]. rewrite C, <- HU.
    rewrite <- HU in B.
    destruct (fillLoop_ok room i items HS fuel _ w s B eq_refl) as [s' [w' [L1 [L2 [L3 [L4 [L5 [new L6]]]]]]]]; auto.
    { rewrite HU. unfold usedAt. rewrite usedStm_filter. exact HP. }
    { pose proof (unCount_le i items (f_used s)). destruct ((f_off s =? 0)%Z || _); lia. }
    rewrite L1. cbn [rbind]. pose proof (group_done _ _ _ _ L2 L3) as U'.
    destruct (IH (S i) s' U') as [s2 [M1 [M2 [[new2 M3] M4]]]]; auto.
    { rewrite L4, U'. unfold usedAt. rewrite usedStm_filter. reflexivity. }
    exists s2. split; [exact M1|]. split; [replace (i + S k) with (S i + k) by lia; exact M2|].
    split; [exists (new ++ new2); rewrite M3, L6, app_assoc; reflexivity|].
    intros j Hj. destruct (Nat.eq_dec j i) as [->|D]; [|apply M4; lia].
    rewrite M3, L6, <- app_assoc, firstn_app.
    assert (EL : length (f_out s) = cntLt i items).
    { rewrite (Permutation_length HP). unfold stmLt, cntLt. rewrite map_length. auto. }
    rewrite <- EL, firstn_all, Nat.sub_diag. cbn [firstn]. rewrite app_nil_r. exact HP.
Qed.

Lemma filter_all_true {A} (P : A -> bool) l : (forall x, In x l -> P x = true) -> filter P l = l.
Proof. induction l; intros H; cbn [filter]; auto. rewrite H by (left; auto). f_equal. apply IHl. intros; apply H; right; auto. Qed.

(* ---------- reference counts ---------- *)
Lemma countZ_uses z l : countZ z l = uses z l.
Proof.
  unfold countZ, uses. induction l as [|x l IH]; cbn [filter count_occ]; auto.
  destruct (Z.eqb_spec z x) as [D|D]; destruct (Z.eq_dec x z); try congruence; cbn [length]; lia.
Qed.
Lemma refScan_ok n : forall proof, (forall z, In z proof -> (z < Z.of_nat n)%Z) -> refScan n proof = Ok tt.
Proof.
  induction proof as [|z l IH]; intros H; cbn [refScan]; auto.
  assert (Hz := H z (or_introl eq_refl)). rewrite IH by (intros y Hy; apply H; right; auto). destruct (Z.ltb_spec 0 z); auto.
  destruct (Z.ltb_spec z (Z.of_nat n)); auto. lia.
Qed.
Lemma refCounts_ok n proof : forall expl, (forall z, In z expl -> (0 < z < Z.of_nat n)%Z /\ In z proof) ->
  refCounts n proof expl = Ok (map (fun z => uses z proof) expl).
Proof.
  induction expl as [|z l IH]; intros H; cbn [refCounts map]; auto.
  destruct (H z (or_introl eq_refl)) as [[H1 H2] H3].
  destruct (Z.ltb_spec z 0); [lia|]. destruct (Z.leb_spec (Z.of_nat n) z); [lia|]. cbn [orb].
  destruct (Z.eqb_spec z 0); [lia|]. cbv zeta. rewrite countZ_uses.
  assert (0 < uses z proof) by (unfold uses; apply count_occ_In; auto).
  destruct (Nat.eqb_spec (uses z proof) 0); [lia|]. rewrite IH by (intros; apply H; right; auto). reflexivity.
Qed.

Lemma mkItems_len nameLen : forall expl lens, length lens = length expl -> length (mkItems nameLen expl lens) = length expl.
Proof. induction expl as [|z l IH]; intros [|c cs] H; try discriminate; cbn [mkItems length]; auto. Qed.
Lemma mkItems_nth nameLen : forall expl lens k, length lens = length expl ->
  nth_error (mkItems nameLen expl lens) k =
    match nth_error expl k, nth_error lens k with
    | Some z, Some c => Some (mkItem z c (Z.of_nat (nameLen z) + 1))
    | _, _ => None
    end.
Proof.
  induction expl as [|z l IH]; intros [|c cs] [|k] H; try discriminate; cbn [mkItems nth_error]; auto.
Qed.
Lemma mkItems_stmt nameLen : forall expl lens, length lens = length expl -> map it_stmt (mkItems nameLen expl lens) = expl.
Proof. induction expl as [|z l IH]; intros [|c cs] H; try discriminate; cbn [mkItems map it_stmt]; auto. f_equal; auto. Qed.
Lemma mkItems_clen nameLen : forall expl lens, length lens = length expl -> map it_clen (mkItems nameLen expl lens) = lens.
Proof. induction expl as [|z l IH]; intros [|c cs] H; try discriminate; cbn [mkItems map it_clen]; auto. f_equal; auto. Qed.

Lemma numChrs_mono a b : a <= b -> numChrs a <= numChrs b.
Proof. rewrite !numChrs_len. apply encode_mono. Qed.

(* ---------- monotone positions ---------- *)
Lemma filter_map_len {A B} (f : A -> B) P l : length (filter P (map f l)) = length (filter (fun x => P (f x)) l).
Proof. induction l; cbn [map filter]; auto. destruct (P (f a)); cbn [length]; auto. Qed.

Lemma mono_prefix (c : nat -> nat) i : (forall a b, a <= b -> c a <= c b) ->
  forall N p, p < N -> (p < length (filter (fun q => c q <? i) (seq 0 N)) <-> c p < i).
Proof.
  intros Hc. assert (G : forall m s p, p < m ->
    (p < length (filter (fun q => c q <? i) (seq s m)) <-> c (s + p) < i)).
  { induction m as [|m IH]; intros s p Hp; [lia|]. cbn [seq filter].
    destruct (Nat.ltb_spec (c s) i) as [C|C].
    - cbn [length]. destruct p as [|p]; [rewrite Nat.add_0_r; lia|].
      specialize (IH (S s) p ltac:(lia)). replace (s + S p) with (S s + p) by lia. lia.
    - assert (X : filter (fun q => c q <? i) (seq (S s) m) = []).
      { assert (Y : forall l, (forall q, In q l -> i <= c q) -> filter (fun q => c q <? i) l = []).
        { induction l as [|q l IHl]; intros Hl; cbn [filter]; auto. destruct (Nat.ltb_spec (c q) i) as [K|K].
          - specialize (Hl q (or_introl eq_refl)). lia.
          - apply IHl. intros; apply Hl; right; auto. }
        apply Y. intros q Hq. apply in_seq in Hq. specialize (Hc s q ltac:(lia)). lia. }
      rewrite X. cbn [length]. specialize (Hc s (s + p) ltac:(lia)). lia. }
  intros N p Hp. apply (G N 0 p Hp).
Qed.

Lemma nodup_nth {A} (l : list A) i j x : NoDup l -> nth_error l i = Some x -> nth_error l j = Some x -> i = j.
Proof.
  intros N H1 H2. apply (proj1 (NoDup_nth_error l) N). apply nth_error_Some; congruence. congruence.
Qed.
Lemma in_firstn {A} : forall (l : list A) k x, In x (firstn k l) <-> exists p, p < k /\ nth_error l p = Some x.
Proof.
  induction l as [|y l IH]; intros k x.
  - rewrite firstn_nil. split; [intros []|intros [[|p] [_ H]]; discriminate].
  - destruct k as [|k]; [split; [intros []|intros [p [H _]]; lia]|]. cbn [firstn In]. rewrite IH. split.
    + intros [->|[p [H1 H2]]]; [exists 0; split; [lia|auto]|exists (S p); split; [lia|auto]].
    + intros [[|p] [H1 H2]]; cbn [nth_error] in H2; [left; congruence|right; exists p; split; [lia|auto]].
Qed.

(* ---------- the order ---------- *)
Record orderIn (n : nat) (nameLen : Z -> nat) (width : Z) (ind : nat) (proof expl : list Z) : Prop := {
  oi_nodup : NoDup expl;
  oi_expl : forall z, In z expl -> (0 < z)%Z /\ In z proof /\ 1 <= nameLen z;
  oi_proof : forall z, In z proof -> (z < Z.of_nat n)%Z;
  oi_fit : forall z, In z expl -> (Z.of_nat (nameLen z) <= width - Z.of_nat ind - 2)%Z }.

Lemma order_ok fuel n nreq nameLen width ind proof expl :
  orderIn n nameLen width ind proof expl -> length expl + 1 < fuel ->
  exists e, orderLabels fuel n nreq nameLen width ind proof expl = Ok e /\ Permutation expl e /\
    forall p q zp zq, nth_error e p = Some zp -> nth_error e q = Some zq -> uses zq proof < uses zp proof ->
      numChrs (nreq + p) <= numChrs (nreq + q).
Proof.
  intros [ND HE HPr HFit] HF. unfold orderLabels. rewrite refScan_ok by auto. cbn [rbind].
  rewrite refCounts_ok by (intros z Hz; destruct (HE z Hz) as [A [B C]]; specialize (HPr z B); auto).
  cbn [rbind]. set (refs := map (fun z => uses z proof) expl).
  destruct (comprLens nreq refs) as [lens m] eqn:EC.
  assert (HRf : forall r, In r refs -> 1 <= r).
  { intros r Hr. apply in_map_iff in Hr. destruct Hr as [z [<- Hz]]. destruct (HE z Hz) as [_ [B _]].
    unfold uses. apply (count_occ_In Z.eq_dec). auto. }
  destruct (comprLens_ok numChrs_mono nreq refs lens m HRf EC) as [K1 [K2 [K3 K4]]].
  assert (LR : length refs = length expl) by (apply map_length). rewrite LR in *.
  set (items := mkItems nameLen expl lens).
  assert (ES : map it_stmt items = expl) by (apply mkItems_stmt; auto).
  assert (ECl : map it_clen items = lens) by (apply mkItems_clen; auto).
  assert (LI : length items = length expl) by (apply mkItems_len; auto).
  assert (HIt : forall it, In it items -> In (it_stmt it) expl /\ it_size it = (Z.of_nat (nameLen (it_stmt it)) + 1)%Z /\ 1 <= it_clen it <= m).
  { intros it Hit. apply In_nth_error in Hit. destruct Hit as [k Hk]. unfold items in Hk. rewrite mkItems_nth in Hk by auto.
    destruct (nth_error expl k) as [z|] eqn:Ez; [|discriminate]. destruct (nth_error lens k) as [c|] eqn:Ec; [|discriminate].
    injection Hk as <-. cbn [it_stmt it_size it_clen]. split; [eapply nth_error_In; eauto|]. split; auto.
    apply K4. eapply nth_error_In; eauto. }
  set (room := (width - (2 + Z.of_nat ind))%Z).
  assert (EX : expl = [] \/ exists z0, In z0 expl) by (destruct expl as [|z0 l0]; [auto|right; exists z0; left; auto]).
  destruct EX as [EX|[z0 I0]].
  { clear - EC EX. subst expl. cbn in EC. injection EC as <- <-. cbn. exists []. split; auto. split; auto. intros [|p]; discriminate. }
  assert (HRoom : (2 <= room + 1)%Z).
  { specialize (HFit _ I0). destruct (HE _ I0) as [_ [_ A]]. unfold room. lia. }
  assert (HS : forall it, In it items -> (1 <= it_size it <= room + 1)%Z).
  { intros it Hit. destruct (HIt it Hit) as [A [B _]]. specialize (HFit _ A). unfold room. lia. }
  destruct (fillGroups_ok fuel room items HS ltac:(lia) m 1 (mkFill [] (repeat false (length expl)) 2)) as
    [s [F1 [F2 [_ F4]]]]; cbn [f_used f_out f_off]; auto.
  { unfold usedAt. rewrite <- LI. clear - HIt. assert (A : forall it, In it items -> 1 <= it_clen it) by (intros it H; apply HIt; auto).
    clear HIt. induction items as [|it l IH]; cbn [length repeat map]; auto. f_equal.
    - unfold below. symmetry. apply Nat.ltb_ge. apply A. left; auto.
    - apply IH. intros; apply A; right; auto. }
  { unfold stmLt. assert (X : filter (below 1) items = []).
    { clear - HIt. assert (A : forall it, In it items -> 1 <= it_clen it) by (intros it H; apply HIt; auto).
      clear HIt. induction items as [|it l IH]; cbn [filter]; auto. unfold below at 1.
      destruct (Nat.ltb_spec (it_clen it) 1); [specialize (A it (or_introl eq_refl)); lia|]. apply IH. intros; apply A; right; auto. }
    rewrite X. constructor. }
  { lia. }
  rewrite F1. cbn [rbind].
  assert (FA : stmLt (1 + m) items = expl).
  { unfold stmLt. rewrite filter_all_true; auto. intros it Hit. destruct (HIt it Hit) as [_ [_ A]].
    unfold below. apply Nat.ltb_lt. lia. }
  rewrite FA in F2. rewrite (Permutation_length F2), Nat.eqb_refl.
  exists (f_out s). split; [reflexivity|]. split; [symmetry; exact F2|].
  set (e := f_out s) in *.
  assert (NDe : NoDup e) by (apply (Permutation_NoDup (Permutation_sym F2)); auto).
  assert (LE : length e = length expl) by (apply Permutation_length; auto).
  (* the compressed length assigned to a label is that of its final position *)
  assert (KEY : forall p k c, nth_error e p = nth_error expl k -> nth_error lens k = Some c -> p < length expl ->
                c = numChrs (nreq + p)).
  { intros p k c Hp Hc Hlt.
    assert (CNT : forall j, cntLt j items = length (filter (fun q => numChrs (nreq + q) <? j) (seq 0 (length expl)))).
    { intros j. unfold cntLt. rewrite <- (filter_map_len (fun q => numChrs (nreq + q)) (fun x => x <? j)).
      rewrite <- (filter_map_len it_clen (fun x => x <? j)). rewrite ECl.
      apply Permutation_length. clear - K2. induction K2; cbn [filter]; auto.
      - destruct (x <? j); auto.
      - destruct (x <? j), (y <? j); auto. constructor.
      - etransitivity; eauto. }
    assert (MONO : forall a b, a <= b -> numChrs (nreq + a) <= numChrs (nreq + b)) by (intros; apply numChrs_mono; lia).
    assert (IFF : forall j, 1 <= j <= 1 + m -> (c < j <-> numChrs (nreq + p) < j)).
    { intros j Hj. rewrite <- (mono_prefix (fun q => numChrs (nreq + q)) j MONO (length expl) p Hlt).
      rewrite <- CNT. 
      destruct (nth_error expl k) as [z|] eqn:Ez.
      2:{ apply nth_error_None in Ez. assert (k < length lens) by (apply nth_error_Some; congruence). lia. }
      assert (A : In z (firstn (cntLt j items) e) <-> p < cntLt j items).
      { rewrite in_firstn. split; [|intros; exists p; auto].
        intros [p' [B1 B2]]. assert (p' = p) by (eapply nodup_nth; eauto). lia. }
      rewrite <- A.
      assert (B : In z (firstn (cntLt j items) e) <-> In z (stmLt j items)).
      { split; apply Permutation_in; [|symmetry]; apply F4; lia. }
      rewrite B. unfold stmLt. rewrite in_map_iff.
      assert (Hki : nth_error items k = Some (mkItem z c (Z.of_nat (nameLen z) + 1))).
      { unfold items. rewrite mkItems_nth by auto. rewrite Ez, Hc. reflexivity. }
      split.
      - intros Hcj. eexists. split; [|apply filter_In; split; [eapply nth_error_In; exact Hki|]]; [reflexivity|].
        unfold below. cbn [it_clen]. apply Nat.ltb_lt. auto.
      - intros [it [E1 E2]]. apply filter_In in E2. destruct E2 as [E2 E3]. apply In_nth_error in E2. destruct E2 as [k' E2].
        assert (k' = k).
        { eapply (nodup_nth expl); eauto. rewrite <- ES, nth_error_map, E2. cbn. congruence. }
        subst k'. rewrite Hki in E2. injection E2 as <-. unfold below in E3. apply Nat.ltb_lt in E3. exact E3. }
    assert (C1 : 1 <= c <= m) by (apply K4; eapply nth_error_In; eauto).
    assert (C2 : 1 <= numChrs (nreq + p) <= m).
    { apply K4. eapply Permutation_in; [symmetry; exact K2|]. apply in_map_iff. exists p. split; auto. apply in_seq. lia. }
    pose proof (IFF c ltac:(lia)). pose proof (IFF (numChrs (nreq + p)) ltac:(lia)). pose proof (IFF (S c) ltac:(lia)). lia. }
  intros p q zp zq Hp Hq HU.
  assert (FIND : forall p z, nth_error e p = Some z -> exists k c, nth_error expl k = Some z /\ nth_error lens k = Some c /\
    c = numChrs (nreq + p) /\ nth_error refs k = Some (uses z proof)).
  { intros p0 z Hz. clear I0. assert (I0 : In z expl) by (apply (Permutation_in _ F2); eapply nth_error_In; eauto).
    apply In_nth_error in I0. destruct I0 as [k Hk].
    destruct (nth_error lens k) as [c|] eqn:Ec.
    2:{ apply nth_error_None in Ec. assert (k < length expl) by (apply nth_error_Some; congruence). lia. }
    exists k, c. split; auto. split; auto. split.
    - apply (KEY p0 k c); auto; [congruence|]. rewrite <- LE. apply nth_error_Some. congruence.
    - unfold refs. rewrite nth_error_map, Hk. reflexivity. }
  destruct (FIND p zp Hp) as [k1 [c1 [A1 [A2 [A3 A4]]]]]. destruct (FIND q zq Hq) as [k2 [c2 [B1 [B2 [B3 B4]]]]].
  rewrite <- A3, <- B3. eapply (K3 k1 k2); eauto.
Qed.
