From Verif Require Import Base NmbModel NmbSpec.
Open Scope nat_scope.

Definition holds (s : nmbr) (l : list Z) : Prop :=
  ~ In (-1)%Z l /\ exists rest, nb_cells s = map Some l ++ Some (-1)%Z :: rest.
Lemma isNmbr_holds s l : isNmbr s l <-> holds s l /\ nb_len s = length l.
Proof. unfold isNmbr, holds. tauto. Qed.

Lemma nget_mid s pre x post : nb_cells s = map Some pre ++ Some x :: post -> nget s (length pre) = Ok x.
Proof. intros H. unfold nget. rewrite H, nth_error_app2 by (rewrite map_length; lia). rewrite map_length, Nat.sub_diag. reflexivity. Qed.
Lemma nget_in s l i x : holds s l -> nth_error l i = Some x -> nget s i = Ok x.
Proof.
  intros [_ [rest H]] Hx. unfold nget. rewrite H, nth_error_app1.
  - rewrite nth_error_map, Hx. reflexivity.
  - rewrite map_length. apply nth_error_Some. congruence.
Qed.
Lemma nget_end s l : holds s l -> nget s (length l) = Ok (-1)%Z.
Proof. intros [_ [rest H]]. eapply nget_mid; eauto. Qed.
Lemma setCell_app pre c post x : setCell (pre ++ c :: post) (length pre) x = Some (pre ++ Some x :: post).
Proof. induction pre as [|a pre IH]; cbn; [reflexivity|]. now rewrite IH. Qed.
Lemma nset_at s pre c post x i : nb_cells s = pre ++ c :: post -> i = length pre ->
  nset s i x = Ok (mkN (pre ++ Some x :: post) (nb_len s)).
Proof. intros H ->. unfold nset. rewrite H, setCell_app. reflexivity. Qed.
Lemma split_at {A} (l : list A) n : n < length l -> exists a c b, l = a ++ c :: b /\ length a = n.
Proof.
  intros H. destruct (nth_error l n) as [c|] eqn:E; [|apply nth_error_None in E; lia].
  apply nth_error_split in E. destruct E as (a & b & E & L). eauto.
Qed.
Lemma holds_len s l : holds s l -> length l < length (nb_cells s).
Proof. intros [_ [rest ->]]. rewrite app_length, map_length. cbn. lia. Qed.

Lemma ncpy_ok : forall l f s so t ti pre room a rest,
  ~ In (-1)%Z l -> nb_cells t = map Some (a ++ l) ++ Some (-1)%Z :: rest -> ti = length a ->
  nb_cells s = pre ++ room -> so = length pre -> length l < length room -> length l < f ->
  exists room', ncpy f s so t ti = Ok (mkN (pre ++ map Some l ++ Some (-1)%Z :: room') (nb_len s)) /\
    length room' + length l + 1 = length room.
Proof.
  induction l as [|x l IH]; intros f s so t ti pre room a rest HN HT HTi HS HSo HR HF;
    (destruct f as [|f]; [lia|]); cbn [ncpy]; destruct room as [|c room]; try (cbn in HR; lia).
  - rewrite app_nil_r in HT. rewrite HTi, (nget_mid t a _ _ HT). cbn [rbind]. rewrite (nset_at s pre c room _ so HS HSo). cbn [rbind].
    rewrite Z.eqb_refl. exists room. split; [reflexivity|cbn; lia].
  - assert (HX : nb_cells t = map Some a ++ Some x :: (map Some l ++ Some (-1)%Z :: rest)).
    { rewrite HT, map_app, <- app_assoc. reflexivity. }
    rewrite HTi, (nget_mid t a _ _ HX). cbn [rbind]. rewrite (nset_at s pre c room _ so HS HSo). cbn [rbind].
    destruct (Z.eqb_spec x (-1)); [subst; exfalso; apply HN; now left|].
    destruct (IH f (mkN (pre ++ Some x :: room) (nb_len s)) (S so) t (S (length a)) (pre ++ [Some x]) room (a ++ [x]) rest) as (room' & E & L).
    + intros H. apply HN. now right.
    + rewrite HT, <- app_assoc. reflexivity.
    + rewrite app_length; cbn; lia.
    + cbn. now rewrite <- app_assoc.
    + rewrite app_length; cbn; lia.
    + cbn in HR. lia.
    + cbn in HF. lia.
    + rewrite E. cbn [nb_len]. exists room'. rewrite <- app_assoc. split; [reflexivity|cbn; lia].
Qed.
Lemma nmbrCpy_ok l s so t ti pre room a rest :
  ~ In (-1)%Z l -> nb_cells t = map Some (a ++ l) ++ Some (-1)%Z :: rest -> ti = length a ->
  nb_cells s = pre ++ room -> so = length pre -> length l < length room ->
  exists room', nmbrCpy s so t ti = Ok (mkN (pre ++ map Some l ++ Some (-1)%Z :: room') (nb_len s)) /\
    length room' + length l + 1 = length room.
Proof.
  intros. unfold nmbrCpy. eapply ncpy_ok; eauto. rewrite H0, app_length, map_length, app_length. cbn. lia.
Qed.
Lemma copy_ok s t l n : isNmbr t l -> length l < n -> nmbrCpy (nalloc n) 0 t 0 = Ok s ->
  exists room, s = mkN (map Some l ++ Some (-1)%Z :: room) (n - 1) /\ length room + length l + 1 = n.
Proof.
  intros (HN & HL & rest & HC) Hn H. destruct (nmbrCpy_ok l (nalloc n) 0 t 0 [] (repeat None n) [] rest) as (room & E & L); auto.
  - now rewrite repeat_length.
  - rewrite E in H. apply Ok_inj in H. subst s. rewrite repeat_length in L. exists room. auto.
Qed.
Lemma copy_ex t l n : isNmbr t l -> length l < n ->
  exists room, nmbrCpy (nalloc n) 0 t 0 = Ok (mkN (map Some l ++ Some (-1)%Z :: room) (n - 1)) /\ length room + length l + 1 = n.
Proof.
  intros (HN & HL & rest & HC) Hn. destruct (nmbrCpy_ok l (nalloc n) 0 t 0 [] (repeat None n) [] rest) as (room & E & L); auto.
  - now rewrite repeat_length.
  - rewrite repeat_length in L. exists room. auto.
Qed.

Lemma nncpy_ok : forall k l s i t ti pre room a rest,
  ~ In (-1)%Z l -> nb_cells t = map Some (a ++ l) ++ Some (-1)%Z :: rest -> ti = length a ->
  nb_cells s = pre ++ room -> i = length pre -> k < length room ->
  exists c room', nncpy s i t ti k = Ok (mkN (pre ++ map Some (firstn k l) ++ c :: room') (nb_len s)) /\
    length room' + length (firstn k l) + 1 = length room /\ (length l < k -> c = Some (-1)%Z).
Proof.
  induction k as [|k IH]; intros l s i t ti pre room a rest HN HT HTi HS HI HR; (destruct room as [|c room]; [cbn in HR; lia|]).
  - cbn [nncpy]. assert (X : exists x, nget t ti = Ok x).
    { destruct l as [|x l].
      - rewrite app_nil_r in HT. rewrite HTi, (nget_mid t a _ _ HT). eauto.
      - rewrite map_app, <- app_assoc in HT. cbn in HT. rewrite HTi, (nget_mid t a _ _ HT). eauto. }
    destruct X as (x & ->). cbn [rbind]. rewrite (nset_at s pre c room x i HS HI). exists (Some x), room. split; [reflexivity|]. cbn. split; lia.
  - cbn [nncpy]. destruct l as [|x l].
    + rewrite app_nil_r in HT. rewrite HTi, (nget_mid t a _ _ HT). cbn [rbind]. rewrite (nset_at s pre c room _ i HS HI). cbn [rbind].
      rewrite Z.eqb_refl. exists (Some (-1)%Z), room. cbn. split; [reflexivity|]. split; [lia|auto].
    + assert (HX : nb_cells t = map Some a ++ Some x :: (map Some l ++ Some (-1)%Z :: rest)).
      { rewrite HT, map_app, <- app_assoc. reflexivity. }
      rewrite HTi, (nget_mid t a _ _ HX). cbn [rbind]. rewrite (nset_at s pre c room _ i HS HI). cbn [rbind].
      destruct (Z.eqb_spec x (-1)); [subst; exfalso; apply HN; now left|].
      destruct (IH l (mkN (pre ++ Some x :: room) (nb_len s)) (S i) t (S (length a)) (pre ++ [Some x]) room (a ++ [x]) rest) as (c' & room' & E & L & C).
      * intros H. apply HN. now right.
      * rewrite HT, <- app_assoc. reflexivity.
      * rewrite app_length; cbn; lia.
      * cbn. now rewrite <- app_assoc.
      * rewrite app_length; cbn; lia.
      * cbn in HR. lia.
      * rewrite E. cbn [nb_len firstn map]. exists c', room'. rewrite <- app_assoc. split; [reflexivity|]. cbn. split; [lia|]. intros H. apply C. lia.
Qed.

(* sin + start - 1 may point to the terminator but not beyond *)
Lemma firstn_In_own {A} n (l : list A) x : In x (firstn n l) -> In x l.
Proof. revert n. induction l; intros [|n] H; cbn in *; auto; try contradiction. destruct H; eauto. Qed.
Lemma slice_ok s l a n : isNmbr s l -> a <= length l ->
  exists v, slice s (Z.of_nat a + 1) (Z.of_nat n) = Ok v /\ nb_len v = n /\ holds v (firstn n (skipn a l)).
Proof.
  intros (HN & HL & rest & HC) Ha. unfold slice. rewrite Nat2Z.id. replace (Z.to_nat (Z.of_nat a + 1 - 1)) with a by lia.
  assert (E : l = firstn a l ++ skipn a l) by (now rewrite firstn_skipn).
  assert (N2 : ~ In (-1)%Z (skipn a l)) by (intros H; apply HN; rewrite E; apply in_or_app; now right).
  destruct (nncpy_ok n (skipn a l) (nalloc (n + 1)) 0 s a [] (repeat None (n + 1)) (firstn a l) rest) as (c & room' & E1 & L & C); auto.
  { now rewrite <- E. } { rewrite firstn_length; lia. } { rewrite repeat_length. lia. }
  rewrite E1. cbn [rbind app]. rewrite repeat_length in L.
  assert (N3 : ~ In (-1)%Z (firstn n (skipn a l))) by (intros H; apply N2; eapply firstn_In_own; eauto).
  set (m := firstn n (skipn a l)) in *. destruct (le_lt_dec n (length (skipn a l))) as [G|G].
  - assert (LM : length m = n) by (subst m; rewrite firstn_length; lia).
    rewrite (nset_at _ (map Some m) c room' (-1)%Z n); [|reflexivity|now rewrite map_length].
    eexists. split; [reflexivity|]. split; [cbn; lia|]. split; [exact N3|]. eexists; reflexivity.
  - specialize (C G). subst c. assert (LM : length m = length (skipn a l)) by (subst m; rewrite firstn_length; lia).
    destruct (split_at room' (n - length m - 1)) as (r1 & c & r2 & -> & LR); [lia|].
    rewrite (nset_at _ (map Some m ++ Some (-1)%Z :: r1) c r2 (-1)%Z n).
    + eexists. split; [reflexivity|]. split; [cbn; lia|]. split; [exact N3|]. cbn [nb_cells]. rewrite <- app_assoc. eexists; reflexivity.
    + cbn [nb_cells]. now rewrite <- app_assoc.
    + rewrite app_length, map_length. cbn. lia.
Qed.
(* reading beyond the terminator of an exactly fitting string *)
Lemma slice_beyond s l a n : isNmbr s l -> nb_cells s = map Some l ++ [Some (-1)%Z] -> length l < a -> slice s (Z.of_nat a + 1) (Z.of_nat n) = UB.
Proof.
  intros _ HC Ha. unfold slice. replace (Z.to_nat (Z.of_nat a + 1 - 1)) with a by lia.
  assert (G : nget s a = UB).
  { unfold nget. rewrite HC. replace (nth_error _ a) with (@None (option Z)); [reflexivity|]. symmetry. apply nth_error_None. rewrite app_length, map_length. cbn. lia. }
  destruct (Z.to_nat (Z.of_nat n)); cbn [nncpy]; now rewrite G.
Qed.

Lemma isNmbr_slice v l n : nb_len v = n -> holds v (firstn n l) -> n <= length l -> isNmbr v (firstn n l).
Proof. intros E H L. apply isNmbr_holds. split; [exact H|]. rewrite firstn_length. lia. Qed.

Lemma nmbrMid_ok s l a n : isNmbr s l -> 1 <= a -> a - 1 + n <= length l ->
  exists v, nmbrMid s (Z.of_nat a) (Z.of_nat n) = Ok v /\ isNmbr v (elems l a (a + n - 1)).
Proof.
  intros H Ha Hn. unfold nmbrMid. destruct (Z.ltb_spec (Z.of_nat a) 1); [lia|]. destruct (Z.ltb_spec (Z.of_nat n) 0); [lia|].
  replace (Z.of_nat a) with (Z.of_nat (a - 1) + 1)%Z by lia. destruct (slice_ok s l (a - 1) n H ltac:(lia)) as (v & E & L & HV).
  exists v. split; [exact E|]. unfold elems. replace (a + n - 1 + 1 - a) with n by lia. apply isNmbr_slice; auto. rewrite skipn_length. lia.
Qed.
Lemma nmbrSeg_ok s l a b : isNmbr s l -> 1 <= a -> a <= b + 1 -> b <= length l ->
  exists v, nmbrSeg s (Z.of_nat a) (Z.of_nat b) = Ok v /\ isNmbr v (elems l a b).
Proof.
  intros H Ha Hb Hl. unfold nmbrSeg. destruct (Z.ltb_spec (Z.of_nat a) 1); [lia|].
  assert (E0 : (if (Z.of_nat b <? 1)%Z then 0%Z else Z.of_nat b) = Z.of_nat b) by (destruct (Z.ltb_spec (Z.of_nat b) 1); lia). rewrite E0.
  destruct (Z.ltb_spec (Z.of_nat b - Z.of_nat a + 1) 0); [lia|].
  replace (Z.of_nat b - Z.of_nat a + 1)%Z with (Z.of_nat (b + 1 - a)) by lia.
  replace (Z.of_nat a) with (Z.of_nat (a - 1) + 1)%Z by lia. destruct (slice_ok s l (a - 1) (b + 1 - a) H ltac:(lia)) as (v & E & L & HV).
  exists v. split; [exact E|]. unfold elems. apply isNmbr_slice; auto. rewrite skipn_length. lia.
Qed.
Lemma nmbrLeft_ok s l n : isNmbr s l -> n <= length l ->
  exists v, nmbrLeft s (Z.of_nat n) = Ok v /\ isNmbr v (firstn n l).
Proof.
  intros H Hn. unfold nmbrLeft. destruct (Z.ltb_spec (Z.of_nat n) 0); [lia|]. change 1%Z with (Z.of_nat 0 + 1)%Z.
  destruct (slice_ok s l 0 n H ltac:(lia)) as (v & E & L & HV). exists v. split; [exact E|]. cbn [skipn] in HV. now apply isNmbr_slice.
Qed.
Lemma nmbrRight_ok s l n : isNmbr s l -> 1 <= n ->
  exists v, nmbrRight s (Z.of_nat n) = Ok v /\ isNmbr v (skipn (n - 1) l).
Proof.
  intros H Hn. destruct (H) as (HN & HL & rest & HC). unfold nmbrRight. destruct (Z.ltb_spec (Z.of_nat n) 1); [lia|]. rewrite HL.
  destruct (Z.ltb_spec (Z.of_nat (length l)) (Z.of_nat n)).
  - exists nulls. split; [reflexivity|]. rewrite skipn_all2 by lia. split; [auto|]. split; [reflexivity|]. exists []. reflexivity.
  - assert (E : l = firstn (n - 1) l ++ skipn (n - 1) l) by (now rewrite firstn_skipn).
    set (m := Z.to_nat (Z.of_nat (length l) - Z.of_nat n + 2)). assert (M : m = length l - n + 2) by lia.
    assert (LS : length (skipn (n - 1) l) = length l - n + 1) by (rewrite skipn_length; lia).
    assert (N2 : ~ In (-1)%Z (skipn (n - 1) l)) by (intros X; apply HN; rewrite E; apply in_or_app; now right).
    destruct (nmbrCpy_ok (skipn (n - 1) l) (nalloc m) 0 s (Z.to_nat (Z.of_nat n - 1)) [] (repeat None m) (firstn (n - 1) l) rest) as (room & E1 & L); auto.
    + now rewrite <- E.
    + rewrite firstn_length. lia.
    + rewrite repeat_length. lia.
    + rewrite E1. eexists. split; [reflexivity|]. split; [exact N2|]. split; [cbn; lia|]. exists room. reflexivity.
Qed.
Lemma nmbrSpace_ok n : exists v, nmbrSpace (Z.of_nat n) = Ok v /\ isNmbr v (repeat 0%Z n).
Proof.
  unfold nmbrSpace. destruct (Z.ltb_spec (Z.of_nat n) 0); [lia|]. rewrite Nat2Z.id. eexists. split; [reflexivity|].
  split; [intros H0; apply repeat_spec in H0; discriminate|]. split; [cbn; now rewrite repeat_length|]. exists []. cbn. f_equal.
  now induction n as [|n IH]; cbn; [|rewrite IH by lia].
Qed.
Lemma nmbrCat_ok s t l m : isNmbr s l -> isNmbr t m -> exists v, nmbrCat s t = Ok v /\ isNmbr v (l ++ m).
Proof.
  intros HS HT. destruct (HS) as (N1 & L1 & _). destruct (HT) as (N2 & L2 & rest & C2). unfold nmbrCat.
  destruct (copy_ex s l (nb_len s + nb_len t + 1) HS) as (room & E & L); [lia|]. rewrite E. cbn [rbind].
  destruct (nmbrCpy_ok m (mkN (map Some l ++ Some (-1)%Z :: room) (nb_len s + nb_len t + 1 - 1)) (nb_len s) t 0 (map Some l) (Some (-1)%Z :: room) [] rest) as (room' & E' & L'); auto.
  - now rewrite map_length.
  - cbn. lia.
  - rewrite E'. eexists. split; [reflexivity|]. split; [intros X; apply in_app_or in X; tauto|]. split; [cbn; rewrite app_length; lia|].
    exists room'. cbn [nb_cells]. rewrite map_app, <- app_assoc. reflexivity.
Qed.
Lemma nmbrAdd_ok s l e : isNmbr s l -> e <> (-1)%Z -> exists v, nmbrAddElement s e = Ok v /\ isNmbr v (l ++ [e]).
Proof.
  intros HS He. destruct (HS) as (N1 & L1 & _). unfold nmbrAddElement.
  destruct (copy_ex s l (nb_len s + 2) HS) as (room & E & L); [lia|]. rewrite E. cbn [rbind].
  rewrite (nset_at _ (map Some l) (Some (-1)%Z) room e (nb_len s)); [|reflexivity|now rewrite map_length]. cbn [rbind nb_len].
  destruct room as [|c room]; [cbn in L; lia|].
  rewrite (nset_at _ (map Some l ++ [Some e]) c room (-1)%Z (nb_len s + 1)).
  - eexists. split; [reflexivity|]. split; [intros X; apply in_app_or in X; destruct X as [X|[X|[]]]; [tauto|congruence]|].
    split; [cbn; rewrite app_length; cbn; lia|]. exists room. cbn [nb_cells]. rewrite map_app. reflexivity.
  - cbn. now rewrite <- app_assoc.
  - rewrite app_length, map_length. cbn. lia.
Qed.

(* ---- comparison and search ---- *)
Lemma eqLoop_ok : forall l m s t a f ra rb,
  ~ In (-1)%Z l -> ~ In (-1)%Z m ->
  nb_cells s = map Some (a ++ l) ++ Some (-1)%Z :: ra -> nb_cells t = map Some (a ++ m) ++ Some (-1)%Z :: rb ->
  length l < f -> eqLoop f s t (length a) = Ok (if list_eq_dec Z.eq_dec l m then true else false).
Proof.
  induction l as [|x l IH]; intros m s t a f ra rb Nl Nm HS HT HF; (destruct f as [|f]; [lia|]); cbn [eqLoop].
  - rewrite app_nil_r in HS. rewrite (nget_mid s a _ _ HS). cbn [rbind]. destruct m as [|y m].
    + rewrite app_nil_r in HT. rewrite (nget_mid t a _ _ HT). cbn [rbind]. reflexivity.
    + rewrite map_app, <- app_assoc in HT. cbn in HT. rewrite (nget_mid t a _ _ HT). cbn [rbind].
      destruct (Z.eqb_spec (-1) y); [subst; exfalso; apply Nm; now left|]. destruct (list_eq_dec Z.eq_dec [] (y :: m)); [discriminate|reflexivity].
  - assert (HX : nb_cells s = map Some a ++ Some x :: (map Some l ++ Some (-1)%Z :: ra)) by (rewrite HS, map_app, <- app_assoc; reflexivity).
    rewrite (nget_mid s a _ _ HX). cbn [rbind]. destruct m as [|y m].
    + rewrite app_nil_r in HT. rewrite (nget_mid t a _ _ HT). cbn [rbind].
      destruct (Z.eqb_spec x (-1)); [subst; exfalso; apply Nl; now left|]. destruct (list_eq_dec Z.eq_dec (x :: l) []); [discriminate|reflexivity].
    + assert (HY : nb_cells t = map Some a ++ Some y :: (map Some m ++ Some (-1)%Z :: rb)) by (rewrite HT, map_app, <- app_assoc; reflexivity).
      rewrite (nget_mid t a _ _ HY). cbn [rbind]. destruct (Z.eqb_spec x y) as [->|N].
      * destruct (Z.eqb_spec y (-1)); [subst; exfalso; apply Nl; now left|].
        specialize (IH m s t (a ++ [y]) f ra rb). rewrite app_length, Nat.add_1_r in IH. rewrite IH.
        -- destruct (list_eq_dec Z.eq_dec l m), (list_eq_dec Z.eq_dec (y :: l) (y :: m)); congruence.
        -- intros X; apply Nl; now right.
        -- intros X; apply Nm; now right.
        -- rewrite HS, <- app_assoc. reflexivity.
        -- rewrite HT, <- app_assoc. reflexivity.
        -- cbn in HF; lia.
      * destruct (list_eq_dec Z.eq_dec (x :: l) (y :: m)); [congruence|reflexivity].
Qed.
Lemma nmbrEq_holds s t l m : nb_len s = nb_len t -> holds s l -> holds t m ->
  nmbrEq s t = Ok (if list_eq_dec Z.eq_dec l m then true else false).
Proof.
  intros E HS HT. unfold nmbrEq. rewrite E, Nat.eqb_refl. cbn [negb]. pose proof (holds_len _ _ HS).
  destruct HS as [N1 [ra C1]], HT as [N2 [rb C2]]. apply (eqLoop_ok l m s t [] _ ra rb); auto.
Qed.
Lemma nmbrEq_ok s t l m : isNmbr s l -> isNmbr t m -> nmbrEq s t = Ok (if list_eq_dec Z.eq_dec l m then true else false).
Proof.
  intros HS HT. destruct (Nat.eq_dec (nb_len s) (nb_len t)) as [E|E].
  - apply nmbrEq_holds; auto; now apply isNmbr_holds.
  - unfold nmbrEq. destruct (Nat.eqb_spec (nb_len s) (nb_len t)); [congruence|]. cbn. destruct HS as (_ & L1 & _), HT as (_ & L2 & _).
    destruct (list_eq_dec Z.eq_dec l m); [congruence|reflexivity].
Qed.

Lemma occursAt_firstn m l a : a + length m <= length l -> (occursAt m l (a + 1) <-> firstn (length m) (skipn a l) = m).
Proof.
  intros L. split.
  - intros (x & y & -> & E). assert (a = length x) as -> by lia. rewrite skipn_app, Nat.sub_diag, skipn_all. cbn [app skipn]. rewrite firstn_app, Nat.sub_diag, firstn_all. cbn. apply app_nil_r.
  - intros H. exists (firstn a l), (skipn (length m) (skipn a l)). split; [|rewrite firstn_length; lia].
    rewrite <- H at 1. now rewrite !firstn_skipn.
Qed.
Lemma occursAt_bound m l p : occursAt m l p -> 1 <= p /\ p - 1 + length m <= length l.
Proof. intros (x & y & -> & ->). rewrite !app_length. lia. Qed.
Lemma matchAt_ok s1 s2 l m : isNmbr s1 l -> isNmbr s2 m -> forall k i j, j + k = length m -> i + length m <= length l ->
  firstn j (skipn i l) = firstn j m ->
  matchAt s1 s2 i j k = Ok (if list_eq_dec Z.eq_dec (firstn (length m) (skipn i l)) m then true else false).
Proof.
  intros H1 H2. apply isNmbr_holds in H1, H2. destruct H1 as [H1 _], H2 as [H2 _].
  assert (FS : forall (l : list Z) j x, nth_error l j = Some x -> firstn (S j) l = firstn j l ++ [x]).
  { induction l0 as [|a l0 IH]; intros [|j] x H; try discriminate; cbn in *; [congruence|]. f_equal. now apply IH. }
  induction k as [|k IH]; intros i j HJ HI HF; cbn [matchAt].
  - assert (j = length m) by lia. subst j. rewrite firstn_all in HF. destruct (list_eq_dec Z.eq_dec _ m); congruence.
  - destruct (nth_error m j) as [y|] eqn:EY; [|apply nth_error_None in EY; lia].
    destruct (nth_error l (i + j)) as [x|] eqn:EX; [|apply nth_error_None in EX; lia].
    rewrite (nget_in _ _ _ _ H1 EX). cbn [rbind]. rewrite (nget_in _ _ _ _ H2 EY). cbn [rbind].
    assert (EX' : nth_error (skipn i l) j = Some x).
    { rewrite <- EX. clear. revert i. induction l as [|a l IH]; intros i; destruct i; cbn; auto; destruct j; auto. }
    destruct (Z.eqb_spec x y) as [->|N].
    + apply IH; [lia|lia|]. now rewrite (FS _ _ _ EX'), (FS _ _ _ EY), HF.
    + destruct (list_eq_dec Z.eq_dec _ m) as [E|]; [|reflexivity]. exfalso. apply N.
      assert (Q : nth_error (firstn (length m) (skipn i l)) j = Some x).
      { rewrite <- EX'. clear - HJ. revert m HJ. generalize (skipn i l). intros q m HJ. assert (j < length m) by lia. clear HJ. revert q H.
        generalize (length m). intros n q. revert n j. induction q as [|a q IH]; intros [|n] [|j] H; cbn; auto; try lia. apply IH. lia. }
      rewrite E in Q. congruence.
Qed.
Lemma instrLoop_ok s1 s2 l m : isNmbr s1 l -> isNmbr s2 m -> forall k i, (k > 0 -> i + k + length m = length l + 1) ->
  exists p, instrLoop s1 s2 i k = Ok p /\
    ((p = 0 /\ forall q, i < q <= i + k -> ~ occursAt m l q) \/
     (i < p <= i + k /\ occursAt m l p /\ forall q, i < q < p -> ~ occursAt m l q)).
Proof.
  intros H1 H2. assert (L2 : nb_len s2 = length m) by (now apply isNmbr_holds in H2).
  induction k as [|k IH]; intros i HK; cbn [instrLoop]; [exists 0; split; [reflexivity|left; split; [reflexivity|lia]]|].
  specialize (HK ltac:(lia)). rewrite L2, (matchAt_ok s1 s2 l m H1 H2 (length m) i 0); [|lia|lia|reflexivity]. cbn [rbind].
  pose proof (occursAt_firstn m l i ltac:(lia)) as OC. destruct (list_eq_dec Z.eq_dec _ m) as [E|E].
  - exists (i + 1). split; [reflexivity|]. right. split; [lia|]. split; [now apply OC|]. intros q Hq. lia.
  - destruct (IH (S i)) as (p & EP & R); [intros; lia|]. exists p. split; [exact EP|].
    assert (Q : forall q, i < q -> q <= S i -> ~ occursAt m l q) by (intros q A B; replace q with (i + 1) by lia; now rewrite OC).
    destruct R as [[-> R]|(R1 & R2 & R3)]; [left|right].
    + split; [reflexivity|]. intros q Hq. destruct (le_lt_dec q (S i)); [apply Q; lia|apply R; lia].
    + split; [lia|]. split; [exact R2|]. intros q Hq. destruct (le_lt_dec q (S i)); [apply Q; lia|apply R3; lia].
Qed.
Lemma nmbrInstr_ok s1 s2 l m start : isNmbr s1 l -> isNmbr s2 m -> 1 <= start ->
  exists p, nmbrInstr (Z.of_nat start) s1 s2 = Ok p /\
    ((p = 0 /\ forall q, start <= q -> ~ occursAt m l q) \/
     (start <= p /\ occursAt m l p /\ forall q, start <= q < p -> ~ occursAt m l q)).
Proof.
  intros H1 H2 Hs. unfold nmbrInstr. destruct (Z.ltb_spec (Z.of_nat start) 1); [lia|].
  assert (L1 : nb_len s1 = length l) by (now apply isNmbr_holds in H1). assert (L2 : nb_len s2 = length m) by (now apply isNmbr_holds in H2).
  rewrite L1, L2. set (k := Z.to_nat (_ + 1)). assert (K : k = length l + 2 - length m - start) by (subst k; lia). clearbody k.
  replace (Z.to_nat (Z.of_nat start - 1)) with (start - 1) by lia.
  destruct (instrLoop_ok s1 s2 l m H1 H2 k (start - 1)) as (p & E & R); [intros; lia|]. exists p. split; [exact E|].
  destruct R as [[-> R]|(R1 & R2 & R3)]; [left|right].
  - split; [reflexivity|]. intros q Hq O. pose proof (occursAt_bound _ _ _ O). apply (R q); [lia|exact O].
  - split; [lia|]. split; [exact R2|]. intros q Hq. apply R3. lia.
Qed.

Lemma revLoop_ok s1 s2 l m : isNmbr s1 l -> isNmbr s2 m -> forall f p, p < f -> 1 <= p <= length l + 1 ->
  exists r, revLoop f (Z.of_nat p) s1 s2 = Ok (Z.of_nat r) /\
    ((r = 0 /\ forall q, q <= p -> ~ occursAt m l q) \/ (r <= p /\ occursAt m l r /\ forall q, r < q <= p -> ~ occursAt m l q)).
Proof.
  intros H1 H2. assert (L2 : nb_len s2 = length m) by (now apply isNmbr_holds in H2).
  induction f as [|f IH]; intros p HF HP; [lia|]. cbn [revLoop].
  unfold nmbrMid. destruct (Z.ltb_spec (Z.of_nat p) 1); [lia|]. destruct (Z.ltb_spec (Z.of_nat (nb_len s2)) 0); [lia|].
  destruct (slice_ok s1 l (p - 1) (nb_len s2) H1 ltac:(lia)) as (v & EV & LV & HV). replace (Z.of_nat (p - 1) + 1)%Z with (Z.of_nat p) in EV by lia. rewrite EV. cbn [rbind].
  rewrite (nmbrEq_holds s2 v m _ (eq_sym LV) (proj1 (proj1 (isNmbr_holds _ _) H2)) HV). cbn [rbind]. rewrite L2.
  assert (OC : occursAt m l p <-> m = firstn (length m) (skipn (p - 1) l)).
  { destruct (le_lt_dec (p - 1 + length m) (length l)) as [G|G].
    - pose proof (occursAt_firstn m l (p - 1) G) as X. replace (p - 1 + 1) with p in X by lia. rewrite X. split; congruence.
    - split; [intros O; pose proof (occursAt_bound _ _ _ O); lia|]. intros E. apply (f_equal (@length Z)) in E. rewrite firstn_length, skipn_length in E. lia. }
  destruct (list_eq_dec Z.eq_dec m _) as [E|E].
  - exists p. split; [reflexivity|]. right. split; [lia|]. split; [now apply OC|]. intros; lia.
  - destruct (Z.ltb_spec (Z.of_nat p - 1) 1).
    + exists 0. split; [reflexivity|]. left. split; [reflexivity|]. intros q Hq O. pose proof (occursAt_bound _ _ _ O). replace q with p in O by lia. now apply OC in O.
    + destruct (IH (p - 1)) as (r & ER & R); [lia|lia|]. replace (Z.of_nat p - 1)%Z with (Z.of_nat (p - 1)) by lia. exists r. split; [exact ER|].
      assert (Q : ~ occursAt m l p) by (now rewrite OC).
      destruct R as [[-> R]|(R1 & R2 & R3)]; [left|right].
      * split; [reflexivity|]. intros q Hq. destruct (Nat.eq_dec q p) as [->|]; [exact Q|apply R; lia].
      * split; [lia|]. split; [exact R2|]. intros q Hq. destruct (Nat.eq_dec q p) as [->|]; [exact Q|apply R3; lia].
Qed.
Lemma nmbrRevInstr_ok s1 s2 l m start : isNmbr s1 l -> isNmbr s2 m -> (m <> [] \/ start <= length l + 1) ->
  exists r, nmbrRevInstr (Z.of_nat start) s1 s2 = Ok (Z.of_nat r) /\
    ((r = 0 /\ forall q, q <= start -> ~ occursAt m l q) \/
     (r <= start /\ occursAt m l r /\ forall q, r < q <= start -> ~ occursAt m l q)).
Proof.
  intros H1 H2 Hm. unfold nmbrRevInstr.
  assert (L1 : nb_len s1 = length l) by (now apply isNmbr_holds in H1). assert (L2 : nb_len s2 = length m) by (now apply isNmbr_holds in H2).
  rewrite L1, L2. set (lim := (Z.of_nat (length l) - Z.of_nat (length m) + 1)%Z).
  assert (HM : m = [] \/ 1 <= length m) by (destruct m; [now left|right; cbn; lia]).
  destruct (Z.ltb_spec lim (Z.of_nat start)) as [G|G].
  - destruct (Z.ltb_spec (lim + 1) 1) as [G2|G2].
    + exists 0. split; [reflexivity|]. left. split; [reflexivity|]. intros q Hq O. pose proof (occursAt_bound _ _ _ O). lia.
    + set (p := Z.to_nat (lim + 1)). assert (P : (lim + 1)%Z = Z.of_nat p) by lia. rewrite P.
      destruct HM as [->|HM]; [cbn [length] in *; exfalso; destruct Hm as [Hm|Hm]; [congruence|lia]|].
      destruct (revLoop_ok s1 s2 l m H1 H2 (S p) p) as (r & ER & R); [lia|lia|]. exists r. split; [exact ER|].
      destruct R as [[-> R]|(R1 & R2 & R3)]; [left|right].
      * split; [reflexivity|]. intros q Hq O. pose proof (occursAt_bound _ _ _ O). apply (R q); [lia|exact O].
      * split; [lia|]. split; [exact R2|]. intros q Hq O. pose proof (occursAt_bound _ _ _ O). apply (R3 q); [lia|exact O].
  - destruct (Z.ltb_spec (Z.of_nat start) 1) as [G2|G2].
    + exists 0. split; [reflexivity|]. left. split; [reflexivity|]. intros q Hq O. pose proof (occursAt_bound _ _ _ O). lia.
    + destruct (revLoop_ok s1 s2 l m H1 H2 (S start) start) as (r & ER & R); [lia|lia|]. rewrite Nat2Z.id. exists r. split; [exact ER|exact R].
Qed.
