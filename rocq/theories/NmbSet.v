From Verif Require Import Base NmbModel NmbSpec NmbProofs.
Open Scope nat_scope.

Lemma elemIn_ok : forall l g a e f rest, ~ In (-1)%Z l ->
  nb_cells g = map Some (a ++ l) ++ Some (-1)%Z :: rest -> length l < f ->
  exists p, elemIn f g (length a) e = Ok p /\
    ((p = 0 /\ ~ In e l) \/ (length a < p /\ nth_error l (p - 1 - length a) = Some e /\ ~ In e (firstn (p - 1 - length a) l))).
Proof.
  induction l as [|x l IH]; intros g a e f rest N H F; (destruct f as [|f]; [lia|]); cbn [elemIn].
  - rewrite app_nil_r in H. rewrite (nget_mid g a _ _ H). cbn [rbind]. rewrite Z.eqb_refl. exists 0. auto.
  - assert (HX : nb_cells g = map Some a ++ Some x :: (map Some l ++ Some (-1)%Z :: rest)) by (rewrite H, map_app, <- app_assoc; reflexivity).
    rewrite (nget_mid g a _ _ HX). cbn [rbind]. destruct (Z.eqb_spec x (-1)); [subst; exfalso; apply N; now left|].
    destruct (Z.eqb_spec x e) as [->|NE].
    + exists (length a + 1). split; [reflexivity|]. right. split; [lia|]. replace (length a + 1 - 1 - length a) with 0 by lia. split; [reflexivity|auto].
    + destruct (IH g (a ++ [x]) e f rest) as (p & E & R); [intros X; apply N; now right|rewrite H, <- app_assoc; reflexivity|cbn in F; lia|].
      rewrite app_length, Nat.add_1_r in E, R. exists p. split; [exact E|]. destruct R as [[-> R]|(R1 & R2 & R3)]; [left|right].
      * split; [reflexivity|]. intros [X|X]; auto.
      * split; [lia|]. replace (p - 1 - length a) with (S (p - 1 - S (length a))) by lia. split; [exact R2|]. cbn. intros [X|X]; auto.
Qed.
Lemma nmbrElementIn_ok g l e : holds g l ->
  exists p, nmbrElementIn g e = Ok p /\ ((p = 0 /\ ~ In e l) \/ (0 < p /\ nth_error l (p - 1) = Some e /\ ~ In e (firstn (p - 1) l))).
Proof.
  intros H. pose proof (holds_len _ _ H). destruct H as [N [rest C]]. destruct (elemIn_ok l g [] e (S (length (nb_cells g))) rest N C) as (p & E & R); [lia|].
  exists p. split; [exact E|]. cbn [length] in R. rewrite Nat.sub_0_r in R. exact R.
Qed.
Lemma has_dec g l e : holds g l -> exists p, nmbrElementIn g e = Ok p /\ (p <> 0 <-> In e l).
Proof.
  intros H. destruct (nmbrElementIn_ok g l e H) as (p & E & R). exists p. split; [exact E|]. destruct R as [[-> R]|(R1 & R2 & _)]; [tauto|].
  split; [intros _; eapply nth_error_In; eauto|lia].
Qed.

Lemma firstOcc_snoc_seen s1 s2 : (forall x, In x s1 <-> In x s2) -> forall l, firstOcc s1 l = firstOcc s2 l.
Proof.
  intros H l. revert s1 s2 H. induction l as [|x l IH]; intros s1 s2 H; cbn [firstOcc]; [reflexivity|].
  destruct (in_dec Z.eq_dec x s1) as [A|A], (in_dec Z.eq_dec x s2) as [B|B]; try (apply H in A; contradiction); try (apply H in B; contradiction).
  - now apply IH.
  - f_equal. apply IH. intros y. cbn. rewrite H. tauto.
Qed.
Lemma nth_cons_skip {A} (l : list A) i x : nth_error l i = Some x -> skipn i l = x :: skipn (S i) l.
Proof. revert i. induction l as [|a l IH]; intros [|i] H; try discriminate; cbn in *; [congruence|]. now apply IH. Qed.

Lemma unionLoop_ok m2 l2 len1 : isNmbr m2 l2 -> forall k i v d room j,
  i + k = length l2 -> ~ In (-1)%Z d -> nb_cells v = map Some d ++ Some (-1)%Z :: room -> length d = len1 + j -> k <= length room ->
  exists v' d' room', unionLoop m2 len1 i k v j = Ok (v', length d' - len1) /\ d' = d ++ firstOcc d (skipn i l2) /\
    nb_cells v' = map Some d' ++ Some (-1)%Z :: room' /\ ~ In (-1)%Z d'.
Proof.
  intros H2. destruct (proj1 (isNmbr_holds _ _) H2) as [HH _].
  induction k as [|k IH]; intros i v d room j HI ND HC LD HR; cbn [unionLoop].
  - exists v, d, room. rewrite skipn_all2 by lia. cbn. rewrite app_nil_r. repeat split; auto. f_equal. f_equal. lia.
  - destruct (nth_error l2 i) as [x|] eqn:EX; [|apply nth_error_None in EX; lia].
    rewrite (nget_in _ _ _ _ HH EX). cbn [rbind].
    destruct (has_dec v d x (conj ND (ex_intro _ room HC))) as (p & -> & HP). cbn [rbind].
    rewrite (nth_cons_skip _ _ _ EX). cbn [firstOcc]. destruct p as [|p].
    + destruct (in_dec Z.eq_dec x d) as [A|A]; [apply HP in A; lia|].
      destruct room as [|c room]; [cbn in HR; lia|].
      rewrite (nset_at _ (map Some d) (Some (-1)%Z) (c :: room) x (len1 + j)); [|exact HC|now rewrite map_length]. cbn [rbind].
      rewrite (nset_at _ (map Some d ++ [Some x]) c room (-1)%Z (len1 + S j)); [|cbn; now rewrite <- app_assoc|rewrite app_length, map_length; cbn; lia]. cbn [rbind].
      assert (NX : x <> (-1)%Z) by (intros ->; destruct HH as [N _]; apply N; eapply nth_error_In; eauto).
      match goal with |- context [unionLoop m2 len1 (S i) k ?v' (S j)] => destruct (IH (S i) v' (d ++ [x]) room (S j)) as (w & d' & room' & E & D & C & N) end.
      * lia.
      * intros X. apply in_app_or in X. destruct X as [X|[X|[]]]; auto.
      * cbn [nb_cells]. rewrite map_app. reflexivity.
      * rewrite app_length. cbn. lia.
      * cbn in HR. lia.
      * exists w, d', room'. split; [exact E|]. split; [|auto]. rewrite D, <- app_assoc. cbn. f_equal. f_equal. apply firstOcc_snoc_seen.
        intros y. rewrite in_app_iff. cbn. tauto.
    + destruct (in_dec Z.eq_dec x d) as [A|A]; [|exfalso; apply A, HP; lia].
      destruct (IH (S i) v d room j) as (w & d' & room' & R); auto; try lia. exists w, d', room'. exact R.
Qed.
Lemma nmbrUnion_ok m1 m2 l1 l2 : isNmbr m1 l1 -> isNmbr m2 l2 ->
  exists v, nmbrUnion m1 m2 = Ok v /\ isNmbr v (l1 ++ firstOcc l1 l2).
Proof.
  intros H1 H2. destruct (proj1 (isNmbr_holds _ _) H1) as [[N1 _] L1]. destruct (proj1 (isNmbr_holds _ _) H2) as [_ L2]. unfold nmbrUnion.
  destruct (copy_ex m1 l1 (nb_len m1 + nb_len m2 + 1) H1) as (room & E & LR); [lia|]. rewrite E. cbn [rbind].
  destruct (unionLoop_ok m2 l2 (nb_len m1) H2 (nb_len m2) 0 (zapLen (mkN (map Some l1 ++ Some (-1)%Z :: room) (nb_len m1 + nb_len m2 + 1 - 1)) (nb_len m1)) l1 room 0) as (v' & d' & room' & E' & D & C & N); auto; try lia.
  rewrite E'. cbn [rbind fst snd]. cbn [skipn] in D.
  assert (LD : nb_len m1 + (length d' - nb_len m1) = length d') by (rewrite D, app_length; lia). rewrite LD.
  rewrite (nset_at v' (map Some d') (Some (-1)%Z) room' (-1)%Z (length d')); [|exact C|now rewrite map_length]. cbn [rbind].
  eexists. split; [reflexivity|]. rewrite <- D. split; [exact N|]. split; [reflexivity|]. exists room'. reflexivity.
Qed.

Lemma pickLoop_ok want other src lo ls : isNmbr other lo -> isNmbr src ls -> forall k i v d room j,
  i + k = length ls -> nb_cells v = map Some d ++ room -> length d = j -> k <= length room ->
  exists v' d' room', pickLoop want other src i k v j = Ok (v', length d') /\
    d' = d ++ filter (fun x => Bool.eqb want (has lo x)) (skipn i ls) /\ nb_cells v' = map Some d' ++ room' /\ length room' + length d' = length room + length d.
Proof.
  intros HO HS. destruct (proj1 (isNmbr_holds _ _) HS) as [HH _]. destruct (proj1 (isNmbr_holds _ _) HO) as [HHO _].
  induction k as [|k IH]; intros i v d room j HI HC LD HR; cbn [pickLoop].
  - exists v, d, room. rewrite skipn_all2 by lia. cbn. rewrite app_nil_r. subst j. auto.
  - destruct (nth_error ls i) as [x|] eqn:EX; [|apply nth_error_None in EX; lia].
    rewrite (nget_in _ _ _ _ HH EX). cbn [rbind]. destruct (has_dec other lo x HHO) as (p & -> & HP). cbn [rbind].
    rewrite (nth_cons_skip _ _ _ EX). cbn [filter].
    assert (HB : negb (Nat.eqb p 0) = has lo x).
    { unfold has. destruct (in_dec Z.eq_dec x lo) as [A|A]; destruct (Nat.eqb_spec p 0); cbn; auto; exfalso; [apply HP in A; lia|apply A, HP; auto]. }
    rewrite HB. destruct (Bool.eqb want (has lo x)).
    + destruct room as [|c room]; [cbn in HR; lia|].
      rewrite (nset_at _ (map Some d) c room x j); [|exact HC|rewrite map_length; lia]. cbn [rbind].
      match goal with |- context [pickLoop want other src (S i) k ?v' (S j)] => destruct (IH (S i) v' (d ++ [x]) room (S j)) as (w & d' & room' & E & D & C & N) end.
      * lia.
      * cbn [nb_cells]. rewrite map_app, <- app_assoc. reflexivity.
      * rewrite app_length. cbn. lia.
      * cbn in HR. lia.
      * exists w, d', room'. split; [exact E|]. rewrite <- app_assoc in D. split; [exact D|]. split; [exact C|]. rewrite N, app_length. cbn. lia.
    + destruct (IH (S i) v d room j) as (w & d' & room' & R); auto; try lia. exists w, d', room'. exact R.
Qed.
Lemma pick_ok want other src lo ls : isNmbr other lo -> isNmbr src ls ->
  exists v, pick want other src = Ok v /\ isNmbr v (filter (fun x => Bool.eqb want (has lo x)) ls).
Proof.
  intros HO HS. destruct (proj1 (isNmbr_holds _ _) HS) as [[NS _] L]. unfold pick.
  destruct (pickLoop_ok want other src lo ls HO HS (nb_len src) 0 (nalloc (nb_len src + 1)) [] (repeat None (nb_len src + 1)) 0) as (v' & d' & room' & E & D & C & N); auto.
  { rewrite repeat_length. lia. }
  rewrite E. cbn [rbind fst snd]. rewrite repeat_length in N. cbn [app skipn length] in *.
  assert (LE : length d' <= length ls) by (rewrite D; clear; induction ls as [|a l IH]; cbn; [lia|]; destruct (Bool.eqb _ _); cbn; lia).
  destruct room' as [|c room']; [cbn in N; lia|].
  rewrite (nset_at v' (map Some d') c room' (-1)%Z (length d')); [|exact C|now rewrite map_length]. cbn [rbind].
  eexists. split; [reflexivity|]. rewrite <- D. split; [intros X; rewrite D in X; apply filter_In in X; tauto|]. split; [reflexivity|]. exists room'. reflexivity.
Qed.
Lemma nmbrIntersection_ok m1 m2 l1 l2 : isNmbr m1 l1 -> isNmbr m2 l2 ->
  exists v, nmbrIntersection m1 m2 = Ok v /\ isNmbr v (filter (has l1) l2).
Proof.
  intros H1 H2. destruct (pick_ok true m1 m2 l1 l2 H1 H2) as (v & E & I). exists v. split; [exact E|].
  replace (filter (has l1) l2) with (filter (fun x => Bool.eqb true (has l1 x)) l2); [exact I|]. apply filter_ext. intros a. now destruct (has l1 a).
Qed.
Lemma nmbrSetMinus_ok m1 m2 l1 l2 : isNmbr m1 l1 -> isNmbr m2 l2 ->
  exists v, nmbrSetMinus m1 m2 = Ok v /\ isNmbr v (filter (fun x => negb (has l2 x)) l1).
Proof.
  intros H1 H2. destruct (pick_ok false m2 m1 l2 l1 H2 H1) as (v & E & I). exists v. split; [exact E|].
  replace (filter _ l1) with (filter (fun x => Bool.eqb false (has l2 x)) l1); [exact I|]. apply filter_ext. intros a. now destruct (has l2 a).
Qed.

Lemma extractLoop_ok isVar mx m l : isNmbr m l -> Forall (fun x => 0 <= x <= mx)%Z l -> forall k i v d room j,
  i + k = length l -> ~ In (-1)%Z d -> nb_cells v = map Some d ++ Some (-1)%Z :: room -> length d = j -> k <= length room ->
  exists v' d' room', extractLoop isVar mx m i k v j = Ok (v', length d') /\ d' = d ++ firstOcc d (filter isVar (skipn i l)) /\
    nb_cells v' = map Some d' ++ Some (-1)%Z :: room' /\ ~ In (-1)%Z d'.
Proof.
  intros H2 HB. destruct (proj1 (isNmbr_holds _ _) H2) as [HH _].
  induction k as [|k IH]; intros i v d room j HI ND HC LD HR; cbn [extractLoop].
  - exists v, d, room. rewrite skipn_all2 by lia. cbn. rewrite app_nil_r. subst j. repeat split; auto.
  - destruct (nth_error l i) as [x|] eqn:EX; [|apply nth_error_None in EX; lia].
    rewrite (nget_in _ _ _ _ HH EX). cbn [rbind]. pose proof (proj1 (Forall_forall _ _) HB x (nth_error_In _ _ EX)) as BX. cbn in BX.
    destruct (Z.ltb_spec x 0); [lia|]. destruct (Z.ltb_spec mx x); [lia|]. cbn [orb].
    rewrite (nth_cons_skip _ _ _ EX). cbn [filter]. destruct (isVar x).
    2:{ destruct (IH (S i) v d room j) as (w & d' & room' & R); auto; try lia. exists w, d', room'. exact R. }
    destruct (has_dec v d x (conj ND (ex_intro _ room HC))) as (p & -> & HP). cbn [rbind firstOcc]. destruct p as [|p].
    + destruct (in_dec Z.eq_dec x d) as [A|A]; [apply HP in A; lia|].
      destruct room as [|c room]; [cbn in HR; lia|].
      rewrite (nset_at _ (map Some d) (Some (-1)%Z) (c :: room) x j); [|exact HC|rewrite map_length; lia]. cbn [rbind].
      rewrite (nset_at _ (map Some d ++ [Some x]) c room (-1)%Z (S j)); [|cbn; now rewrite <- app_assoc|rewrite app_length, map_length; cbn; lia]. cbn [rbind].
      assert (NX : x <> (-1)%Z) by lia.
      match goal with |- context [extractLoop isVar mx m (S i) k ?v' (S j)] => destruct (IH (S i) v' (d ++ [x]) room (S j)) as (w & d' & room' & E & D & C & N) end.
      * lia.
      * intros X. apply in_app_or in X. destruct X as [X|[X|[]]]; auto.
      * cbn [nb_cells]. rewrite map_app. reflexivity.
      * rewrite app_length. cbn. lia.
      * cbn in HR. lia.
      * exists w, d', room'. split; [exact E|]. split; [|auto]. rewrite D, <- app_assoc. cbn. f_equal. f_equal. apply firstOcc_snoc_seen.
        intros y. rewrite in_app_iff. cbn. tauto.
    + destruct (in_dec Z.eq_dec x d) as [A|A]; [|exfalso; apply A, HP; lia].
      destruct (IH (S i) v d room j) as (w & d' & room' & R); auto; try lia. exists w, d', room'. exact R.
Qed.
Lemma nmbrExtractVars_ok isVar mx m l : isNmbr m l -> Forall (fun x => 0 <= x <= mx)%Z l ->
  exists v, nmbrExtractVars isVar mx m = Ok v /\ isNmbr v (firstOcc [] (filter isVar l)).
Proof.
  intros H HB. destruct (proj1 (isNmbr_holds _ _) H) as [_ L]. unfold nmbrExtractVars. rewrite Nat.add_1_r.
  rewrite (nset_at (nalloc (S (nb_len m))) [] None (repeat None (nb_len m)) (-1)%Z 0 eq_refl eq_refl). cbn [rbind].
  match goal with |- context [extractLoop isVar mx m 0 (nb_len m) ?v 0] => destruct (extractLoop_ok isVar mx m l H HB (nb_len m) 0 v [] (repeat None (nb_len m)) 0) as (v' & d' & room' & E & D & C & N) end; auto.
  { now rewrite repeat_length. }
  rewrite E. cbn [rbind fst snd]. eexists. split; [reflexivity|]. cbn in D. rewrite <- D. split; [exact N|]. split; [reflexivity|]. exists room'. exact C.
Qed.

(* what the first occurrences are *)
Lemma firstOcc_spec : forall l seen, NoDup (firstOcc seen l) /\ (forall x, In x (firstOcc seen l) <-> In x l /\ ~ In x seen).
Proof.
  induction l as [|x l IH]; intros seen; cbn [firstOcc]; [split; [constructor|cbn; tauto]|].
  destruct (in_dec Z.eq_dec x seen) as [A|A].
  - destruct (IH seen) as [I1 I2]. split; [exact I1|]. intros y. rewrite I2. cbn. split; [tauto|]. intros [[<-|Y] B]; tauto.
  - destruct (IH (x :: seen)) as [I1 I2]. split.
    + constructor; [|exact I1]. rewrite I2. cbn. tauto.
    + intros y. cbn. rewrite I2. cbn. split; [intros [<-|[Y1 Y2]]; tauto|]. intros [[<-|Y] B]; [auto|]. destruct (Z.eq_dec x y); auto.
      right. tauto.
Qed.
