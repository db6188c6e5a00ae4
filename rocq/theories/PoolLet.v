(* PoolLet.v -- assignment of nmbrStrings and programs using them. *)
From Coq Require Import Permutation.
From Verif Require Import Base PoolModel PoolSpec PoolProofs.
Open Scope Z_scope.

Section Proofs.
  Variables (w absMax : Z) (grow : nat).
  Variable allowed : Prop.
  Notation Inv := (PoolProofs.Inv allowed).
  Notation orOom := (PoolProofs.orOom allowed).
  Hypothesis Hw : 0 < w.
  Hypothesis Hgrow : (0 < grow)%nat.

  Definition strB (p : pool) (a : nat) (l : list Z) (m : Z) : Prop :=
    exists b, p_heap p a = Some b /\ k_data b = l /\ k_act b = (Z.of_nat (length l) + 1) * w /\ m <= k_alloc b.
  Lemma strB_frame p p' a l m : frame p p' a -> strB p a l m -> strB p' a l m.
  Proof.
    intros F (b & H1 & H2 & H3 & H4). unfold frame in F. rewrite H1 in F. cbn in F.
    destruct (p_heap p' a) as [b'|] eqn:E; [|discriminate]. injection F as E1 E2 E3. exists b'. repeat split; congruence.
  Qed.
  Lemma strB_le p a l m m' : m' <= m -> strB p a l m -> strB p a l m'.
  Proof. intros H (b & H1 & H2 & H3 & H4). exists b. repeat split; auto. lia. Qed.

  Lemma addToUsed_ok p own a b d : Inv d p own -> own a -> p_heap p a = Some b -> k_loc b = -1 -> k_act b <> k_alloc b ->
    orOom (addToUsedPool grow p a) (fun p' => Inv d p' own /\ forall x, frame p p' x).
  Proof.
    intros I Ha Hb L Ne. unfold addToUsedPool. rewrite (get_ok _ _ _ Hb). cbn [rbind].
    destruct (Z.eqb_spec (k_act b) (k_alloc b)) as [C|_]; [contradiction|].
    eapply orOom_bind; [eapply (enterUsed_ok grow allowed d p own a b); assumption|].
    intros q (I1 & K). cbn. split; [eapply inv_d; [|apply addTotal_inv, I1]; lia|exact K].
  Qed.
  (* copying or filling changes only the contents *)
  Lemma setData_ok p own a b l : Inv 0 p own -> own a -> p_heap p a = Some b ->
    Inv 0 (put p a (mkBk (k_act b) (k_alloc b) (k_loc b) l)) own.
  Proof.
    intros I Ha Hb. pose proof (i_own _ _ _ _ I a b Ha Hb) as [_ Hle].
    pose proof (put_inv allowed 0 p own a b (mkBk (k_act b) (k_alloc b) (k_loc b) l) I Ha Hb eq_refl eq_refl Hle) as P. cbn in P.
    eapply inv_d; [|exact P]. destruct (k_loc b =? -1); lia.
  Qed.
  Lemma fill_ok p own a b l : Inv 0 p own -> own a -> p_heap p a = Some b -> (Z.of_nat (length l) + 1) * w <= k_alloc b ->
    exists p', fill w p a l = Ok p' /\ Inv 0 p' own /\ (forall x, x <> a -> frame p p' x) /\
      p_heap p' a = Some (mkBk (k_act b) (k_alloc b) (k_loc b) l).
  Proof.
    intros I Ha Hb Hl. unfold fill. rewrite (get_ok _ _ _ Hb). cbn [rbind].
    destruct (Z.ltb_spec (k_alloc b) ((Z.of_nat (length l) + 1) * w)) as [C|_]; [lia|].
    eexists. split; [reflexivity|]. split; [apply setData_ok; assumption|]. split; [intros; apply frame_put; assumption|]. cbn. apply upd_same.
  Qed.
  Lemma copy_ok p own t s bt bs : Inv 0 p own -> own t -> p_heap p t = Some bt -> p_heap p s = Some bs ->
    (Z.of_nat (length (k_data bs)) + 1) * w <= k_alloc bt ->
    exists p', copy w p t s = Ok p' /\ Inv 0 p' own /\ (forall x, x <> t -> frame p p' x) /\
      p_heap p' t = Some (mkBk (k_act bt) (k_alloc bt) (k_loc bt) (k_data bs)).
  Proof.
    intros I Ha Hb Hs Hl. unfold copy. rewrite (get_ok _ _ _ Hs), (get_ok _ _ _ Hb). cbn [rbind].
    destruct (Z.ltb_spec (k_alloc bt) ((Z.of_nat (length (k_data bs)) + 1) * w)) as [C|_]; [lia|].
    eexists. split; [reflexivity|]. split; [apply setData_ok; assumption|]. split; [intros; apply frame_put; assumption|]. cbn. apply upd_same.
  Qed.
  Lemma takeSize_ok p own t s bt bs n : Inv 0 p own -> own t -> p_heap p t = Some bt -> p_heap p s = Some bs -> k_act bs <= k_alloc bt ->
    orOom (takeSize grow p t s n) (fun p' => Inv 0 p' own /\ (forall x, x <> t -> frame p p' x) /\
      exists b, p_heap p' t = Some b /\ k_act b = k_act bs /\ k_alloc b = k_alloc bt /\ k_data b = k_data bt).
  Proof.
    intros I Ha Hb Hs Hle. unfold takeSize. rewrite (get_ok _ _ _ Hb), (get_ok _ _ _ Hs). cbn [rbind].
    set (c := mkBk (k_act bs) (k_alloc bt) (k_loc bt) (k_data bt)).
    pose proof (put_inv allowed 0 p own t bt c I Ha Hb eq_refl eq_refl Hle) as I1. cbn [k_act c] in I1.
    assert (p_heap (put p t c) t = Some c) as Hc by (cbn; apply upd_same).
    assert (forall x, x <> t -> frame p (put p t c) x) as K by (intros; apply frame_put; assumption).
    assert (exists b, p_heap (put p t c) t = Some b /\ k_act b = k_act bs /\ k_alloc b = k_alloc bt /\ k_data b = k_data bt) as Hx by (exists c; auto).
    destruct (Z.eqb_spec (k_loc bt) (-1)) as [L|L].
    - rewrite Z.add_0_r in I1. destruct (Z.eqb_spec (k_act bs) (k_alloc bt)) as [E|E]; cbn [negb].
      + cbn. auto.
      + destruct (Z.ltb_spec (k_alloc bt) (k_act bs)) as [C|_]; [lia|].
        eapply orOom_imp; [apply (addToUsed_ok (put p t c) own t c 0); auto|].
        intros q (I2 & K2). split; [exact I2|]. split.
        * intros x Nx. eapply frame_trans; [apply K, Nx|apply K2].
        * specialize (K2 t). unfold frame in K2. rewrite Hc in K2. cbn in K2. destruct (p_heap q t) as [b|]; [|discriminate].
          injection K2 as E1 E2 E3. exists b. auto.
    - assert (Inv 0 (addTotal (put p t c) (k_act bt - k_act bs)) own) as I2.
      { eapply inv_d; [|apply addTotal_inv, I1]. lia. }
      destruct (Z.eqb_spec (k_act bs) (k_alloc bt)) as [E|E]; cbn [negb].
      + cbn [orOom]. auto.
      + destruct (Z.ltb_spec (k_alloc bt) (k_act bs)) as [C|_]; [lia|]. cbn [orOom]. auto.
  Qed.

  (* ---------- lengths ---------- *)
  Lemma nmbrLen_ok p a l m : strB p a l m -> nmbrLen w p (Some a) = Ok (Z.of_nat (length l)).
  Proof.
    intros (b & H1 & H2 & H3 & H4). unfold nmbrLen. rewrite (get_ok _ _ _ H1). cbn [rbind]. rewrite H3.
    replace ((Z.of_nat (length l) + 1) * w - w) with (Z.of_nat (length l) * w) by lia. rewrite Z.quot_mul by lia. reflexivity.
  Qed.
  Lemma allocLen_le al n : w <= al -> (n <= Z.quot (al - w) w <-> (n + 1) * w <= al).
  Proof.
    intros H. rewrite Z.quot_div_nonneg by lia. split; intros K.
    - pose proof (Z.mul_div_le (al - w) w Hw). nia.
    - apply Z.div_le_lower_bound; [assumption|]. lia.
  Qed.

  Definition minus (own : nat -> Prop) (target : option nat) (x : nat) : Prop := own x /\ Some x <> target.
  Definition letPost (p : pool) (own : nat -> Prop) (target : option nat) (l : list Z) (r : pool * option nat) : Prop :=
    (forall x, own x -> Some x <> target -> frame p (fst r) x) /\
    match snd r with
    | None => l = [] /\ Inv 0 (fst r) (minus own target)
    | Some t2 => l <> [] /\ Inv 0 (fst r) (fun x => minus own target x \/ x = t2) /\ ~ minus own target t2 /\
                 strB (fst r) t2 l (2 * w)
    end.
  Lemma len_eqb (l : list Z) : (Z.of_nat (length l) =? 0) = match l with [] => true | _ => false end.
  Proof. destruct l; [reflexivity|]. apply Z.eqb_neq. cbn. lia. Qed.
  (* a new block of at least size, filled with a copy of s *)
  Lemma newCopy_ok p own s l m : Inv 0 p own -> own s -> strB p s l m -> l <> [] ->
    orOom (do x <- poolMalloc absMax grow p ((Z.of_nat (length l) + 1) * w); do q <- copy w (fst x) (snd x) s; Ok (q, Some (snd x)))
      (letPost p own None l).
  Proof.
    intros I Hs Hb Hl. eapply orOom_bind; [apply (poolMalloc_ok absMax grow allowed p own); [exact Hgrow|exact I]|].
    intros [q a] (I1 & Na & K1 & b & Hb1 & Act & Al). cbn [fst snd] in *.
    destruct (strB_frame p q s l m (K1 s Hs) Hb) as (bs & S1 & S2 & S3 & S4).
    destruct (copy_ok q _ a s b bs I1 (or_intror eq_refl) Hb1 S1) as (q2 & E & I2 & K2 & H2); [rewrite S2; lia|].
    rewrite E. cbn [rbind]. split; cbn [fst snd].
    - intros x Hx _. eapply frame_trans; [apply K1, Hx|apply K2]. intros ->. contradiction.
    - split; [exact Hl|]. split.
      + eapply inv_ext; [|exact I2]. intros x. unfold minus. cbn. intuition congruence.
      + split; [intros [X _]; contradiction|]. exists (mkBk (k_act b) (k_alloc b) (k_loc b) (k_data bs)).
        cbn [k_data k_act k_alloc]. split; [exact H2|]. split; [exact S2|]. split; [exact Act|].
        assert (1 <= Z.of_nat (length l)) by (destruct l; [congruence|cbn [length]; lia]). nia.
  Qed.
  Lemma nmbrLet_ok p own target source l :
    Inv 0 p own ->
    match target with None => True | Some t => own t /\ exists lt, strB p t lt (2 * w) end ->
    match source with None => l = [] | Some s => own s /\ strB p s l w end ->
    orOom (nmbrLet w absMax grow p target source) (letPost p own target l).
  Proof.
    intros I Ht Hs. unfold nmbrLet.
    assert (nmbrLen w p source = Ok (Z.of_nat (length l))) as ->.
    { destruct source as [s|]; [apply (nmbrLen_ok p s l w), Hs|subst l; reflexivity]. }
    cbn [rbind]. destruct target as [t|].
    - destruct Ht as (Ot & lt & bt & T1 & T2 & T3 & T4).
      unfold nmbrAllocLen. rewrite (get_ok _ _ _ T1). cbn [rbind]. set (tal := Z.quot (k_alloc bt - w) w).
      assert (1 <= tal) as Ht1 by (apply allocLen_le; lia).
      destruct (Z.eqb_spec tal 0) as [C|_]; [lia|].
      assert (l = [] -> orOom (do q <- poolFree grow p t; Ok (q, None)) (letPost p own (Some t) l)) as Fr.
      { intros ->. eapply orOom_bind; [apply poolFree_ok; eassumption|]. intros q (I1 & K1). split; cbn [fst snd].
        - intros x _ _. apply K1.
        - split; [reflexivity|]. eapply inv_ext; [|exact I1]. intros x. unfold without, minus. intuition congruence. }
      destruct source as [s|]; [|apply Fr, Hs].
      destruct Hs as (Os & Hs). rewrite len_eqb. destruct l as [|z0 l0]; [apply Fr; reflexivity|]. set (l := z0 :: l0) in *. clear Fr.
      pose proof Hs as (bs & S1 & S2 & S3 & S4).
      destruct (Z.leb_spec (Z.of_nat (length l)) tal) as [Hle|Hgt].
      + apply allocLen_le in Hle; [|lia].
        destruct (copy_ok p own t s bt bs I Ot T1 S1) as (q & E & I1 & K1 & H1); [rewrite S2; exact Hle|].
        rewrite E. cbn [rbind].
        assert (exists bs', p_heap q s = Some bs' /\ k_act bs' = (Z.of_nat (length l) + 1) * w) as (bs' & S1' & S3').
        { destruct (Nat.eq_dec s t) as [->|Nst].
          - rewrite H1. eexists. split; [reflexivity|]. cbn. rewrite T1 in S1. injection S1 as ->. exact S3.
          - specialize (K1 s Nst). unfold frame in K1. rewrite S1 in K1. cbn in K1. destruct (p_heap q s) as [b'|]; [|discriminate].
            injection K1 as E1 E2 E3. exists b'. split; [reflexivity|congruence]. }
        eapply orOom_bind; [apply (takeSize_ok q own t s _ bs' 1325 I1 Ot H1 S1')|].
        { cbn. lia. }
        intros r (I2 & K2 & b & B1 & B2 & B3 & B4). cbn [k_alloc k_data] in *. split; cbn [fst snd].
        * intros x Hx Nx. assert (x <> t) by congruence. eapply frame_trans; [apply K1|apply K2]; assumption.
        * split; [discriminate|]. split.
          -- eapply inv_ext; [|exact I2]. intros x. unfold minus. destruct (Nat.eq_dec x t) as [->|]; intuition congruence.
          -- split; [intros [_ X]; congruence|]. exists b. rewrite B2, B3, B4. repeat split; auto; lia.
      + assert (s <> t) as Nst.
        { intros ->. rewrite T1 in S1. injection S1 as ->.
          pose proof (i_own _ _ _ _ I t bs Ot T1) as [_ K]. rewrite S3 in K.
          apply allocLen_le in K; [|lia]. unfold tal in Hgt. lia. }
        eapply orOom_bind; [apply poolFree_ok; eassumption|]. intros q (I1 & K1).
        eapply orOom_bind; [eapply (poolMalloc_ok absMax grow allowed q (without own t)); [exact Hgrow|exact I1]|].
        intros [q2 a] (I2 & Na & K2 & b & Hb & Act & Al). cbn [fst snd] in *.
        assert (without own t s) as Ws by (split; assumption).
        assert (strB q2 s l w) as (bs2 & Q1 & Q2 & Q3 & Q4).
        { apply (strB_frame q); [apply K2, Ws|]. apply (strB_frame p); [apply K1|exact Hs]. }
        assert ((Z.of_nat (length l) + 1) * w <= k_alloc b) as Room by lia.
        destruct (copy_ok q2 _ a s b bs2 I2 (or_intror eq_refl) Hb Q1) as (q3 & E & I3 & K3 & H3); [rewrite Q2; exact Room|].
        rewrite E. cbn [rbind]. assert (s <> a) as Nsa by (intros ->; contradiction).
        assert (strB q3 s l w) as (bs3 & R1 & R2 & R3 & R4).
        { apply (strB_frame q2); [apply K3, Nsa|]. exists bs2. auto. }
        eapply orOom_bind; [apply (takeSize_ok q3 _ a s _ bs3 1326 I3 (or_intror eq_refl) H3 R1)|].
        { cbn. lia. }
        intros r (I4 & K4 & c & C1 & C2 & C3 & C4). cbn [k_alloc k_data] in *. split; cbn [fst snd].
        * intros x Hx Nx. assert (x <> t) by congruence.
          assert (x <> a) by (intros ->; apply Na; split; assumption).
          eapply frame_trans; [apply K1|]. eapply frame_trans; [apply K2; split; assumption|].
          eapply frame_trans; [apply K3; assumption|apply K4; assumption].
        * split; [discriminate|]. split.
          -- eapply inv_ext; [|exact I4]. intros x. unfold without, minus. intuition congruence.
          -- split; [intros [X Y]; apply Na; split; [exact X|congruence]|]. exists c. rewrite C2, C3, C4. repeat split; auto.
             assert (1 <= Z.of_nat (length l)) by (unfold l; cbn [length]; lia). nia.
    - cbn [nmbrAllocLen rbind]. destruct source as [s|].
      + destruct Hs as (Os & Hs). rewrite len_eqb. destruct l as [|z0 l0].
        * cbn. split; cbn; [intros; apply frame_refl|]. split; [reflexivity|]. eapply inv_ext; [|exact I]. intros x. unfold minus. intuition congruence.
        * apply (newCopy_ok p own s (z0 :: l0) w I Os Hs). discriminate.
      + subst l. cbn. split; cbn; [intros; apply frame_refl|]. split; [reflexivity|]. eapply inv_ext; [|exact I]. intros x. unfold minus. intuition congruence.
  Qed.
  Lemma zap_ok p own a l m n : Inv 0 p own -> own a -> strB p a l m -> (n <= length l)%nat -> w <= m ->
    exists p', nmbrZapLen w p a n = Ok p' /\ Inv 0 p' own /\ (forall x, x <> a -> frame p p' x) /\ strB p' a (firstn n l) m.
  Proof.
    intros I Ha (b & H1 & H2 & H3 & H4) Hn Hm. unfold nmbrZapLen. rewrite (get_ok _ _ _ H1). cbn [rbind].
    set (size := (Z.of_nat n + 1) * w). set (c := mkBk size (k_alloc b) (k_loc b) (firstn n (k_data b))).
    pose proof (i_own _ _ _ _ I a b Ha H1) as [_ Hle].
    assert (size <= k_act b) as Hsz by (rewrite H3; unfold size; nia).
    pose proof (put_inv allowed 0 p own a b c I Ha H1 eq_refl eq_refl ltac:(cbn; lia)) as I1. cbn [k_act c] in I1.
    assert (forall d, p_heap (put (addTotal p d) a c) a = Some c) as Hc by (intros; cbn; apply upd_same).
    assert (strB (put p a c) a (firstn n l) m) as Hstr.
    { exists c. cbn. rewrite upd_same. rewrite H2, firstn_length, Nat.min_l by assumption. auto. }
    destruct (Z.eqb_spec (k_loc b) (-1)) as [L|L].
    - eexists. split; [reflexivity|]. split; [eapply inv_d; [|exact I1]; lia|]. split; [intros; apply frame_put; assumption|exact Hstr].
    - eexists. split; [reflexivity|]. split.
      + eapply inv_d; [|exact (addTotal_inv _ _ _ _ (k_act b - size) I1)]. lia.
      + split; [intros x Nx; exact (frame_put p a c x Nx)|exact Hstr].
  Qed.
End Proofs.
