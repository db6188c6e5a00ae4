(* PoolProofs.v -- invariant of the memory pools. *)
From Coq Require Import Permutation.
From Verif Require Import Base PoolModel PoolSpec.
Open Scope Z_scope.

Section Proofs.
  Variables (absMax : Z) (grow : nat).
  Variable allowed : Prop.       (* the situations in which memory may run out *)

  Definition orOom {A} (r : res A) (P : A -> Prop) : Prop :=
    match r with Ok x => P x | Bug O => allowed | _ => False end.
  Lemma orOom_bind {A B} (r : res A) (f : A -> res B) P Q :
    orOom r P -> (forall x, P x -> orOom (f x) Q) -> orOom (rbind r f) Q.
  Proof. destruct r as [x|[|n]| |]; cbn; intros H K; auto; contradiction. Qed.
  Lemma orOom_imp {A} (r : res A) (P Q : A -> Prop) : orOom r P -> (forall x, P x -> Q x) -> orOom r Q.
  Proof. destruct r as [x|[|n]| |]; cbn; auto. Qed.

  Definition al (h : nat -> option block) (a : nat) : Z := match h a with Some b => k_alloc b | None => 0 end.
  Definition slack (h : nat -> option block) (a : nat) : Z := match h a with Some b => k_alloc b - k_act b | None => 0 end.
  Fixpoint zs (f : nat -> Z) (l : list nat) : Z := match l with [] => 0 | a :: r => f a + zs f r end.
  Lemma zs_app f l r : zs f (l ++ r) = zs f l + zs f r.
  Proof. induction l; cbn; lia. Qed.
  Lemma zs_ext f g l : (forall a, In a l -> f a = g a) -> zs f l = zs g l.
  Proof. induction l as [|a l IH]; intros H; [reflexivity|]. cbn. rewrite IH by (intros; apply H; right; assumption). rewrite (H a) by (left; reflexivity). reflexivity. Qed.
  Lemma zs_perm f l r : Permutation l r -> zs f l = zs f r.
  Proof. induction 1; cbn; lia. Qed.

  (* what the owner of a block sees *)
  Definition core (b : block) := (k_act b, k_alloc b, k_data b).
  Definition frame (p p' : pool) (a : nat) : Prop := option_map core (p_heap p' a) = option_map core (p_heap p a).

  Record Inv (d : Z) (p : pool) (own : nat -> Prop) : Prop := mkInv {
    i_nodup : NoDup (p_free p);
    i_disj : forall a, own a -> ~ In a (p_free p);
    i_live : forall a, p_heap p a <> None <-> own a \/ In a (p_free p);
    i_next : forall a, (p_next p <= a)%nat -> p_heap p a = None;
    i_used : forall i a, nth_error (p_used p) i = Some a -> own a /\ exists b, p_heap p a = Some b /\ k_loc b = Z.of_nat i;
    i_own : forall a b, own a -> p_heap p a = Some b ->
      (k_loc b = -1 \/ (0 <= k_loc b /\ nth_error (p_used p) (Z.to_nat (k_loc b)) = Some a)) /\ k_act b <= k_alloc b;
    i_total : p_total p + d = zs (al (p_heap p)) (p_free p) + zs (slack (p_heap p)) (p_used p);
    i_fcap : (length (p_free p) <= p_freeMax p)%nat;
    i_fok : p_freeMax p = 0%nat \/ p_freeOk p = true;
    i_ucap : (length (p_used p) <= p_usedMax p)%nat;
    i_mal : Forall (eq true) (p_mal p) \/ allowed;
    i_malP : Forall (eq true) (p_malP p) }.

  Lemma inv_ext d p own own' : (forall a, own a <-> own' a) -> Inv d p own -> Inv d p own'.
  Proof.
    intros E [H1 H2 H3 H4 H5 H6 H7 H8 H9 H11 H12 H10]. constructor; auto.
    - intros a Ha. apply H2, E, Ha.
    - intros a. rewrite H3, E. reflexivity.
    - intros i a Hi. destruct (H5 i a Hi) as [X Y]. split; [apply E, X|exact Y].
    - intros a b Ha. apply H6, E, Ha.
  Qed.
  Lemma inv_d d d' p own : d = d' -> Inv d p own -> Inv d' p own.
  Proof. intros ->. auto. Qed.
  Lemma used_nodup d p own : Inv d p own -> NoDup (p_used p).
  Proof.
    intros I. apply NoDup_nth_error. intros i j Hi E.
    destruct (nth_error (p_used p) i) as [a|] eqn:Ei; [|apply nth_error_Some in Hi; congruence].
    destruct (i_used _ _ _ I i a Ei) as (_ & b & Hb & L). destruct (i_used _ _ _ I j a (eq_sym E)) as (_ & b' & Hb' & L').
    rewrite Hb in Hb'. injection Hb' as <-. lia.
  Qed.
  Lemma own_live d p own a : Inv d p own -> own a -> exists b, p_heap p a = Some b.
  Proof. intros I Ha. destruct (p_heap p a) as [b|] eqn:E; [eauto|]. exfalso. apply (proj2 (i_live _ _ _ I a)); auto. Qed.
  Lemma get_ok p a b : p_heap p a = Some b -> get p a = Ok b.
  Proof. unfold get. intros ->. reflexivity. Qed.
  Lemma upd_same h a b : upd h a b a = b.
  Proof. unfold upd. rewrite Nat.eqb_refl. reflexivity. Qed.
  Lemma upd_other h a b x : x <> a -> upd h a b x = h x.
  Proof. intros H. unfold upd. destruct (Nat.eqb_spec x a); [contradiction|reflexivity]. Qed.
  Lemma frame_refl p a : frame p p a.
  Proof. reflexivity. Qed.
  Lemma frame_trans p q r a : frame p q a -> frame q r a -> frame p r a.
  Proof. unfold frame. congruence. Qed.

  (* splitting off the last element *)
  Lemma last_split (l : list nat) : l <> [] -> exists x, nth_error l (length l - 1) = Some x /\ l = firstn (length l - 1) l ++ [x].
  Proof.
    intros H. destruct (exists_last H) as (r & x & ->). exists x. rewrite app_length. cbn. rewrite Nat.add_sub.
    split.
    - rewrite nth_error_app2 by lia. rewrite Nat.sub_diag. reflexivity.
    - rewrite firstn_app, firstn_all, Nat.sub_diag. cbn. rewrite app_nil_r. reflexivity.
  Qed.

  (* ---------- taking the last block out of the free pool ---------- *)
  (* it is given to the owner, with another header *)
  Lemma take_inv p own a f size alloc : Inv 0 p own -> p_free p = f ++ [a] -> size <= alloc ->
    Inv (0) (put (addTotal (setFree p f) (- al (p_heap p) a)) a (mkBk size alloc (-1) [])) (fun x => own x \/ x = a) /\ ~ own a.
  Proof.
    intros I Ef Hs. assert (~ own a) as Na. { intros Ha. apply (i_disj _ _ _ I a Ha). rewrite Ef. apply in_or_app. right; left; reflexivity. }
    assert (~ In a f) as Nf. { pose proof (i_nodup _ _ _ I) as N. rewrite Ef in N. apply NoDup_remove_2 in N. rewrite app_nil_r in N. exact N. }
    assert (~ In a (p_used p)) as Nu.
    { intros H. apply In_nth_error in H. destruct H as [i H]. apply Na, (i_used _ _ _ I i a H). }
    split; [|exact Na]. destruct I as [H1 H2 H3 H4 H5 H6 H7 H8 H9 H11 H12 H10].
    rewrite Ef in *.
    constructor; cbn.
    - apply NoDup_remove_1 in H1. rewrite app_nil_r in H1. exact H1.
    - intros x [Hx| ->]; [|exact Nf]. intros K. apply (H2 x Hx). apply in_or_app. auto.
    - intros x. destruct (Nat.eq_dec x a) as [->|Ne].
      + rewrite upd_same. split; [auto|discriminate].
      + rewrite upd_other by assumption. rewrite H3, in_app_iff. cbn. intuition congruence.
    - intros x Hx. destruct (Nat.eq_dec x a) as [->|Ne]; [|rewrite upd_other by assumption; auto].
      exfalso. assert (p_heap p a <> None) by (apply H3; right; apply in_or_app; right; left; reflexivity). auto.
    - intros i x Hi. destruct (H5 i x Hi) as [X Y]. split; [auto|].
      rewrite upd_other; [exact Y|]. intros ->. contradiction.
    - intros x b Hx Hb. destruct (Nat.eq_dec x a) as [->|Ne].
      + rewrite upd_same in Hb. injection Hb as <-. cbn. auto.
      + rewrite upd_other in Hb by assumption. destruct Hx as [Hx|Hx]; [|contradiction]. apply H6; assumption.
    - rewrite zs_app in H7. cbn [zs] in H7.
      rewrite (zs_ext (al (upd (p_heap p) a (Some (mkBk size alloc (-1) [])))) (al (p_heap p)) f).
      2:{ intros x Hx. unfold al. rewrite upd_other; [reflexivity|]. intros ->. contradiction. }
      rewrite (zs_ext (slack (upd (p_heap p) a (Some (mkBk size alloc (-1) [])))) (slack (p_heap p)) (p_used p)).
      2:{ intros x Hx. unfold slack. rewrite upd_other; [reflexivity|]. intros ->. contradiction. }
      lia.
    - rewrite app_length in H8. cbn in H8. lia.
    - exact H9.
    - exact H11.
    - exact H12.
    - exact H10.
  Qed.
  (* it is returned to the system *)
  Lemma drop_inv p own a f : Inv 0 p own -> p_free p = f ++ [a] -> exists b p', p_heap p a = Some b /\
    free (addTotal (setFree p f) (- k_alloc b)) a = Ok p' /\ Inv 0 p' own /\ (forall x, own x -> p_heap p' x = p_heap p x) /\
    p_free p' = f.
  Proof.
    intros I Ef.
    assert (~ own a) as Na. { intros Ha. apply (i_disj _ _ _ I a Ha). rewrite Ef. apply in_or_app. right; left; reflexivity. }
    assert (~ In a f) as Nf. { pose proof (i_nodup _ _ _ I) as N. rewrite Ef in N. apply NoDup_remove_2 in N. rewrite app_nil_r in N. exact N. }
    assert (~ In a (p_used p)) as Nu.
    { intros H. apply In_nth_error in H. destruct H as [i H]. apply Na, (i_used _ _ _ I i a H). }
    destruct (p_heap p a) as [b|] eqn:Eb.
    2:{ exfalso. apply (proj2 (i_live _ _ _ I a)); [right; rewrite Ef; apply in_or_app; right; left; reflexivity|exact Eb]. }
    exists b, (setHeap (addTotal (setFree p f) (- k_alloc b)) (upd (p_heap p) a None)). split; [reflexivity|].
    split. { unfold free, get. cbn. rewrite Eb. reflexivity. }
    split; [|split; [|reflexivity]].
    2:{ intros x Hx. cbn. apply upd_other. intros ->. contradiction. }
    destruct I as [H1 H2 H3 H4 H5 H6 H7 H8 H9 H11 H12 H10]. rewrite Ef in *.
    constructor; cbn.
    - apply NoDup_remove_1 in H1. rewrite app_nil_r in H1. exact H1.
    - intros x Hx K. apply (H2 x Hx). apply in_or_app. auto.
    - intros x. destruct (Nat.eq_dec x a) as [->|Ne].
      + rewrite upd_same. split; [congruence|]. tauto.
      + rewrite upd_other by assumption. rewrite H3, in_app_iff. cbn. intuition congruence.
    - intros x Hx. destruct (Nat.eq_dec x a) as [->|Ne]; [apply upd_same|rewrite upd_other by assumption; auto].
    - intros i x Hi. destruct (H5 i x Hi) as [X Y]. split; [auto|]. rewrite upd_other; [exact Y|]. intros ->. contradiction.
    - intros x c Hx Hc. destruct (Nat.eq_dec x a) as [->|Ne]; [contradiction|]. rewrite upd_other in Hc by assumption. apply H6; assumption.
    - rewrite zs_app in H7. cbn [zs] in H7. unfold al at 2 in H7. rewrite Eb in H7.
      rewrite (zs_ext (al (upd (p_heap p) a None)) (al (p_heap p)) f).
      2:{ intros x Hx. unfold al. rewrite upd_other; [reflexivity|]. intros ->. contradiction. }
      rewrite (zs_ext (slack (upd (p_heap p) a None)) (slack (p_heap p)) (p_used p)).
      2:{ intros x Hx. unfold slack. rewrite upd_other; [reflexivity|]. intros ->. contradiction. }
      lia.
    - rewrite app_length in H8. cbn in H8. lia.
    - exact H9.
    - exact H11.
    - exact H12.
    - exact H10.
  Qed.

  (* ---------- purge ---------- *)
  Lemma purgeLoop_ok untilOK : forall fuel p own, (length (p_free p) < fuel)%nat -> Inv 0 p own ->
    exists p' e, purgeLoop absMax fuel untilOK p = Ok (p', e) /\ Inv 0 p' own /\ (forall x, own x -> p_heap p' x = p_heap p x) /\
      (e = false -> p_free p' = []).
  Proof.
    induction fuel as [|fuel IH]; intros p own Hf I; [lia|]. cbn [purgeLoop].
    destruct (p_free p) as [|x l] eqn:Ef; [exists p, false; split; [reflexivity|]; split; [exact I|]; split; auto|]. rewrite <- Ef in *.
    destruct (last_split (p_free p)) as (a & Ha & El); [rewrite Ef; discriminate|].
    set (f := firstn (length (p_free p) - 1) (p_free p)) in *.
    destruct (drop_inv p own a f I El) as (b & p1 & Hb & Fr & I1 & K1 & F1).
    cbn zeta. rewrite Ha. cbn [rget rbind]. rewrite (get_ok _ _ _ Hb). cbn [rbind]. rewrite Fr. cbn [rbind].
    destruct (untilOK && (p_total p1 <=? absMax)).
    - exists p1, true. split; [reflexivity|]. split; [exact I1|]. split; [exact K1|discriminate].
    - destruct (IH p1 own) as (p' & e & E & I' & K' & F'); [|exact I1|].
      { rewrite F1. unfold f. rewrite firstn_length. rewrite Ef in Hf |- *. cbn in Hf |- *. lia. }
      exists p', e. split; [exact E|]. split; [exact I'|]. split; [|exact F']. intros x0 Hx. rewrite K', K1 by assumption. reflexivity.
  Qed.
  Lemma purge_ok untilOK p own : Inv 0 p own -> exists p', memFreePoolPurge absMax grow untilOK p = Ok p' /\ Inv 0 p' own /\
    (forall x, own x -> p_heap p' x = p_heap p x).
  Proof.
    intros I. unfold memFreePoolPurge.
    destruct (purgeLoop_ok untilOK (S (length (p_free p))) p own ltac:(lia) I) as (p' & e & E & I' & K & F). rewrite E. cbn [rbind].
    destruct e; [eauto|]. specialize (F eq_refl).
    destruct (Nat.eqb_spec (p_freeMax p') grow); [eauto|].
    destruct I' as [H1 H2 H3 H4 H5 H6 H7 H8 H9 H11 H12 H10].
    destruct (p_malP p') as [|ok r] eqn:Em.
    - eexists. split; [reflexivity|]. split; [|exact K]. constructor; cbn; auto; rewrite ?F; cbn; try lia; rewrite ?Em; auto.
    - inversion H10; subst. eexists. split; [reflexivity|]. split; [|exact K]. constructor; cbn; auto; rewrite ?F; cbn; try lia; auto.
  Qed.

  (* ---------- malloc ---------- *)
  Lemma ask_inv d p own : Inv d p own -> Inv d (snd (ask p)) own /\ p_heap (snd (ask p)) = p_heap p /\
    p_free (snd (ask p)) = p_free p /\ p_used (snd (ask p)) = p_used p /\ p_usedMax (snd (ask p)) = p_usedMax p /\
    p_freeMax (snd (ask p)) = p_freeMax p /\ p_freeOk (snd (ask p)) = p_freeOk p /\ (fst (ask p) = false -> allowed).
  Proof.
    intros I. unfold ask. destruct (p_mal p) as [|x r] eqn:Em; cbn; [split; [exact I|repeat split; discriminate]|].
    pose proof (i_mal _ _ _ I) as Hm. rewrite Em in Hm.
    split; [|repeat split; intros ->; destruct Hm as [Hm|Hm]; [inversion Hm; discriminate|exact Hm]].
    destruct I as [H1 H2 H3 H4 H5 H6 H7 H8 H9 H11 H12 H10]. constructor; cbn; auto.
    destruct Hm as [Hm|Hm]; [left; inversion Hm; assumption|auto].
  Qed.
  Definition newBlock (p p' : pool) (own : nat -> Prop) (a : nat) (size : Z) : Prop :=
    Inv 0 p' (fun x => own x \/ x = a) /\ ~ own a /\ (forall x, own x -> frame p p' x) /\
    exists b, p_heap p' a = Some b /\ k_act b = size /\ size <= k_alloc b.
  Lemma mallocB_ok p own size : Inv 0 p own ->
    match mallocB p size with
    | (Some a, p') => newBlock p p' own a size /\ forall b, p_heap p' a = Some b -> k_alloc b = size
    | (None, p') => Inv 0 p' own /\ p_heap p' = p_heap p /\ allowed
    end.
  Proof.
    intros I. unfold mallocB. destruct (ask_inv 0 p own I) as (I1 & Eh & _ & _ & _ & _ & _ & Al). destruct (ask p) as [ok p1]. cbn [fst snd] in *.
    destruct ok; [|split; [exact I1|split; [exact Eh|apply Al; reflexivity]]].
    set (a := p_next p1). assert (p_heap p1 a = None) as Ha by (apply (i_next _ _ _ I1); unfold a; lia).
    assert (~ own a) as Na. { intros H. apply (proj2 (i_live _ _ _ I1 a)); auto. }
    assert (~ In a (p_free p1)) as Nf. { intros H. apply (proj2 (i_live _ _ _ I1 a)); auto. }
    assert (~ In a (p_used p1)) as Nu. { intros H. apply In_nth_error in H. destruct H as [i H]. apply Na, (i_used _ _ _ I1 i a H). }
    split. 2:{ cbn. intros b. rewrite upd_same. intros H. injection H as <-. reflexivity. }
    split; [|split; [exact Na|split]].
    - destruct I1 as [H1 H2 H3 H4 H5 H6 H7 H8 H9 H11 H12 H10]. constructor; cbn; auto.
      + intros x [Hx| ->]; auto.
      + intros x. destruct (Nat.eq_dec x a) as [->|Ne].
        * rewrite upd_same. split; [auto|discriminate].
        * rewrite upd_other by assumption. rewrite H3. intuition congruence.
      + intros x Hx. rewrite upd_other by (unfold a; lia). apply H4. lia.
      + intros i x Hi. destruct (H5 i x Hi) as [X Y]. split; [auto|]. rewrite upd_other; [exact Y|]. intros ->. contradiction.
      + intros x b Hx Hb. destruct (Nat.eq_dec x a) as [->|Ne].
        * rewrite upd_same in Hb. injection Hb as <-. cbn. split; [auto|lia].
        * rewrite upd_other in Hb by assumption. destruct Hx as [Hx|Hx]; [|contradiction]. apply H6; assumption.
      + rewrite (zs_ext (al (upd (p_heap p1) a (Some (mkBk size size (-1) [])))) (al (p_heap p1)) (p_free p1)).
        2:{ intros x Hx. unfold al. rewrite upd_other; [reflexivity|]. intros ->. contradiction. }
        rewrite (zs_ext (slack (upd (p_heap p1) a (Some (mkBk size size (-1) [])))) (slack (p_heap p1)) (p_used p1)).
        2:{ intros x Hx. unfold slack. rewrite upd_other; [reflexivity|]. intros ->. contradiction. }
        exact H7.
    - intros x Hx. unfold frame. cbn. rewrite upd_other by (intros ->; contradiction). rewrite Eh. reflexivity.
    - exists (mkBk size size (-1) []). cbn. rewrite upd_same. repeat split; lia.
  Qed.
  Lemma newBlock_from p q p' (own : nat -> Prop) a size : (forall x, own x -> frame p q x) -> newBlock q p' own a size -> newBlock p p' own a size.
  Proof. intros K (I & N & F & B). split; [exact I|]. split; [exact N|]. split; [|exact B]. intros x Hx. eapply frame_trans; [apply K, Hx|apply F, Hx]. Qed.
  Lemma mallocPurge_ok p own size : Inv 0 p own ->
    orOom (mallocPurge absMax grow p size) (fun r => newBlock p (fst r) own (snd r) size).
  Proof.
    intros I. unfold mallocPurge. pose proof (mallocB_ok p own size I) as M. destruct (mallocB p size) as [[a|] p1]; [apply M|].
    destruct M as (I1 & E1 & _). destruct (purge_ok false p1 own I1) as (p2 & E & I2 & K2). rewrite E. cbn [rbind].
    pose proof (mallocB_ok p2 own size I2) as M. destruct (mallocB p2 size) as [[a|] p3]; [|apply M].
    cbn. eapply newBlock_from; [|apply M]. intros x Hx. unfold frame. rewrite K2, E1 by assumption. reflexivity.
  Qed.

  Lemma enterUsed_ok d p own a b : (0 < grow)%nat -> Inv d p own -> own a -> p_heap p a = Some b -> k_loc b = -1 ->
    orOom (enterUsed grow p a) (fun p' => Inv (d + (k_alloc b - k_act b)) p' own /\ (forall x, frame p p' x)).
  Proof.
    intros Hgrow I Ha Hb L. unfold enterUsed.
    apply orOom_bind with (P := fun q => Inv d q own /\ p_heap q = p_heap p /\ p_used q = p_used p /\ (length (p_used q) < p_usedMax q)%nat).
    - destruct (Nat.leb_spec (p_usedMax p) (length (p_used p))) as [Hm|Hm].
      + destruct (ask_inv d p own I) as (I1 & Eh & Ef & Eu & Em & _ & _ & Al). destruct (ask p) as [ok p1]. cbn [fst snd] in *.
        destruct ok; [|apply Al; reflexivity]. cbn.
        pose proof (i_ucap _ _ _ I) as Hc.
        repeat apply conj; auto; [|rewrite Eu, Em; lia].
        destruct I1 as [H1 H2 H3 H4 H5 H6 H7 H8 H9 H11 H12 H10]. constructor; cbn; auto. lia.
      + cbn. auto.
    - intros q (I1 & Eh & Eu & Hm). destruct (Nat.leb_spec (p_usedMax q) (length (p_used q))) as [C|_]; [lia|].
      rewrite (get_ok q a b) by congruence. cbn [rbind orOom].
      assert (~ In a (p_used q)) as Nu.
      { intros H. apply In_nth_error in H. destruct H as [i H]. destruct (i_used _ _ _ I1 i a H) as (_ & c & Hc & Lc).
        rewrite Eh, Hb in Hc. injection Hc as <-. lia. }
      split.
      + pose proof (i_disj _ _ _ I1 a Ha) as Nf. destruct I1 as [H1 H2 H3 H4 H5 H6 H7 H8 H9 H11 H12 H10]. constructor; cbn; auto.
        * intros x. destruct (Nat.eq_dec x a) as [->|Ne]; [rewrite upd_same|rewrite upd_other by assumption; apply H3]. split; [auto|discriminate].
        * intros x Hx. destruct (Nat.eq_dec x a) as [->|Ne]; [|rewrite upd_other by assumption; auto].
          exfalso. specialize (H4 a Hx). rewrite Eh in H4. congruence.
        * intros i x Hi. destruct (Nat.lt_ge_cases i (length (p_used q))) as [Lt|Ge].
          -- rewrite nth_error_app1 in Hi by assumption. destruct (H5 i x Hi) as [X Y]. split; [exact X|].
             rewrite upd_other; [exact Y|]. intros ->. apply Nu. eapply nth_error_In; exact Hi.
          -- rewrite nth_error_app2 in Hi by assumption. destruct (i - length (p_used q))%nat as [|k] eqn:Ek; [|destruct k; discriminate Hi].
             cbn in Hi. injection Hi as <-. split; [exact Ha|]. rewrite upd_same. eexists. split; [reflexivity|]. cbn. lia.
        * intros x c Hx Hc. destruct (Nat.eq_dec x a) as [->|Ne].
          -- rewrite upd_same in Hc. injection Hc as <-. cbn. split.
             ++ right. split; [lia|]. rewrite Nat2Z.id, nth_error_app2 by lia. rewrite Nat.sub_diag. reflexivity.
             ++ apply (H6 a b Ha). congruence.
          -- rewrite upd_other in Hc by assumption. destruct (H6 x c Hx Hc) as [[K|[K1 K2]] K3]; split; auto. right. split; [exact K1|].
             rewrite nth_error_app1; [exact K2|]. apply nth_error_Some. congruence.
        * set (h' := upd _ _ _).
          rewrite (zs_ext (al h') (al (p_heap q)) (p_free q)).
          2:{ intros x Hx. unfold al, h'. rewrite upd_other; [reflexivity|]. intros ->. contradiction. }
          rewrite zs_app. cbn [zs].
          rewrite (zs_ext (slack h') (slack (p_heap q)) (p_used q)).
          2:{ intros x Hx. unfold slack, h'. rewrite upd_other; [reflexivity|]. intros ->. contradiction. }
          unfold slack at 2. unfold h'. rewrite upd_same. cbn. lia.
        * rewrite app_length. cbn. lia.
      + intros x. unfold frame. cbn. destruct (Nat.eq_dec x a) as [->|Ne]; [rewrite upd_same|rewrite upd_other by assumption; rewrite Eh; reflexivity].
        rewrite Hb. reflexivity.
  Qed.

  Lemma addTotal_inv d p own e : Inv d p own -> Inv (d - e) (addTotal p e) own.
  Proof. intros [H1 H2 H3 H4 H5 H6 H7 H8 H9 H11 H12 H10]. constructor; cbn; auto. lia. Qed.
  Lemma take_free p own : Inv 0 p own -> p_free p <> [] -> exists a b f, nth_error (p_free p) (length (p_free p) - 1) = Some a /\
    p_heap p a = Some b /\ firstn (length (p_free p) - 1) (p_free p) = f /\ p_free p = f ++ [a] /\ al (p_heap p) a = k_alloc b.
  Proof.
    intros I Ne. destruct (last_split (p_free p) Ne) as (a & Ha & El).
    destruct (p_heap p a) as [b|] eqn:Eb.
    - exists a, b, (firstn (length (p_free p) - 1) (p_free p)). repeat split; auto. unfold al. rewrite Eb. reflexivity.
    - exfalso. apply (proj2 (i_live _ _ _ I a)); [right; eapply nth_error_In; exact Ha|exact Eb].
  Qed.
  Lemma poolMalloc_ok p own size : (0 < grow)%nat -> Inv 0 p own ->
    orOom (poolMalloc absMax grow p size) (fun r => newBlock p (fst r) own (snd r) size).
  Proof.
    intros Hgrow I. unfold poolMalloc.
    apply orOom_bind with (P := fun q => Inv 0 q own /\ forall x, own x -> frame p q x).
    { destruct (absMax <? p_total p); [|cbn; split; [exact I|intros; apply frame_refl]].
      destruct (purge_ok true p own I) as (q & E & I1 & K). rewrite E. cbn. split; [exact I1|].
      intros x Hx. unfold frame. rewrite K by assumption. reflexivity. }
    intros q (I1 & K1).
    assert (forall r, orOom r (fun r => newBlock q (fst r) own (snd r) size) -> orOom r (fun r => newBlock p (fst r) own (snd r) size)) as Fin.
    { intros r Hr. eapply orOom_imp; [exact Hr|]. intros x. apply newBlock_from, K1. }
    destruct (p_free q) as [|x0 l0] eqn:Ef.
    { apply Fin. pose proof (mallocB_ok q own size I1) as M. destruct (mallocB q size) as [[a|] p1]; apply M. }
    rewrite <- Ef. destruct (take_free q own I1) as (a & b & f & Ha & Hb & Hf & El & Al); [rewrite Ef; discriminate|].
    cbv zeta. rewrite Ha, Hf. cbn [rget rbind]. rewrite (get_ok _ _ _ Hb). cbn [rbind]. apply Fin.
    destruct (Z.leb_spec size (k_alloc b)) as [Hs|Hs].
    - destruct (take_inv q own a f size (k_alloc b) I1 El Hs) as [I2 Na]. rewrite Al in I2.
      set (q2 := put _ a _) in *.
      assert (p_heap q2 a = Some (mkBk size (k_alloc b) (-1) [])) as Hq2 by (unfold q2; cbn; apply upd_same).
      assert (forall x, own x -> frame q q2 x) as K2.
      { intros x Hx. unfold frame, q2. cbn. rewrite upd_other; [reflexivity|]. intros ->. contradiction. }
      destruct (Z.eqb_spec size (k_alloc b)) as [Es|Es].
      + cbn. split; [exact I2|]. split; [exact Na|]. split; [exact K2|]. eexists. split; [exact Hq2|]. cbn. lia.
      + eapply orOom_bind.
        * eapply (enterUsed_ok _ (addTotal q2 (k_alloc b - size)) _ a); [exact Hgrow|apply addTotal_inv, I2|right; reflexivity|exact Hq2|reflexivity].
        * cbn [k_act k_alloc]. intros q3 (I3 & K3). cbn. split; [eapply inv_d; [|exact I3]; lia|]. split; [exact Na|]. split.
          -- intros x Hx. eapply frame_trans; [apply K2, Hx|]. apply K3.
          -- specialize (K3 a). unfold frame in K3. cbn [addTotal p_heap] in K3. rewrite Hq2 in K3. cbn in K3.
             destruct (p_heap q3 a) as [b3|]; [|discriminate]. injection K3 as E1 E2 E3. exists b3. rewrite E1, E2. repeat split. lia.
    - destruct (drop_inv q own a f I1 El) as (b' & q2 & Hb' & Fr & I2 & K2 & F2). rewrite Hb in Hb'. injection Hb' as <-.
      rewrite Fr. cbn [rbind]. eapply orOom_imp; [apply (mallocPurge_ok q2 own size I2)|].
      intros r. apply newBlock_from. intros x Hx. unfold frame. rewrite K2 by assumption. reflexivity.
  Qed.
  Lemma poolFixedMalloc_ok p own size : Inv 0 p own ->
    orOom (poolFixedMalloc absMax grow p size) (fun r => newBlock p (fst r) own (snd r) size).
  Proof.
    intros I1. unfold poolFixedMalloc.
    destruct (p_free p) as [|x0 l0] eqn:Ef.
    { pose proof (mallocB_ok p own size I1) as M. destruct (mallocB p size) as [[a|] p1]; apply M. }
    rewrite <- Ef. destruct (take_free p own I1) as (a & b & f & Ha & Hb & Hf & El & Al); [rewrite Ef; discriminate|].
    cbv zeta. rewrite Ha, Hf. cbn [rget rbind]. rewrite (get_ok _ _ _ Hb). cbn [rbind].
    destruct (Z.leb_spec size (k_alloc b)) as [Hs|Hs].
    - destruct (take_inv p own a f size size I1 El ltac:(lia)) as [I2 Na]. rewrite Al in I2. cbn.
      split; [exact I2|]. split; [exact Na|]. split.
      + intros x Hx. unfold frame. cbn. rewrite upd_other; [reflexivity|]. intros ->. contradiction.
      + cbn. rewrite upd_same. eexists. split; [reflexivity|]. cbn. lia.
    - destruct (drop_inv p own a f I1 El) as (b' & q2 & Hb' & Fr & I2 & K2 & F2). rewrite Hb in Hb'. injection Hb' as <-.
      rewrite Fr. cbn [rbind]. eapply orOom_imp; [apply (mallocPurge_ok q2 own size I2)|].
      intros r. apply newBlock_from. intros x Hx. unfold frame. rewrite K2 by assumption. reflexivity.
  Qed.

  (* ---------- poolFree ---------- *)
  (* the used array without its entry k: the last one moves there *)
  Lemma remove_used (u : list nat) k a : nth_error u k = Some a -> NoDup u ->
    exists u', (if (k <? length u - 1)%nat then exists z, nth_error u (length u - 1) = Some z /\ z <> a /\ setNth (firstn (length u - 1) u) k z = u'
                                                /\ nth_error u' k = Some z
                else firstn (length u - 1) u = u') /\
      Permutation u (a :: u') /\ (length u = S (length u'))%nat /\ 
      (forall i x, nth_error u' i = Some x -> x <> a /\ (if (k <? length u - 1)%nat && Nat.eqb i k then nth_error u (length u - 1) = Some x else nth_error u i = Some x)) /\
      (forall i x, nth_error u i = Some x -> x <> a -> i <> (length u - 1)%nat -> nth_error u' i = Some x).
  Proof.
    intros Hk Nd. destruct (nth_error_split u k Hk) as (l1 & l2 & -> & L1). 
    destruct l2 as [|y l2'] using rev_ind.
    - rewrite app_length. cbn [length]. replace (length l1 + 1 - 1)%nat with (length l1) by lia.
      rewrite L1. rewrite Nat.ltb_irrefl. exists l1. subst k. apply NoDup_remove_2 in Nd. rewrite app_nil_r in Nd.
      split; [rewrite firstn_app, firstn_all, Nat.sub_diag; cbn; apply app_nil_r|].
      split; [rewrite Permutation_app_comm; reflexivity|]. split; [lia|]. split.
      + intros i x Hi. split; [intros ->; apply Nd; eapply nth_error_In; exact Hi|]. cbn [andb].
        rewrite nth_error_app1; [exact Hi|]. apply nth_error_Some. congruence.
      + intros i x Hi Nx Ni. rewrite nth_error_app1 in Hi; [exact Hi|].
        assert (i < length (l1 ++ [a]))%nat by (apply nth_error_Some; congruence). rewrite app_length in H. cbn in H. lia.
    - clear IHl2'. set (z := y) in *. set (l2 := l2') in *.
      assert (length (l1 ++ a :: l2 ++ [z]) = k + length l2 + 2)%nat as Len by (rewrite app_length; cbn; rewrite app_length; cbn; lia).
      rewrite Len. replace (k + length l2 + 2 - 1)%nat with (k + S (length l2))%nat by lia.
      destruct (Nat.ltb_spec k (k + S (length l2))) as [_|C]; [|lia].
      exists (l1 ++ z :: l2).
      assert (~ In a (l1 ++ l2 ++ [z])) as Na by (apply NoDup_remove_2 in Nd; exact Nd).
      assert (nth_error (l1 ++ a :: l2 ++ [z]) (k + S (length l2)) = Some z) as Hz.
      { rewrite nth_error_app2 by lia. replace (k + S (length l2) - length l1)%nat with (S (length l2)) by lia. cbn.
        rewrite nth_error_app2 by lia. rewrite Nat.sub_diag. reflexivity. }
      assert (firstn (k + S (length l2)) (l1 ++ a :: l2 ++ [z]) = l1 ++ a :: l2) as Hfn.
      { change (l1 ++ a :: l2 ++ [z]) with (l1 ++ (a :: l2) ++ [z]). rewrite app_assoc. rewrite firstn_app.
        replace (length (l1 ++ a :: l2)) with (k + S (length l2))%nat by (rewrite app_length; cbn; lia).
        rewrite Nat.sub_diag. cbn [firstn]. rewrite app_nil_r. apply firstn_all2. rewrite app_length. cbn. lia. }
      split.
      { exists z. split; [exact Hz|]. split; [intros E; apply Na; rewrite <- E; apply in_or_app; right; apply in_or_app; right; left; reflexivity|]. split.
        - rewrite Hfn. unfold setNth. subst k. rewrite firstn_app, firstn_all, Nat.sub_diag. cbn [firstn]. rewrite app_nil_r.
          rewrite skipn_app, skipn_all2 by lia. replace (S (length l1) - length l1)%nat with 1%nat by lia. reflexivity.
        - rewrite nth_error_app2 by lia. replace (k - length l1)%nat with 0%nat by lia. reflexivity. }
      split.
      { rewrite <- Permutation_middle. constructor. apply Permutation_app_head. rewrite Permutation_app_comm. reflexivity. }
      split; [rewrite app_length; cbn; lia|]. split.
      + intros i x Hi. split.
        { intros ->. apply Na. apply nth_error_In in Hi. rewrite in_app_iff in Hi |- *. cbn in Hi. rewrite in_app_iff. cbn. intuition auto. }
        cbn [andb]. destruct (Nat.eqb_spec i k) as [->|Ni].
        * rewrite nth_error_app2 in Hi by lia. replace (k - length l1)%nat with 0%nat in Hi by lia. cbn in Hi. rewrite Hz. exact Hi.
        * destruct (Nat.lt_ge_cases i (length l1)) as [Lt|Ge].
          -- rewrite nth_error_app1 in Hi |- * by assumption. exact Hi.
          -- rewrite nth_error_app2 in Hi |- * by assumption. destruct (i - length l1)%nat as [|j] eqn:Ej; [lia|]. cbn in Hi |- *.
             rewrite nth_error_app1; [exact Hi|]. apply nth_error_Some. congruence.
      + intros i x Hi Nx Ni. destruct (Nat.lt_ge_cases i (length l1)) as [Lt|Ge].
        * rewrite nth_error_app1 in Hi |- * by assumption. exact Hi.
        * rewrite nth_error_app2 in Hi |- * by assumption. destruct (i - length l1)%nat as [|j] eqn:Ej; [cbn in Hi; congruence|]. cbn in Hi |- *.
          rewrite nth_error_app1 in Hi; [exact Hi|].
          assert (j < length (l2 ++ [z]))%nat by (apply nth_error_Some; congruence). rewrite app_length in H. cbn in H. lia.
  Qed.
  (* after leaving the used pool only the header of the block still has its old index *)
  Lemma leaveUsed_ok p own a b : Inv 0 p own -> own a -> p_heap p a = Some b ->
    exists q, leaveUsed p b = Ok q /\ p_heap q a = Some b /\
      Inv 0 (put q a (mkBk (k_act b) (k_alloc b) (-1) (k_data b))) own /\ (forall x, frame p q x) /\
      p_freeMax q = p_freeMax p /\ p_freeOk q = p_freeOk p.
  Proof.
    intros I Ha Hb. unfold leaveUsed. destruct (i_own _ _ _ I a b Ha Hb) as [[L|[L Lu]] Hact].
    - rewrite L. cbn. exists p. split; [reflexivity|]. split; [exact Hb|]. split; [|repeat split; auto; intros; apply frame_refl].
      destruct I as [H1 H2 H3 H4 H5 H6 H7 H8 H9 H11 H12 H10]. 
      assert (forall x, upd (p_heap p) a (Some (mkBk (k_act b) (k_alloc b) (-1) (k_data b))) x = p_heap p x) as E.
      { intros x. destruct (Nat.eq_dec x a) as [->|Ne]; [rewrite upd_same, Hb; destruct b; cbn in *; subst; reflexivity|apply upd_other, Ne]. }
      constructor; cbn; auto.
      + intros x. rewrite E. apply H3.
      + intros x. rewrite E. apply H4.
      + intros i x Hi. rewrite E. apply H5, Hi.
      + intros x c. rewrite E. apply H6.
      + unfold al, slack. rewrite (zs_ext _ (al (p_heap p))), (zs_ext _ (slack (p_heap p)) (p_used p)); [exact H7| |];
          intros x _; rewrite E; reflexivity.
    - destruct (Z.leb_spec 0 (k_loc b)) as [_|C]; [|lia]. set (k := Z.to_nat (k_loc b)) in *.
      pose proof (used_nodup _ _ _ I) as Nd. destruct (remove_used (p_used p) k a Lu Nd) as (u' & Hu' & Pu & Lenu & R1 & R2).
      assert (~ In a u') as Nau'. { intros H. apply In_nth_error in H. destruct H as [i H]. destruct (R1 i a H). congruence. }
      cbv zeta. cbn [p_used addTotal]. destruct (p_used p) as [|x0 l0] eqn:Eu; [destruct k; discriminate Lu|]. rewrite <- Eu in *.
      destruct (Nat.ltb_spec k (length (p_used p) - 1)) as [Hk|Hk].
      + destruct Hu' as (z & Hz & Nz & Es & Ez). rewrite Hz. cbn [rget rbind].
        destruct (i_used _ _ _ I _ z Hz) as (Oz & bz & Hbz & Lz).
        rewrite (get_ok (addTotal p (k_act b - k_alloc b)) z bz) by exact Hbz. cbn [rbind]. rewrite Es.
        eexists. split; [reflexivity|]. split; [cbn; rewrite upd_other by congruence; exact Hb|]. split; [|split; [|split; reflexivity]].
        2:{ intros x. unfold frame. cbn. destruct (Nat.eq_dec x z) as [->|Ne]; [rewrite upd_same, Hbz; reflexivity|rewrite upd_other by assumption; reflexivity]. }
        pose proof (i_disj _ _ _ I a Ha) as Nf. pose proof (i_disj _ _ _ I z Oz) as Nzf.
        destruct I as [H1 H2 H3 H4 H5 H6 H7 H8 H9 H11 H12 H10].
        constructor; cbn; auto.
        * intros x. destruct (Nat.eq_dec x a) as [->|Na]; [rewrite upd_same; split; [auto|discriminate]|]. rewrite upd_other by assumption.
          destruct (Nat.eq_dec x z) as [->|Nxz]; [rewrite upd_same; split; [auto|discriminate]|]. rewrite upd_other by assumption. apply H3.
        * intros x Hx. destruct (Nat.eq_dec x a) as [->|Na]; [rewrite (H4 a Hx) in Hb; discriminate|]. rewrite upd_other by assumption.
          destruct (Nat.eq_dec x z) as [->|Nxz]; [rewrite (H4 z Hx) in Hbz; discriminate|]. rewrite upd_other by assumption. auto.
        * intros i x Hi. destruct (R1 i x Hi) as [Nx Hi'].
          cbn [andb] in Hi'.
          rewrite (upd_other _ a) by assumption. destruct (Nat.eqb_spec i k) as [->|Nik].
          -- rewrite Hz in Hi'. injection Hi' as <-. split; [exact Oz|]. rewrite upd_same. eexists. split; [reflexivity|]. cbn. unfold k. lia.
          -- destruct (H5 i x Hi') as [X Y]. split; [exact X|]. rewrite upd_other; [exact Y|]. intros ->.
             destruct Y as (c & Hc & Lc). rewrite Hbz in Hc. injection Hc as <-.
             assert (i < length u')%nat by (apply nth_error_Some; congruence). lia.
        * intros x c Hx Hc. destruct (Nat.eq_dec x a) as [->|Na].
          { rewrite upd_same in Hc. injection Hc as <-. cbn. auto. }
          rewrite upd_other in Hc by assumption. destruct (Nat.eq_dec x z) as [->|Nxz].
          { rewrite upd_same in Hc. injection Hc as <-. cbn. split; [right; split; [exact L|exact Ez]|apply (H6 z bz Oz Hbz)]. }
          rewrite upd_other in Hc by assumption. destruct (H6 x c Hx Hc) as [[K|[K1 K2]] K3]; split; auto. right. split; [exact K1|].
          apply R2; auto. intros E. rewrite E in K2. congruence.
        * set (h' := upd _ a _).
          assert (forall x, x <> a -> al h' x = al (p_heap p) x /\ slack h' x = slack (p_heap p) x) as Eh.
          { intros x Nx. unfold al, slack, h'. rewrite upd_other by assumption.
            destruct (Nat.eq_dec x z) as [->|Nxz]; [rewrite upd_same, Hbz; cbn; auto|rewrite upd_other by assumption; auto]. }
          rewrite (zs_ext (al h') (al (p_heap p)) (p_free p)) by (intros x Hx; apply Eh; intros ->; contradiction).
          rewrite (zs_ext (slack h') (slack (p_heap p)) u') by (intros x Hx; apply Eh; intros ->; contradiction).
          rewrite (zs_perm _ _ _ Pu) in H7. cbn [zs] in H7. unfold slack at 1 in H7. rewrite Hb in H7. lia.
        * lia.
      + subst u'. eexists. split; [reflexivity|]. split; [exact Hb|]. split; [|split; [intros; reflexivity|split; reflexivity]].
        set (u' := firstn (length (p_used p) - 1) (p_used p)) in *.
        pose proof (i_disj _ _ _ I a Ha) as Nf. destruct I as [H1 H2 H3 H4 H5 H6 H7 H8 H9 H11 H12 H10].
        constructor; cbn; auto.
        * intros x. destruct (Nat.eq_dec x a) as [->|Na]; [rewrite upd_same; split; [auto|discriminate]|]. rewrite upd_other by assumption. apply H3.
        * intros x Hx. destruct (Nat.eq_dec x a) as [->|Na]; [rewrite (H4 a Hx) in Hb; discriminate|]. rewrite upd_other by assumption. auto.
        * intros i x Hi. destruct (R1 i x Hi) as [Nx Hi'].
          cbn [andb] in Hi'.
          rewrite (upd_other _ a) by assumption. apply H5, Hi'.
        * intros x c Hx Hc. destruct (Nat.eq_dec x a) as [->|Na].
          { rewrite upd_same in Hc. injection Hc as <-. cbn. auto. }
          rewrite upd_other in Hc by assumption. destruct (H6 x c Hx Hc) as [[K|[K1 K2]] K3]; split; auto. right. split; [exact K1|].
          apply R2; auto. intros E. rewrite E in K2.
          assert (k < length (p_used p))%nat by (apply nth_error_Some; congruence).
          replace (length (p_used p) - 1)%nat with k in K2 by lia. congruence.
        * set (h' := upd _ a _).
          assert (forall x, x <> a -> al h' x = al (p_heap p) x /\ slack h' x = slack (p_heap p) x) as Eh.
          { intros x Nx. unfold al, slack, h'. rewrite upd_other by assumption. auto. }
          rewrite (zs_ext (al h') (al (p_heap p)) (p_free p)) by (intros x Hx; apply Eh; intros ->; contradiction).
          rewrite (zs_ext (slack h') (slack (p_heap p)) u') by (intros x Hx; apply Eh; intros ->; contradiction).
          rewrite (zs_perm _ _ _ Pu) in H7. cbn [zs] in H7. unfold slack at 1 in H7. rewrite Hb in H7. lia.
        * lia.
  Qed.
  Definition without (own : nat -> Prop) (a x : nat) : Prop := own x /\ x <> a.
  (* the block is put at the end of the free array *)
  Lemma give_inv q own a b c : Inv 0 (put q a b) own -> own a -> k_loc b = -1 -> k_alloc c = k_alloc b ->
    (length (p_free q) < p_freeMax q)%nat ->
    Inv 0 (addTotal (setFree (put q a c) (p_free q ++ [a])) (k_alloc b)) (without own a).
  Proof.
    intros I Ha L Ea Hm. pose proof (i_disj _ _ _ I a Ha) as Nf. cbn in Nf.
    assert (~ In a (p_used q)) as Nu.
    { intros H. apply In_nth_error in H. destruct H as [i H]. destruct (i_used _ _ _ I i a H) as (_ & b' & Hb & Lb). cbn in Hb.
      rewrite upd_same in Hb. injection Hb as <-. lia. }
    destruct I as [H1 H2 H3 H4 H5 H6 H7 H8 H9 H11 H12 H10]. cbn in *.
    constructor; cbn; auto.
    - rewrite Permutation_app_comm. constructor; assumption.
    - intros x [Hx Nx]. rewrite in_app_iff. cbn. intros [K|[K|[]]]; [apply (H2 x Hx K)|congruence].
    - intros x. specialize (H3 x). unfold without. rewrite in_app_iff. cbn. destruct (Nat.eq_dec x a) as [->|Nx].
      + rewrite upd_same. split; [auto|discriminate].
      + rewrite upd_other in H3 |- * by assumption. rewrite H3. intuition congruence.
    - intros x Hx. specialize (H4 x Hx). destruct (Nat.eq_dec x a) as [->|Nx]; [rewrite upd_same in H4; discriminate|].
      rewrite upd_other in H4 |- * by assumption. exact H4.
    - intros i x Hi. assert (x <> a) as Nx by (intros ->; apply Nu; eapply nth_error_In; exact Hi).
      destruct (H5 i x Hi) as [X Y]. rewrite upd_other in Y |- * by assumption. split; [split; assumption|exact Y].
    - intros x d [Hx Nx] Hd. specialize (H6 x d Hx). rewrite upd_other in H6, Hd by assumption. apply H6, Hd.
    - rewrite zs_app. cbn [zs]. unfold al at 2. rewrite upd_same, Ea.
      rewrite (zs_ext (al (upd (p_heap q) a (Some c))) (al (upd (p_heap q) a (Some b))) (p_free q)).
      2:{ intros x Hx. unfold al. rewrite !upd_other; [reflexivity| |]; intros ->; contradiction. }
      rewrite (zs_ext (slack (upd (p_heap q) a (Some c))) (slack (upd (p_heap q) a (Some b))) (p_used q)).
      2:{ intros x Hx. unfold slack. rewrite !upd_other; [reflexivity| |]; intros ->; contradiction. }
      lia.
    - rewrite app_length. cbn. lia.
  Qed.
  Lemma poolFree_ok p own a : (0 < grow)%nat -> Inv 0 p own -> own a ->
    orOom (poolFree grow p a) (fun p' => Inv 0 p' (without own a) /\ forall x, frame p p' x).
  Proof.
    intros Hgrow I Ha. destruct (own_live _ _ _ _ I Ha) as (b & Hb). unfold poolFree. rewrite (get_ok _ _ _ Hb). cbn [rbind].
    destruct (leaveUsed_ok p own a b I Ha Hb) as (q & E & Hq & I1 & K1 & Fm & Fo). rewrite E. cbn [rbind].
    apply orOom_bind with (P := fun r => Inv 0 (put r a (mkBk (k_act b) (k_alloc b) (-1) (k_data b))) own /\ p_heap r = p_heap q /\
       p_free r = p_free q /\ (length (p_free r) < p_freeMax r)%nat /\ p_freeOk r = true).
    - pose proof (i_fcap _ _ _ I1) as C1. pose proof (i_fok _ _ _ I1) as C2. cbn in C1, C2.
      destruct (Nat.leb_spec (p_freeMax q) (length (p_free q))) as [Hm|Hm].
      + unfold ask. destruct (p_mal q) as [|ok r] eqn:Em.
        * cbn. repeat apply conj; auto; [|lia]. destruct I1 as [H1 H2 H3 H4 H5 H6 H7 H8 H9 H11 H12 H10]. constructor; cbn in *; auto; lia.
        * pose proof (i_mal _ _ _ I1) as Hml. cbn in Hml. rewrite Em in Hml.
          destruct ok; [|destruct Hml as [Hml|Hml]; [inversion Hml; discriminate|exact Hml]]. cbn. repeat apply conj; auto; [|lia].
          destruct I1 as [H1 H2 H3 H4 H5 H6 H7 H8 H9 H11 H12 H10]. constructor; cbn in *; auto; try lia.
          destruct Hml as [Hml|Hml]; [left; inversion Hml; assumption|right; exact Hml].
      + cbn. repeat apply conj; auto. destruct C2 as [C2|C2]; [lia|exact C2].
    - intros r (I2 & Er & Ef & Hl & Ho). destruct (Nat.leb_spec (p_freeMax r) (length (p_free r))) as [C|_]; [lia|].
      rewrite Ho. cbn [orb negb]. rewrite (get_ok r a b) by congruence. cbn [rbind orOom]. split.
      + apply (give_inv r own a (mkBk (k_act b) (k_alloc b) (-1) (k_data b))); auto.
      + intros x. eapply frame_trans; [apply K1|]. unfold frame. cbn. rewrite Er.
        destruct (Nat.eq_dec x a) as [->|Nx]; [rewrite upd_same, Hq; reflexivity|rewrite upd_other by assumption; reflexivity].
  Qed.

  (* ---------- changes of an owned block ---------- *)
  Lemma put_inv d p own a b c : Inv d p own -> own a -> p_heap p a = Some b -> k_alloc c = k_alloc b -> k_loc c = k_loc b ->
    k_act c <= k_alloc b ->
    Inv (d + (if k_loc b =? -1 then 0 else k_act b - k_act c)) (put p a c) own.
  Proof.
    intros I Ha Hb E1 E2 E3. pose proof (i_disj _ _ _ I a Ha) as Nf. destruct (i_own _ _ _ I a b Ha Hb) as [Lu _].
    pose proof (used_nodup _ _ _ I) as Nd. pose proof (i_used _ _ _ I) as Us.
    destruct I as [H1 H2 H3 H4 H5 H6 H7 H8 H9 H11 H12 H10]. constructor; cbn; auto.
    - intros x. destruct (Nat.eq_dec x a) as [->|Nx]; [rewrite upd_same; split; [auto|discriminate]|rewrite upd_other by assumption; apply H3].
    - intros x Hx. destruct (Nat.eq_dec x a) as [->|Nx]; [rewrite (H4 a Hx) in Hb; discriminate|rewrite upd_other by assumption; auto].
    - intros i x Hi. destruct (H5 i x Hi) as [X Y]. split; [exact X|]. destruct (Nat.eq_dec x a) as [->|Nx].
      + rewrite upd_same. exists c. split; [reflexivity|]. destruct Y as (b' & Hb' & L). congruence.
      + rewrite upd_other by assumption. exact Y.
    - intros x e Hx He. destruct (Nat.eq_dec x a) as [->|Nx].
      + rewrite upd_same in He. injection He as <-. rewrite E1, E2. split; [exact Lu|lia].
      + rewrite upd_other in He by assumption. apply H6; assumption.
    - rewrite (zs_ext (al (upd (p_heap p) a (Some c))) (al (p_heap p)) (p_free p)).
      2:{ intros x Hx. unfold al. rewrite upd_other; [reflexivity|]. intros ->. contradiction. }
      assert (zs (slack (upd (p_heap p) a (Some c))) (p_used p) = zs (slack (p_heap p)) (p_used p) + (if k_loc b =? -1 then 0 else k_act b - k_act c)) as E.
      { destruct (Z.eqb_spec (k_loc b) (-1)) as [L|L].
        - rewrite Z.add_0_r. apply zs_ext. intros x Hx. unfold slack. rewrite upd_other; [reflexivity|]. intros ->.
          apply In_nth_error in Hx. destruct Hx as [i Hi]. destruct (Us i a Hi) as (_ & b' & Hb' & L'). rewrite Hb in Hb'. injection Hb' as <-. lia.
        - destruct Lu as [Lu|[L1 L2]]; [contradiction|].
          destruct (nth_error_split _ _ L2) as (l1 & l2 & Eu & _). rewrite Eu in Nd |- *. apply NoDup_remove_2 in Nd.
          rewrite !zs_app. cbn [zs].
          rewrite (zs_ext (slack (upd (p_heap p) a (Some c))) (slack (p_heap p)) l1), (zs_ext (slack (upd (p_heap p) a (Some c))) (slack (p_heap p)) l2).
          + unfold slack at 2 5. rewrite upd_same, Hb, E1. lia.
          + intros x Hx. unfold slack. rewrite upd_other; [reflexivity|]. intros ->. apply Nd, in_or_app. auto.
          + intros x Hx. unfold slack. rewrite upd_other; [reflexivity|]. intros ->. apply Nd, in_or_app. auto. }
      rewrite E. lia.
  Qed.
  Lemma frame_put p a b x : x <> a -> frame p (put p a b) x.
  Proof. intros H. unfold frame. cbn. rewrite upd_other by assumption. reflexivity. Qed.
End Proofs.
