(* StmTab.v -- the symbol table: groups of equal names, binary search. *)
From Verif Require Import Base LabModel StmModel StmSpec LabProofs.
From Coq Require Import Permutation Sorted.
Open Scope nat_scope.

Lemma nth_error_firstn_lt {A} (l : list A) : forall m i, i < m -> nth_error (firstn m l) i = nth_error l i.
Proof.
  induction l as [|x r IH]; intros m i H; [rewrite firstn_nil; reflexivity|].
  destruct m; [lia|]. destruct i; [reflexivity|]. cbn. apply IH. lia.
Qed.
Lemma nth_error_skipn_add {A} (l : list A) : forall a i, nth_error (skipn a l) i = nth_error l (a + i).
Proof.
  induction l as [|x r IH]; intros a i; [rewrite skipn_nil; now rewrite !(proj2 (nth_error_None [] _)) by (cbn; lia)|].
  destruct a; [reflexivity|]. cbn. apply IH.
Qed.

Lemma nodup_app_l {A} (a b : list A) : NoDup (a ++ b) -> NoDup a.
Proof.
  induction a as [|x a IH]; cbn; intros H; [constructor|]. inversion H; subst. constructor; [|auto].
  intros HI. apply H2. apply in_or_app. now left.
Qed.
Lemma nodup_app_r {A} (a b : list A) : NoDup (a ++ b) -> NoDup b.
Proof. induction a as [|x a IH]; cbn; intros H; [exact H|]. inversion H; auto. Qed.

(* ---- mathTokenSameAs ---- *)
Lemma sameGo_head i p v rest : exists w tl, sameGo i p v rest = w :: tl /\ (w = v \/ (v = 0 /\ w = i)) .
Proof.
  destruct rest as [|x r]; cbn [sameGo]; [eauto|].
  destruct (strcmp x p); try (do 2 eexists; split; [reflexivity|now left]).
  destruct (Nat.eqb_spec v 0) as [->|]; do 2 eexists; (split; [reflexivity|]); auto.
Qed.
Definition adjOK (names : list name) (sa : list nat) : Prop :=
  length sa = length names /\
  forall k a b x y, nth_error names k = Some a -> nth_error names (S k) = Some b ->
    nth_error sa k = Some x -> nth_error sa (S k) = Some y ->
    (a = b -> x = y /\ x <> 0) /\ (a <> b -> x = 0 \/ x <> y).
Lemma sameGo_ok : forall rest i p v, 0 < i -> v <= i - 1 \/ v < i -> adjOK (p :: rest) (sameGo i p v rest).
Proof.
  induction rest as [|c r IH]; intros i p v Hi Hv.
  - split; [reflexivity|]. intros k a b x y _ H. destruct k; discriminate.
  - cbn [sameGo].
    assert (C : forall w v', w :: sameGo (S i) c v' r = w :: sameGo (S i) c v' r) by reflexivity.
    destruct (strcmp c p) eqn:E.
    + apply strcmp_eq in E. subst c.
      set (v' := if v =? 0 then i else v).
      assert (Hv' : v' <> 0 /\ v' < S i) by (unfold v'; destruct (Nat.eqb_spec v 0); lia).
      destruct (IH (S i) p v' ltac:(lia) ltac:(lia)) as [IL IA].
      destruct (sameGo_head (S i) p v' r) as (w & tl & EW & Hw). rewrite EW in *.
      split; [cbn in *; lia|]. intros k a b x y. destruct k as [|k].
      * cbn [nth_error]. intros A B X Y. injection A as <-. injection B as <-. injection X as <-. injection Y as <-.
        split; [|congruence]. intros _. split; [|tauto]. destruct Hw as [Hw|[Hw _]]; [congruence|tauto].
      * cbn [nth_error]. intros A B X Y. destruct (IA k a b x y A B X Y) as [I1 I2]. auto.
    + destruct (IH (S i) c 0 ltac:(lia) ltac:(lia)) as [IL IA].
      destruct (sameGo_head (S i) c 0 r) as (w & tl & EW & Hw). rewrite EW in *.
      split; [cbn in *; lia|]. intros k a b x y. destruct k as [|k].
      * cbn [nth_error]. intros A B X Y. injection A as <-. injection B as <-. injection X as <-. injection Y as <-.
        split; [intros ->; now rewrite strcmp_refl in E|]. intros _.
        destruct Hw as [ -> |[_ -> ]]; [|lia]. destruct v; [now left|right; lia].
      * cbn [nth_error]. intros A B X Y. destruct (IA k a b x y A B X Y) as [I1 I2]. auto.
    + destruct (IH (S i) c 0 ltac:(lia) ltac:(lia)) as [IL IA].
      destruct (sameGo_head (S i) c 0 r) as (w & tl & EW & Hw). rewrite EW in *.
      split; [cbn in *; lia|]. intros k a b x y. destruct k as [|k].
      * cbn [nth_error]. intros A B X Y. injection A as <-. injection B as <-. injection X as <-. injection Y as <-.
        split; [intros ->; now rewrite strcmp_refl in E|]. intros _.
        destruct Hw as [ -> |[_ -> ]]; [|lia]. destruct v; [now left|right; lia].
      * cbn [nth_error]. intros A B X Y. destruct (IA k a b x y A B X Y) as [I1 I2]. auto.
Qed.
Lemma sameAs_ok names : adjOK names (sameAs names).
Proof.
  destruct names as [|x r]; cbn [sameAs].
  - split; [reflexivity|]. intros k ? ? ? ? H. destruct k; discriminate.
  - apply sameGo_ok; lia.
Qed.

(* ---- walks ---- *)
Lemma walkDown_ok sa j : forall l, l <= length sa -> exists lo, walkDown sa j l = Ok lo /\ lo <= l /\
  (forall k, lo <= k < l -> nth_error sa k = Some j) /\
  (lo = 0 \/ nth_error sa (lo - 1) <> Some j).
Proof.
  induction l as [|l IH]; intros H; cbn [walkDown].
  - exists 0. split; [reflexivity|]. split; [lia|]. split; [intros; lia|now left].
  - destruct (nth_error sa l) as [x|] eqn:E; [|apply nth_error_None in E; lia]. cbn [rget rbind].
    destruct (Nat.eqb_spec j x) as [->|N].
    + destruct (IH ltac:(lia)) as (lo & H1 & H2 & H3 & H4). exists lo. split; [exact H1|]. split; [lia|].
      split; [|exact H4]. intros k Hk. destruct (Nat.eq_dec k l) as [->|]; [exact E|apply H3; lia].
    + exists (S l). split; [reflexivity|]. split; [lia|]. split; [intros; lia|]. right.
      replace (S l - 1) with l by lia. congruence.
Qed.
Lemma walkUp_ok sa j : forall k u, u + k < length sa -> exists hi, walkUp sa j u k = Ok hi /\ u <= hi <= u + k /\
  (forall i, u < i <= hi -> nth_error sa i = Some j) /\
  (hi = u + k \/ nth_error sa (S hi) <> Some j).
Proof.
  induction k as [|k IH]; intros u H; cbn [walkUp].
  - exists u. split; [reflexivity|]. split; [lia|]. split; [intros; lia|left; lia].
  - destruct (nth_error sa (S u)) as [x|] eqn:E; [|apply nth_error_None in E; lia]. cbn [rget rbind].
    destruct (Nat.eqb_spec j x) as [->|N].
    + destruct (IH (S u) ltac:(lia)) as (hi & H1 & H2 & H3 & H4). exists hi. split; [exact H1|].
      split; [lia|]. split; [|destruct H4; [left; lia|now right]].
      intros i Hi. destruct (Nat.eq_dec i (S u)) as [->|]; [exact E|apply H3; lia].
    + exists u. split; [reflexivity|]. split; [lia|]. split; [intros; lia|]. right. congruence.
Qed.

(* ---- the table ---- *)
Section Tab.
  Variable toks : list mtok.
  Variable key : list nat.
  Hypothesis HQ : mqsorted (map mt_name toks) key.
  Let T := mkTenv toks key.
  Let nm := tkName toks.

  Lemma key_perm : Permutation key (seq 0 (length toks)).
  Proof. destruct HQ as [H _]. now rewrite map_length in H. Qed.
  Lemma key_len : length key = length toks.
  Proof. rewrite (Permutation_length key_perm). apply seq_length. Qed.
  Lemma key_in t : In t key <-> t < length toks.
  Proof.
    split; intros H.
    - apply (Permutation_in _ key_perm) in H. apply in_seq in H. lia.
    - apply (Permutation_in _ (Permutation_sym key_perm)). apply in_seq. lia.
  Qed.
  Lemma key_nodup : NoDup key.
  Proof. apply (Permutation_NoDup (Permutation_sym key_perm)). apply seq_NoDup. Qed.
  Lemma nm_at t k : nth_error toks t = Some k -> nm t = mt_name k.
  Proof. unfold nm, tkName. now intros ->. Qed.

  Lemma key_sorted : StronglySorted (fun i j => strcmp (nm i) (nm j) <> Gt) key.
  Proof.
    destruct HQ as [_ HS].
    assert (H : StronglySorted (fun i j => strcmp (nm i) (nm j) <> Gt) key); [|exact H].
    apply Sorted_StronglySorted.
    - intros a b c H1 H2. exact (strcmp_le_trans _ _ _ H1 H2).
    - assert (HI : forall t, In t key -> t < length toks) by (intros t; apply key_in).
      revert HI. clear -HS. induction HS as [|a l HS IH HH]; intros HI; constructor.
      + apply IH. intros t Ht. apply HI. now right.
      + destruct HH as [|b l HH]; constructor.
        assert (L1 : a < length toks) by (apply HI; now left).
        assert (L2 : b < length toks) by (apply HI; right; now left).
        destruct (nth_error toks a) as [ka|] eqn:EA; [|apply nth_error_None in EA; lia].
        destruct (nth_error toks b) as [kb|] eqn:EB; [|apply nth_error_None in EB; lia].
        rewrite (nm_at _ _ EA), (nm_at _ _ EB). apply HH; rewrite nth_error_map; [rewrite EA|rewrite EB]; reflexivity.
  Qed.

  (* between two equal names all names are equal *)
  Lemma key_mono i j a b : i <= j -> nth_error key i = Some a -> nth_error key j = Some b ->
    strcmp (nm a) (nm b) <> Gt.
  Proof.
    intros H HA HB. destruct (Nat.eq_dec i j) as [->|N].
    - assert (a = b) as -> by congruence. rewrite strcmp_refl. discriminate.
    - exact (SS_nth _ _ key_sorted i j a b ltac:(lia) HA HB).
  Qed.
  Lemma key_between i j l a b c : i <= j <= l -> nth_error key i = Some a -> nth_error key j = Some b ->
    nth_error key l = Some c -> nm a = nm c -> nm b = nm a.
  Proof.
    intros H HA HB HC E.
    pose proof (key_mono i j a b ltac:(lia) HA HB) as M1.
    pose proof (key_mono j l b c ltac:(lia) HB HC) as M2. rewrite <- E in M2.
    destruct (strcmp (nm a) (nm b)) eqn:C; [now apply strcmp_eq in C| |congruence].
    exfalso. apply M2. rewrite strcmp_opp, C. reflexivity.
  Qed.

  Let sa := sameAs (map nm key).
  Lemma sa_len : length sa = length toks.
  Proof. destruct (sameAs_ok (map nm key)) as [H _]. unfold sa. rewrite H, map_length. apply key_len. Qed.
  Lemma sa_adj k a b x y : nth_error key k = Some a -> nth_error key (S k) = Some b ->
    nth_error sa k = Some x -> nth_error sa (S k) = Some y ->
    (nm a = nm b -> x = y /\ x <> 0) /\ (nm a <> nm b -> x = 0 \/ x <> y).
  Proof.
    intros A B X Y. destruct (sameAs_ok (map nm key)) as [_ H].
    apply (H k); auto; rewrite nth_error_map; [rewrite A|rewrite B]; reflexivity.
  Qed.
  Lemma nth_some {A} (l : list A) i : i < length l -> exists x, nth_error l i = Some x.
  Proof. intros H. destruct (nth_error l i) eqn:E; [eauto|]. apply nth_error_None in E. lia. Qed.

  (* entries with equal non-zero marks on a run have equal names *)
  Lemma run_eq j : j <> 0 -> forall d i a b, nth_error key i = Some a -> nth_error key (i + d) = Some b ->
    (forall k, i <= k <= i + d -> nth_error sa k = Some j) -> nm a = nm b.
  Proof.
    intros Hj. induction d as [|d IH]; intros i a b HA HB HR.
    - rewrite Nat.add_0_r in HB. congruence.
    - assert (L : i + S d < length key) by (apply nth_error_Some; congruence).
      destruct (nth_some key (i + d)) as (c & HC); [lia|].
      rewrite (IH i a c HA HC) by (intros k Hk; apply HR; lia).
      destruct (sa_adj (i + d) c b j j HC) as [_ H2].
      { rewrite <- HB. f_equal. lia. }
      { apply HR. lia. }
      { apply HR. lia. }
      destruct (list_eq_dec Nat.eq_dec (nm c) (nm b)) as [E|N]; [exact E|]. destruct (H2 N); tauto.
  Qed.

  Lemma pos_of_key t : In t key -> exists i, nth_error key i = Some t.
  Proof. intros H. apply In_nth_error in H. exact H. Qed.

  Lemma uniq_zero ki t : nth_error key ki = Some t -> nth_error sa ki = Some 0 ->
    forall u, u < length toks -> nm u = nm t -> u = t.
  Proof.
    intros HK HS u HU HE. apply key_in in HU. destruct (pos_of_key u HU) as (i & HI).
    assert (L : ki < length key) by (apply nth_error_Some; congruence).
    assert (LI : i < length key) by (apply nth_error_Some; congruence).
    pose proof key_len as KL. pose proof sa_len as SL.
    destruct (lt_eq_lt_dec i ki) as [[H| -> ]|H]; [|congruence|].
    - destruct (nth_some key (ki - 1)) as (c & HC); [lia|].
      destruct (nth_some sa (ki - 1)) as (x & HX); [lia|].
      destruct (sa_adj (ki - 1) c t x 0 HC) as [H1 _]; [|exact HX| |].
      { now replace (S (ki - 1)) with ki by lia. }
      { now replace (S (ki - 1)) with ki by lia. }
      exfalso. destruct H1 as [H1 H2]; [|congruence].
      rewrite (key_between i (ki - 1) ki u c t) by (auto; lia). exact HE.
    - destruct (nth_some key (S ki)) as (c & HC); [lia|].
      destruct (nth_some sa (S ki)) as (x & HX); [lia|].
      destruct (sa_adj ki t c 0 x HK HC HS HX) as [H1 _].
      exfalso. destruct H1 as [_ H2]; [|congruence].
      symmetry. rewrite (key_between ki (S ki) i t c u) by (auto; lia). reflexivity.
  Qed.

  Lemma in_segment (l : list nat) lo m x : In x (firstn m (skipn lo l)) <->
    exists i, lo <= i < lo + m /\ nth_error l i = Some x.
  Proof.
    split.
    - intros H. apply In_nth_error in H. destruct H as (i & H).
      assert (i < m) by (pose proof (firstn_le_length m (skipn lo l)); assert (i < length (firstn m (skipn lo l))) by (apply nth_error_Some; congruence); lia).
      exists (lo + i). split; [lia|]. rewrite <- H. clear H. 
      rewrite nth_error_firstn_lt by assumption. now rewrite nth_error_skipn_add.
    - intros (i & H1 & H2). apply (nth_error_In _ (i - lo)).
      rewrite nth_error_firstn_lt by lia. rewrite nth_error_skipn_add. rewrite <- H2. f_equal. lia.
  Qed.

  Lemma group_ok ki t j : nth_error key ki = Some t -> nth_error sa ki = Some j -> j <> 0 ->
    exists g, group T ki = Ok g /\ NoDup g /\ forall u, In u g <-> u < length toks /\ nm u = nm t.
  Proof.
    intros HK HS Hj. unfold group, T. cbn [mkTenv tk_same tk_toks tk_key]. fold nm sa. rewrite HS. cbn [rget rbind].
    assert (L : ki < length key) by (apply nth_error_Some; congruence).
    pose proof key_len as KL. pose proof sa_len as SL.
    destruct (walkDown_ok sa j ki ltac:(lia)) as (lo & D1 & D2 & D3 & D4). rewrite D1. cbn [rbind].
    destruct (walkUp_ok sa j (length toks - 1 - ki) ki ltac:(lia)) as (hi & U1 & U2 & U3 & U4). rewrite U1. cbn [rbind].
    eexists. split; [reflexivity|]. split.
    { assert (ND := key_nodup). rewrite <- (firstn_skipn lo key) in ND. apply nodup_app_r in ND.
      rewrite <- (firstn_skipn (S hi - lo) (skipn lo key)) in ND. now apply nodup_app_l in ND. }
    assert (RUN : forall k, lo <= k <= hi -> nth_error sa k = Some j).
    { intros k Hk. destruct (lt_eq_lt_dec k ki) as [[H| -> ]|H]; [apply D3; lia|exact HS|apply U3; lia]. }
    intros u. rewrite in_segment. split.
    - intros (i & Hi & HI). split.
      { apply key_in. now apply nth_error_In in HI. }
      destruct (le_lt_dec i ki) as [H|H].
      + apply (run_eq j Hj (ki - i) i); auto; [now replace (i + (ki - i)) with ki by lia|].
        intros k Hk. apply RUN. lia.
      + symmetry. apply (run_eq j Hj (i - ki) ki); auto; [now replace (ki + (i - ki)) with i by lia|].
        intros k Hk. apply RUN. lia.
    - intros [HU HE]. apply key_in in HU. destruct (pos_of_key u HU) as (i & HI). exists i. split; [|exact HI].
      assert (LI : i < length key) by (apply nth_error_Some; congruence).
      destruct (lt_dec i lo) as [H|H].
      { exfalso. destruct D4 as [ -> |D4]; [lia|]. apply D4.
        destruct (nth_some key (lo - 1)) as (c & HC); [lia|].
        destruct (nth_some key lo) as (c' & HC'); [lia|].
        destruct (nth_some sa (lo - 1)) as (x & HX); [lia|].
        assert (E1 : nm c = nm t) by (rewrite (key_between i (lo - 1) ki u c t); auto; lia).
        assert (E2 : nm c' = nm t) by (rewrite (key_between i lo ki u c' t); auto; lia).
        destruct (sa_adj (lo - 1) c c' x j HC) as [H1 _]; [| exact HX| |].
        { now replace (S (lo - 1)) with lo by lia. }
        { replace (S (lo - 1)) with lo by lia. apply RUN. lia. }
        destruct H1 as [ -> _]; [congruence|]. exact HX. }
      destruct (le_lt_dec i hi) as [H'|H']; [lia|].
      exfalso. destruct U4 as [U4|U4]; [lia|]. apply U4.
      destruct (nth_some key hi) as (c & HC); [lia|].
      destruct (nth_some key (S hi)) as (c' & HC'); [lia|].
      destruct (nth_some sa (S hi)) as (x & HX); [lia|].
      assert (E1 : nm c = nm t) by (rewrite (key_between ki hi i t c u); auto; lia).
      assert (E2 : nm c' = nm t) by (rewrite (key_between ki (S hi) i t c' u); auto; lia).
      destruct (sa_adj hi c c' j x HC HC') as [H1 _]; [apply RUN; lia|exact HX|].
      destruct H1 as [<- _]; [congruence|]. exact HX.
  Qed.

  (* ---- binary search ---- *)
  Lemma msearch_ok x : forall fuel l u, l <= u <= length key -> u - l < fuel ->
    (forall i t, nth_error key i = Some t -> i < l -> strcmp x (nm t) = Gt) ->
    (forall i t, nth_error key i = Some t -> u <= i -> strcmp x (nm t) = Lt) ->
    (exists i t, msearch fuel T x l u = Ok (Some i) /\ nth_error key i = Some t /\ nm t = x) \/
    (msearch fuel T x l u = Ok None /\ forall t, t < length toks -> nm t <> x).
  Proof.
    induction fuel as [|f IH]; intros l u HL HF HA HB; [lia|]. cbn [msearch].
    destruct (Nat.ltb_spec l u) as [H|H].
    - set (i := (l + u) / 2). assert (Hi : l <= i < u).
      { unfold i. split; [apply Nat.div_le_lower_bound; lia|apply Nat.div_lt_upper_bound; lia]. }
      destruct (nth_some key i) as (t & HT); [lia|]. change (tk_key T) with key. change (tk_toks T) with toks. rewrite HT. cbn [rget rbind].
      assert (LT : t < length toks) by (apply key_in; now apply nth_error_In in HT).
      destruct (nth_some toks t LT) as (k & HK).
      rewrite HK. cbn [rget rbind]. rewrite <- (nm_at _ _ HK).
      destruct (strcmp x (nm t)) eqn:E.
      + left. exists i, t. split; [reflexivity|]. split; [exact HT|]. now apply strcmp_eq in E.
      + apply IH; try lia; auto. intros i' t' HT' Hi'.
        pose proof (key_mono i i' t t' Hi' HT HT'). eapply strcmp_lt_le; eauto.
      + apply IH; try lia; auto. intros i' t' HT' Hi'.
        pose proof (key_mono i' i t' t ltac:(lia) HT' HT) as M.
        rewrite strcmp_opp. rewrite (strcmp_le_lt _ _ x M); [reflexivity|]. rewrite strcmp_opp, E. reflexivity.
    - right. split; [reflexivity|]. intros t Ht HE. apply key_in in Ht. destruct (pos_of_key t Ht) as (i & HI).
      destruct (lt_dec i l) as [H'|H'].
      + specialize (HA i t HI H'). rewrite HE, strcmp_refl in HA. discriminate.
      + specialize (HB i t HI ltac:(lia)). rewrite HE, strcmp_refl in HB. discriminate.
  Qed.
  Lemma msearch_all x :
    (exists i t, msearch (S (length key)) T x 0 (length key) = Ok (Some i) /\ nth_error key i = Some t /\ nm t = x) \/
    (msearch (S (length key)) T x 0 (length key) = Ok None /\ forall t, t < length toks -> nm t <> x).
  Proof.
    apply msearch_ok; [lia|lia|intros i t HT Hi; lia|intros i t HT Hi].
    exfalso. assert (i < length key) by (apply nth_error_Some; congruence). lia.
  Qed.

  Lemma posOf_ok t : forall l, In t l -> exists i, posOf t l = Some i /\ nth_error l i = Some t.
  Proof.
    induction l as [|x r IH]; intros H; [destruct H|]. cbn [posOf]. destruct (Nat.eqb_spec x t) as [->|N].
    - exists 0. auto.
    - destruct H as [H|H]; [congruence|]. destruct (IH H) as (i & H1 & H2). exists (S i). rewrite H1. auto.
  Qed.
  Lemma sa_at ki t : nth_error key ki = Some t -> exists j, nth_error sa ki = Some j.
  Proof.
    intros H. apply nth_some. rewrite sa_len, <- key_len. apply nth_error_Some. congruence.
  Qed.
  Lemma maxLen_ok t : t < length toks -> length (nm t) <= tk_maxLen T.
  Proof.
    intros H. destruct (nth_some toks t H) as (k & HK). rewrite (nm_at _ _ HK). unfold T. cbn [mkTenv tk_maxLen].
    apply nth_error_In in HK. clear -HK. induction toks as [|a r IH]; [destruct HK|]. cbn [fold_right].
    destruct HK as [ -> |HK]; [lia|]. specialize (IH HK). lia.
  Qed.
  Lemma hasLen_ok t : t < length toks -> hasLen toks (length (nm t)) = true.
  Proof.
    intros H. destruct (nth_some toks t H) as (k & HK). rewrite (nm_at _ _ HK). unfold hasLen.
    apply existsb_exists. exists k. split; [now apply nth_error_In in HK|apply Nat.eqb_refl].
  Qed.
End Tab.
