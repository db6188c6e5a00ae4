From Verif Require Import Base LabModel LabSpec.
From Coq Require Import Permutation Sorted.
Open Scope nat_scope.

(* ---------- strcmp is a total order ---------- *)
Lemma strcmp_refl a : strcmp a a = Eq.
Proof. induction a; simpl; [reflexivity|]. rewrite Nat.compare_refl. exact IHa. Qed.
Lemma strcmp_eq a : forall b, strcmp a b = Eq -> a = b.
Proof.
  induction a as [|x a IH]; intros [|y b]; simpl; try discriminate; [reflexivity|].
  destruct (x ?= y) eqn:E; try discriminate. apply Nat.compare_eq in E. intros H. f_equal; auto.
Qed.
Lemma strcmp_opp a : forall b, strcmp b a = CompOpp (strcmp a b).
Proof.
  induction a as [|x a IH]; intros [|y b]; simpl; try reflexivity.
  rewrite (Nat.compare_antisym x y). destruct (x ?= y); simpl; auto.
Qed.
Lemma strcmp_lt_trans a : forall b c, strcmp a b = Lt -> strcmp b c = Lt -> strcmp a c = Lt.
Proof.
  induction a as [|x a IH]; intros [|y b] [|z c]; simpl; try discriminate; try reflexivity; intros H1 H2.
  destruct (x ?= y) eqn:E1; try discriminate; destruct (y ?= z) eqn:E2; try discriminate.
  - apply Nat.compare_eq in E1, E2. subst. rewrite Nat.compare_refl. eauto.
  - apply Nat.compare_eq in E1. subst. rewrite E2. reflexivity.
  - apply Nat.compare_eq in E2. subst. rewrite E1. reflexivity.
  - apply Nat.compare_lt_iff in E1, E2. replace (x ?= z) with Lt; [reflexivity|]. symmetry. apply Nat.compare_lt_iff. lia.
Qed.
Lemma strcmp_le_trans a b c : strcmp a b <> Gt -> strcmp b c <> Gt -> strcmp a c <> Gt.
Proof.
  intros H1 H2. destruct (strcmp a b) eqn:E1; [|destruct (strcmp b c) eqn:E2|]; try congruence.
  - apply strcmp_eq in E1. subst. exact H2.
  - apply strcmp_eq in E2. subst. congruence.
  - rewrite (strcmp_lt_trans a b c E1 E2). discriminate.
Qed.
Lemma strcmp_lt_le a b c : strcmp a b = Lt -> strcmp b c <> Gt -> strcmp a c = Lt.
Proof.
  intros E1 H2. destruct (strcmp b c) eqn:E2; try congruence.
  - apply strcmp_eq in E2. subst. exact E1.
  - eapply strcmp_lt_trans; eassumption.
Qed.
Lemma strcmp_le_lt a b c : strcmp a b <> Gt -> strcmp b c = Lt -> strcmp a c = Lt.
Proof.
  intros H1 E2. destruct (strcmp a b) eqn:E1; try congruence.
  - apply strcmp_eq in E1. subst. exact E2.
  - eapply strcmp_lt_trans; eassumption.
Qed.

Definition lab (st : list lstmt) (k : nat) : list nat :=
  match lnth st k with Some s => l_label s | None => [] end.
Definition knd (st : list lstmt) (k : nat) : kind :=
  match lnth st k with Some s => l_kind s | None => K_c end.
Definition inb (st : list lstmt) (k : nat) : Prop := exists s, lnth st k = Some s.
Lemma labelOf_ok st k : inb st k -> labelOf st k = Ok (lab st k).
Proof. intros [s H]. unfold labelOf, lab. rewrite H. reflexivity. Qed.
Lemma kindOf_ok st k : inb st k -> kindOf st k = Ok (knd st k).
Proof. intros [s H]. unfold kindOf, knd. rewrite H. reflexivity. Qed.
Lemma inb_range st k : inb st k <-> 1 <= k <= length st.
Proof.
  unfold inb, lnth. destruct k; split.
  - intros [s H]; discriminate.
  - lia.
  - intros [s H]. assert (k < length st) by (apply nth_error_Some; congruence). lia.
  - intros H. destruct (nth_error st k) eqn:E; [eauto|]. apply nth_error_None in E. lia.
Qed.

Definition le (st : list lstmt) (i j : nat) : Prop := strcmp (lab st i) (lab st j) <> Gt.
Lemma sorted_strong st keys : Forall (inb st) keys -> Sorted (labLe st) keys -> StronglySorted (le st) keys.
Proof.
  intros F S. apply Sorted_StronglySorted.
  - intros a b c. apply strcmp_le_trans.
  - induction S as [|k l S IH HD]; [constructor|]. inversion F; subst. constructor; [apply IH; assumption|].
    destruct HD as [|b l HD]; constructor. inversion H2; subst.
    apply HD; apply labelOf_ok; assumption.
Qed.
Lemma SS_sub {A} (R : A -> A -> Prop) l1 l2 : StronglySorted R (l1 ++ l2) -> StronglySorted R l2.
Proof. induction l1; intros H; [exact H|]. inversion H; subst. apply IHl1. assumption. Qed.
Lemma SS_nth {A} (R : A -> A -> Prop) l : StronglySorted R l -> forall i j a b, i < j ->
  nth_error l i = Some a -> nth_error l j = Some b -> R a b.
Proof.
  induction 1 as [|x l S IH F]; intros i j a b L Hi Hj; [destruct i; discriminate|].
  destruct j as [|j]; [lia|]. simpl in Hj. destruct i as [|i]; simpl in Hi.
  - inversion Hi; subst. rewrite Forall_forall in F. apply F. eapply nth_error_In; eassumption.
  - eapply (IH i j); eauto. lia.
Qed.

(* ---------- bsearch ---------- *)
Lemma bsearch_ok st keys key : Forall (inb st) keys -> StronglySorted (le st) keys ->
  forall fuel l u, u - l < fuel -> u <= length keys ->
  (forall i k, nth_error keys i = Some k -> lab st k = key -> l <= i < u) ->
  exists r, bsearch fuel st keys key l u = Ok r /\
    match r with Some k => In k keys /\ lab st k = key | None => forall k, In k keys -> lab st k <> key end.
Proof.
  intros F S. induction fuel as [|f IH]; intros l u HF HU HI; [lia|]. cbn [bsearch].
  destruct (l <? u) eqn:E.
  - apply Nat.ltb_lt in E. set (i := (l + u) / 2).
    assert (Hi : l <= i < u).
    { unfold i. split; [apply Nat.div_le_lower_bound; lia|apply Nat.div_lt_upper_bound; lia]. }
    destruct (nth_error keys i) as [k|] eqn:N; [|apply nth_error_None in N; lia]. cbn [rget rbind].
    rewrite labelOf_ok by (rewrite Forall_forall in F; apply F; eapply nth_error_In; eassumption). cbn [rbind].
    destruct (strcmp key (lab st k)) eqn:C.
    + exists (Some k). split; [reflexivity|]. split; [eapply nth_error_In; eassumption|]. symmetry. apply strcmp_eq, C.
    + apply IH; try lia. intros j kj Hj Lj. specialize (HI j kj Hj Lj). split; [lia|].
      destruct (lt_dec j i); [assumption|]. exfalso.
      destruct (Nat.eq_dec j i) as [->|D].
      * rewrite N in Hj. inversion Hj; subst kj. rewrite Lj, strcmp_refl in C. discriminate.
      * assert (Q := SS_nth _ _ S i j k kj ltac:(lia) N Hj). unfold le in Q. rewrite Lj in Q.
        pose proof (strcmp_lt_le _ _ _ C Q) as Q2. rewrite strcmp_refl in Q2. discriminate.
    + apply IH; try lia. intros j kj Hj Lj. specialize (HI j kj Hj Lj). split; [|lia].
      destruct (lt_dec i j); [lia|]. exfalso.
      destruct (Nat.eq_dec j i) as [->|D].
      * rewrite N in Hj. inversion Hj; subst kj. rewrite Lj, strcmp_refl in C. discriminate.
      * assert (Q := SS_nth _ _ S j i kj k ltac:(lia) Hj N). unfold le in Q. rewrite Lj in Q. congruence.
  - exists None. split; [reflexivity|]. apply Nat.ltb_ge in E. intros k Hk Lk.
    apply In_nth_error in Hk. destruct Hk as [i Hi]. specialize (HI i k Hi Lk). lia.
Qed.
Lemma bsearch_all st keys key : Forall (inb st) keys -> StronglySorted (le st) keys ->
  exists r, bsearch (S (length keys)) st keys key 0 (length keys) = Ok r /\
    match r with Some k => In k keys /\ lab st k = key | None => forall k, In k keys -> lab st k <> key end.
Proof.
  intros F S. apply bsearch_ok; auto; try lia. intros i k H _. split; [lia|]. apply nth_error_Some. congruence.
Qed.

(* ---------- building the tables ---------- *)
Lemma skipNull_ok st keys : Forall (inb st) keys -> StronglySorted (le st) keys ->
  exists pre all, skipNull st keys = Ok all /\ keys = pre ++ all /\
    (forall k, In k all <-> In k keys /\ lab st k <> []).
Proof.
  intros F S. induction S as [|k l S IH HF].
  - exists [], []. split; [reflexivity|]. split; [reflexivity|]. intros k; simpl; tauto.
  - inversion F; subst. cbn [skipNull]. rewrite labelOf_ok by assumption. cbn [rbind].
    destruct (lab st k) as [|c r] eqn:E.
    + destruct (IH H2) as [pre [all [E1 [E2 E3]]]]. exists (k :: pre), all. split; [exact E1|].
      split; [simpl; f_equal; exact E2|]. intros k'. rewrite E3. simpl. split; [tauto|]. intros [[<-|H] Q]; [congruence|tauto].
    + exists [], (k :: l). split; [reflexivity|]. split; [reflexivity|]. intros k'. split; [|tauto].
      intros H. split; [exact H|]. intros Q. destruct H as [<-|H]; [congruence|].
      rewrite Forall_forall in HF. specialize (HF k' H). unfold le in HF. rewrite E, Q in HF. simpl in HF. congruence.
Qed.

Lemma filterHyps_ok st keys : Forall (inb st) keys ->
  filterHyps st keys = Ok (filter (fun k => match knd st k with K_e | K_f => false | _ => true end) keys).
Proof.
  induction 1 as [|k l Hk F IH]; [reflexivity|]. cbn [filterHyps filter]. rewrite kindOf_ok by assumption. cbn [rbind].
  rewrite IH. cbn [rbind]. destruct (knd st k); reflexivity.
Qed.
Lemma SS_filter {A} (R : A -> A -> Prop) p l : StronglySorted R l -> StronglySorted R (filter p l).
Proof.
  induction 1 as [|x l S IH F]; [constructor|]. simpl. destruct (p x); [|exact IH]. constructor; [exact IH|].
  rewrite Forall_forall in *. intros y Hy. apply filter_In in Hy. apply F, Hy.
Qed.

Lemma dupLoop_ok st : forall keys prev d,
  Forall (inb st) keys -> StronglySorted (le st) keys -> NoDup keys ->
  (d = true -> exists p, prev = Some p /\ inb st p) ->
  exists out, dupLoop st prev d keys = Ok out /\
    forall k, In k out <-> In k keys /\
      ((exists j, In j keys /\ j <> k /\ lab st j = lab st k) \/
       (d = true /\ exists p, prev = Some p /\ lab st p = lab st k /\ nth_error keys 0 = Some k)).
Proof.
  induction keys as [|k keys IH]; intros prev d F S ND HP.
  - exists []. split; [reflexivity|]. intros k. simpl. tauto.
  - inversion F as [|? ? Fk Fl]; subst. inversion S as [|? ? Sl HF]; subst. inversion ND as [|? ? NI ND']; subst.
    cbn [dupLoop]. rewrite labelOf_ok by assumption. cbn [rbind].
    set (d1r := if d then _ else _).
    assert (D1 : exists d1, d1r = Ok d1 /\ (d1 = true <-> d = true /\ exists p, prev = Some p /\ lab st p = lab st k)).
    { unfold d1r. destruct d.
      - destruct (HP eq_refl) as [p [-> Hp]]. rewrite labelOf_ok by assumption. cbn [rbind].
        eexists. split; [reflexivity|]. destruct (strcmp (lab st k) (lab st p)) eqn:C.
        + apply strcmp_eq in C. split; [intros _; split; [reflexivity|]; eauto|reflexivity].
        + split; [discriminate|]. intros [_ [q [Q L]]]. inversion Q; subst q. rewrite L, strcmp_refl in C. discriminate.
        + split; [discriminate|]. intros [_ [q [Q L]]]. inversion Q; subst q. rewrite L, strcmp_refl in C. discriminate.
      - exists false. split; [reflexivity|]. split; [discriminate|]. intros [Q _]; discriminate. }
    destruct D1 as [d1 [-> D1]]. cbn [rbind]. 
    set (d2r := match keys with [] => _ | _ => _ end).
    assert (D2 : exists d2, d2r = Ok d2 /\ (d2 = true <-> d1 = true \/ exists j, In j keys /\ lab st j = lab st k)).
    { unfold d2r. destruct keys as [|n keys].
      - exists d1. split; [reflexivity|]. split; [tauto|]. intros [Q|[j [[] _]]]; exact Q.
      - inversion Fl; subst. rewrite labelOf_ok by assumption. cbn [rbind]. eexists. split; [reflexivity|].
        destruct (strcmp (lab st k) (lab st n)) eqn:C.
        + apply strcmp_eq in C. split; [intros _; right; exists n; split; [left; reflexivity|congruence]|reflexivity].
        + split; [tauto|]. intros [Q|[j [Hj Lj]]]; [exact Q|]. exfalso.
          assert (Q : strcmp (lab st n) (lab st j) <> Gt).
          { destruct Hj as [<-|Hj]; [rewrite strcmp_refl; discriminate|]. inversion Sl; subst.
            rewrite Forall_forall in H4. apply (H4 j Hj). }
          rewrite Lj in Q. rewrite strcmp_opp, C in Q. apply Q. reflexivity.
        + inversion HF; subst. unfold le in H3. congruence. }
    destruct D2 as [d2 [-> D2]]. cbn [rbind].
    destruct (IH (Some k) d2 Fl Sl ND') as [out [E H]]; [intros _; eauto|].
    rewrite E. cbn [rbind]. eexists. split; [reflexivity|]. intros x.
    assert (OUT : In x (if d2 then k :: out else out) <-> (d2 = true /\ x = k) \/ In x out).
    { destruct d2; simpl; [split; [intros [Q|Q]; [left; split; congruence|tauto]|intros [[_ Q]|Q]; [left; congruence|tauto]]|].
      split; [tauto|]. intros [[Q _]|Q]; [discriminate|tauto]. }
    rewrite OUT, H, D2, D1. clear OUT. split.
    + intros [[[[-> [p [Ep Lp]]]|[j [Hj Lj]]] ->]|[Hx Q]].
      * split; [left; reflexivity|]. right. split; [reflexivity|]. exists p. auto.
      * split; [left; reflexivity|]. left. exists j. split; [right; exact Hj|]. split; [intros ->; tauto|exact Lj].
      * split; [right; exact Hx|]. destruct Q as [[j [Hj [Nj Lj]]]|[Hd [p [Ep [Lp N0]]]]]; [left; exists j|left; exists k].
        -- split; [right; exact Hj|auto].
        -- inversion Ep; subst p. split; [left; reflexivity|]. split; [intros ->; tauto|exact Lp].
    + intros [Hx Q]. destruct Q as [[j [Hj [Nj Lj]]]|[Hd [p [Ep [Lp N0]]]]].
      * destruct Hx as [<-|Hx].
        -- left. split; [|reflexivity]. right. destruct Hj as [->|Hj]; [congruence|]. exists j. auto.
        -- right. split; [exact Hx|]. destruct Hj as [<-|Hj].
           ++ (* k has the same label as x, so has the head of keys *)
              destruct keys as [|n keys]; [destruct Hx|]. destruct (Nat.eq_dec n x) as [->|NX].
              ** right. split; [right; exists x; split; [left; reflexivity|congruence]|]. exists k. auto.
              ** left. exists n. split; [left; reflexivity|]. split; [congruence|].
                 destruct Hx as [Hx|Hx]; [congruence|]. inversion HF; subst. inversion Sl; subst.
                 rewrite Forall_forall in H5. specialize (H5 x Hx). unfold le in *.
                 destruct (strcmp (lab st n) (lab st x)) eqn:C; [apply strcmp_eq, C| |congruence].
                 exfalso. pose proof (strcmp_le_lt _ _ _ H2 C) as Q. rewrite Lj, strcmp_refl in Q. discriminate.
           ++ left. exists j. auto.
      * inversion N0; subst x. left. split; [|reflexivity]. left. eauto.
Qed.

Lemma hasLabel_lab st k l : hasLabel st k l <-> l <> [] /\ inb st k /\ lab st k = l.
Proof.
  unfold hasLabel, inb, lab. split.
  - intros [N [s [H1 H2]]]. rewrite H1. eauto.
  - intros [N [[s H1] H2]]. rewrite H1 in H2. split; [exact N|]. exists s. auto.
Qed.

Lemma tables_ok st sorted : qsorted st sorted -> labelled_ok st ->
  exists dups all asrt, labelTables st sorted = Ok (dups, all, asrt) /\
    (forall k, In k dups <-> exists l j, hasLabel st k l /\ hasLabel st j l /\ j <> k) /\
    (forall l, exists r, lookupLabel st asrt l = Ok r /\
       match r with
       | Some k => hasLabel st k l /\ isAsrt st k
       | None => forall k, hasLabel st k l -> ~ isAsrt st k
       end) /\
    (forall tokens, (forall t, In t tokens -> t <> []) -> exists bad, tokenClash st all tokens = Ok bad /\
       forall t, In t bad <-> In t tokens /\ exists k, hasLabel st k t).
Proof.
  intros [P S] LO.
  assert (F : Forall (inb st) sorted).
  { apply Forall_forall. intros k Hk. apply (Permutation_in _ P) in Hk. apply in_seq in Hk. apply inb_range. lia. }
  assert (IA : forall k, inb st k -> In k sorted).
  { intros k Hk. apply inb_range in Hk. apply (Permutation_in _ (Permutation_sym P)). apply in_seq. lia. }
  assert (ND : NoDup sorted) by (apply (Permutation_NoDup (Permutation_sym P)), seq_NoDup).
  apply sorted_strong in S; [|exact F].
  destruct (skipNull_ok st sorted F S) as [pre [all [E1 [E2 E3]]]].
  assert (F' : Forall (inb st) all) by (apply Forall_forall; intros k Hk; apply E3 in Hk; rewrite Forall_forall in F; apply F, Hk).
  assert (S' : StronglySorted (le st) all) by (rewrite E2 in S; eapply SS_sub; eassumption).
  assert (ND' : NoDup all) by (rewrite E2 in ND; clear - ND; induction pre; [exact ND|inversion ND; auto]).
  assert (IN : forall k, In k all <-> inb st k /\ lab st k <> []).
  { intros k. rewrite E3. split; [intros [A B]; split; [rewrite Forall_forall in F; apply F, A|exact B]|intros [A B]; auto]. }
  destruct (dupLoop_ok st all None false F' S' ND') as [dups [E4 H4]]; [discriminate|].
  set (q := fun k => match knd st k with K_e | K_f => false | _ => true end).
  exists dups, all, (filter q all). split.
  { unfold labelTables. rewrite E1. cbn [rbind]. rewrite E4. cbn [rbind]. rewrite filterHyps_ok by exact F'. reflexivity. }
  split.
  { intros k. rewrite H4, IN. split.
    - intros [[Hk Nk] [[j [Hj [Nj Lj]]]|[Q _]]]; try discriminate. apply IN in Hj. exists (lab st k), j.
      rewrite !hasLabel_lab. repeat split; auto; apply Hj.
    - intros [l [j [A [B C]]]]. apply hasLabel_lab in A, B. destruct A as [A1 [A2 A3]]. destruct B as [B1 [B2 B3]].
      split; [split; [exact A2|congruence]|]. left. exists j. rewrite IN. repeat split; auto; congruence. }
  assert (FF : Forall (inb st) (filter q all)).
  { apply Forall_forall. intros k Hk. apply filter_In in Hk. rewrite Forall_forall in F'. apply F', Hk. }
  split.
  { intros l. unfold lookupLabel.
    destruct (bsearch_all st (filter q all) l FF (SS_filter _ _ _ S')) as [r [ER HR]]. rewrite ER. cbn [rbind].
    destruct r as [k|].
    - destruct HR as [HK HL]. apply filter_In in HK. destruct HK as [HK HQ]. apply IN in HK. destruct HK as [HK NK].
      rewrite kindOf_ok by exact HK. cbn [rbind]. unfold q in HQ.
      destruct HK as [s Hs].
      assert (KS : knd st k = l_kind s) by (unfold knd; rewrite Hs; reflexivity).
      assert (LS : lab st k = l_label s) by (unfold lab; rewrite Hs; reflexivity).
      specialize (LO s). 
      assert (In s st) by (unfold lnth in Hs; destruct k; [discriminate|]; eapply nth_error_In; eassumption).
      specialize (LO H ltac:(rewrite <- LS; exact NK)). rewrite KS in HQ. rewrite KS.
      assert (AA : hasLabel st k l) by (apply hasLabel_lab; rewrite <- HL; repeat split; auto; exists s; exact Hs).
      destruct (l_kind s) eqn:KD; try discriminate; try contradiction; (exists (Some k); split; [reflexivity|]; split; [exact AA|exists s; auto]).
    - exists None. split; [reflexivity|]. intros k HA [s [Hs HT]]. apply hasLabel_lab in HA. destruct HA as [A1 [A2 A3]].
      apply (HR k); [|exact A3]. apply filter_In. split; [apply IN; split; [exact A2|congruence]|].
      unfold q, knd. rewrite Hs. destruct HT as [-> | ->]; reflexivity. }
  { induction tokens as [|t tokens IHt]; intros NT.
    - exists []. split; [reflexivity|]. intros t. simpl. tauto.
    - destruct IHt as [bad [EB HB]]; [intros t' Ht'; apply NT; right; exact Ht'|].
      cbn [tokenClash]. destruct (bsearch_all st all t F' S') as [r [ER HR]]. rewrite ER. cbn [rbind]. rewrite EB. cbn [rbind].
      eexists. split; [reflexivity|]. intros t'.
      assert (RT : (exists k, hasLabel st k t) <-> match r with Some _ => True | None => False end).
      { destruct r as [k|].
        - destruct HR as [H1 H2]. apply IN in H1. split; [tauto|]. intros _. exists k. apply hasLabel_lab.
          split; [apply NT; left; reflexivity|tauto].
        - split; [|tauto]. intros [k Hk]. apply hasLabel_lab in Hk. apply (HR k); [|tauto]. apply IN. split; [tauto|]. destruct Hk as [A [_ B]]. congruence. }
      destruct r; simpl; rewrite ?HB.
      + split; [intros [<-|[A B]]; [split; [left; reflexivity|apply RT; exact I]|tauto]|].
        intros [[<-|A] B]; [left; reflexivity|right; tauto].
      + split; [tauto|]. intros [[<-|A] B]; [apply RT in B; destruct B|tauto]. }
Qed.
