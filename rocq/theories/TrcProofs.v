(* TrcProofs.v -- lemmas about tracing. *)
From Coq Require Import Relations.
From Verif Require Import Base MMSpec VerModel VerSpec TokModel ParModel ParSpec SqModel SqSpec SqProofs SqPack
  SqAttr SqGood TrcModel TrcSpec.
Open Scope nat_scope.

(* ---------- small facts ---------- *)
Lemma setAt_len {A} k (x : A) l : length (setAt k x l) = length l.
Proof. revert k. induction l; intros [|k]; simpl; auto. Qed.
Lemma setAt_same {A} k (x : A) l : k < length l -> nth_error (setAt k x l) k = Some x.
Proof. revert k. induction l; intros [|k] H; simpl in *; try lia; auto. apply IHl. lia. Qed.
Lemma setAt_other {A} k j (x : A) l : j <> k -> nth_error (setAt k x l) j = nth_error l j.
Proof. revert k j. induction l; intros [|k] [|j] H; simpl in *; try lia; auto. Qed.

Lemma encStep_stm x m : encStep x = Z.of_nat m -> x = Stm m.
Proof.
  destruct x; cbn [encStep]; unfold zUnk, zLoc; intros H; try lia.
  apply Nat2Z.inj in H. subst. reflexivity.
Qed.
Lemma encStep_unk x : encStep x = zUnk -> x = Unk.
Proof. destruct x; cbn [encStep]; unfold zUnk, zLoc; intros H; try reflexivity; lia. Qed.

Lemma refersTo_ok e n m : refersTo (proofOf e n) m = true <->
  readable e n /\ In (Stm m) (pr_proof (t_parse e n)).
Proof.
  unfold refersTo, proofOf, readable. rewrite existsb_exists. split.
  - intros [z [H E]]. apply Z.eqb_eq in E. subst z. destruct (1 <? pr_k (t_parse e n)) eqn:K.
    + destruct H as [H|[]]. unfold zUnk in H. lia.
    + apply Nat.ltb_ge in K. split; [exact K|]. apply in_map_iff in H. destruct H as [x [E H]].
      apply encStep_stm in E. subst. exact H.
  - intros [K H]. apply Nat.ltb_ge in K. rewrite K. exists (Z.of_nat m). split; [|apply Z.eqb_refl].
    apply (in_map encStep) in H. exact H.
Qed.
Lemma refersTo_uses e n m : theorem e n -> (refersTo (proofOf e n) m = true <-> uses e n m).
Proof. intros T. rewrite refersTo_ok. unfold uses. tauto. Qed.

Lemma uses_lt e n m : wf_tenv e -> uses e n m -> m < n.
Proof.
  intros W [[st [S P]] [R I]]. destruct (gp_ref _ _ _ _ (wt_good _ W n st S P R) m I) as [sm [_ [[_ H]|[_ H]]]]; [exact H|].
  exact (wt_hyps _ W n st m S P H).
Qed.
Lemma dep_lt e n m : wf_tenv e -> dependsOn e n m -> m < n.
Proof. intros W H. induction H; [eapply uses_lt; eassumption|lia]. Qed.
Lemma dep_head e n m : dependsOn e n m -> exists y, uses e n y /\ (y = m \/ dependsOn e y m).
Proof.
  intros H. apply clos_trans_t1n in H. destruct H as [y H|y z H H'].
  - exists y. auto.
  - exists y. split; [exact H|]. right. apply clos_t1n_trans. exact H'.
Qed.
Lemma dep_theorem e n m : dependsOn e n m -> theorem e n.
Proof. intros H. apply dep_head in H. destruct H as [y [[T _] _]]. exact T. Qed.
Lemma theorem_bound e n : theorem e n -> n < length (db_stmts (t_db e)).
Proof. intros [st [S _]]. apply nth_error_Some. unfold stmtAt in S. congruence. Qed.

(* ---------- usage ---------- *)
Definition isP (st : stmtRec) : bool := match s_type st with S_p => true | _ => false end.

Lemma usage_rec e s : wf_tenv e -> forall cnt a lst, a + cnt <= length (db_stmts (t_db e)) ->
  (forall x, In x lst <-> x = s \/ (x < a /\ dependsOn e x s)) ->
  exists t, usageLoop e s true false (seq a cnt) lst (length lst) = Ok (lst ++ t) /\
    (forall x, In x (lst ++ t) <-> x = s \/ (x < a + cnt /\ dependsOn e x s)) /\
    (forall x, In x t -> a <= x).
Proof.
  intros W. induction cnt as [|cnt IH]; intros a lst HB HI; cbn [seq usageLoop].
  - exists []. rewrite app_nil_r. split; [reflexivity|]. split; [|intros ? []]. intros x. rewrite HI, Nat.add_0_r. tauto.
  - destruct (nth_error (db_stmts (t_db e)) a) as [st|] eqn:ES.
    2:{ apply nth_error_None in ES. lia. }
    cbn [rget rbind].
    assert (Stay : ~ dependsOn e a s -> exists t,
      usageLoop e s true false (seq (S a) cnt) lst (length lst) = Ok (lst ++ t) /\
      (forall x, In x (lst ++ t) <-> x = s \/ (x < a + S cnt /\ dependsOn e x s)) /\
      (forall x, In x t -> a <= x)).
    { intros ND. destruct (IH (S a) lst ltac:(lia)) as [t [A [B C]]].
      - intros x. rewrite HI. split; intros [H|[H1 H2]]; auto; right. split; auto; try lia.
        destruct (Nat.eq_dec x a) as [->|]; [contradiction|lia].
      - exists t. split; [exact A|]. split.
        + intros x. rewrite B. replace (S a + cnt) with (a + S cnt) by lia. tauto.
        + intros x H. specialize (C x H). lia. }
    destruct (s_type st) eqn:TY; try (apply Stay; intros D; apply dep_theorem in D; destruct D as [st' [S' P']];
      unfold stmtAt in S'; congruence).
    cbn [rbind negb]. rewrite firstn_all.
    assert (T : theorem e a) by (exists st; auto).
    destruct (existsb (refersTo (proofOf e a)) lst) eqn:EX.
    + apply existsb_exists in EX. destruct EX as [m [Hm RM]]. apply (refersTo_uses e a m T) in RM.
      assert (D : dependsOn e a s).
      { apply HI in Hm. destruct Hm as [->|[_ D]]; [apply t_step; exact RM|].
        eapply t_trans; [apply t_step; exact RM|exact D]. }
      destruct (IH (S a) (lst ++ [a]) ltac:(lia)) as [t [A [B C]]].
      { intros x. rewrite in_app_iff, HI. simpl. split.
        - intros [[H|[H1 H2]]|[H|[]]]; [left; exact H|right; split; [lia|exact H2]|subst x; right; split; [lia|exact D]].
        - intros [H|[H1 H2]]; auto. destruct (Nat.eq_dec x a) as [->|]; auto. left. right. split; [lia|exact H2]. }
      rewrite app_length in A. simpl in A. rewrite Nat.add_1_r in A.
      exists (a :: t). rewrite <- app_assoc in A. split; [exact A|]. rewrite <- app_assoc in B. split.
      * intros x. replace (a + S cnt) with (S a + cnt) by lia. exact (B x).
      * intros x [<-|H]; [lia|]. specialize (C x H). lia.
    + apply Stay. intros D. apply dep_head in D. destruct D as [y [U Y]].
      assert (L := uses_lt e a y W U).
      assert (I : In y lst). { apply HI. destruct Y; auto. }
      assert (existsb (refersTo (proofOf e a)) lst = true).
      { apply existsb_exists. exists y. split; [exact I|]. apply refersTo_uses; assumption. }
      congruence.
Qed.

Lemma usage_dir e s (ne : bool) : forall cnt a tl0, a + cnt <= length (db_stmts (t_db e)) ->
  (forall n, a <= n < a + cnt -> theorem e n -> exists b,
     (if ne then labelInText (t_name e s) (fst (t_text e n)) (snd (t_text e n)) else Ok true) = Ok b /\
     (uses e n s -> b = true)) ->
  exists t, usageLoop e s false ne (seq a cnt) (s :: tl0) 1 = Ok (s :: tl0 ++ t) /\
    forall x, In x t <-> a <= x < a + cnt /\ uses e x s.
Proof.
  induction cnt as [|cnt IH]; intros a tl0 HB HT; cbn [seq usageLoop].
  - exists []. rewrite app_nil_r. split; [reflexivity|]. intros x. simpl. lia.
  - destruct (nth_error (db_stmts (t_db e)) a) as [st|] eqn:ES.
    2:{ apply nth_error_None in ES. lia. }
    cbn [rget rbind].
    assert (Stay : ~ uses e a s -> exists t,
      usageLoop e s false ne (seq (S a) cnt) (s :: tl0) 1 = Ok (s :: tl0 ++ t) /\
      (forall x, In x t <-> a <= x < a + S cnt /\ uses e x s)).
    { intros NU. destruct (IH (S a) tl0 ltac:(lia)) as [t [A B]].
      - intros n Hn. apply HT. lia.
      - exists t. split; [exact A|]. intros x. rewrite B. split; intros [H1 H2]; split; auto; try lia.
        destruct (Nat.eq_dec x a) as [->|]; [contradiction|lia]. }
    destruct (s_type st) eqn:TY; try (apply Stay; intros [[st' [S' P']] _]; unfold stmtAt in S'; congruence).
    assert (T : theorem e a) by (exists st; auto).
    destruct (HT a ltac:(lia) T) as [b [Hb Hu]]. rewrite Hb. cbn [rbind].
    destruct b; cbn [negb].
    2:{ apply Stay. intros U. apply Hu in U. discriminate. }
    cbn [firstn existsb]. rewrite orb_false_r.
    destruct (refersTo (proofOf e a) s) eqn:RF.
    + apply (refersTo_uses e a s T) in RF.
      destruct (IH (S a) (tl0 ++ [a]) ltac:(lia)) as [t [A B]].
      { intros n Hn. apply HT. lia. }
      exists (a :: t). rewrite <- app_assoc in A. split; [exact A|].
      intros x. simpl. rewrite B. split.
      * intros [<-|[H1 H2]]; split; auto; lia.
      * intros [H1 H2]. destruct (Nat.eq_dec a x) as [->|]; auto. right. split; [lia|exact H2].
    + apply Stay. intros U. apply refersTo_uses in U; [congruence|exact T].
Qed.

Lemma usage_sound e s (ne : bool) : forall stmts tl0 lst, usageLoop e s false ne stmts (s :: tl0) 1 = Ok lst ->
  exists t, lst = s :: tl0 ++ t /\ forall x, In x t -> In x stmts /\ uses e x s.
Proof.
  induction stmts as [|a stmts IH]; intros tl0 lst H; cbn [usageLoop] in H.
  - apply Ok_inj in H. subst. exists []. rewrite app_nil_r. split; [reflexivity|intros ? []].
  - apply rbind_ok in H. destruct H as [st [ES H]].
    destruct (nth_error (db_stmts (t_db e)) a) as [st'|] eqn:ES'; [|discriminate]. cbn [rget] in ES.
    apply Ok_inj in ES. subst st'.
    assert (Stay : usageLoop e s false ne stmts (s :: tl0) 1 = Ok lst ->
      exists t, lst = s :: tl0 ++ t /\ forall x, In x t -> In x (a :: stmts) /\ uses e x s).
    { intros H1. destruct (IH _ _ H1) as [t [A B]]. exists t. split; [exact A|]. intros x Hx.
      destruct (B x Hx). split; [right|]; assumption. }
    destruct (s_type st) eqn:TY; try (apply Stay; exact H).
    apply rbind_ok in H. destruct H as [b [_ H]]. destruct b; cbn [negb] in H; [|apply Stay; exact H].
    cbn [firstn existsb] in H. rewrite orb_false_r in H.
    destruct (refersTo (proofOf e a) s) eqn:RF; [|apply Stay; exact H].
    apply refersTo_uses in RF; [|exists st; auto].
    destruct (IH (tl0 ++ [a]) lst H) as [t [A B]]. exists (a :: t). rewrite <- app_assoc in A. split; [exact A|].
    intros x [<-|Hx]; [split; [left; reflexivity|exact RF]|]. destruct (B x Hx). split; [right|]; assumption.
Qed.

Lemma markAll_ok db s : forall l fl, length fl = S (nstm db) ->
  (forall n, In n l -> s < n /\ n <= nstm db /\ exists st, nth_error (db_stmts db) n = Some st /\ s_type st = S_p) ->
  exists fl', markAll db s l fl = Ok fl' /\ length fl' = S (nstm db) /\
    forall n, (In n l -> nth_error fl' n = Some chY) /\ (~ In n l -> nth_error fl' n = nth_error fl n).
Proof.
  induction l as [|a l IH]; intros fl L H; cbn [markAll].
  - exists fl. split; [reflexivity|]. split; [exact L|]. intros n. split; [intros []|auto].
  - destruct (H a (or_introl eq_refl)) as [H1 [H2 [st [H3 H4]]]]. rewrite H3. cbn [rget rbind]. rewrite H4.
    replace (a <=? s) with false by (symmetry; apply Nat.leb_gt; lia).
    replace (nstm db <? a) with false by (symmetry; apply Nat.ltb_ge; lia). cbn [orb negb].
    destruct (IH (setAt a chY fl)) as [fl' [A [B C]]].
    + rewrite setAt_len. exact L.
    + intros n Hn. apply H. right. exact Hn.
    + exists fl'. split; [exact A|]. split; [exact B|]. intros n. destruct (C n) as [C1 C2]. split.
      * intros Hn. destruct (in_dec Nat.eq_dec n l) as [I|I]; [auto|].
        destruct Hn as [->|Hn]; [|contradiction]. rewrite C2 by exact I. apply setAt_same. lia.
      * intros Hn. rewrite C2 by (intros I; apply Hn; right; exact I). apply setAt_other.
        intros ->. apply Hn. left. reflexivity.
Qed.

Lemma nth_repeat_own {A} (x : A) k n : nth_error (repeat x k) n = if n <? k then Some x else None.
Proof.
  revert n. induction k; intros [|n]; simpl; auto. rewrite IHk. reflexivity.
Qed.

(* the flags computed from the list *)
Lemma flags_ok db s t : 0 < length (db_stmts db) ->
  (forall n, In n t -> s < n /\ n <= nstm db /\ exists st, nth_error (db_stmts db) n = Some st /\ s_type st = S_p) ->
  exists fl, markAll db s t (if 1 <? length (s :: t) then setAt 0 chY (repeat chN (S (nstm db))) else repeat chN (S (nstm db)))
    = Ok fl /\ length fl = S (nstm db) /\
    (forall n, n <= nstm db -> nth_error fl n = Some chY \/ nth_error fl n = Some chN) /\
    (forall n, 0 < n -> (marked fl n <-> In n t)) /\
    (marked fl 0 <-> t <> []).
Proof.
  intros HL H.
  set (f0 := if 1 <? length (s :: t) then _ else _).
  assert (L0 : length f0 = S (nstm db)).
  { unfold f0. destruct (1 <? length (s :: t)); rewrite ?setAt_len, repeat_length; reflexivity. }
  assert (N0 : forall n, 0 < n -> nth_error f0 n = nth_error (repeat chN (S (nstm db))) n).
  { intros n Hn. unfold f0. destruct (1 <? length (s :: t)); [|reflexivity]. apply setAt_other. lia. }
  assert (N1 : nth_error f0 0 = Some (if 1 <? length (s :: t) then chY else chN)).
  { unfold f0. destruct (1 <? length (s :: t)); reflexivity. }
  destruct (markAll_ok db s t f0 L0 H) as [fl [A [B C]]]. exists fl. split; [exact A|]. split; [exact B|].
  assert (NZ : ~ In 0 t) by (intros I; apply H in I; lia).
  split; [|split].
  - intros n Hn. destruct (C n) as [C1 C2]. destruct (in_dec Nat.eq_dec n t) as [I|I]; [left; auto|].
    rewrite C2 by exact I. destruct n as [|n].
    + rewrite N1. destruct (1 <? length (s :: t)); auto.
    + rewrite N0 by lia. rewrite nth_repeat_own. destruct (S n <? S (nstm db)) eqn:E; auto.
      apply Nat.ltb_ge in E. lia.
  - intros n Hn. destruct (C n) as [C1 C2]. split.
    + intros M. destruct (in_dec Nat.eq_dec n t) as [I|I]; [exact I|]. exfalso. unfold marked in M.
      rewrite C2, N0, nth_repeat_own in M by assumption. destruct (n <? S (nstm db)); discriminate.
    + intros I. exact (C1 I).
  - destruct (C 0) as [C1 C2]. unfold marked. rewrite (C2 NZ), N1. destruct t; simpl; split; intros Q; try discriminate; auto.
    contradiction Q; reflexivity.
Qed.

Lemma usage_recursive e s c : wf_tenv e -> s < length (db_stmts (t_db e)) -> c <= nstm (t_db e) ->
  exists fl, traceUsage e s true c = Ok fl /\ length fl = S (nstm (t_db e)) /\
    (forall n, n <= nstm (t_db e) -> nth_error fl n = Some chY \/ nth_error fl n = Some chN) /\
    (forall n, 0 < n -> (marked fl n <-> dependsOn e n s /\ (c = 0 \/ n <= c))) /\
    (marked fl 0 <-> exists n, dependsOn e n s /\ (c = 0 \/ n <= c)).
Proof.
  intros W HS HC. unfold traceUsage.
  destruct (nth_error (db_stmts (t_db e)) s) as [st|] eqn:ES. 2:{ apply nth_error_None in ES. lia. }
  cbn [rget rbind]. cbv zeta.
  replace (match s_type st with S_e | S_f => false | _ => negb true end) with false by (destruct (s_type st); reflexivity).
  set (c' := if c =? 0 then nstm (t_db e) else c).
  assert (HC' : c' <= nstm (t_db e)). { unfold c'. destruct (c =? 0); lia. }
  assert (CC : forall n, n <= nstm (t_db e) -> (n <= c' <-> c = 0 \/ n <= c)).
  { intros n Hn. unfold c'. destruct (c =? 0) eqn:E0.
    - apply Nat.eqb_eq in E0. split; auto.
    - apply Nat.eqb_neq in E0. split; [auto|]. intros [?|?]; [lia|assumption]. }
  assert (TB : forall n, dependsOn e n s -> n <= nstm (t_db e)).
  { intros n D. apply dep_theorem, theorem_bound in D. unfold nstm. lia. }
  destruct (Nat.le_gt_cases c' s) as [LE|GT].
  - replace (c' - s) with 0 by lia. cbn [seq usageLoop rbind tl].
    destruct (flags_ok (t_db e) s [] ltac:(lia)) as [fl [A [B [C [D E]]]]]; [intros ? []|].
    exists fl. split; [exact A|]. split; [exact B|]. split; [exact C|]. split.
    + intros n Hn. rewrite D by exact Hn. simpl. split; [intros []|]. intros [DP Q].
      assert (X := dep_lt _ _ _ W DP). apply CC in Q; [|apply TB, DP]. lia.
    + rewrite E. split; [intros Q; contradiction Q; reflexivity|]. intros [n [DP Q]].
      assert (X := dep_lt _ _ _ W DP). apply CC in Q; [|apply TB, DP]. lia.
  - destruct (usage_rec e s W (c' - s) (S s) [s]) as [t [A [B C]]].
    + unfold nstm in HC'. lia.
    + intros x. simpl. split.
      * intros [->|[]]. left; reflexivity.
      * intros [->|[H1 H2]]; [auto|]. apply dep_lt in H2; [lia|exact W].
    + change (length [s]) with 1 in A. rewrite A. cbn [rbind].
      change (([s] ++ t)) with (s :: t). cbn [tl].
      assert (TI : forall x, In x t <-> x <= c' /\ dependsOn e x s).
      { intros x. specialize (B x). simpl in B. split.
        - intros I. specialize (C x I). destruct (proj1 B (or_intror I)) as [E|[E1 E2]]; [lia|]. split; [lia|exact E2].
        - intros [H1 H2]. assert (X := dep_lt _ _ _ W H2).
          destruct (proj2 B) as [E|I]; [right; split; [lia|exact H2]|lia|exact I]. }
      destruct (flags_ok (t_db e) s t ltac:(lia)) as [fl [FA [FB [FC [FD FE]]]]].
      { intros n Hn. split; [specialize (C n Hn); lia|]. apply TI in Hn. destruct Hn as [_ Hn].
        split; [apply TB, Hn|]. apply dep_theorem in Hn. exact Hn. }
      exists fl. split; [exact FA|]. split; [exact FB|]. split; [exact FC|]. split.
      * intros n Hn. rewrite FD by exact Hn. rewrite TI. split; intros [H1 H2]; split; auto.
        -- apply CC; [apply TB, H2|exact H1].
        -- apply CC; [apply TB, H1|exact H2].
      * rewrite FE. split.
        -- intros N. destruct t as [|x t]; [contradiction N; reflexivity|]. exists x.
           destruct (proj1 (TI x) (or_introl eq_refl)) as [H1 H2]. split; [exact H2|]. apply CC; [apply TB, H2|exact H1].
        -- intros [n [D Q]] ->. apply (TI n). split; [apply CC; [apply TB, D|exact Q]|exact D].
Qed.

Lemma usage_direct e s c : wf_tenv e -> s < length (db_stmts (t_db e)) -> c <= nstm (t_db e) ->
  (forall st n, stmtAt (t_db e) s st -> ~ isHyp st -> theorem e n -> exists b,
     labelInText (t_name e s) (fst (t_text e n)) (snd (t_text e n)) = Ok b /\ (uses e n s -> b = true)) ->
  exists fl, traceUsage e s false c = Ok fl /\ length fl = S (nstm (t_db e)) /\
    (forall n, n <= nstm (t_db e) -> nth_error fl n = Some chY \/ nth_error fl n = Some chN) /\
    (forall n, 0 < n -> (marked fl n <-> uses e n s /\ (c = 0 \/ n <= c))) /\
    (marked fl 0 <-> exists n, uses e n s /\ (c = 0 \/ n <= c)).
Proof.
  intros W HS HC HT. unfold traceUsage.
  destruct (nth_error (db_stmts (t_db e)) s) as [st|] eqn:ES. 2:{ apply nth_error_None in ES. lia. }
  cbn [rget rbind]. cbv zeta.
  set (ne := match s_type st with S_e | S_f => false | _ => negb false end).
  set (c' := if c =? 0 then nstm (t_db e) else c).
  assert (HC' : c' <= nstm (t_db e)). { unfold c'. destruct (c =? 0); lia. }
  assert (CC : forall n, n <= nstm (t_db e) -> (n <= c' <-> c = 0 \/ n <= c)).
  { intros n Hn. unfold c'. destruct (c =? 0) eqn:E0.
    - apply Nat.eqb_eq in E0. split; auto.
    - apply Nat.eqb_neq in E0. split; [auto|]. intros [?|?]; [lia|assumption]. }
  assert (TB : forall n, uses e n s -> n <= nstm (t_db e)).
  { intros n [D _]. apply theorem_bound in D. unfold nstm. lia. }
  destruct (Nat.le_gt_cases c' s) as [LE|GT].
  - replace (c' - s) with 0 by lia. cbn [seq usageLoop rbind tl].
    destruct (flags_ok (t_db e) s [] ltac:(lia)) as [fl [A [B [C [D E]]]]]; [intros ? []|].
    exists fl. split; [exact A|]. split; [exact B|]. split; [exact C|]. split.
    + intros n Hn. rewrite D by exact Hn. simpl. split; [intros []|]. intros [DP Q].
      assert (X := uses_lt _ _ _ W DP). apply CC in Q; [|apply TB, DP]. lia.
    + rewrite E. split; [intros Q; contradiction Q; reflexivity|]. intros [n [DP Q]].
      assert (X := uses_lt _ _ _ W DP). apply CC in Q; [|apply TB, DP]. lia.
  - destruct (usage_dir e s ne (c' - s) (S s) []) as [t [A B]].
    + unfold nstm in HC'. lia.
    + intros n _ T. destruct ne eqn:NE; [|exists true; auto].
      apply (HT st n ES); [|exact T]. unfold ne in NE. intros [Q|Q]; rewrite Q in NE; discriminate.
    + rewrite A. cbn [rbind]. change (s :: [] ++ t) with (s :: t). cbn [tl].
      assert (TI : forall x, In x t <-> x <= c' /\ uses e x s).
      { intros x. rewrite B. split; intros [H1 H2]; split; auto; try lia.
        assert (X := uses_lt _ _ _ W H2). lia. }
      destruct (flags_ok (t_db e) s t ltac:(lia)) as [fl [FA [FB [FC [FD FE]]]]].
      { intros n Hn. apply B in Hn. destruct Hn as [Hn U]. split; [lia|]. split; [lia|]. destruct U as [T _]. exact T. }
      exists fl. split; [exact FA|]. split; [exact FB|]. split; [exact FC|]. split.
      * intros n Hn. rewrite FD by exact Hn. rewrite TI. split; intros [H1 H2]; split; auto.
        -- apply CC; [apply TB, H2|exact H1].
        -- apply CC; [apply TB, H1|exact H2].
      * rewrite FE. split.
        -- intros N. destruct t as [|x t]; [contradiction N; reflexivity|]. exists x.
           destruct (proj1 (TI x) (or_introl eq_refl)) as [H1 H2]. split; [exact H2|]. apply CC; [apply TB, H2|exact H1].
        -- intros [n [D Q]] ->. apply (TI n). split; [apply CC; [apply TB, D|exact Q]|exact D].
Qed.

Lemma markAll_length db s : forall l fl fl', markAll db s l fl = Ok fl' -> length fl' = length fl /\
  forall n, nth_error fl' n = Some chY -> nth_error fl n = Some chY \/ In n l.
Proof.
  induction l as [|a l IH]; intros fl fl' H; cbn [markAll] in H.
  - apply Ok_inj in H. subst. auto.
  - apply rbind_ok in H. destruct H as [st [_ H]]. destruct (_ || _); [discriminate|].
    apply IH in H. destruct H as [A B]. rewrite setAt_len in A. split; [exact A|]. intros n Hn.
    apply B in Hn. destruct Hn as [Hn|Hn]; [|right; right; exact Hn].
    destruct (Nat.eq_dec n a) as [->|N]; [right; left; reflexivity|]. rewrite setAt_other in Hn by exact N. auto.
Qed.
Lemma usage_direct_sound e s c fl : traceUsage e s false c = Ok fl ->
  forall n, 0 < n -> marked fl n -> uses e n s.
Proof.
  intros H n Hn M. unfold traceUsage in H. apply rbind_ok in H. destruct H as [st [_ H]]. cbv zeta in H.
  apply rbind_ok in H. destruct H as [lst [H1 H2]]. apply usage_sound in H1. destruct H1 as [t [-> T]].
  apply markAll_length in H2. destruct H2 as [_ H2]. apply H2 in M. destruct M as [M|M].
  - exfalso. assert (Q : nth_error (repeat chN (S (nstm (t_db e)))) n = Some chY).
    { destruct (1 <? _); [rewrite setAt_other in M by lia|]; exact M. }
    rewrite nth_repeat_own in Q. destruct (n <? _); discriminate.
  - simpl in M. apply T in M. tauto.
Qed.
