(* SqPack.v -- nmbrSquishProof and nmbrUnsquishProof preserve the proof tree. *)
From Verif Require Import Base VerModel ParModel SqModel SqSpec SqProofs.
Open Scope nat_scope.

Definition dumT : tree := Node 0 [].
Fixpoint expand (H : list tree) (t : tree) : tree :=
  match t with
  | Node z kids => if isRef z then nth (refOf z) H dumT else Node z (map (expand H) kids)
  end.
Definition refsBelow (m : nat) (p : list Z) : Prop :=
  forall z, In z p -> isRef z = true -> refOf z < m.

Lemma refsBelow_app m p q : refsBelow m (p ++ q) <-> refsBelow m p /\ refsBelow m q.
Proof.
  unfold refsBelow. split.
  - intros H. split; intros z Hz; apply H; apply in_or_app; auto.
  - intros [H1 H2] z Hz. apply in_app_or in Hz. destruct Hz; auto.
Qed.
Lemma refsBelow_le m n p : m <= n -> refsBelow m p -> refsBelow n p.
Proof. intros L H z Hz R. specialize (H z Hz R). lia. Qed.
Lemma refsBelow_firstn m n p : refsBelow m p -> refsBelow m (firstn n p).
Proof. intros H z Hz. apply H. rewrite <- (firstn_skipn n p). apply in_or_app; auto. Qed.
Lemma refsBelow_skipn m n p : refsBelow m p -> refsBelow m (skipn n p).
Proof. intros H z Hz. apply H. rewrite <- (firstn_skipn n p). apply in_or_app; auto. Qed.
Lemma refsBelow_kid m z kids k : refsBelow m (rpn (Node z kids)) -> In k kids -> refsBelow m (rpn k).
Proof.
  intros H Hk y Hy. apply H. simpl. apply in_or_app. left. apply in_flat_map. eauto.
Qed.

Lemma isRef_arity db z n : isRef z = true -> arity db z = Some n -> n = 0.
Proof.
  unfold isRef, arity. intros H. apply Z.leb_le in H.
  replace (z <? 0)%Z with true by (symmetry; apply Z.ltb_lt; lia). intros E. inversion E. reflexivity.
Qed.
Lemma isRef_arity0 db z : isRef z = true -> arity db z = Some 0.
Proof.
  unfold isRef, arity. intros H. apply Z.leb_le in H.
  replace (z <? 0)%Z with true by (symmetry; apply Z.ltb_lt; lia). reflexivity.
Qed.
Lemma isRef_zLoc i : isRef (zLoc (Z.of_nat i)) = true.
Proof. unfold isRef, zLoc. apply Z.leb_le. lia. Qed.
Lemma refOf_zLoc i : refOf (zLoc (Z.of_nat i)) = i.
Proof. unfold refOf, zLoc. lia. Qed.

Lemma expand_app H X t : refsBelow (length H) (rpn t) -> expand (H ++ X) t = expand H t.
Proof.
  induction t as [z kids IH] using tree_ind2. intros R. simpl.
  destruct (isRef z) eqn:E.
  - apply app_nth1. apply R; [simpl; apply in_or_app; right; left; reflexivity|exact E].
  - f_equal. apply map_ext_in. intros k Hk. rewrite Forall_forall in IH. apply IH; [exact Hk|].
    eapply refsBelow_kid; eassumption.
Qed.
Lemma map_expand_app H X ts : refsBelow (length H) (flat_map rpn ts) ->
  map (expand (H ++ X)) ts = map (expand H) ts.
Proof.
  intros R. apply map_ext_in. intros t Ht. apply expand_app. intros z Hz. apply R.
  apply in_flat_map. eauto.
Qed.
Lemma expand_noRefs H t : noRefs (rpn t) -> expand H t = t.
Proof.
  induction t as [z kids IH] using tree_ind2. intros R. simpl.
  rewrite (R z) by (simpl; apply in_or_app; right; left; reflexivity).
  f_equal. transitivity (map (fun x : tree => x) kids); [|apply map_id].
  apply map_ext_in. intros k Hk. rewrite Forall_forall in IH. apply IH; [exact Hk|].
  intros y Hy. apply R. simpl. apply in_or_app. left. apply in_flat_map. eauto.
Qed.

(* ---------- prun ---------- *)
Lemma prun_app db p : forall H S q,
  prun db H S (p ++ q) = match prun db H S p with Some (H', S') => prun db H' S' q | None => None end.
Proof.
  induction p as [|z p IH]; intros H S q; [reflexivity|]. simpl.
  destruct (isRef z).
  - destruct (nth_error H (refOf z)); [apply IH|reflexivity].
  - destruct (arity db z) as [n|]; [|reflexivity]. destruct (n <=? length S); [apply IH|reflexivity].
Qed.

Lemma prun_len db p : forall H S H' S', prun db H S p = Some (H', S') ->
  exists X, H' = H ++ X /\ length X = length p.
Proof.
  induction p as [|z p IH]; intros H S H' S' E; simpl in E.
  - inversion E; subst. exists []. rewrite app_nil_r. auto.
  - destruct (isRef z).
    + destruct (nth_error H (refOf z)) as [t|]; [|discriminate].
      apply IH in E. destruct E as [X [-> L]]. exists (t :: X). rewrite <- app_assoc. simpl. auto.
    + destruct (arity db z) as [n|]; [|discriminate]. destruct (n <=? length S); [|discriminate].
      apply IH in E. destruct E as [X [-> L]]. eexists (_ :: X). rewrite <- app_assoc. simpl. auto.
Qed.

Lemma prun_refs db p : forall H S H' S', prun db H S p = Some (H', S') ->
  forall k z, nth_error p k = Some z -> isRef z = true -> refOf z < length H + k.
Proof.
  induction p as [|y p IH]; intros H S H' S' E k z Hk R; [destruct k; discriminate|]. simpl in E.
  destruct (isRef y) eqn:Ry.
  - destruct (nth_error H (refOf y)) as [t|] eqn:N; [|discriminate].
    destruct k as [|k].
    + inversion Hk; subst. rewrite Nat.add_0_r. apply nth_error_Some. congruence.
    + pose proof (IH _ _ _ _ E k z Hk R) as B. rewrite app_length in B. simpl in B. lia.
  - destruct (arity db y) as [n|]; [|discriminate]. destruct (n <=? length S); [|discriminate].
    destruct k as [|k].
    + inversion Hk; subst. congruence.
    + pose proof (IH _ _ _ _ E k z Hk R) as B. rewrite app_length in B. simpl in B. lia.
Qed.

Lemma prun_agree db m p : forall H1 H2 S H1' S', refsBelow m p -> m <= length H1 -> m <= length H2 ->
  firstn m H1 = firstn m H2 ->
  prun db H1 S p = Some (H1', S') -> exists H2', prun db H2 S p = Some (H2', S').
Proof.
  induction p as [|z p IH]; intros H1 H2 S H1' S' R L1 L2 F E.
  - inversion E; subst. exists H2. reflexivity.
  - assert (Rp : refsBelow m p) by (intros y Hy; apply R; right; exact Hy).
    assert (FA : forall t, firstn m (H1 ++ [t]) = firstn m (H2 ++ [t])).
    { intros t. rewrite !firstn_app. replace (m - length H1) with 0 by lia.
      replace (m - length H2) with 0 by lia. rewrite F. reflexivity. }
    simpl in *. destruct (isRef z) eqn:Rz.
    + assert (B : refOf z < m) by (apply R; [left; reflexivity|exact Rz]).
      assert (N : nth_error H1 (refOf z) = nth_error H2 (refOf z)).
      { rewrite <- (firstn_skipn m H1), <- (firstn_skipn m H2), F.
        rewrite !nth_error_app1; [reflexivity| |]; rewrite firstn_length; lia. }
      rewrite <- N. destruct (nth_error H1 (refOf z)) as [t|]; [|discriminate].
      eapply IH; [exact Rp| | |apply FA|exact E]; rewrite app_length; lia.
    + destruct (arity db z) as [n|]; [|discriminate]. destruct (n <=? length S); [|discriminate].
      eapply IH; [exact Rp| | |apply FA|exact E]; rewrite app_length; lia.
Qed.

Lemma map_rev_firstn_expand H n sh :
  rev (firstn n (map (expand H) sh)) = map (expand H) (rev (firstn n sh)).
Proof. rewrite firstn_map, map_rev. reflexivity. Qed.

Lemma In_stk_flat (ts : list tree) z : In z (flat_map rpn ts) <-> In z (flat_map rpn (rev ts)).
Proof.
  rewrite !in_flat_map. split; intros [x [H1 H2]]; exists x; split; auto.
  - apply in_rev. rewrite rev_involutive. exact H1.
  - apply in_rev. exact H1.
Qed.

(* the tree run is the expansion of the shape run *)
Lemma prun_srun db p : forall H sh H' S',
  refsBelow (length H) (flat_map rpn sh) ->
  prun db H (map (expand H) sh) p = Some (H', S') ->
  exists sh', srun db sh p = Some sh' /\ S' = map (expand H') sh' /\
    refsBelow (length H') (flat_map rpn sh').
Proof.
  induction p as [|z p IH]; intros H sh H' S' R E.
  - inversion E; subst. exists sh. auto.
  - simpl in E. destruct (isRef z) eqn:Rz.
    + destruct (nth_error H (refOf z)) as [t|] eqn:N; [|discriminate].
      assert (B : refOf z < length H) by (apply nth_error_Some; congruence).
      specialize (IH (H ++ [t]) (Node z [] :: sh) H' S').
      simpl srun. rewrite (isRef_arity0 db z Rz). simpl.
      apply IH.
      * simpl. intros y [<-|Hy] Ry; rewrite app_length; simpl; [lia|]. specialize (R y Hy Ry). lia.
      * simpl. rewrite Rz. rewrite app_nth1 by exact B. rewrite (nth_error_nth _ _ _ N).
        rewrite map_expand_app by exact R. exact E.
    + simpl srun. destruct (arity db z) as [n|] eqn:A; [|discriminate].
      rewrite map_length in E. destruct (n <=? length sh) eqn:L; [|discriminate].
      rewrite map_rev_firstn_expand, skipn_map in E.
      set (t := Node z (map (expand H) (rev (firstn n sh)))) in *.
      specialize (IH (H ++ [t]) (Node z (rev (firstn n sh)) :: skipn n sh) H' S').
      assert (RF : refsBelow (length H) (flat_map rpn (rev (firstn n sh)))).
      { intros y Hy. apply R. apply In_stk_flat in Hy.
        rewrite <- (firstn_skipn n sh), flat_map_app. apply in_or_app. left. exact Hy. }
      assert (RS : refsBelow (length H) (flat_map rpn (skipn n sh))).
      { intros y Hy. apply R. rewrite <- (firstn_skipn n sh), flat_map_app. apply in_or_app. right. exact Hy. }
      apply IH.
      * simpl. apply refsBelow_le with (length H); [rewrite app_length; lia|].
        rewrite <- app_assoc. apply refsBelow_app. split; [exact RF|].
        intros y [<-|Hy] Ry; [congruence|]. apply RS; assumption.
      * simpl. rewrite Rz. rewrite !map_expand_app by assumption. exact E.
Qed.

(* running the RPN of a tree *)
Lemma prun_trees db kids :
  Forall (fun U => forall H, refsBelow (length H) (rpn U) ->
    exists X, length X = sz U /\
      forall S r, prun db H S (rpn U ++ r) = prun db (H ++ X) (expand H U :: S) r) kids ->
  forall H, refsBelow (length H) (flat_map rpn kids) ->
    exists X, length X = length (flat_map rpn kids) /\
      forall S r, prun db H S (flat_map rpn kids ++ r)
                  = prun db (H ++ X) (rev (map (expand H) kids) ++ S) r.
Proof.
  induction 1 as [|k kids Hk _ IH]; intros H R.
  - exists []. split; [reflexivity|]. intros. simpl. rewrite app_nil_r. reflexivity.
  - simpl in R. apply refsBelow_app in R. destruct R as [R1 R2].
    destruct (Hk H R1) as [X [LX EX]].
    destruct (IH (H ++ X)) as [Y [LY EY]].
    { eapply refsBelow_le; [|exact R2]. rewrite app_length. lia. }
    exists (X ++ Y). split; [simpl; rewrite !app_length; lia|].
    intros S r. simpl. rewrite <- app_assoc, EX, EY. rewrite <- app_assoc.
    rewrite map_expand_app by exact R2. rewrite <- app_assoc. reflexivity.
Qed.

Lemma prun_tree db U : wfTree db U -> forall H, refsBelow (length H) (rpn U) ->
  exists X, length X = sz U /\
    forall S r, prun db H S (rpn U ++ r) = prun db (H ++ X) (expand H U :: S) r.
Proof.
  induction U as [z kids IH] using tree_ind2. intros W H R. inversion W as [? ? A F]; subst.
  assert (K : Forall (fun U => forall H, refsBelow (length H) (rpn U) ->
    exists X, length X = sz U /\
      forall S r, prun db H S (rpn U ++ r) = prun db (H ++ X) (expand H U :: S) r) kids).
  { rewrite Forall_forall in *. intros x Hx. apply IH; auto. }
  assert (RK : refsBelow (length H) (flat_map rpn kids)).
  { simpl in R. apply refsBelow_app in R. tauto. }
  destruct (prun_trees db kids K H RK) as [X [LX EX]].
  destruct (isRef z) eqn:Rz.
  - assert (kids = []).
    { pose proof (isRef_arity db z _ Rz A) as E. destruct kids; [reflexivity|discriminate]. }
    subst kids. simpl in *.
    assert (B : refOf z < length H) by (apply R; [left; reflexivity|exact Rz]).
    exists [nth (refOf z) H dumT]. split; [reflexivity|]. intros S r. simpl. rewrite Rz.
    rewrite (nth_error_nth' H dumT B). reflexivity.
  - exists (X ++ [expand H (Node z kids)]). split; [simpl; rewrite !app_length; simpl; lia|].
    intros S r. simpl rpn. rewrite <- app_assoc, EX. simpl. rewrite Rz, A.
    rewrite app_length, rev_length, map_length.
    replace (length kids <=? length kids + length S) with true by (symmetry; apply Nat.leb_le; lia).
    assert (EL : length kids = length (rev (map (expand H) kids))) by (rewrite rev_length, map_length; reflexivity).
    rewrite EL at 1 2 3. rewrite firstn_app, skipn_app, Nat.sub_diag, firstn_all, skipn_all. simpl.
    rewrite app_nil_r, rev_involutive, <- app_assoc. reflexivity.
Qed.

Lemma prun_last db p z H S H' S' : prun db H S (p ++ [z]) = Some (H', S') ->
  exists x s h, S' = x :: s /\ H' = h ++ [x].
Proof.
  rewrite prun_app. destruct (prun db H S p) as [[H1 S1]|]; [|discriminate]. simpl.
  destruct (isRef z).
  - destruct (nth_error H1 (refOf z)); [|discriminate]. intros E. inversion E; subst. eauto.
  - destruct (arity db z) as [n|]; [|discriminate]. destruct (n <=? length S1); [|discriminate].
    intros E. inversion E; subst. eauto.
Qed.

(* ---------- nmbrInstr ---------- *)
Lemma isPrefix_spec s : forall l, isPrefix s l = true <-> exists r, l = s ++ r.
Proof.
  induction s as [|x s IH]; intros l; simpl.
  - split; [eauto|reflexivity].
  - destruct l as [|y l]; [split; [discriminate|intros [r Hr]; discriminate]|].
    rewrite andb_true_iff, Z.eqb_eq, IH. split.
    + intros [-> [r ->]]. exists r. reflexivity.
    + intros [r Hr]. inversion Hr; subst. eauto.
Qed.

Definition occursAt (s l : list Z) (i : nat) : Prop := exists a b, l = a ++ s ++ b /\ length a = i.

Lemma occursAt_prefix s l i : i <= length l -> (occursAt s l i <-> isPrefix s (skipn i l) = true).
Proof.
  intros Hi. rewrite isPrefix_spec. split.
  - intros [a [b [-> <-]]]. exists b. rewrite skipn_app, skipn_all, Nat.sub_diag. reflexivity.
  - intros [r Hr]. exists (firstn i l), r. split.
    + rewrite <- Hr, firstn_skipn. reflexivity.
    + rewrite firstn_length. lia.
Qed.

Lemma instrGo_spec s1 s2 : forall n i,
  match instrGo n i s1 s2 with
  | 0 => forall k, i <= k < i + n -> isPrefix s2 (skipn k s1) = false
  | S m => i <= m < i + n /\ isPrefix s2 (skipn m s1) = true /\
           forall k, i <= k < m -> isPrefix s2 (skipn k s1) = false
  end.
Proof.
  induction n as [|n IH]; intros i; simpl.
  - intros k Hk. lia.
  - destruct (isPrefix s2 (skipn i s1)) eqn:E.
    + split; [lia|]. split; [exact E|]. intros k Hk. lia.
    + specialize (IH (S i)). destruct (instrGo n (S i) s1 s2) as [|m].
      * intros k Hk. destruct (Nat.eq_dec k i) as [->|N]; [exact E|]. apply IH. lia.
      * destruct IH as [I1 [I2 I3]]. split; [lia|]. split; [exact I2|].
        intros k Hk. destruct (Nat.eq_dec k i) as [->|N]; [exact E|]. apply I3. lia.
Qed.

Lemma occursAt_bound s l i : occursAt s l i -> i + length s <= length l.
Proof. intros [a [b [-> <-]]]. rewrite !app_length. lia. Qed.

Lemma nmbrInstr_some start s1 s2 m : nmbrInstr start s1 s2 = S m ->
  start - 1 <= m /\ occursAt s2 s1 m /\ forall k, start - 1 <= k < m -> ~ occursAt s2 s1 k.
Proof.
  unfold nmbrInstr. intros H.
  pose proof (instrGo_spec s1 s2 (length s1 + 1 - length s2 - (start - 1)) (start - 1)) as P.
  rewrite H in P. destruct P as [P1 [P2 P3]]. split; [lia|]. split.
  - apply occursAt_prefix; [lia|exact P2].
  - intros k Hk O. apply occursAt_prefix in O; [|lia]. rewrite P3 in O by exact Hk. discriminate.
Qed.
Lemma nmbrInstr_none start s1 s2 : nmbrInstr start s1 s2 = 0 ->
  forall k, start - 1 <= k -> ~ occursAt s2 s1 k.
Proof.
  unfold nmbrInstr. intros H k Hk O.
  pose proof (instrGo_spec s1 s2 (length s1 + 1 - length s2 - (start - 1)) (start - 1)) as P.
  rewrite H in P. pose proof (occursAt_bound _ _ _ O) as B.
  apply occursAt_prefix in O; [|lia]. rewrite P in O by lia. discriminate.
Qed.

(* ---------- the match loop of nmbrSquishProof ---------- *)
Lemma firstn_app_exact {A} (a b : list A) : firstn (length a) (a ++ b) = a.
Proof. rewrite firstn_app, Nat.sub_diag, firstn_all. simpl. apply app_nil_r. Qed.
Lemma skipn_app_exact {A} (a b : list A) : skipn (length a) (a ++ b) = b.
Proof. rewrite skipn_app, Nat.sub_diag, skipn_all. reflexivity. Qed.

Lemma sqMatch_true : forall fuel a b n s y, sqMatch fuel a b n s true = Ok (y, false) -> False.
Proof.
  induction fuel as [|g IH]; intros a b n s y E; simpl in E; [discriminate|].
  destruct (nmbrInstr b n s); [inversion E|]. eapply IH; exact E.
Qed.

Lemma sqMatch_ok db t0 Q H1 S1 T U shN :
  wfTree db T -> 2 <= sz T ->
  srun db [] Q = Some (U :: shN) -> sz T <= sz U ->
  length H1 = length Q ->
  refsBelow (length Q) (rpn T) ->
  nth_error H1 (length Q - 1) = Some (expand H1 T) ->
  forall fuel start R found,
    length (Q ++ R) < fuel ->
    length Q + 3 <= start + sz T ->
    refsBelow (length Q) R ->
    (exists Hf, prun db H1 S1 R = Some (Hf, [t0])) ->
    (exists sh, srun db [] (Q ++ R) = Some sh) ->
    exists R' found',
      sqMatch fuel (length Q - 1) start (Q ++ R) (rpn T) found = Ok (Q ++ R', found') /\
      length R' <= length R /\
      refsBelow (length Q) R' /\
      (exists Hf, prun db H1 S1 R' = Some (Hf, [t0])) /\
      (found' = false -> R' = R) /\
      (forall z, In z R' -> In z R \/ z = zLoc (Z.of_nat (length Q - 1))).
Proof.
  intros W L2 SQ LU LH RT NX.
  assert (Qne : 1 <= length Q).
  { destruct Q; [|simpl; lia]. simpl in SQ. discriminate. }
  induction fuel as [|fuel IH]; intros start R found Hfuel Hstart RR [Hf PR] [sh SR]; [lia|].
  cbn [sqMatch].
  destruct (nmbrInstr start (Q ++ R) (rpn T)) as [|m] eqn:IN.
  - exists R, found. split; [reflexivity|]. split; [lia|]. split; [exact RR|].
    split; [eauto|]. split; [reflexivity|]. auto.
  - apply nmbrInstr_some in IN. destruct IN as [M1 [[a [b [EQ LA]]] _]].
    (* the match lies beyond Q *)
    assert (MQ : length Q <= m).
    { destruct (le_lt_dec (length Q) m) as [G|G]; [exact G|exfalso].
      (* j: how much of the match lies in Q *)
      assert (EQQ : Q = a ++ firstn (length Q - m) (rpn T)).
      { assert (E1 : firstn (length Q) (Q ++ R) = Q) by apply firstn_app_exact.
        rewrite EQ in E1. rewrite <- E1 at 1. rewrite firstn_app, LA.
        rewrite (firstn_all2 a) by lia. f_equal.
        rewrite firstn_app. replace (length Q - m - sz T) with 0 by lia. simpl. apply app_nil_r. }
      pose proof (srun_rpn db T W [] []) as ST. rewrite app_nil_r in ST. simpl in ST.
      rewrite <- (firstn_skipn (length Q - m) (rpn T)) in ST. rewrite srun_app in ST.
      destruct (srun db [] (firstn (length Q - m) (rpn T))) as [ts|] eqn:STS; [|discriminate].
      assert (SQ' := SQ). rewrite EQQ, srun_app in SQ'.
      destruct (srun db [] a) as [st0|] eqn:SA; [|discriminate].
      pose proof (srun_frame db _ [] ts st0 STS) as FR. simpl in FR. rewrite FR in SQ'.
      assert (TS : ts <> []).
      { eapply srun_nonempty; [exact STS|]. intros E. apply (f_equal (@length Z)) in E.
        rewrite firstn_length in E. simpl in E. lia. }
      destruct ts as [|U' ts]; [congruence|]. simpl in SQ'. inversion SQ'; subst U' shN.
      apply srun_top_cons in STS. destruct STS as [_ [_ E]].
      apply (f_equal (@length Z)) in E. rewrite firstn_length, app_length in E. lia. }
    (* split R *)
    assert (EA : exists A, a = Q ++ A /\ R = A ++ rpn T ++ b).
    { exists (skipn (length Q) a).
      assert (E1 : firstn (length Q) (Q ++ R) = Q) by apply firstn_app_exact.
      rewrite EQ in E1. rewrite firstn_app in E1. replace (length Q - length a) with 0 in E1 by lia.
      simpl in E1. rewrite app_nil_r in E1.
      split; [rewrite <- E1 at 1; symmetry; apply firstn_skipn|].
      assert (E2 : skipn (length Q) (Q ++ R) = R) by apply skipn_app_exact.
      rewrite EQ in E2. rewrite <- E2 at 1. rewrite skipn_app.
      replace (length Q - length a) with 0 by lia. reflexivity. }
    destruct EA as [A [Ea ER]].
    set (zr := zLoc (Z.of_nat (length Q - 1))).
    assert (EN : firstn m (Q ++ R) ++ [zr] ++ skipn (m + sz T) (Q ++ R) = Q ++ A ++ zr :: b).
    { rewrite EQ. rewrite <- LA. rewrite firstn_app_exact.
      assert (SK : skipn (length a + sz T) (a ++ rpn T ++ b) = b).
      { rewrite <- app_length, app_assoc. apply skipn_app_exact. }
      rewrite SK, Ea, <- app_assoc. reflexivity. }
    rewrite EN.
    (* runs *)
    rewrite ER in PR. rewrite prun_app in PR.
    destruct (prun db H1 S1 A) as [[H2 S2]|] eqn:PA; [|discriminate].
    destruct (prun_len db A H1 S1 H2 S2 PA) as [XA [EH2 LXA]].
    assert (RT2 : refsBelow (length H2) (rpn T)).
    { eapply refsBelow_le; [|exact RT]. rewrite EH2, app_length. lia. }
    destruct (prun_tree db T W H2 RT2) as [XT [LXT EXT]]. rewrite EXT in PR.
    assert (EE : expand H2 T = expand H1 T).
    { rewrite EH2. apply expand_app. rewrite LH. exact RT. }
    rewrite EE in PR.
    rewrite ER in RR. apply refsBelow_app in RR. destruct RR as [RA RR].
    apply refsBelow_app in RR. destruct RR as [_ RB].
    assert (PR' : exists Hf', prun db H1 S1 (A ++ zr :: b) = Some (Hf', [t0])).
    { rewrite prun_app, PA. simpl. unfold zr. rewrite isRef_zLoc, refOf_zLoc.
      rewrite EH2. rewrite nth_error_app1 by lia. rewrite NX. rewrite <- EH2.
      eapply prun_agree with (m := length Q); [exact RB| | | |exact PR].
      - rewrite EH2, !app_length. lia.
      - rewrite EH2, !app_length. lia.
      - rewrite EH2, <- !app_assoc. rewrite <- LH, !firstn_app_exact. reflexivity. }
    assert (SR' : exists sh', srun db [] (Q ++ A ++ zr :: b) = Some sh').
    { rewrite ER in SR. rewrite app_assoc in SR. rewrite srun_app in SR.
      rewrite app_assoc, srun_app. destruct (srun db [] (Q ++ A)) as [s|]; [|discriminate].
      rewrite srun_rpn in SR by exact W. simpl. rewrite (isRef_arity0 db zr) by apply isRef_zLoc. simpl.
      clear - SR. revert SR.
      assert (G : forall (b : list Z) s s' sh, length s = length s' -> srun db s b = Some sh ->
                  exists sh', srun db s' b = Some sh').
      { clear. induction b as [|y b IH]; intros s s' sh L E; simpl in *; [eauto|].
        destruct (arity db y) as [n|]; [|discriminate]. rewrite <- L.
        destruct (n <=? length s) eqn:LE; [|discriminate].
        eapply IH; [|exact E]. simpl. rewrite !skipn_length. lia. }
      intros E. eapply G; [|exact E]. reflexivity. }
    assert (RR' : refsBelow (length Q) (A ++ zr :: b)).
    { apply refsBelow_app. split; [exact RA|]. intros y [<-|Hy] Ry.
      - unfold zr. rewrite refOf_zLoc. lia.
      - apply RB; assumption. }
    assert (LL : length (A ++ zr :: b) < length R).
    { rewrite ER, !app_length. simpl. lia. }
    destruct (IH (S m + 2 - sz T) (A ++ zr :: b) true) as [R' [f' [E1 [E2 [E3 [E4 [E5 E6]]]]]]].
    + rewrite app_length in Hfuel. rewrite app_length. lia.
    + lia.
    + exact RR'.
    + exact PR'.
    + exact SR'.
    + exists R', f'. split; [exact E1|]. split; [lia|]. split; [exact E3|]. split; [exact E4|].
      split.
      * (* a found match is never forgotten *)
        intros ->. exfalso. clear - E1.
        assert (G := sqMatch_true).
        eapply G. exact E1.
      * intros z Hz. apply E6 in Hz. destruct Hz as [Hz|Hz]; [|auto].
        apply in_app_or in Hz. rewrite ER. destruct Hz as [Hz|[Hz|Hz]].
        -- left. apply in_or_app. auto.
        -- right. symmetry. exact Hz.
        -- left. apply in_or_app. right. apply in_or_app. auto.
Qed.

(* ---------- the outer loop ---------- *)
Definition szle (a b : tree) : Prop := sz a <= sz b.

Lemma Forall2_firstn {A B} (R : A -> B -> Prop) n a b : Forall2 R a b -> Forall2 R (firstn n a) (firstn n b).
Proof. intros H. revert n. induction H; intros [|n]; simpl; constructor; auto. Qed.
Lemma Forall2_skipn {A B} (R : A -> B -> Prop) n a b : Forall2 R a b -> Forall2 R (skipn n a) (skipn n b).
Proof. intros H. revert n. induction H; intros [|n]; simpl; auto. Qed.
Lemma Forall2_rev' {A B} (R : A -> B -> Prop) a b : Forall2 R a b -> Forall2 R (rev a) (rev b).
Proof. induction 1; simpl; [constructor|]. apply Forall2_app; auto. Qed.
Lemma Forall2_len {A B} (R : A -> B -> Prop) a b : Forall2 R a b -> length a = length b.
Proof. induction 1; simpl; congruence. Qed.
Lemma szle_flat a b : Forall2 szle a b -> length (flat_map rpn a) <= length (flat_map rpn b).
Proof. induction 1 as [|x y a b H _ IH]; simpl; [lia|]. rewrite !app_length. unfold szle in H. lia. Qed.

Lemma srun_step_le db z sh sh' shN : Forall2 szle sh shN -> srun db sh [z] = Some sh' ->
  exists shN', srun db shN [z] = Some shN' /\ Forall2 szle sh' shN'.
Proof.
  intros F E. simpl in *. destruct (arity db z) as [n|]; [|discriminate].
  rewrite <- (Forall2_len _ _ _ F). destruct (n <=? length sh); [|discriminate].
  inversion E; subst. eexists. split; [reflexivity|]. constructor.
  - unfold szle. rewrite !sz_node.
    pose proof (szle_flat _ _ (Forall2_rev' _ _ _ (Forall2_firstn _ n _ _ F))). lia.
  - apply Forall2_skipn, F.
Qed.

Lemma srun_forest db ts : Forall (wfTree db) ts -> srun db [] (flat_map rpn (rev ts)) = Some ts.
Proof.
  intros F. pose proof (srun_rpns db (rev ts)) as R.
  specialize (R ltac:(apply Forall_rev; eapply Forall_impl; [|exact F]; intros t Wt; apply srun_rpn, Wt) [] []).
  rewrite app_nil_r in R. rewrite R. simpl. rewrite app_nil_r, rev_involutive. reflexivity.
Qed.

(* an element that takes hypotheses *)
Definition inner (db : dbase) (y : Z) : Prop := (0 <= y)%Z /\ arity db y <> Some 0.
Definition refsOK (db : dbase) (p : list Z) : Prop :=
  forall z, In z p -> isRef z = true -> exists y, nth_error p (refOf z) = Some y /\ inner db y.

Lemma prun_srun0 db p H S : prun db [] [] p = Some (H, S) ->
  exists sh, srun db [] p = Some sh /\ S = map (expand H) sh /\ refsBelow (length H) (flat_map rpn sh).
Proof. intros E. apply (prun_srun db p [] [] H S); [intros z Hz; destruct Hz|exact E]. Qed.

Lemma sqLoop_ok db t0 : forall fuel Q DQ R H S sh shN,
  length R < fuel ->
  prun db [] [] Q = Some (H, S) ->
  (exists Hf, prun db H S R = Some (Hf, [t0])) ->
  srun db [] DQ = Some sh -> S = map (expand H) sh -> refsBelow (length Q) DQ ->
  srun db [] Q = Some shN -> Forall2 szle sh shN ->
  refsBelow (length Q) (Q ++ R) ->
  (forall z, In z (Q ++ R) -> isRef z = true -> exists y, nth_error Q (refOf z) = Some y /\ inner db y) ->
  exists p', sqLoop fuel db (length Q) (length DQ) (Q ++ R) (DQ ++ R) = Ok p' /\
    denotes db p' t0 /\ refsOK db p' /\ length p' <= length (Q ++ R).
Proof.
  induction fuel as [|fuel IH]; intros Q DQ R H S sh shN Hfuel PQ [Hf PR] SD ES RD SN FN RB RK; [lia|].
  cbn [sqLoop].
  destruct R as [|z R].
  - rewrite app_nil_r in *. rewrite Nat.ltb_irrefl. exists Q. split; [reflexivity|].
    simpl in PR. split; [exists Hf; rewrite PQ; exact PR|]. split; [|lia].
    intros z Hz Rz. apply RK; [exact Hz|exact Rz].
  - replace (length Q <? length (Q ++ z :: R)) with true
      by (symmetry; apply Nat.ltb_lt; rewrite app_length; simpl; lia).
    destruct (prun_len db Q [] [] H S PQ) as [XQ [EXQ LQ]]. simpl in EXQ. subst XQ.
    (* one step *)
    change (z :: R) with ([z] ++ R) in PR. rewrite prun_app in PR.
    destruct (prun db H S [z]) as [[H1 S1]|] eqn:PZ; [|discriminate].
    assert (LH1 : length H1 = length (Q ++ [z])).
    { destruct (prun_len db [z] H S H1 S1 PZ) as [X [-> LX]]. rewrite !app_length. simpl in *. lia. }
    pose proof (srun_top db DQ sh SD) as [WSH FSH].
    assert (RSH : refsBelow (length H) (flat_map rpn sh)).
    { rewrite LQ. intros y Hy. apply RD. rewrite <- FSH. apply In_stk_flat. rewrite rev_involutive.
      exact Hy. }
    destruct (prun_srun db [z] H sh H1 S1 RSH) as [sh' [SZ [ES1 RS1]]].
    { rewrite <- ES. exact PZ. }
    assert (SD1 : srun db [] (DQ ++ [z]) = Some sh') by (rewrite srun_app, SD; exact SZ).
    destruct sh' as [|T sh'].
    { exfalso. eapply srun_nonempty; [exact SD1| |reflexivity]. destruct DQ; discriminate. }
    destruct (srun_step_le db z sh (T :: sh') shN FN SZ) as [shN' [SN1 FN1]].
    inversion FN1 as [|? U ? shN'' LTU FN2]; subst shN'.
    assert (SQ1 : srun db [] (Q ++ [z]) = Some (U :: shN'')) by (rewrite srun_app, SN; exact SN1).
    assert (PQ1 : prun db [] [] (Q ++ [z]) = Some (H1, S1)) by (rewrite prun_app, PQ; exact PZ).
    assert (X1 : nth_error H1 (length (Q ++ [z]) - 1) = Some (expand H1 T)).
    { destruct (prun_last db Q z [] [] H1 S1 PQ1) as [xx [ss [h [E1 E2]]]].
      rewrite E1 in ES1. simpl in ES1. assert (Ex : xx = expand H1 T) by congruence. rewrite <- LH1, <- Ex, E2.
      rewrite app_length. simpl. rewrite nth_error_app2 by lia.
      replace (length h + 1 - 1 - length h) with 0 by lia. reflexivity. }
    pose proof (srun_top_cons db _ _ _ SD1) as [WT [WSH' ED1]].
    destruct (getSubproofLen_top db (DQ ++ [z]) sh' T R SD1) as [GS LT].
    rewrite <- app_assoc in GS. rewrite app_length in GS, LT. simpl in GS, LT.
    replace (length DQ + 1 - 1) with (length DQ) in GS by lia.
    rewrite GS. cbn [rbind].
    assert (RT : refsBelow (length (Q ++ [z])) (rpn T)).
    { rewrite <- LH1. intros y Hy. apply RS1. simpl. apply in_or_app. auto. }
    assert (RB1 : refsBelow (length (Q ++ [z])) ((Q ++ [z]) ++ R)).
    { rewrite <- app_assoc. eapply refsBelow_le; [|exact RB]. rewrite app_length. lia. }
    assert (RD1 : refsBelow (length (Q ++ [z])) (DQ ++ [z])).
    { apply refsBelow_app. split.
      - eapply refsBelow_le; [|exact RD]. rewrite app_length. lia.
      - intros y [<-|[]] Ry. eapply RB1; [|exact Ry]. apply in_or_app. left. apply in_or_app. right. left. reflexivity. }
    assert (RK1 : forall y, In y ((Q ++ [z]) ++ R) -> isRef y = true ->
              exists w, nth_error (Q ++ [z]) (refOf y) = Some w /\ inner db w).
    { rewrite <- app_assoc. intros y Hy Ry. destruct (RK y Hy Ry) as [w [N1 N2]]. exists w.
      split; [|exact N2]. rewrite nth_error_app1; [exact N1|]. apply nth_error_Some. congruence. }
    assert (EQ1 : Q ++ z :: R = (Q ++ [z]) ++ R) by (rewrite <- app_assoc; reflexivity).
    assert (ED : DQ ++ z :: R = (DQ ++ [z]) ++ R) by (rewrite <- app_assoc; reflexivity).
    assert (LL : forall (a : list Z) b, length (a ++ [b]) = Datatypes.S (length a)) by (intros; rewrite app_length; simpl; lia).
    rewrite EQ1, ED.
    destruct (sz T <=? 1) eqn:LE.
    + rewrite <- (LL Q z), <- (LL DQ z).
      eapply IH; [simpl in Hfuel; lia|exact PQ1|eexists; exact PR|exact SD1|exact ES1|exact RD1
                 |exact SQ1|exact FN1|exact RB1|exact RK1].
    + apply Nat.leb_gt in LE.
      assert (Zpos : inner db z).
      { simpl in SZ. destruct (arity db z) as [n|] eqn:AZ; [|discriminate].
        destruct (n <=? length sh); [|discriminate]. split.
        - apply arity_cases in AZ. destruct AZ as [[A1 A2]|[A1 _]]; [|exact A1]. subst n.
          assert (ET : T = Node z []) by (cbn in SZ; congruence). rewrite ET in LE. cbn in LE. lia.
        - intros E0. assert (n = 0) by congruence. subst n.
          assert (ET : T = Node z []) by (cbn in SZ; congruence). rewrite ET in LE. cbn in LE. lia. }
      set (F := flat_map rpn (rev sh')) in *.
      assert (LF : length DQ + 1 - sz T = length F).
      { apply (f_equal (@length Z)) in ED1. rewrite !app_length in ED1. simpl in ED1. lia. }
      assert (ESUB : firstn (sz T) (skipn (length DQ + 1 - sz T) ((DQ ++ [z]) ++ R)) = rpn T).
      { rewrite LF, ED1, <- app_assoc, skipn_app_exact, firstn_app_exact. reflexivity. }
      rewrite ESUB.
      destruct (sqMatch_ok db t0 (Q ++ [z]) H1 S1 T U shN'' WT ltac:(lia) SQ1 LTU LH1 RT X1
                  (Datatypes.S (length ((Q ++ [z]) ++ R))) (length Q + 2) R false)
        as [R' [found' [EM [LR' [RR' [PR' [EF INR]]]]]]].
      { lia. }
      { rewrite LL. lia. }
      { apply refsBelow_app in RB1. tauto. }
      { eexists; exact PR. }
      { assert (PT : prun db [] [] ((Q ++ [z]) ++ R) = Some (Hf, [t0])) by (rewrite prun_app, PQ1; exact PR).
        apply prun_srun0 in PT. destruct PT as [s [E _]]. eauto. }
      replace (length (Q ++ [z]) - 1) with (length Q) in EM by (rewrite LL; lia).
      rewrite EM. cbn [rbind].
      destruct found'.
      * assert (EFN : firstn (length DQ + 1 - sz T) ((DQ ++ [z]) ++ R) = F).
        { rewrite LF, ED1, <- app_assoc, firstn_app_exact. reflexivity. }
        rewrite EFN.
        assert (ESK : skipn (length Q + 1) ((Q ++ [z]) ++ R') = R').
        { rewrite <- (LL Q z) at 1 || idtac. replace (length Q + 1) with (length (Q ++ [z])) by (rewrite LL; lia).
          apply skipn_app_exact. }
        rewrite ESK, LF.
        set (zr := zLoc (Z.of_nat (length Q))).
        replace (F ++ [zr] ++ R') with ((F ++ [zr]) ++ R') by (rewrite <- app_assoc; reflexivity).
        rewrite <- (LL Q z), <- (LL F zr).
        destruct (IH (Q ++ [z]) (F ++ [zr]) R' H1 S1 (Node zr [] :: sh') (U :: shN''))
          as [p' [E1 [E2 [E3 E4]]]].
        -- simpl in Hfuel. lia.
        -- exact PQ1.
        -- exact PR'.
        -- rewrite srun_app. unfold F. rewrite srun_forest by exact WSH'. simpl.
           rewrite (isRef_arity0 db zr) by apply isRef_zLoc. reflexivity.
        -- rewrite ES1. simpl. unfold zr. rewrite isRef_zLoc, refOf_zLoc. f_equal.
           symmetry. apply nth_error_nth.
           rewrite LL in X1. simpl in X1. rewrite Nat.sub_0_r in X1. exact X1.
        -- apply refsBelow_app. split.
           ++ rewrite <- LH1. intros y Hy. apply RS1. simpl. apply in_or_app. right.
              apply In_stk_flat. exact Hy.
           ++ intros y [<-|[]] _. unfold zr. rewrite refOf_zLoc, LL. lia.
        -- exact SQ1.
        -- constructor; [|exact FN2]. unfold szle. simpl. apply sz_pos.
        -- apply refsBelow_app. split; [apply refsBelow_app in RB1; tauto|exact RR'].
        -- intros y Hy Ry. apply in_app_or in Hy. destruct Hy as [Hy|Hy].
           ++ apply RK1; [apply in_or_app; auto|exact Ry].
           ++ apply INR in Hy. destruct Hy as [Hy|Hy].
              ** apply RK1; [apply in_or_app; auto|exact Ry].
              ** subst y. rewrite refOf_zLoc. rewrite LL. simpl. rewrite Nat.sub_0_r.
                 exists z. split; [|exact Zpos]. rewrite nth_error_app2 by lia. rewrite Nat.sub_diag. reflexivity.
        -- exists p'. split; [exact E1|]. split; [exact E2|]. split; [exact E3|].
           rewrite app_length in *. lia.
      * rewrite (EF eq_refl). rewrite <- (LL Q z), <- (LL DQ z).
        eapply IH; [simpl in Hfuel; lia|exact PQ1|eexists; exact PR|exact SD1|exact ES1|exact RD1
                   |exact SQ1|exact FN1|exact RB1|exact RK1].
Qed.

Theorem squish_ok db t : wfTree db t -> noRefs (rpn t) ->
  exists q, squishProof db (rpn t) = Ok q /\ denotes db q t /\ refsOK db q /\ length q <= sz t.
Proof.
  intros W N. unfold squishProof.
  destruct (sqLoop_ok db t (S (sz t)) [] [] (rpn t) [] [] [] []) as [q Hq].
  - lia.
  - reflexivity.
  - assert (R0 : refsBelow 0 (rpn t)) by (intros z Hz Rz; rewrite (N z Hz) in Rz; discriminate).
    destruct (prun_tree db t W [] R0) as [X [LX EX]]. specialize (EX [] []).
    rewrite app_nil_r in EX. simpl in EX. exists X. rewrite EX.
    rewrite expand_noRefs by exact N. reflexivity.
  - reflexivity.
  - reflexivity.
  - intros z [].
  - reflexivity.
  - constructor.
  - simpl. intros z Hz Rz. rewrite (N z Hz) in Rz. discriminate.
  - simpl. intros z Hz Rz. rewrite (N z Hz) in Rz. discriminate.
  - exists q. exact Hq.
Qed.

(* ---------- nmbrUnsquishProof ---------- *)
Definition wgt (H : list tree) (z : Z) : nat :=
  if isRef z then 2 * sz (nth (refOf z) H dumT) else 1.
Definition wsum (H : list tree) (p : list Z) : nat := list_sum (map (wgt H) p).
Lemma wsum_app H p q : wsum H (p ++ q) = wsum H p + wsum H q.
Proof. unfold wsum. rewrite map_app, list_sum_app. reflexivity. Qed.
Lemma wsum_ext H H' p : (forall z, In z p -> isRef z = true -> nth (refOf z) H dumT = nth (refOf z) H' dumT) ->
  wsum H p = wsum H' p.
Proof.
  intros E. unfold wsum. f_equal. apply map_ext_in. intros z Hz. unfold wgt.
  destruct (isRef z) eqn:R; [|reflexivity]. rewrite (E z Hz R). reflexivity.
Qed.
Lemma wsum_appH H X p : refsBelow (length H) p -> wsum (H ++ X) p = wsum H p.
Proof. intros R. apply wsum_ext. intros z Hz Rz. apply app_nth1. apply R; assumption. Qed.

Lemma wsum_tree db H U : wfTree db U ->
  wsum H (rpn U) + (if isRef (rootOf U) then 0 else 1) <= 2 * sz (expand H U).
Proof.
  induction U as [z kids IH] using tree_ind2. intros W. inversion W as [? ? A F]; subst.
  simpl rpn. rewrite wsum_app. simpl rootOf.
  unfold wsum at 2. simpl list_sum. simpl expand. unfold wgt at 1.
  destruct (isRef z) eqn:R.
  - assert (kids = []).
    { pose proof (isRef_arity db z _ R A) as E. destruct kids; [reflexivity|discriminate]. }
    subst kids. unfold wsum. simpl. lia.
  - rewrite sz_node.
    assert (K : wsum H (flat_map rpn kids) <= 2 * length (flat_map rpn (map (expand H) kids))).
    { clear R A W. induction IH as [|k kids Hk _ IHk]; simpl; [unfold wsum; simpl; lia|].
      inversion F; subst. rewrite wsum_app, app_length. specialize (IHk H3). specialize (Hk H2).
      destruct (isRef (rootOf k)); lia. }
    lia.
Qed.

Definition refsNonref (p : list Z) : Prop :=
  forall z, In z p -> isRef z = true -> exists y, nth_error p (refOf z) = Some y /\ isRef y = false.

Lemma refOf_self z : isRef z = true -> zLoc (Z.of_nat (refOf z)) = z.
Proof. unfold isRef, refOf, zLoc. intros H. apply Z.leb_le in H. lia. Qed.

Lemma unsqLoop_ok db t : forall fuel A B H S,
  prun db [] [] A = Some (H, S) ->
  (exists Hf, prun db H S B = Some (Hf, [t])) ->
  noRefs B ->
  (forall z, In z A -> isRef z = true -> exists y, nth_error A (refOf z) = Some y /\ isRef y = false) ->
  wsum H A < fuel ->
  unsqLoop fuel db (length A) (A ++ B) = Ok (rpn t).
Proof.
  induction fuel as [|fuel IH]; intros A B H S PA [Hf PB] NB RA WF; [lia|].
  cbn [unsqLoop].
  destruct A as [|z A] using rev_ind.
  - simpl. f_equal. simpl in PA. inversion PA; subst.
    destruct (prun_srun0 db B Hf [t] PB) as [sh [S1 [S2 S3]]].
    destruct sh as [|U [|? ?]]; try discriminate.
    apply srun_top_cons in S1. destruct S1 as [WU [_ EB]]. simpl in EB. subst B.
    simpl in S2. inversion S2; subst t. rewrite expand_noRefs by exact NB. reflexivity.
  - clear IHA. rewrite app_length. simpl length. rewrite Nat.add_1_r.
    rewrite <- app_assoc. cbn [app].
    rewrite nth_error_app2 by lia. rewrite Nat.sub_diag. cbn [nth_error rget rbind].
    rewrite prun_app in PA. destruct (prun db [] [] A) as [[H0 S0]|] eqn:PA0; [|discriminate].
    destruct (prun_len db A [] [] H0 S0 PA0) as [XX [EXX LH0]]. simpl in EXX. subst XX.
    rewrite wsum_app in WF.
    assert (EH : exists x, H = H0 ++ [x]).
    { destruct (prun_len db [z] H0 S0 H S PA) as [X [-> LX]].
      destruct X as [|x [|? ?]]; simpl in LX; try lia. eauto. }
    destruct EH as [x EH].
    assert (RB0 : refsBelow (length H0) A).
    { intros y Hy Ry. apply In_nth_error in Hy. destruct Hy as [k Hk].
      pose proof (prun_refs db A [] [] H0 S0 PA0 k y Hk Ry). simpl in H1.
      assert (k < length A) by (apply nth_error_Some; congruence). lia. }
    assert (RA0 : forall y, In y A -> isRef y = true -> exists w, nth_error A (refOf y) = Some w /\ isRef w = false).
    { intros y Hy Ry. destruct (RA y (in_or_app _ _ _ (or_introl Hy)) Ry) as [w [N1 N2]].
      exists w. split; [|exact N2]. rewrite nth_error_app1 in N1; [exact N1|].
      rewrite <- LH0. apply RB0; assumption. }
    assert (W0 : wsum H A = wsum H0 A) by (rewrite EH; apply wsum_appH; exact RB0).
    destruct (isRef z) eqn:Rz.
    + (* a reference *)
      assert (Zb : (-1000 <? z)%Z = false).
      { unfold isRef in Rz. apply Z.leb_le in Rz. apply Z.ltb_ge. lia. }
      rewrite Zb. fold (refOf z).
      assert (Zr : refOf z < length A).
      { simpl in PA. rewrite Rz in PA. destruct (nth_error H0 (refOf z)) eqn:E; [|discriminate].
        rewrite <- LH0. apply nth_error_Some. congruence. }
      set (i := refOf z) in *.
      (* the subproof ending at step i *)
      set (P := firstn (Datatypes.S i) A).
      assert (EA : A = P ++ skipn (Datatypes.S i) A) by (symmetry; apply firstn_skipn).
      assert (LP : length P = Datatypes.S i) by (unfold P; rewrite firstn_length; lia).
      assert (PP : exists Hi Si Y, prun db [] [] P = Some (Hi, Si) /\ H0 = Hi ++ Y).
      { rewrite EA, prun_app in PA0. destruct (prun db [] [] P) as [[Hi Si]|]; [|discriminate].
        destruct (prun_len db _ Hi Si H0 S0 PA0) as [Y [EY _]]. exists Hi, Si, Y. auto. }
      destruct PP as [Hi [Si [Y [PP EY]]]].
      destruct (prun_len db P [] [] Hi Si PP) as [XX [EXX LHi]]. simpl in EXX. subst XX.
      destruct (prun_srun0 db P Hi Si PP) as [sh [SP [ESi RSi]]].
      destruct sh as [|U sh].
      { exfalso. eapply srun_nonempty; [exact SP| |reflexivity]. intros E. rewrite E in LP. discriminate. }
      pose proof (srun_top_cons db P U sh SP) as [WU [_ EP]].
      destruct (getSubproofLen_top db P sh U (skipn (Datatypes.S i) A ++ z :: B) SP) as [GS LU].
      rewrite app_assoc, <- EA in GS. rewrite LP in GS, LU.
      replace (Datatypes.S i - 1) with i in GS by lia. rewrite GS. cbn [rbind].
      assert (ESEG : firstn (sz U) (skipn (i + 1 - sz U) (A ++ z :: B)) = rpn U).
      { rewrite EA at 1. rewrite EP. rewrite <- !app_assoc.
        replace (i + 1 - sz U) with (length (flat_map rpn (rev sh))).
        - rewrite skipn_app_exact, firstn_app_exact. reflexivity.
        - apply (f_equal (@length Z)) in EP. rewrite app_length in EP. lia. }
      rewrite ESEG. rewrite firstn_app_exact.
      assert (ESK : skipn (Datatypes.S (length A)) (A ++ z :: B) = B).
      { replace (Datatypes.S (length A)) with (length (A ++ [z])) by (rewrite app_length; simpl; lia).
        replace (A ++ z :: B) with ((A ++ [z]) ++ B) by (rewrite <- app_assoc; reflexivity).
        apply skipn_app_exact. }
      rewrite ESK.
      (* the value of step i *)
      assert (Xi : nth_error H0 i = Some (expand H0 U)).
      { destruct (exists_last (l := P)) as [P' [p0 EP0]].
        { intros E. rewrite E in LP. discriminate. }
        assert (PP' := PP). rewrite EP0 in PP'.
        destruct (prun_last db P' p0 [] [] Hi Si PP') as [xx [ss [h [E1 E2]]]].
        rewrite ESi in E1. simpl in E1.
        assert (Exx : xx = expand Hi U) by congruence.
        assert (EX : expand H0 U = expand Hi U).
        { rewrite EY. apply expand_app. intros y Hy. apply RSi. simpl. apply in_or_app. auto. }
        rewrite EX, <- Exx, EY.
        assert (Lh : length h = i).
        { rewrite E2 in LHi. rewrite app_length in LHi. simpl in LHi. lia. }
        rewrite nth_error_app1 by (rewrite LHi, LP; lia). rewrite E2.
        rewrite nth_error_app2 by lia. rewrite Lh, Nat.sub_diag. reflexivity. }
      simpl in PA. rewrite Rz in PA. fold i in PA. rewrite Xi in PA.
      assert (EHS : H = H0 ++ [expand H0 U] /\ S = expand H0 U :: S0) by (inversion PA; auto).
      destruct EHS as [EH1 ES1].
      assert (RU : refsBelow (Datatypes.S i) (rpn U)).
      { intros y Hy Ry. rewrite <- LP, <- LHi. apply RSi; [|exact Ry]. simpl. apply in_or_app. auto. }
      (* split rpn U into its root and the rest *)
      destruct U as [zu kids] eqn:EU. simpl rpn.
      assert (Rzu : isRef zu = false).
      { destruct (RA z) as [y [N1 N2]]; [apply in_or_app; right; left; reflexivity|exact Rz|].
        fold i in N1. rewrite nth_error_app1 in N1 by exact Zr.
        rewrite EA in N1. rewrite nth_error_app1 in N1 by (rewrite LP; lia).
        rewrite EP in N1. simpl rpn in N1. rewrite app_assoc in N1.
        apply (f_equal (@length Z)) in EP. rewrite LP in EP. simpl rpn in EP. rewrite !app_length in EP. simpl in EP.
        rewrite nth_error_app2 in N1 by (rewrite app_length; lia).
        replace (i - length (flat_map rpn (rev sh) ++ flat_map rpn kids)) with 0 in N1
          by (rewrite app_length; lia).
        simpl in N1. inversion N1; subst. exact N2. }
      set (K := flat_map rpn kids) in *.
      replace (A ++ (K ++ [zu]) ++ B) with ((A ++ K) ++ (zu :: B)) by (rewrite <- !app_assoc; reflexivity).
      replace (length A + length (K ++ [zu]) - 1) with (length (A ++ K))
        by (rewrite !app_length; simpl; lia).
      (* run of the new prefix *)
      assert (RU0 : refsBelow (length H0) (rpn (Node zu kids))).
      { eapply refsBelow_le; [|exact RU]. lia. }
      destruct (prun_tree db (Node zu kids) WU H0 RU0) as [X [LX EX]].
      assert (PK : exists HK SK, prun db [] [] (A ++ K) = Some (HK, SK) /\
                 (exists Hf', prun db HK SK (zu :: B) = Some (Hf', [t])) /\ exists Z', HK = H0 ++ Z').
      { specialize (EX S0 B).
        assert (PB2 : exists Hf', prun db (H0 ++ X) (expand H0 (Node zu kids) :: S0) B = Some (Hf', [t])).
        { eapply prun_agree with (m := 0); [| | | |rewrite <- ES1; exact PB]; try lia; try reflexivity.
          intros y Hy Ry. rewrite (NB y Hy) in Ry. discriminate. }
        destruct PB2 as [Hf2 PB2]. rewrite PB2 in EX. simpl rpn in EX. fold K in EX.
        rewrite <- app_assoc, prun_app in EX.
        destruct (prun db H0 S0 K) as [[HK SK]|] eqn:PKK; [|discriminate].
        exists HK, SK. split; [rewrite prun_app, PA0; exact PKK|]. split; [eauto|].
        destruct (prun_len db K H0 S0 HK SK PKK) as [Z' [-> _]]. eauto. }
      destruct PK as [HK [SK [PK1 [PK2 [Z' EZ']]]]].
      assert (RK : refsBelow (length H0) K).
      { simpl rpn in RU0. apply refsBelow_app in RU0. tauto. }
      apply (IH (A ++ K) (zu :: B) HK SK PK1 PK2).
      * intros y [<-|Hy]; [exact Rzu|]. apply NB, Hy.
      * intros y Hy Ry. apply in_app_or in Hy. destruct Hy as [Hy|Hy].
        -- destruct (RA0 y Hy Ry) as [w [N1 N2]]. exists w. split; [|exact N2].
           rewrite nth_error_app1; [exact N1|]. apply nth_error_Some. congruence.
        -- assert (HyA : In y A).
           { rewrite EA, EP. apply in_or_app. left. apply in_or_app. right. simpl. apply in_or_app. left. exact Hy. }
           destruct (RA0 y HyA Ry) as [w [N1 N2]]. exists w. split; [|exact N2].
           rewrite nth_error_app1; [exact N1|]. apply nth_error_Some. congruence.
      * rewrite EZ', wsum_appH.
        -- rewrite wsum_app.
           pose proof (wsum_tree db H0 (Node zu kids) WU) as WT. simpl rootOf in WT. rewrite Rzu in WT.
           simpl rpn in WT at 1. rewrite wsum_app in WT. fold K in WT.
           assert (W1 : wsum H0 [zu] = 1) by (unfold wsum, wgt; simpl; rewrite Rzu; reflexivity).
           assert (W2 : wsum H [z] = 2 * sz (expand H0 (Node zu kids))).
           { unfold wsum. cbn [map list_sum fold_right]. unfold wgt. rewrite Rz. fold i.
             rewrite EH1. rewrite app_nth1 by (rewrite LH0; exact Zr).
             rewrite (nth_error_nth _ _ _ Xi). lia. }
           lia.
        -- apply refsBelow_app. split; assumption.
    + assert (Zb : (-1000 <? z)%Z = true).
      { unfold isRef in Rz. apply Z.leb_gt in Rz. apply Z.ltb_lt. lia. }
      rewrite Zb.
      apply (IH A (z :: B) H0 S0 PA0).
      * exists Hf. change (z :: B) with ([z] ++ B). rewrite prun_app, PA. exact PB.
      * intros y [<-|Hy]; [exact Rz|]. apply NB, Hy.
      * exact RA0.
      * rewrite W0 in WF.
        assert (W1 : wsum H [z] = 1) by (unfold wsum, wgt; simpl; rewrite Rz; reflexivity). lia.
Qed.

Theorem unsquish_ok db p t fuel : denotes db p t -> refsNonref p -> 2 * sz t < fuel ->
  unsquishProof fuel db p = Ok (rpn t).
Proof.
  intros [H D] R L. unfold unsquishProof.
  rewrite <- (app_nil_r p) at 2.
  apply (unsqLoop_ok db t fuel p [] H [t] D).
  - exists H. reflexivity.
  - intros z [].
  - exact R.
  - destruct (prun_srun0 db p H [t] D) as [sh [S1 [S2 _]]].
    destruct sh as [|U [|? ?]]; try discriminate.
    apply srun_top_cons in S1. destruct S1 as [WU [_ EB]]. simpl in EB. subst p.
    simpl in S2. inversion S2; subst t. pose proof (wsum_tree db H U WU). lia.
Qed.
