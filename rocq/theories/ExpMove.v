(* ExpMove.v -- proofs about ExpModel: the loop that moves subproofs ends, and what it leaves
   denotes the tree *)
From Coq Require Import ZifyBool ZifyNat Permutation.
From Verif Require Import Base VerModel VerSpec VerProofs TokModel ParModel SqModel SqSpec SqProofs SqAttr PfaProofs PfaMore CmpSpec ExpModel ExpSpec ExpProofs.
Open Scope nat_scope.

Lemma ff_none : forall p b, firstForward b p = None -> forall i z, nth_error p i = Some z -> isRef z = true -> refOf z <= b + i.
Proof.
  induction p as [|z0 p IH]; intros b H i z N R; [destruct i; discriminate N|]. cbn [firstForward] in H. destruct (isRef z0 && (b <? refOf z0)) eqn:E; [discriminate H|].
  destruct i as [|i]; cbn [nth_error] in N; [injection N as ->; rewrite R in E; cbn [andb] in E; lia|]. specialize (IH _ H i z N R). lia.
Qed.
Lemma ff_some : forall p b s k, firstForward b p = Some (s, k) ->
  exists i z, s = b + i /\ nth_error p i = Some z /\ isRef z = true /\ refOf z = k /\ s < k /\ forall j y, j < i -> nth_error p j = Some y -> isRef y = true -> refOf y <= b + j.
Proof.
  induction p as [|z0 p IH]; intros b s k H; [discriminate H|]. cbn [firstForward] in H. destruct (isRef z0 && (b <? refOf z0)) eqn:E.
  - injection H as <- <-. apply andb_true_iff in E. destruct E as [E1 E2]. exists 0, z0. split; [lia|]. split; [reflexivity|]. split; [exact E1|]. split; [reflexivity|]. split; [lia|]. intros j y L. lia.
  - destruct (IH _ _ _ H) as [i [z [A1 [A2 [A3 [A4 [A5 A6]]]]]]]. exists (S i), z. split; [lia|]. split; [exact A2|]. split; [exact A3|]. split; [exact A4|]. split; [exact A5|].
    intros j y L N R. destruct j as [|j]; cbn [nth_error] in N; [injection N as ->; rewrite R in E; cbn [andb] in E; lia|]. specialize (A6 j y ltac:(lia) N R). lia.
Qed.
Lemma f2_nth {A B} (R : A -> B -> Prop) l l' : Forall2 R l l' -> forall i y, nth_error l' i = Some y -> exists x, nth_error l i = Some x /\ R x y.
Proof. induction 1 as [|x y l l' H F IH]; intros i y0 N; [destruct i; discriminate N|]. destruct i as [|i]; cbn [nth_error] in *; [injection N as <-; eauto|apply IH; exact N]. Qed.
Lemma f2_nth' {A B} (R : A -> B -> Prop) l l' : Forall2 R l l' -> forall i x, nth_error l i = Some x -> exists y, nth_error l' i = Some y /\ R x y.
Proof. induction 1 as [|x y l l' H F IH]; intros i y0 N; [destruct i; discriminate N|]. destruct i as [|i]; cbn [nth_error] in *; [injection N as <-; eauto|apply IH; exact N]. Qed.

Section Loop.
  Variables (db : dbase) (hist : list tree) (T : tree).
  (* the references among the first s steps are to earlier steps *)
  Definition noFwd (L : list item) (s : nat) : Prop := forall i z o, i < s -> nth_error L i = Some (z, o) -> isRef z = true -> exists p, p <= i /\ nth_error (map snd L) p = Some (refOf z).

  Lemma noFwd_firstn L L' s : firstn s L' = firstn s L -> length L' = length L -> noFwd L s -> noFwd L' s.
  Proof.
    intros E LE H i z o LT N R. assert (X : forall j, j < s -> nth_error L' j = nth_error L j).
    { intros j LJ. rewrite <- (firstn_skipn s L'), <- (firstn_skipn s L), E. destruct (Nat.lt_ge_cases j (length (firstn s L))) as [Q|Q]; [rewrite !nth_error_app1 by exact Q; reflexivity|].
      rewrite firstn_length in Q. replace (skipn s L') with (@nil item) by (symmetry; apply skipn_all2; lia). replace (skipn s L) with (@nil item) by (symmetry; apply skipn_all2; lia). reflexivity. }
    rewrite (X i LT) in N. destruct (H i z o LT N R) as [p [P1 P2]]. exists p. split; [exact P1|]. rewrite nth_error_map in *. rewrite (X p) by lia. exact P2.
  Qed.

  Lemma move_loop : forall d b L q s, movable db hist T L -> concs L q -> noFwd L s -> length L - s <= d ->
    (forall z o v, nth_error L s = Some (z, o) -> isRef z = true -> nth_error hist o = Some v -> length (rpn v) < b) ->
    exists K L' q', (forall fuel, K <= fuel -> moveSubs fuel db q = Ok q') /\ movable db hist T L' /\ concs L' q' /\ firstForward 0 q' = None /\ Permutation L L'.
  Proof.
    induction d as [|d IHd]; intros b; induction b as [|b IHb]; intros L q s M C NF D B;
    (destruct (firstForward 0 q) as [[s' k]|] eqn:FF; [|exists 1, L, q; split; [intros [|fuel] LE; [lia|cbn [moveSubs]; rewrite FF; reflexivity]|]; split; [exact M|]; split; [exact C|]; split; [exact FF|apply Permutation_refl]]);
    destruct (ff_some _ _ _ _ FF) as [i [c [E1 [N1 [R1 [E2 [LT BEF]]]]]]]; cbn [Nat.add] in *; subst i; destruct (f2_nth _ _ _ C _ _ N1) as [[z o] [N2 W]];
    assert (SLT : s' < length L) by (apply nth_error_Some; congruence);
    unfold written in W; cbn [fst] in W; destruct (isRef z) eqn:RZ; try (subst c; congruence); destruct W as [p [NP EC]]; subst c; destruct (ref_zLoc p) as [_ RP]; rewrite RP in E2; subst p;
    assert (GE : s <= s') by (destruct (Nat.lt_ge_cases s' s) as [X|X]; [|exact X]; exfalso; destruct (NF _ _ _ X N2 RZ) as [p [P1 P2]]; pose proof (nth_uniq _ _ _ _ (mv_dist _ _ _ _ M) NP P2); lia);
    assert (NF' : noFwd L s') by (intros i z1 o1 LI NI RI; destruct (f2_nth' _ _ _ C _ _ NI) as [c1 [NC WC]]; unfold written in WC; cbn [fst] in WC; rewrite RI in WC; destruct WC as [p [P1 P2]]; exists p; split; [|exact P1];
      subst c1; destruct (ref_zLoc p) as [Y1 Y2]; specialize (BEF i _ LI NC Y1); lia);
    destruct (mv_refs _ _ _ _ M z o (nth_error_In _ _ N2) RZ) as [_z [v [_ [_ [HV _]]]]].
    - lia.
    - lia.
    - destruct (Nat.eq_dec s s') as [E|NE]; [subst s'; exfalso; specialize (B z o v N2 RZ HV); lia|].
      apply (IHd (S (length (rpn v))) L q s' M C NF'); [lia|]. intros z1 o1 v1 A1 A2 A3. rewrite N2 in A1. injection A1 as <- <-. rewrite HV in A3. injection A3 as <-. lia.
    - destruct (Nat.eq_dec s s') as [E|NE].
      + subst s'. destruct (move_one db hist T L q s z o k M C N2 RZ NP LT) as [L1 [q1 [MS [M1 [C1 [LL [F1 [SM PM]]]]]]]].
        destruct (IHb L1 q1 s M1 C1 (noFwd_firstn _ _ _ F1 LL NF)) as [K [L' [q' [G1 [G2 [G3 [G4 G5]]]]]]].
        * lia.
        * intros z1 o1 v1 A1 A2 A3. specialize (SM z1 o1 v v1 A1 A2 HV A3). specialize (B z o v N2 RZ HV). lia.
        * exists (S K), L', q'. split; [|split; [exact G2|split; [exact G3|split; [exact G4|exact (Permutation_trans PM G5)]]]]. intros [|fuel] LE; [lia|]. cbn [moveSubs]. rewrite FF, MS. cbn [rbind]. apply G1. lia.
      + apply (IHd (S (length (rpn v))) L q s' M C NF'); [lia|]. intros z1 o1 v1 A1 A2 A3. rewrite N2 in A1. injection A1 as <- <-. rewrite HV in A3. injection A3 as <-. lia.
  Qed.

  Lemma run_den L : movable db hist T L -> forall R D h s s' q, L = D ++ R -> arun db hist s R s' -> Forall2 (written L) R q ->
    Forall2 (fun x t => nth_error hist (snd x) = Some t) D h -> (forall i z, nth_error q i = Some z -> isRef z = true -> refOf z <= length D + i) ->
    exists h', prun db h s q = Some (h', s').
  Proof.
    intros M. induction R as [|[z o] R IH]; intros D h s s' q E RUN C HD FW.
    - inversion C; subst. inversion RUN; subst. exists h. reflexivity.
    - inversion C as [|x c l q' W C']; subst x l q. pose proof (f2_len _ _ _ HD) as LD.
      assert (STEP : forall t, nth_error hist o = Some t -> Forall2 (fun x t => nth_error hist (snd x) = Some t) (D ++ [(z, o)]) (h ++ [t])) by (intros t Ht; apply Forall2_app; [exact HD|constructor; [exact Ht|constructor]]).
      assert (FW' : forall i z0, nth_error q' i = Some z0 -> isRef z0 = true -> refOf z0 <= length (D ++ [(z, o)]) + i) by (intros i z0 N R0; specialize (FW (S i) z0 N R0); rewrite app_length; cbn [length]; lia).
      assert (E' : L = (D ++ [(z, o)]) ++ R) by (rewrite <- app_assoc; exact E).
      inversion RUN as [|z0 o0 v s0 r s'0 RZ N Q|z0 o0 kids s0 r s'0 RZ AR N Q]; subst; unfold written in W; cbn [fst] in W; rewrite RZ in W.
      + destruct W as [p [NP ->]]. destruct (ref_zLoc p) as [R1 R2]. cbn [prun]. rewrite R1, R2.
        assert (IN : In (z, o) (D ++ (z, o) :: R)) by (apply in_app_iff; right; left; reflexivity).
        destruct (mv_refs _ _ _ _ M z o IN RZ) as [z' [v' [I' [RZ' [H1 H2]]]]]. rewrite N in H1. injection H1 as <-.
        assert (LP : p <= length D) by (specialize (FW 0 _ eq_refl R1); rewrite R2 in FW; lia).
        assert (NE : p <> length D).
        { intros ->. rewrite map_app in NP. cbn [map] in NP. rewrite <- (map_length snd D), nth_mid in NP. injection NP as NP. cbn [snd] in NP. rewrite <- NP in I'. pose proof (snd_inj _ _ _ _ (mv_dist _ _ _ _ M) IN I'). congruence. }
        assert (HP : nth_error h p = Some v).
        { rewrite map_app, nth_error_app1 in NP by (rewrite map_length; lia). rewrite nth_error_map in NP. destruct (nth_error D p) as [[z1 o1]|] eqn:EP; [|discriminate NP]. cbn in NP. injection NP as ->. destruct (f2_nth' _ _ _ HD _ _ EP) as [t [A1 A2]]. cbn [snd] in A2. congruence. }
        rewrite HP. apply (IH (D ++ [(z, o)]) (h ++ [v]) (v :: s) s' q' E' Q C' (STEP _ N) FW').
      + subst c. cbn [prun]. rewrite RZ, AR. rewrite app_length, rev_length. replace (length kids <=? length kids + length s0) with true by lia. cbn zeta.
        replace (firstn (length kids) (rev kids ++ s0)) with (rev kids) by (rewrite <- (rev_length kids), firstn_app, firstn_all, Nat.sub_diag; cbn [firstn]; symmetry; apply app_nil_r).
        replace (skipn (length kids) (rev kids ++ s0)) with s0 by (rewrite <- (rev_length kids), skipn_app, skipn_all, Nat.sub_diag; reflexivity). rewrite rev_involutive.
        apply (IH (D ++ [(z, o)]) (h ++ [Node z kids]) (Node z kids :: s0) s' q' E' Q C' (STEP _ N) FW').
  Qed.

  Theorem move_den L q : movable db hist T L -> concs L q -> exists K q', (forall fuel, K <= fuel -> moveSubs fuel db q = Ok q') /\ denotes db q' T.
  Proof.
    intros M C. set (b := S (list_max (map (fun v => length (rpn v)) hist))).
    destruct (move_loop (length L) b L q 0 M C) as [K [L' [q' [G1 [G2 [G3 [G4 _]]]]]]].
    - intros i z o LI. lia.
    - lia.
    - intros z o v _ _ N. unfold b. assert (X : length (rpn v) <= list_max (map (fun v => length (rpn v)) hist)); [|lia].
      pose proof (proj1 (list_max_le (map (fun v => length (rpn v)) hist) _) (le_n _)) as X. rewrite Forall_forall in X. apply X. apply in_map_iff. exists v. split; [reflexivity|exact (nth_error_In _ _ N)].
    - exists K, q'. split; [exact G1|]. destruct (run_den L' G2 L' [] [] [] [T] q' eq_refl (mv_run _ _ _ _ G2) G3 (Forall2_nil _)) as [h' H']; [|exists h'; exact H'].
      intros i z N R. exact (ff_none _ _ G4 i z N R).
  Qed.
End Loop.
