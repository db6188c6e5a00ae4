(* ImpMain.v -- proofs about ImpModel: IMPROVE STEP, IMPROVE ALL, sessions *)
From Coq Require Import ZifyBool ZifyNat.
From Verif Require Import Base.
From Verif Require Import UniModel UniSpec HenModel HenProofs.
From Verif Require Import MMSpec VerModel VerSpec ParModel SqModel SqSpec SqProofs SqAttr SqValid TrcWork PfaModel PfaSpec PfaProofs PfaAssign PfaHist PfaProps FltModel FltSpec FltProofs FltProps FltVal RepSpec AkModel AkSpec AkProofs AkMain AkTop AkProps MinModel MinSpec VerProofs AuModel AuSpec AuProofs AuMain AuCmd AuTop AuAll AuInit AuSess ImpModel ImpSpec ImpProofs.
From Verif Require MwDisj.
Open Scope nat_scope.

Lemma splice_nth_iff {A} (l : list A) k n x i : k < length l -> n <= k + 1 ->
  nth_error (splice l k n x) i = if i <? k + 1 - n then nth_error l i else if i <? k + 1 - n + length x then nth_error x (i - (k + 1 - n)) else nth_error l (i + n - length x).
Proof.
  intros L N. rewrite splice_nth by exact L. destruct (i <? k + 1 - n) eqn:C1; [reflexivity|]. destruct (i <? k + 1 - n + length x) eqn:C2; [reflexivity|]. f_equal. lia.
Qed.

Section All.
  Variable E : fenv.
  Hypothesis AO : auOk E.
  Let FO := ao_flt E AO.
  Notation db := (f_db E).
  Notation mt := (u_mt (f_u E)).
  Variable m : list nat.
  Hypothesis HG : goal E m.
  Let GM : forall t, In t m -> t < db_sep db := proj2 HG.

  (* finished parts that are unified show their targets *)
  Lemma parts_prove s T : linked E m s T ->
    (forall k path u i t r, nodeAt T k path u -> finished u -> k + 1 - length (rpn u) <= i <= k -> nth_error (tg s) i = Some t -> nth_error (sr s) i = Some r -> r <> [] -> r = t) -> partsProve E s.
  Proof.
    intros LK U T' k p u t ET W N F QT. pose proof LK as [PO FI _ _ _ _]. pose proof (po_rpn _ _ _ PO) as EP. rewrite EP in ET.
    assert (NR : noRefs (rpn T')) by (rewrite ET; exact (po_norefs _ _ _ PO)).
    assert (T' = T). { apply (denotes_fun db (rpn T)); [rewrite <- ET; exact (rpn_denotes _ _ W NR)|exact (rpn_denotes _ _ (po_tree _ _ _ PO) (po_norefs _ _ _ PO))]. }
    subst T'. destruct (fits_node db T k p u N _ FI) as [a1 [au [a2 [EA [LA [FU _]]]]]]. pose proof (fits_len db u au FU) as LU. pose proof (sz_pos u) as SU. destruct (node_split _ _ _ _ N) as [sa [sb [_ SL]]].
    assert (AT : forall j q, nth_error au j = Some q -> nth_error (tg s) (length a1 + j) = Some (fst q) /\ nth_error (sr s) (length a1 + j) = Some (snd q)).
    { intros j q Q. assert (X : nth_error (combine (tg s) (sr s)) (length a1 + j) = Some q).
      { rewrite EA, nth_error_app2 by lia. replace (length a1 + j - length a1) with j by lia. rewrite nth_error_app1; [exact Q|]. apply nth_error_Some. congruence. }
      revert X. generalize (length a1 + j). generalize (sr s), (tg s). clear. intros b a. revert b. induction a as [|x a IH]; intros [|y b] [|i] X; try discriminate; cbn in *; [injection X as <-; auto|exact (IH b i X)]. }
    destruct (fits_shows E AO u au FU) as [y [H G]]; [|exact F|].
    - intros q I NE. apply In_nth_error in I. destruct I as [j Q]. destruct (AT j q Q) as [A1 A2]. assert (j < sz u) by (rewrite <- LU; apply nth_error_Some; congruence).
      apply (U k p u (length a1 + j) _ _ N F); [fold (sz u); lia|exact A1|exact A2|exact NE].
    - exists y. split; [|exact H]. rewrite <- G. unfold goalOf. destruct au as [|q au _] using rev_ind; [cbn in LU; lia|]. rewrite last_last. rewrite app_length in LU. cbn in LU.
      destruct (AT (length au) q) as [A1 _]; [rewrite nth_error_app2, Nat.sub_diag by lia; reflexivity|]. replace (length a1 + length au) with k in A1 by lia. congruence.
  Qed.
  Lemma unified_prove s T : linked E m s T -> unified3 s -> partsProve E s.
  Proof.
    intros LK U. apply (parts_prove s T LK). intros k path u i t r N F L QT QR NE. pose proof (lk_pip _ _ _ _ LK) as PO.
    destruct (nth_error (us s) i) as [x|] eqn:Q; [exact (proj1 (U i t r x QT QR Q) NE)|]. exfalso. apply nth_error_None in Q. assert (i < length (tg s)) by (apply nth_error_Some; congruence). rewrite (po_us _ _ _ PO) in Q. rewrite (po_tg _ _ _ PO) in *. lia.
  Qed.
  Lemma fresh_unified s T k path u v y s' T' : linked E m s T -> nodeAt T k path u -> shows db anything v y -> nth_error (tg s) k = Some (toZ y) -> fresh E m s k u v y s' true T' -> unified3 s -> unified3 s'.
  Proof.
    intros LK N SH QT [_ [EU FR]] U. destruct (FR eq_refl) as [_ [ts [rs [LT [LS [ET [ES [LA [LB ND]]]]]]]]]. pose proof (lk_pip _ _ _ _ LK) as PO. pose proof (sz_pos u) as SU. pose proof (sz_pos v) as SV.
    pose proof (nodeAt_bound _ _ _ _ N) as BN. assert (LP : k < length (pf s)) by (rewrite (po_rpn _ _ _ PO); exact BN). destruct (node_split _ _ _ _ N) as [sa [sb [_ SL]]].
    assert (L1 : k < length (tg s)) by (rewrite (po_tg _ _ _ PO); exact LP). assert (L2 : k < length (sr s)) by (rewrite (po_sr _ _ _ PO); exact LP). assert (L3 : k < length (us s)) by (rewrite (po_us _ _ _ PO); exact LP).
    assert (LU : length (repeat (@nil Z) (sz v - 1) ++ [nth k (us s) []]) = sz v) by (rewrite app_length, repeat_length; cbn; lia).
    intros i t r x. rewrite ET, ES, EU, !splice_nth_iff by lia. rewrite LT, LS, LU. destruct (i <? k + 1 - sz u) eqn:C1; [exact (U i t r x)|]. destruct (i <? k + 1 - sz u + sz v) eqn:C2; [|exact (U _ t r x)].
    set (j := i - (k + 1 - sz u)). assert (LJ : j < sz v) by (unfold j; lia). clearbody j. destruct (nodeAt_total v j LJ) as [p [w NW]]. destruct (sub_shows db anything v j p w NW y SH) as [z SW]. destruct (ND j p w z NW SW) as [R1 T1].
    intros Q1 Q2 Q3. rewrite R1 in Q2. injection Q2 as <-. destruct (Nat.eq_dec j (sz v - 1)) as [->|NE].
    - assert (z = y). { assert (w = v) by (exact (proj2 (nodeAt_unique _ _ _ _ NW _ _ (na_root v)))). subst w. exact (shows_det E None FO anything anything v z y SW SH). } subst z.
      assert (t = toZ y). { destruct ts as [|a l _] using rev_ind; [cbn in LT; lia|]. rewrite last_last in LA. rewrite app_length in LT. cbn in LT. rewrite nth_error_app2 in Q1 by lia. replace (sz v - 1 - length l) with 0 in Q1 by lia. injection Q1 as <-. rewrite LA. exact (nth_error_nth _ _ _ QT). } subst t.
      split; [reflexivity|]. rewrite nth_error_app2 in Q3 by (rewrite repeat_length; lia). rewrite repeat_length, Nat.sub_diag in Q3. injection Q3 as <-. intros NX.
      destruct (nth_error (sr s) k) as [r0|] eqn:QR; [|apply nth_error_None in QR; lia]. destruct (nth_error (us s) k) as [u0|] eqn:QU; [|apply nth_error_None in QU; lia].
      rewrite (nth_error_nth _ _ _ QU) in *. exact (proj2 (U k _ _ _ QT QR QU) NX).
    - rewrite (T1 ltac:(lia)) in Q1. injection Q1 as <-. split; [reflexivity|]. rewrite nth_error_app1 in Q3 by (rewrite repeat_length; lia). rewrite nth_error_repeat in Q3 by lia. injection Q3 as <-. congruence.
  Qed.
  Lemma fresh_improved s T k path u v y s' T' : linked E m s T -> nodeAt T k path u -> ~ finished u -> noUnknowns db y -> shows db anything v y -> nth_error (tg s) k = Some (toZ y) -> fresh E m s k u v y s' true T' -> improved E s k u v y s'.
  Proof.
    intros LK N F NU SH QT [EP [EU FR]]. destruct (FR eq_refl) as [_ [ts [rs [LT [LS [ET [ES [LA [LB ND]]]]]]]]]. constructor; [exact F|exact QT|exact NU|exact SH|exact EP| | |exact EU].
    - exists ts. split; [exact LT|]. split; [exact ET|]. rewrite LA. exact (nth_error_nth _ _ _ QT).
    - exists rs. auto.
  Qed.

  (* IMPROVE STEP *)
  Lemma step_improves o s dv n T : linked E m s T -> partsProve E s -> exists ok K,
    (ok = true -> exists x' b T', (forall fuel, K <= fuel -> improveStep fuel E o (s, dv) n = Ok (x', b, true)) /\ linked E m (fst x') T' /\ (b = true -> done (fst x')) /\
       (b = true -> ~ In zUnk (pf (fst x')))) /\
    (ok = false -> forall fuel x' b ok', K <= fuel -> improveStep fuel E o (s, dv) n = Ok (x', b, ok') -> ok' = false) /\ (plainDb E -> ok = true).
  Proof.
    intros LK PP. unfold improveStep. destruct (negb _) eqn:R.
    { exists true, 0. split; [|split; [discriminate|reflexivity]]. intros _. exists (s, dv), false, T. split; [reflexivity|]. split; [exact LK|]. split; discriminate. }
    destruct (at_ok E AO m HG o s T (n - 1) dv LK PP ltac:(lia)) as [r [K1 [H1 [path [u [N A]]]]]]. destruct r as [[s' b]|].
    - destruct A as [y [v [T' [F [QT [NU [PV [SH [PU [FR PL]]]]]]]]]]. exists b. destruct b.
      + destruct FR as [EP [EU FR]]. destruct (FR eq_refl) as [LK' _]. destruct (auto1_ok E AO m GM s' dv T' LK') as [s2 [c [K2 [H2 [LK2 [_ D2]]]]]]. exists (K1 + K2). split; [|split; [discriminate|reflexivity]]. intros _.
        exists (s2, dv), c, T'. split; [intros fuel L; rewrite (H1 fuel) by lia; cbn [rbind]; rewrite (H2 fuel) by lia; reflexivity|]. split; [exact LK2|]. split; [exact D2|]. intros C. exact (proj2 (D2 C)).
      + exists K1. split; [discriminate|]. split; [|exact PL]. intros _ fuel x' c ok' L Q. rewrite (H1 fuel L) in Q. cbn [rbind] in Q. destruct (auto1 fuel E s' dv) as [q| | |]; cbn [rbind] in Q; try discriminate Q. injection Q as _ <-. reflexivity.
    - exists true, K1. split; [|split; [discriminate|reflexivity]]. intros _. exists (s, dv), false, T. split; [intros fuel L; rewrite (H1 fuel L); reflexivity|]. split; [exact LK|]. split; discriminate.
  Qed.

  (* IMPROVE ALL *)
  Lemma pass_ok (PLAIN : plainDb E) o dv : forall w e s T, linked E m s T -> unified3 s -> e <= length (pf s) -> e <= w ->
    exists s' ch T' K, (forall fuel, K <= fuel -> improvePass w fuel E o s dv e = Ok (s', ch, true)) /\ linked E m s' T' /\ unified3 s' /\ (ch = false -> s' = s).
  Proof.
    induction w as [|w IH]; intros e s T LK U LE LW.
    { assert (e = 0) by lia. subst e. exists s, false, T, 0. auto. }
    destruct e as [|k]; [exists s, false, T, 0; auto|]. pose proof (lk_pip _ _ _ _ LK) as PO. assert (L : k < length (pf s)) by lia.
    destruct (nth_error (pf s) k) as [z|] eqn:QZ; [|apply nth_error_None in QZ; lia]. destruct (nth_error (tg s) k) as [t|] eqn:QT; [|apply nth_error_None in QT; rewrite (po_tg _ _ _ PO) in QT; lia].
    destruct (nth_error (sr s) k) as [r|] eqn:QR; [|apply nth_error_None in QR; rewrite (po_sr _ _ _ PO) in QR; lia].
    destruct (IH k s T LK U ltac:(lia) ltac:(lia)) as [s0 [ch0 [T0 [K0 [H0 R0]]]]].
    assert (HEAD : forall fuel, improvePass (S w) fuel E o s dv (S k) = if negb (z =? zUnk)%Z && strEqb t r then improvePass w fuel E o s dv k
          else do q <- subproofLen db (pf s) k; if (z =? zUnk)%Z && negb (q =? 1) then Bug 1120 else do a <- improveAt fuel E o s dv k;
              match a with None => improvePass w fuel E o s dv k | Some (s', ok) => do b <- improvePass w fuel E o s' dv (S k - q); Ok (fst (fst b), true, ok && snd b) end).
    { intros fuel. cbn [improvePass]. unfold get. rewrite QZ, QT, QR. reflexivity. }
    destruct (negb (z =? zUnk)%Z && strEqb t r) eqn:SK; [exists s0, ch0, T0, K0; split; [intros fuel LF; rewrite HEAD; exact (H0 fuel LF)|exact R0]|].
    destruct (at_ok E AO m HG o s T k dv LK (unified_prove s T LK U) L) as [a [K1 [H1 [path [u [N A]]]]]]. pose proof (sz_pos u) as SU. destruct (node_split _ _ _ _ N) as [sa [sb [_ SL]]].
    assert (Q : subproofLen db (pf s) k = Ok (sz u)) by (rewrite (po_rpn _ _ _ PO); exact (subLen_node db T k path u (po_tree _ _ _ PO) N)).
    assert (UK : (z =? zUnk)%Z && negb (sz u =? 1) = false).
    { destruct (z =? zUnk)%Z eqn:ZU; [|reflexivity]. assert (z = zUnk) by lia. subst z. destruct (unk_node db s T k PO QZ) as [p' N']. rewrite (proj2 (nodeAt_unique _ _ _ _ N _ _ N')). reflexivity. }
    destruct a as [[s1 b]|].
    - destruct A as [y [v [T1 [F [QT' [NU [PV [SH [PU [FR PL]]]]]]]]]]. assert (b = true) by exact (PL PLAIN). subst b.
      pose proof (fresh_unified s T k path u v y s1 T1 LK N SH QT' FR U) as U1. pose proof FR as [EP [_ FR']]. destruct (FR' eq_refl) as [LK1 _].
      assert (LN : S k - sz u <= length (pf s1)) by (rewrite EP, splice_len by exact L; lia).
      destruct (IH (S k - sz u) s1 T1 LK1 U1 LN ltac:(lia)) as [s2 [ch2 [T2 [K2 [H2 [LK2 [U2 _]]]]]]]. exists s2, true, T2, (K1 + K2). split.
      + intros fuel LF. rewrite HEAD, Q. cbn [rbind]. rewrite UK, (H1 fuel) by lia. cbn [rbind]. rewrite (H2 fuel) by lia. reflexivity.
      + split; [exact LK2|]. split; [exact U2|discriminate].
    - exists s0, ch0, T0, (K0 + K1). split; [|exact R0]. intros fuel LF. rewrite HEAD, Q. cbn [rbind]. rewrite UK, (H1 fuel) by lia. cbn [rbind]. apply H0. lia.
  Qed.
  Lemma all_improves (PLAIN : plainDb E) o s dv T : linked E m s T -> unified3 s -> In zUnk (pf s) ->
    exists s' b T' K, (forall fuel, K <= fuel -> improveAll fuel E o (s, dv) = Ok (s', dv, b, true)) /\ linked E m s' T' /\ unified3 s' /\ (b = true <-> ~ In zUnk (pf s')).
  Proof.
    intros LK U IU. assert (X : existsb (Z.eqb zUnk) (pf s) = true) by (apply unk_in; exact IU).
    destruct (pass_ok PLAIN o dv (length (pf s)) (length (pf s)) s T LK U (le_n _) (le_n _)) as [s1 [ch [T1 [K1 [H1 [LK1 [U1 C1]]]]]]].
    assert (AU : exists K2, forall fuel, K2 <= fuel -> (if ch then do a <- autoUnify fuel fuel E false s1; Ok (fst (fst a)) else Ok s1) = Ok s1).
    { destruct ch; [|exists 0; reflexivity]. destruct (auto_ok E AO s1 (linked_shape E m s1 T1 LK1)) as [s2 [c [n [K [H [_ [_ H2]]]]]]]. destruct (H2 U1) as [-> _]. exists K. intros fuel L. rewrite (H fuel fuel) by lia. reflexivity. }
    destruct AU as [K2 H2]. destruct (existsb (Z.eqb zUnk) (pf s1)) eqn:X1.
    - exists s1, false, T1, (K1 + K2). split.
      + intros fuel L. unfold improveAll. rewrite X. cbn [negb]. rewrite (H1 fuel) by lia. cbn [rbind]. rewrite (H2 fuel) by lia. cbn [rbind]. rewrite X1. reflexivity.
      + split; [exact LK1|]. split; [exact U1|]. split; [discriminate|]. intros H. exfalso. apply H. apply unk_in. exact X1.
    - assert (NU : ~ In zUnk (pf s1)) by (intros I; apply unk_in in I; congruence). exists s1, true, T1, (K1 + K2 + 1). split.
      + intros fuel L. unfold improveAll. rewrite X. cbn [negb]. rewrite (H1 fuel) by lia. cbn [rbind]. rewrite (H2 fuel) by lia. cbn [rbind]. rewrite X1. cbn [negb]. unfold auto1.
        destruct fuel as [|f]; [lia|]. rewrite (says_so E m s1 T1 f (S f) LK1 U1 NU). reflexivity.
      + split; [exact LK1|]. split; [exact U1|]. split; [intros _; exact NU|reflexivity].
  Qed.
  Lemma all_complete o s dv fuel : ~ In zUnk (pf s) -> improveAll fuel E o (s, dv) = Ok (s, dv, false, true).
  Proof. intros H. unfold improveAll. replace (existsb (Z.eqb zUnk) (pf s)) with false; [reflexivity|]. symmetry. apply Bool.not_true_iff_false. intros X. apply H. apply unk_in. exact X. Qed.

  Lemma session2_linked x b : session2 E m x b -> exists T, linked E m (fst x) T /\ (b = true -> done (fst x)).
  Proof.
    induction 1 as [x b SS|x b o old x' b' SS IH SE [K PF]|x b o n x' b' SS IH PP [K PF]|x b o x' b' SS IH PL U [K PF]].
    - exact (session_linked E AO m HG x b SS).
    - destruct IH as [T [LK _]]. destruct (perform_ok E AO m HG old x T o LK SE) as [x2 [b2 [T2 [K2 [H2 [LK2 D2]]]]]].
      specialize (PF (Nat.max K K2) ltac:(lia)). rewrite (H2 (Nat.max K K2) ltac:(lia)) in PF. injection PF as <- <-. exists T2. auto.
    - destruct IH as [T [LK _]]. destruct x as [s dv]. cbn [fst] in *. destruct (step_improves o s dv n T LK PP) as [ok [K2 [A [B _]]]]. destruct ok.
      + destruct (A eq_refl) as [x2 [b2 [T2 [H2 [LK2 [D2 _]]]]]]. specialize (PF (Nat.max K K2) ltac:(lia)). rewrite (H2 (Nat.max K K2) ltac:(lia)) in PF. injection PF as <- <-. exists T2. auto.
      + specialize (PF (Nat.max K K2) ltac:(lia)). pose proof (B eq_refl (Nat.max K K2) x' b' true ltac:(lia) PF) as Q. discriminate Q.
    - destruct IH as [T [LK DN]]. destruct x as [s dv]. cbn [fst] in *. destruct (in_dec Z.eq_dec zUnk (pf s)) as [I|NI].
      + destruct (all_improves PL o s dv T LK U I) as [s2 [b2 [T2 [K2 [H2 [LK2 [U2 D2]]]]]]]. specialize (PF (Nat.max K K2) ltac:(lia)). rewrite (H2 (Nat.max K K2) ltac:(lia)) in PF. injection PF as <- <-.
        exists T2. split; [exact LK2|]. intros Q. split; [exact U2|]. exact (proj1 D2 Q).
      + specialize (PF K (le_n _)). rewrite (all_complete o s dv K NI) in PF. injection PF as <- <-. exists T. split; [exact LK|discriminate].
  Qed.
  Lemma congratulations2 x : session2 E m x true -> exists T, pf (fst x) = rpn T /\ ~ In zUnk (pf (fst x)) /\ unified3 (fst x) /\ complete E (fst x) T /\ shows db anything T m.
  Proof.
    intros SS. destruct (session2_linked x true SS) as [T [LK D]]. destruct (D eq_refl) as [U NU]. exists T.
    split; [exact (po_rpn _ _ _ (lk_pip _ _ _ _ LK))|]. split; [exact NU|]. split; [exact U|]. exact (all_unified E AO m (fst x) T LK U NU).
  Qed.
  Lemma verifies2 x k stp p sev fuel st ds err : session2 E m x true ->
    stmtAt db k stp -> s_type stp = S_p -> m = s_math stp -> map encStep p = pf (fst x) -> sev <= 2 ->
    verifyProof fuel db k p sev 0 = Ok (st, ds, err) -> (forall d, In d ds -> ~ isDisj d) -> validProof db stp p.
  Proof.
    intros SS S P EM EP SV V ND. destruct (congratulations2 x SS) as [T [ET [_ [_ [CO SH]]]]]. rewrite EM in SH. pose proof (co_pip _ _ _ CO) as PO.
    refine (MwDisj.shown_valid db (fo_wf E None (ao_flt E AO)) k stp p T sev fuel st ds err S P SV _ SH V ND).
    rewrite EP, ET. apply rpn_denotes; [exact (po_tree _ _ _ PO)|exact (po_norefs _ _ _ PO)].
  Qed.
  Lemma step_found o s T k dv : linked E m s T -> partsProve E s -> k < length (pf s) ->
    exists r K, (forall fuel, K <= fuel -> improveAt fuel E o s dv k = Ok r) /\ exists path u, nodeAt T k path u /\
      match r with
      | None => finished u \/ (exists t, nth_error (tg s) k = Some t /\ hasDummy mt t = true) \/
          exists y msgs, nth_error (tg s) k = Some (toZ y) /\ FltProps.answers (impEnv E o s dv) y ([], msgs) /\ (msgs = [] -> ~ derivable_at (impEnv E o s dv) 1 y)
      | Some (s', b) => (plainDb E -> b = true) /\ (b = true -> exists y v T', improved E s k u v y s' /\ proves (impEnv E o s dv) (Some T) v y /\ linked E m s' T' /\ putAt v T path T')
      end.
  Proof.
    intros LK PP L. destruct (at_ok E AO m HG o s T k dv LK PP L) as [r [K [H [path [u [N A]]]]]]. exists r, K. split; [exact H|]. exists path, u. split; [exact N|]. destruct r as [[s' b]|].
    - destruct A as [y [v [T' [F [QT [NU [PV [SH [PU [FR PL]]]]]]]]]]. split; [exact PL|]. intros ->. exists y, v, T'. split; [exact (fresh_improved s T k path u v y s' T' LK N F NU SH QT FR)|]. split; [exact PV|]. split; [exact (proj1 (proj2 (proj2 FR) eq_refl))|exact PU].
    - destruct A as [A|[A|[y [msgs [A1 [A2 A3]]]]]]; [left; exact A|right; left; exact A|]. right. right. exists y, msgs. split; [exact A1|]. split; [exact A3|]. intros ->. exact (C61_complete _ (Some T) y (imp_flt E AO m HG o s dv T LK) A2 A3).
  Qed.
End All.
