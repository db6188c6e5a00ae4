(* AuTop.v -- proofs about AuModel: the commands *)
From Coq Require Import ZifyBool ZifyNat.
From Verif Require Import Base.
From Verif Require Import UniModel UniSpec HenModel HenProofs.
From Verif Require Import MMSpec VerModel VerSpec ParModel SqModel SqSpec SqProofs SqAttr PfaModel PfaSpec PfaProofs PfaAssign PfaHist PfaProps FltModel FltSpec FltProofs RepSpec AkModel AkSpec AkProofs AkMain MinModel MinSpec AuModel AuSpec AuProofs AuMain AuCmd.
Open Scope nat_scope.

Section Top.
  Variable E : fenv.
  Hypothesis AO : auOk E.
  Let FO := ao_flt E AO.
  Notation db := (f_db E).
  Notation e := (f_u E).
  Notation mt := (u_mt (f_u E)).

  (* ---------- autoUnify again ---------- *)
  Lemma pass_unified s x fuel : shape E s -> unified3 s -> fst x < length (pf s) -> onePass fuel E s x = Ok (s, false, false).
  Proof.
    intros SH U L. pose proof SH as [[L1 [L2 L3]] [HT [HR HU]]]. destruct (nth_error (tg s) (fst x)) as [t|] eqn:T; [|apply nth_error_None in T; lia].
    destruct (nth_error (sr s) (fst x)) as [r|] eqn:R; [|apply nth_error_None in R; lia]. destruct (nth_error (us s) (fst x)) as [u|] eqn:V; [|apply nth_error_None in V; lia].
    unfold onePass, get. rewrite T, R, V. cbn [rget rbind]. destruct (U (fst x) t r u T R V) as [U1 U2].
    assert (X : forall a b : list Z, (a <> [] -> b <> [] -> a = b) -> match a, b with [], _ | _, [] => Ok (s, false, false) | _, _ => if strEqb a b then Ok (s, false, false) else
        do q <- uniqueUnif fuel e (f_on E) (ofZ a) (ofZ b) 1; match fst q with QOne h => do s' <- makeSubstAll e h s; Ok (s', true, false) | _ => Ok (s, false, true) end end = Ok (s, false, false)).
    { intros a b H. destruct a as [|a0 a]; [destruct b; reflexivity|]. destruct b as [|b0 b]; [reflexivity|]. rewrite (proj2 (strEqb_eq _ _) (H ltac:(discriminate) ltac:(discriminate))). reflexivity. }
    destruct (snd x) as [|[|?]]; cbn [fst snd]; apply X; intros NA NB.
    - symmetry. exact (U2 NB).
    - rewrite (U1 NA), (U2 NB). reflexivity.
    - symmetry. exact (U1 NB).
  Qed.
  Lemma passes_unified s fuel : shape E s -> unified3 s -> forall xs ch nu, (forall x, In x xs -> fst x < length (pf s)) -> passes fuel E s xs ch nu = Ok (s, ch, nu).
  Proof.
    intros SH U. induction xs as [|x xs IH]; intros ch nu H; [reflexivity|]. cbn [passes]. rewrite (pass_unified s x fuel SH U (H x (or_introl eq_refl))). cbn [rbind]. rewrite IH by (intros y I; apply H; right; exact I).
    rewrite !orb_false_r. reflexivity.
  Qed.
  Lemma auto_ok s : shape E s -> exists s' ch n K, (forall w fuel congrats, K <= w -> K <= fuel -> autoUnify w fuel E congrats s = Ok (s', ch, congrats && negb n && negb (existsb (Z.eqb zUnk) (pf s')))) /\
    stepTo E s s' ch /\ (n = false -> unified3 s') /\ (unified3 s -> s' = s /\ ch = false).
  Proof.
    intros SH. destruct (rounds_ok E FO (S (length (unknowns E s))) s false false (Nat.lt_succ_diag_r _) SH) as [s' [c [n [K [R [S1 A]]]]]].
    exists s', c, n, (Nat.max K (S (length (unknowns E s)))). destruct (stepTo_shape E FO s s' c S1 SH) as [SH' _].
    split; [intros w fuel congrats LW LF; unfold autoUnify; rewrite R by lia; reflexivity|]. split; [exact S1|]. split; [intros N; exact (pairs_unified E s' SH' (A N))|].
    intros U. specialize (R (Nat.max K (S (length (unknowns E s)))) (Nat.max K (S (length (unknowns E s)))) ltac:(lia) ltac:(lia)).
    destruct (Nat.max K (S (length (unknowns E s)))) as [|w] eqn:Q; [lia|]. cbn [rounds] in R. rewrite (passes_unified s _ SH U _ _ _ (allPasses_in (length (pf s)))) in R. cbn [rbind] in R. injection R as <- <- _. auto.
  Qed.
  Lemma no_unk s : existsb (Z.eqb zUnk) (pf s) = false -> ~ In zUnk (pf s).
  Proof. intros H I. apply Bool.not_true_iff_false in H. apply H. apply existsb_exists. exists zUnk. split; [exact I|apply Z.eqb_refl]. Qed.
  Definition done (s : pip) : Prop := unified3 s /\ ~ In zUnk (pf s).
  Lemma printed_done s n b : (n = false -> unified3 s) -> b && negb n && negb (existsb (Z.eqb zUnk) (pf s)) = true -> done s.
  Proof. intros H P. apply andb_prop in P. destruct P as [P P3]. apply andb_prop in P. destruct P as [P1 P2]. apply negb_true_iff in P2, P3. split; [exact (H P2)|exact (no_unk s P3)]. Qed.

  (* ---------- UNIFY ALL / INTERACTIVE ---------- *)
  Lemma interRounds_ok pick : forall k s i pr, length (unknowns E s) < k -> shape E s -> exists s' c p K, (forall w fuel, K <= w -> K <= fuel -> interRounds w fuel E s i pick pr = Ok (s', pr || p)) /\
    stepTo E s s' c /\ (p = true -> done s') /\ (unified3 s -> s' = s).
  Proof.
    induction k as [|k IH]; intros s i pr LK SH; [lia|].
    destruct (auto_ok s SH) as [s1 [c1 [n1 [K1 [H1 [S1 [_ U1]]]]]]]. destruct (stepTo_shape E FO _ _ _ S1 SH) as [SH1 P1].
    destruct (interSteps_ok E FO (pick i) (length (pf s)) s1 SH1 ltac:(rewrite P1; lia)) as [s2 [c2 [K2 [H2 [S2 U2]]]]]. destruct (stepTo_shape E FO _ _ _ S2 SH1) as [SH2 P2].
    destruct (auto_ok s2 SH2) as [s3 [c3 [n3 [K3 [H3 [S3 [N3 U3]]]]]]]. destruct (stepTo_shape E FO _ _ _ S3 SH2) as [SH3 P3].
    set (p3 := true && negb n3 && negb (existsb (Z.eqb zUnk) (pf s3))).
    assert (S13 := stepTo_trans E _ _ _ _ _ (stepTo_trans E _ _ _ _ _ S1 S2) S3).
    assert (UN : unified3 s -> s3 = s /\ c1 || c2 || c3 = false).
    { intros U. destruct (U1 U) as [-> ->]. destruct (U2 U) as [-> ->]. destruct (U3 U) as [-> ->]. auto. }
    destruct (c1 || c2 || c3) eqn:C.
    - pose proof (proj2 (proj2 S13) eq_refl) as LT. destruct (IH s3 (S i) (pr || p3) ltac:(lia) SH3) as [s4 [c4 [p4 [K4 [H4 [S4 [N4 U4]]]]]]].
      exists s4, (true || c4), (p3 || p4), (S (K1 + K2 + K3 + K4)). split.
      + intros w fuel LW LF. destruct w as [|w]; [lia|]. cbn [interRounds]. rewrite (H1 fuel fuel) by lia. cbn [rbind fst]. rewrite (H2 fuel) by lia. cbn [rbind fst]. rewrite (H3 fuel fuel) by lia. cbn [rbind fst snd].
        rewrite C. fold p3. rewrite (H4 w fuel) by lia. rewrite orb_assoc. reflexivity.
      + split; [exact (stepTo_trans E _ _ _ _ _ S13 S4)|]. split.
        * intros P. apply orb_prop in P. destruct P as [P|P]; [|exact (N4 P)]. pose proof (printed_done s3 n3 true N3 P) as D. rewrite (U4 (proj1 D)). exact D.
        * intros U. destruct (UN U) as [_ X]. discriminate X.
    - exists s3, false, p3, (S (K1 + K2 + K3)). split.
      + intros w fuel LW LF. destruct w as [|w]; [lia|]. cbn [interRounds]. rewrite (H1 fuel fuel) by lia. cbn [rbind fst]. rewrite (H2 fuel) by lia. cbn [rbind fst]. rewrite (H3 fuel fuel) by lia. cbn [rbind fst snd].
        rewrite C. reflexivity.
      + split; [exact S13|]. split; [exact (printed_done s3 n3 true N3)|]. intros U. exact (proj1 (UN U)).
  Qed.

  (* ---------- the strings of the commands are linked ---------- *)
  Section Goal.
    Variable m : list nat.
    Hypothesis GM : forall t, In t m -> t < db_sep db.
    Lemma linked_to s s' c T : linked E m s T -> stepTo E s s' c -> linked E m s' T.
    Proof. intros LK [[f F] _]. exact (linked_on E FO f m s s' T GM F LK). Qed.
    (* a state with a tree, before and after a command *)
    Definition good (x : pst) (b : bool) : Prop := exists T, linked E m (fst x) T /\ (b = true -> done (fst x)).
    Lemma auto1_ok s dv T : linked E m s T -> exists s' b K, (forall fuel, K <= fuel -> auto1 fuel E s dv = Ok (s', dv, b)) /\ linked E m s' T /\ pf s' = pf s /\ (b = true -> done s').
    Proof.
      intros LK. pose proof (linked_shape E m s T LK) as SH. destruct (auto_ok s SH) as [s1 [c1 [n1 [K1 [H1 [S1 [N1 U1]]]]]]].
      eexists s1, _, K1. split; [intros fuel L; unfold auto1; rewrite (H1 fuel fuel) by lia; reflexivity|]. split; [exact (linked_to s s1 c1 T LK S1)|]. split; [exact (proj2 (stepTo_shape E FO _ _ _ S1 SH))|]. exact (printed_done s1 n1 true N1).
    Qed.

    (* LET VARIABLE *)
    Lemma replaceIn_on d w x : (forall y, x = toZ y -> replaceIn (Z.of_nat (mt + d)) (toZ w) x = onString (fun t => if t =? mt + d then w else [t]) x).
    Proof.
      intros y ->. rewrite onString_to. unfold replaceIn, app_subst, toZ. induction y as [|t y IH]; [reflexivity|]. cbn [map flat_map]. rewrite IH, map_app. f_equal.
      destruct (Nat.eqb_spec t (mt + d)) as [->|N]; [rewrite Z.eqb_refl; reflexivity|]. replace (Z.of_nat t =? Z.of_nat (mt + d))%Z with false by lia. reflexivity.
    Qed.
    Lemma replace_substituted d w s : 1 <= d -> ~ In (db_sep db) w -> shape E s -> substituted mt (fun t => if t =? mt + d then w else [t]) s (replaceDummyVar mt d (toZ w) s).
    Proof.
      intros D N SH. pose proof (shape_str E s SH) as ST. constructor.
      - reflexivity.
      - apply map_ext_in. intros x I. destruct (ST x) as [y EY]; [rewrite !in_app_iff; auto|]. exact (replaceIn_on d w x y EY).
      - apply map_ext_in. intros x I. destruct (ST x) as [y EY]; [rewrite !in_app_iff; auto|]. exact (replaceIn_on d w x y EY).
      - apply map_ext_in. intros x I. destruct (ST x) as [y EY]; [rewrite !in_app_iff; auto|]. exact (replaceIn_on d w x y EY).
      - intros t L. replace (t =? mt + d) with false by lia. reflexivity.
      - intros t I. destruct (t =? mt + d); [|destruct I as [->|[]]; reflexivity]. exfalso. apply N. rewrite <- (mt_sep E FO). exact I.
    Qed.
    (* a user's string *)
    Lemma set_entry s T n w : linked E m s T -> n < length (pf s) -> entry E (toZ w) -> exists u, set (us s) n (toZ w) = Ok u /\ linked E m (mkPip (pf s) (tg s) (sr s) u) T.
    Proof.
      intros [PO FI GO HT HR HU] L EN. exists (put (us s) n (toZ w)). split; [apply set_ok; rewrite (po_us _ _ _ PO); exact L|].
      constructor; cbn [pf tg sr us]; [|exact FI|exact GO|exact HT|exact HR|].
      - destruct PO as [A B C D1 D2 D3 U]. constructor; cbn [pf tg sr us]; auto. rewrite put_len. exact D3.
      - intros x I. destruct (in_put _ _ _ _ I) as [->|I']; [right; exact EN|exact (HU x I')].
    Qed.
    Lemma check_ok w t r : entry E w -> scheme db t -> (r = [] \/ scheme db r) -> exists c K, forall fuel, K <= fuel -> checkMStringMatch fuel E (ofZ w) (ofZ t) (ofZ r) = Ok c.
    Proof.
      intros EW ST SR. destruct (first_ends e _ _ (two_entries E FO w t EW (scheme_entry E t ST)) (f_on E) 1) as [q [K1 [_ R1]]].
      assert (X : exists c K, forall fuel, K <= fuel -> (match ofZ r with [] => Ok 1 | _ => do x <- unifyH fuel e (f_on E) (ofZ w) (ofZ r) 1; Ok (flagOf (fst x)) end) = Ok c).
      { destruct SR as [->|SR]; [exists 1, 0; reflexivity|]. destruct (first_ends e _ _ (two_entries E FO w r EW (scheme_entry E r SR)) (f_on E) 1) as [q2 [K2 [_ R2]]].
        destruct (ofZ r) eqn:Q; [exists 1, 0; reflexivity|]. exists (flagOf (fst q2)), K2. intros fuel L. rewrite (R2 fuel L). reflexivity. }
      destruct X as [c [K2 R2]]. exists (if (flagOf (fst q) =? 0) || (c =? 0) then 0 else if (flagOf (fst q) =? 1) && (c =? 1) then 1 else 2), (Nat.max K1 K2). intros fuel L.
      unfold checkMStringMatch. rewrite (R1 fuel) by lia. cbn [rbind]. rewrite (R2 fuel) by lia. cbn [rbind]. destruct ((flagOf (fst q) =? 0) || (c =? 0)); [reflexivity|]. destruct ((flagOf (fst q) =? 1) && (c =? 1)); reflexivity.
    Qed.
  End Goal.
End Top.
