(* AuSess.v -- proofs about AuModel: the commands, and whole sessions *)
From Coq Require Import ZifyBool ZifyNat.
From Verif Require Import Base.
From Verif Require Import UniModel UniSpec HenModel HenProofs.
From Verif Require Import MMSpec VerModel VerSpec ParModel SqModel SqSpec SqProofs SqAttr SqValid VerProofs TrcWork PfaModel PfaSpec PfaProofs PfaAssign PfaHist PfaProps FltModel FltSpec FltProofs RepSpec AkModel AkSpec AkProofs AkMain MinModel MinSpec AuModel AuSpec AuProofs AuMain AuCmd AuTop AuAll AuInit.
From Verif Require MwDisj AkTop.
Open Scope nat_scope.

Section All.
  Variable E : fenv.
  Hypothesis AO : auOk E.
  Let FO := ao_flt E AO.
  Notation db := (f_db E).
  Notation e := (f_u E).
  Notation mt := (u_mt (f_u E)).
  Let WD := fo_wf E None FO.

  (* every command *)
  Section Cmd.
    Variable m : list nat.
    Hypothesis HG : goal E m.
    Let GM : forall t, In t m -> t < db_sep db := proj2 HG.
    Let NE : m <> [] := proj1 HG.
    Lemma perform_ok old x T o : linked E m (fst x) T -> sensible E x o -> exists x' b T' K, (forall fuel, K <= fuel -> perform fuel E old x o = Ok (x', b)) /\ linked E m (fst x') T' /\ (b = true -> done (fst x')).
    Proof.
      destruct x as [s dv]. cbn [fst]. intros LK SE. pose proof (linked_shape E m s T LK) as SH. pose proof (lk_pip _ _ _ _ LK) as PO.
      assert (TRIV : exists x' b T' K, (forall fuel, K <= fuel -> Ok ((s, dv), false) = Ok (x', b)) /\ linked E m (fst x') T' /\ (b = true -> done (fst x'))).
      { exists (s, dv), false, T, 0. split; [reflexivity|]. split; [exact LK|discriminate]. }
      assert (AUTO : forall s1 dv1 T1, linked E m s1 T1 -> exists x' b T' K, (forall fuel, K <= fuel -> auto1 fuel E s1 dv1 = Ok (x', b)) /\ linked E m (fst x') T' /\ (b = true -> done (fst x'))).
      { intros s1 dv1 T1 LK1. destruct (auto1_ok E AO m GM s1 dv1 T1 LK1) as [s' [b [K [H1 [H2 [_ H3]]]]]]. exists (s', dv1), b, T1, K. auto. }
      destruct o as [n pick| |pick|d w|n w|n k ov nu pick|n|n| |]; cbn [perform].
      - destruct (negb _) eqn:R; [exact TRIV|]. destruct (step_ok E FO s (n - 1) pick SH ltac:(lia)) as [s1 [c1 [K1 [H1 [S1 _]]]]].
        destruct (AUTO s1 dv T (linked_to E AO m GM s s1 c1 T LK S1)) as [x' [b [T' [K2 [H2 G]]]]]. exists x', b, T', (Nat.max K1 K2). split; [|exact G]. intros fuel L. rewrite H1 by lia. cbn [rbind fst]. apply H2. lia.
      - exact (AUTO s dv T LK).
      - destruct (interRounds_ok E AO pick (S (length (unknowns E s))) s 0 false (Nat.lt_succ_diag_r _) SH) as [s' [c [p [K [H1 [S1 [D _]]]]]]].
        exists (s', dv), p, T, K. split; [intros fuel L; rewrite H1 by lia; reflexivity|]. split; [exact (linked_to E AO m GM s s' c T LK S1)|exact D].
      - destruct (negb _) eqn:R; [exact TRIV|]. cbn [sensible] in SE.
        apply AUTO with (T1 := T). exact (linked_on E FO _ m s _ T GM (replace_substituted E AO m GM d w s ltac:(lia) SE SH) LK).
      - destruct (negb _) eqn:R; [exact TRIV|]. cbn [sensible] in SE. assert (L : n - 1 < length (pf s)) by lia.
        assert (IT := nth_tg E m s T (n - 1) LK L).
        assert (QT : get (tg s) (n - 1) = Ok (nth (n - 1) (tg s) [])) by (apply get_at; rewrite (po_tg _ _ _ PO); exact L).
        assert (QR : get (sr s) (n - 1) = Ok (nth (n - 1) (sr s) [])) by (apply get_at; rewrite (po_sr _ _ _ PO); exact L).
        assert (HR : nth (n - 1) (sr s) [] = [] \/ scheme db (nth (n - 1) (sr s) [])).
        { destruct (nth_in_or_default (n - 1) (sr s) []) as [I|D]; [exact (lk_sr _ _ _ _ LK _ I)|left; exact D]. }
        rewrite QT, QR. cbn [rbind]. destruct (check_ok E AO m GM _ _ _ SE (lk_tg _ _ _ _ LK _ IT) HR) as [c [K1 C1]]. rewrite to_of in C1.
        destruct (set_entry E m s T (n - 1) w LK L SE) as [u [SU LK1]]. destruct (c =? 0) eqn:C0.
        + exists (s, dv), false, T, K1. split; [intros fuel LF; rewrite C1 by lia; cbn [rbind]; rewrite C0; reflexivity|]. split; [exact LK|discriminate].
        + destruct (AUTO _ dv T LK1) as [x' [b [T' [K2 [H2 G]]]]]. exists x', b, T', (Nat.max K1 K2). split; [|exact G]. intros fuel LF. rewrite C1 by lia. cbn [rbind]. rewrite C0, SU. cbn [rbind]. apply H2. lia.
      - destruct (negb _) eqn:R; [exact TRIV|]. destruct (f_disc E k && negb ov); [exact TRIV|]. cbn [sensible] in SE. destruct SE as [st [S HA]]. assert (L : n - 1 < length (pf s)) by lia.
        destruct (nth_error (pf s) (n - 1)) as [z|] eqn:NZ; [|apply nth_error_None in NZ; lia]. unfold get at 1. rewrite NZ. cbn [rget rbind]. destruct (negb (z =? zUnk)%Z) eqn:ZU; [exact TRIV|]. assert (z = zUnk) by lia. subst z.
        assert (IT := nth_tg E m s T (n - 1) LK L).
        assert (QT : get (tg s) (n - 1) = Ok (nth (n - 1) (tg s) [])) by (apply get_at; rewrite (po_tg _ _ _ PO); exact L).
        assert (QU : get (us s) (n - 1) = Ok (nth (n - 1) (us s) [])) by (apply get_at; rewrite (po_us _ _ _ PO); exact L).
        rewrite QT, QU. cbn [rbind]. destruct (stmtMatch_ok E AO k st _ _ dv S HA (lk_tg _ _ _ _ LK _ IT) (nth_us E m s T (n - 1) LK)) as [c [K1 C1]].
        destruct (assign_linked E AO m s T k st (n - 1) old dv LK L NZ S HA) as [s1 [T1 [dv1 [A1 [LK1 LL]]]]].
        destruct (auto1_ok E AO m GM s1 dv1 T1 LK1) as [s2 [b [K2 [H2 [LK2 [P2 D2]]]]]].
        assert (L2 : n + length (pf s2) - length (pf s) - 1 < length (pf s2)) by (rewrite P2; lia).
        destruct (step_ok E FO s2 _ pick (linked_shape E m s2 T1 LK2) L2) as [s3 [c3 [K3 [H3 [S3 U3]]]]].
        destruct (c =? 0) eqn:C0.
        + exists (s, dv), false, T, K1. split; [intros fuel LF; rewrite C1 by lia; cbn [rbind]; rewrite C0; reflexivity|]. split; [exact LK|discriminate].
        + exists (if nu then s2 else s3, dv1), b, T1, (K1 + K2 + K3). split.
          * intros fuel LF. rewrite C1 by lia. cbn [rbind]. rewrite C0, A1. cbn [rbind fst snd]. rewrite H2 by lia. cbn [rbind fst snd]. destruct nu; [reflexivity|]. rewrite H3 by lia. reflexivity.
          * destruct nu; cbn [fst]; [auto|]. split; [exact (linked_to E AO m GM s2 s3 c3 T1 LK2 S3)|]. intros B. rewrite (proj1 (U3 (proj1 (D2 B)))). exact (D2 B).
      - cbn [sensible fst] in SE. destruct (delete_linked E m s T n LK SE) as [r [D1 D2]]. rewrite D1. cbn [rbind]. destruct r as [s'|]; [|exact TRIV]. destruct D2 as [T' LK'].
        exists (s', dv), false, T', 0. split; [reflexivity|]. split; [exact LK'|discriminate].
      - destruct (negb _) eqn:R; [exact TRIV|]. destruct (init_step_linked E AO m GM NE s T (n - 1) old dv LK ltac:(lia)) as [s1 [dv1 [H1 LK1]]]. rewrite H1. cbn [rbind fst snd].
        pose proof (lk_pip _ _ _ _ LK1) as PO1. assert (EL : length (pf s1) = length (pf s)) by (rewrite (po_rpn _ _ _ PO), (po_rpn _ _ _ PO1); reflexivity).
        rewrite (set_ok (us s1) (n - 1) []) by (rewrite (po_us _ _ _ PO1), EL; lia). cbn [rbind].
        exists (mkPip (pf s1) (tg s1) (sr s1) (put (us s1) (n - 1) []), dv1), false, T, 0. split; [reflexivity|]. split; [|discriminate].
        apply clear_us; [exact LK1|apply put_len|]. intros x I. apply In_nth_error in I. destruct I as [i Q]. destruct (Nat.eq_dec i (n - 1)) as [->|X].
        + rewrite put_same in Q by (rewrite (po_us _ _ _ PO1), EL; lia). injection Q as <-. left. reflexivity.
        + rewrite put_other in Q by congruence. right. exact (nth_error_In _ _ Q).
      - exists (mkPip (pf s) (tg s) (sr s) (map (fun _ => []) (us s)), dv), false, T, 0. split; [reflexivity|]. split; [|discriminate].
        apply clear_us; [exact LK|apply map_length|]. intros x I. apply in_map_iff in I. destruct I as [y [<- _]]. left. reflexivity.
      - cbn [sensible fst] in SE. destruct (init_all_linked E AO m GM NE s T old LK SE) as [s1 [dv1 [s' [K [H1 [H2 LK1]]]]]]. rewrite H1. cbn [rbind fst snd].
        exists (s', dv1), false, T, K. split; [intros fuel L; rewrite H2 by lia; reflexivity|]. split; [exact LK1|discriminate].
    Qed.

    Lemma start_linked : linked E m (mkPip [zUnk] [toZ m] [[]] [[]]) unknown.
    Proof.
      constructor; cbn [pf tg sr us combine].
      - constructor; try reflexivity.
        + constructor; [reflexivity|constructor].
        + intros z [<-|[]]. reflexivity.
        + intros [|k] Q; [reflexivity|destruct k; discriminate Q].
      - apply ft_unk.
      - reflexivity.
      - intros x [<-|[]]. exists m. split; [reflexivity|]. split; [|intros I; pose proof (GM _ I); lia]. destruct m as [|c r]; [congruence|]. exists c, r. split; [reflexivity|]. apply GM. left. reflexivity.
      - intros x [<-|[]]. left. reflexivity.
      - intros x [<-|[]]. left. reflexivity.
    Qed.
    Lemma session_linked x b : session E m x b -> exists T, linked E m (fst x) T /\ (b = true -> done (fst x)).
    Proof.
      induction 1 as [|p T old c x PL PS [K PF]|x b o old x' b' SS IH SE [K PF]].
      - exists unknown. split; [exact start_linked|discriminate].
      - destruct (init_proof_linked E AO m GM NE p T old PL PS) as [s' [dv' [K' [H LK]]]]. specialize (PF (Nat.max K K') ltac:(lia)). rewrite (H (Nat.max K K') ltac:(lia)) in PF. injection PF as <- <-.
        exists T. split; [exact LK|discriminate].
      - destruct IH as [T [LK _]]. destruct (perform_ok old x T o LK SE) as [x2 [b2 [T2 [K2 [H2 [LK2 D2]]]]]].
        specialize (PF (Nat.max K K2) ltac:(lia)). rewrite (H2 (Nat.max K K2) ltac:(lia)) in PF. injection PF as <- <-. exists T2. auto.
    Qed.
  End Cmd.
End All.

(* ---------- the theorems ---------- *)
Section Final.
  Variables (E : fenv) (m : list nat).
  Hypothesis AO : auOk E.
  Hypothesis HG : goal E m.
  Let GM : forall t, In t m -> t < db_sep (f_db E) := proj2 HG.
  Lemma auto_unify s T : linked E m s T ->
    exists s' ch nu K, (forall w fuel congrats, K <= w -> K <= fuel -> autoUnify w fuel E congrats s = Ok (s', ch, congrats && nu)) /\
      (exists f, substituted (u_mt (f_u E)) f s s') /\ linked E m s' T /\ (ch = false -> s' = s) /\ (unified3 s -> s' = s /\ ch = false) /\
      (nu = true -> unified3 s' /\ ~ In zUnk (pf s')).
  Proof.
    intros LK. pose proof (linked_shape E m s T LK) as SH. destruct (auto_ok E AO s SH) as [s' [ch [n [K [H [S1 [N U]]]]]]].
    exists s', ch, (negb n && negb (existsb (Z.eqb zUnk) (pf s'))), K. split; [intros w fuel c L1 L2; rewrite H by assumption; rewrite andb_assoc; reflexivity|].
    pose proof S1 as [SB [CH _]]. split; [exact SB|]. split; [exact (linked_to E AO m GM s s' ch T LK S1)|]. split; [exact CH|]. split; [exact U|].
    intros Q. exact (printed_done s' n true N Q).
  Qed.
  Lemma says_so s T w fuel : linked E m s T -> unified3 s -> ~ In zUnk (pf s) -> autoUnify (S w) fuel E true s = Ok (s, false, true).
  Proof.
    intros LK U NU. unfold autoUnify. cbn [rounds]. rewrite (passes_unified E s fuel (linked_shape E m s T LK) U _ _ _ (allPasses_in (length (pf s)))). cbn [rbind].
    replace (existsb (Z.eqb zUnk) (pf s)) with false; [reflexivity|]. symmetry. apply Bool.not_true_iff_false. intros X. apply existsb_exists in X. destruct X as [z [I Q]]. apply Z.eqb_eq in Q. subst z. exact (NU I).
  Qed.
  Lemma session_ends x b o old : session E m x b -> sensible E x o -> exists x' b' K, forall fuel, K <= fuel -> perform fuel E old x o = Ok (x', b').
  Proof.
    intros SS SE. destruct (session_linked E AO m HG x b SS) as [T [LK _]]. destruct (perform_ok E AO m HG old x T o LK SE) as [x' [b' [_ [K [H _]]]]]. eauto.
  Qed.
  Lemma session_tree x b : session E m x b -> exists T, linked E m (fst x) T.
  Proof. intros SS. destruct (session_linked E AO m HG x b SS) as [T [LK _]]. eauto. Qed.
  Lemma congratulations x : session E m x true -> exists T, pf (fst x) = rpn T /\ ~ In zUnk (pf (fst x)) /\ unified3 (fst x) /\ complete E (fst x) T /\ shows (f_db E) anything T m.
  Proof.
    intros SS. destruct (session_linked E AO m HG x true SS) as [T [LK D]]. destruct (D eq_refl) as [U NU]. exists T.
    split; [exact (po_rpn _ _ _ (lk_pip _ _ _ _ LK))|]. split; [exact NU|]. split; [exact U|]. exact (all_unified E AO m (fst x) T LK U NU).
  Qed.
  Lemma verifies x k stp p sev fuel st ds err : session E m x true ->
    stmtAt (f_db E) k stp -> s_type stp = S_p -> m = s_math stp -> map encStep p = pf (fst x) -> sev <= 2 ->
    verifyProof fuel (f_db E) k p sev 0 = Ok (st, ds, err) -> (forall d, In d ds -> ~ isDisj d) -> validProof (f_db E) stp p.
  Proof.
    intros SS S P EM EP SV V ND. destruct (congratulations x SS) as [T [ET [_ [_ [CO SH]]]]]. rewrite EM in SH. pose proof (co_pip _ _ _ CO) as PO.
    refine (MwDisj.shown_valid (f_db E) (fo_wf E None (ao_flt E AO)) k stp p T sev fuel st ds err S P SV _ SH V ND).
    rewrite EP, ET. apply rpn_denotes; [exact (po_tree _ _ _ PO)|exact (po_norefs _ _ _ PO)].
  Qed.
  Lemma parts_show s T : linked E m s T -> plainDb E -> unified3 s -> partsShow E (pf s).
  Proof.
    intros LK PL U T' k p u ET W N F. pose proof (lk_pip _ _ _ _ LK) as PO. pose proof (po_rpn _ _ _ PO) as EP. rewrite EP in ET.
    assert (NR : noRefs (rpn T')) by (rewrite ET; exact (po_norefs _ _ _ PO)).
    assert (T' = T). { apply (denotes_fun (f_db E) (rpn T)); [rewrite <- ET; exact (rpn_denotes _ _ W NR)|exact (rpn_denotes _ _ (po_tree _ _ _ PO) (po_norefs _ _ _ PO))]. }
    subst T'. destruct (fits_node (f_db E) T k p u N _ (lk_fits _ _ _ _ LK)) as [a1 [au [a2 [EA [_ [FU _]]]]]].
    destruct (fits_shows E AO u au FU) as [y [H _]]; [|exact F|].
    - intros q I. apply (unified_pairs s); [rewrite (po_tg _ _ _ PO), (po_us _ _ _ PO); reflexivity|exact U|]. rewrite EA, !in_app_iff. auto.
    - exists y. exact (proj1 (AkTop.plain_shows E None (ao_flt E AO) PL u y H)).
  Qed.
  Lemma prove_existing p T old : proofLike E p T -> partsShow E p -> exists s' dv' K, (forall fuel, K <= fuel -> initProofStruct fuel E old p m = Ok (true, (s', dv'))) /\ linked E m s' T.
  Proof. exact (init_proof_linked E AO m GM (proj1 HG) p T old). Qed.
End Final.
