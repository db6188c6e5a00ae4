(* SesProofs.v -- proofs about sessions with UNDO *)
From Coq Require Import ZifyBool ZifyNat.
From Verif Require Import Base.
From Verif Require Import UndoModel UndoSpec UndoProofs.
From Verif Require Import UniModel UniSpec HenModel HenProofs.
From Verif Require Import MMSpec VerModel VerSpec ParModel SqModel SqSpec SqProofs SqAttr SqValid TrcWork PfaModel PfaSpec PfaProofs PfaAssign PfaHist PfaProps FltModel FltSpec FltProofs FltProps FltVal RepSpec AkModel AkSpec AkProofs AkMain AkTop AkProps MinModel MinSpec VerProofs AuModel AuSpec AuProofs AuMain AuCmd AuTop AuAll AuInit AuSess ImpModel ImpSpec ImpProofs ImpMain SesSpec.
From Verif Require MwDisj.
Open Scope nat_scope.

(* ---------- what a history contains ---------- *)
Section Hist.
  Variables P I : Type.
  Variable good : P -> Prop.
  Definition goodHist (h : hist P I) : Prop := good (h_cur P I h) /\ Forall (fun q => good (fst q)) (h_past P I h) /\ Forall (fun q => good (fst q)) (h_future P I h).
  Definition goodCmd (c : cmd P I) : Prop := match c with Edit _ _ p _ => good p | _ => True end.
  Lemma hstep_good h c : goodHist h -> goodCmd c -> goodHist (fst (hstep P I h c)).
  Proof.
    intros [C [A B]] G. destruct c as [p i| | |n| |]; cbn in *.
    - split; [exact G|]. split; [|constructor]. cbn. apply Forall_forall. intros q Q. assert (Q' : In q ((h_cur P I h, i) :: h_past P I h)) by (rewrite <- (firstn_skipn (h_lim P I h) _); apply in_or_app; left; exact Q). destruct Q' as [<-|Q']; [exact C|]. rewrite Forall_forall in A. exact (A q Q').
    - unfold UndoSpec.undo. destruct (h_past P I h) as [|[p i] r] eqn:E; cbn; [split; [exact C|]; split; [rewrite E; constructor|exact B]|]. inversion A as [|? ? A1 A2]; subst. split; [exact A1|]. split; [exact A2|]. constructor; [exact C|exact B].
    - unfold UndoSpec.redo. destruct (h_future P I h) as [|[p i] r] eqn:E; cbn; [split; [exact C|]; split; [exact A|rewrite E; constructor]|]. inversion B as [|? ? A1 A2]; subst. split; [exact A1|]. split; [|exact A2]. constructor; [exact C|exact A].
    - unfold UndoSpec.setLim. destruct (Nat.eqb _ _); [split; auto|]. cbn. split; [exact C|]. split; constructor.
    - split; auto.
    - split; auto.
  Qed.
  Lemma hrun_good cs : forall h, goodHist h -> (forall c, In c cs -> goodCmd c) -> goodHist (fst (hrun P I h cs)).
  Proof.
    induction cs as [|c r IH]; intros h G F; [exact G|]. cbn [UndoSpec.hrun]. pose proof (hstep_good h c G (F c (or_introl eq_refl))) as G1. destruct (hstep P I h c) as [h1 a] eqn:E1. cbn [fst] in G1.
    pose proof (IH h1 G1 (fun c' X => F c' (or_intror X))) as G2. destruct (UndoSpec.hrun P I h1 r) as [h2 l]. exact G2.
  Qed.
End Hist.

Section All.
  Variable E : fenv.
  Hypothesis AO : auOk E.
  Let FO := ao_flt E AO.
  Notation db := (f_db E).
  Variable m : list nat.
  Hypothesis HG : goal E m.
  Let GM : forall t, In t m -> t < db_sep db := proj2 HG.
  Notation kept1 := (fun s => exists T, linked E m s T).

  (* ---------- DELETE FLOATING_HYPOTHESES ---------- *)
  Lemma float_linked flags : forall fuel e s T s', linked E m s T -> e <= length (pf s) -> deleteFloatLoop fuel db flags s e = Ok s' -> exists T', linked E m s' T'.
  Proof.
    induction fuel as [|f IH]; intros [|k] s T s' LK L D; cbn [deleteFloatLoop] in D; try discriminate D; try (injection D as <-; exists T; exact LK).
    destruct (nth_error flags k) as [fl|]; [|discriminate D]. cbn [rget rbind] in D. destruct (fl =? 1)%Z; [exact (IH k s T s' LK ltac:(lia) D)|].
    destruct (nth_error (pf s) k) as [z|] eqn:QZ; [|discriminate D]. cbn [rget rbind] in D. destruct (z =? zUnk)%Z eqn:ZU; [exact (IH k s T s' LK ltac:(lia) D)|].
    destruct (subproofLen db (pf s) k) as [q| | |] eqn:Q; cbn [rbind] in D; try discriminate D. destruct (deleteSubProof db s k) as [s1| | |] eqn:D1; cbn [rbind] in D; try discriminate D.
    destruct (delete_linked E m s T (S k) LK ltac:(lia)) as [r [R X]]. unfold deleteStep in R. replace (k =? length (pf s)) with false in R by lia. rewrite QZ in R. cbn [rget rbind] in R. rewrite ZU, D1 in R. cbn [rbind] in R. injection R as <-.
    destruct X as [T1 LK1]. refine (IH (k + 1 - q) s1 T1 s' LK1 _ D).
    assert (LP : k < sz T) by (rewrite (po_rpn _ _ _ (lk_pip _ _ _ _ LK)) in L; exact L). destruct (nodeAt_total T k LP) as [p [u N]]. pose proof (subLen_node db T k p u (po_tree _ _ _ (lk_pip _ _ _ _ LK)) N) as SQ. rewrite (po_rpn _ _ _ (lk_pip _ _ _ _ LK)) in Q. rewrite SQ in Q. injection Q as <-. pose proof (sz_pos u) as SU.
    unfold deleteSubProof in D1. rewrite QZ in D1. cbn [rget rbind] in D1. rewrite ZU in D1. rewrite (po_rpn _ _ _ (lk_pip _ _ _ _ LK)), SQ in D1. cbn [rbind] in D1. destruct (nth_error (sr s) k); cbn [rget rbind] in D1; [|discriminate D1]. injection D1 as <-. cbn [pf].
    rewrite app_length, firstn_length. cbn [app length]. rewrite <- (po_rpn _ _ _ (lk_pip _ _ _ _ LK)). lia.
  Qed.

  (* ---------- one command ---------- *)
  Lemma change_linked x x' b : change E m x x' b -> (exists T, linked E m (fst x) T) -> exists T, linked E m (fst x') T /\ (b = true -> done (fst x')).
  Proof.
    intros CH [T LK]. destruct CH as [x o old x' b SE [K PF]|x o n x' b PP [K PF]|x o x' b PL U [K PF]|s dv s' DF|x p T1 old c x' PL PS [K PF]].
    - destruct (perform_ok E AO m HG old x T o LK SE) as [x2 [b2 [T2 [K2 [H2 [LK2 D2]]]]]].
      specialize (PF (Nat.max K K2) ltac:(lia)). rewrite (H2 (Nat.max K K2) ltac:(lia)) in PF. injection PF as <- <-. exists T2. auto.
    - destruct x as [s dv]. cbn [fst] in *. destruct (step_improves E AO m HG o s dv n T LK PP) as [ok [K2 [A [B _]]]]. destruct ok.
      + destruct (A eq_refl) as [x2 [b2 [T2 [H2 [LK2 [D2 _]]]]]]. specialize (PF (Nat.max K K2) ltac:(lia)). rewrite (H2 (Nat.max K K2) ltac:(lia)) in PF. injection PF as <- <-. exists T2. auto.
      + specialize (PF (Nat.max K K2) ltac:(lia)). pose proof (B eq_refl (Nat.max K K2) x' b true ltac:(lia) PF) as Q. discriminate Q.
    - destruct x as [s dv]. cbn [fst] in *. destruct (in_dec Z.eq_dec zUnk (pf s)) as [I|NI].
      + destruct (all_improves E AO m HG PL o s dv T LK U I) as [s2 [b2 [T2 [K2 [H2 [LK2 [U2 D2]]]]]]]. specialize (PF (Nat.max K K2) ltac:(lia)). rewrite (H2 (Nat.max K K2) ltac:(lia)) in PF. injection PF as <- <-.
        exists T2. split; [exact LK2|]. intros Q. split; [exact U2|]. exact (proj1 D2 Q).
      + specialize (PF K (le_n _)). rewrite (all_complete E o s dv K NI) in PF. injection PF as <- <-. exists T. split; [exact LK|discriminate].
    - unfold deleteFloating in DF. destruct (getEssential (length (pf s)) db (pf s)) as [flags| | |]; cbn [rbind] in DF; try discriminate DF. destruct (float_linked flags _ _ s T s' LK (le_n _) DF) as [T' LK']. exists T'. split; [exact LK'|discriminate].
    - destruct (init_proof_linked E AO m GM (proj1 HG) p T1 old PL PS) as [s' [dv' [K' [H LK']]]]. specialize (PF (Nat.max K K') ltac:(lia)). rewrite (H (Nat.max K K') ltac:(lia)) in PF. injection PF as <- <-.
      exists T1. split; [exact LK'|discriminate].
  Qed.
  Lemma opening_linked x : opening E m x -> exists T, linked E m (fst x) T.
  Proof.
    intros [|p T1 old c x' PL PS [K PF]].
    - destruct (session_linked E AO m HG _ _ (se_start E m)) as [T [LK _]]. exists T. exact LK.
    - destruct (init_proof_linked E AO m GM (proj1 HG) p T1 old PL PS) as [s' [dv' [K' [H LK']]]]. specialize (PF (Nat.max K K') ltac:(lia)). rewrite (H (Nat.max K K') ltac:(lia)) in PF. injection PF as <- <-. exists T1. exact LK'.
  Qed.

  (* ---------- the session ---------- *)
  Section Stack.
    Variable I : Type.
    Variable noInfo : I.
    Variables (u : UndoModel.ust pip I) (s0 : sess pip I) (x0 : pst).
    Hypothesis BG : begun E m noInfo u s0 x0.
    Notation h0 := (hstart pip I (fst x0) (Z.to_nat (UndoModel.u_size pip I u - 1)%Z)).
    Lemma run_cur cs : exists st a, run pip I noProof noInfo s0 cs = Ok (st, a) /\ s_cur pip I st = h_cur pip I (fst (hrun pip I h0 cs)).
    Proof.
      destruct BG as [ID [_ PR]]. destruct (session_history pip I noProof noInfo u (fst x0) cs ID) as [s1 [st [P1 [R1 C1]]]]. assert (s1 = s0) by congruence. subst s1. exists st. eauto.
    Qed.
    Lemma run_good cs st a : run pip I noProof noInfo s0 cs = Ok (st, a) -> (forall c, In c cs -> goodCmd pip I kept1 c) -> kept1 (s_cur pip I st).
    Proof.
      intros R G. destruct (run_cur cs) as [st' [a' [R' C]]]. assert (st' = st) by congruence. subst st'. rewrite C. destruct BG as [_ [OP _]].
      assert (G0 : goodHist pip I kept1 h0) by (split; [exact (opening_linked x0 OP)|split; constructor]). exact (proj1 (hrun_good pip I kept1 cs h0 G0 G)).
    Qed.
    Lemma whole_ok cs x b : whole E m noInfo s0 x0 cs x b -> (exists st a, run pip I noProof noInfo s0 cs = Ok (st, a) /\ s_cur pip I st = fst x) /\
      (forall c, In c cs -> goodCmd pip I kept1 c) /\ exists T, linked E m (fst x) T /\ (b = true -> done (fst x)).
    Proof.
      induction 1 as [|cs x b x' b' i W IH CH|cs x b x' b' W IH CH EQ|cs x b c st a W IH LO R].
      - split; [destruct (run_cur []) as [st [a [R C]]]; exists st, a; auto|]. split; [intros c []|]. destruct (opening_linked x0 (proj1 (proj2 BG))) as [T LK]. exists T. split; [exact LK|discriminate].
      - destruct IH as [_ [G [T [LK _]]]]. destruct (change_linked x x' b' CH (ex_intro _ T LK)) as [T' [LK' D']]. split; [|split].
        + destruct (run_cur (cs ++ [Edit pip I (fst x') i])) as [st [a [R C]]]. exists st, a. split; [exact R|]. rewrite C, hrun_app. reflexivity.
        + intros c Q. apply in_app_or in Q. destruct Q as [Q|[<-|[]]]; [exact (G c Q)|]. exists T'. exact LK'.
        + exists T'. auto.
      - destruct IH as [R [G [T [LK _]]]]. destruct (change_linked x x' b' CH (ex_intro _ T LK)) as [T' [LK' D']]. rewrite EQ. split; [exact R|]. split; [exact G|]. rewrite <- EQ. exists T'. auto.
      - destruct IH as [_ [G _]]. assert (G' : forall c', In c' (cs ++ [c]) -> goodCmd pip I kept1 c'). { intros c' Q. apply in_app_or in Q. destruct Q as [Q|[<-|[]]]; [exact (G c' Q)|]. destruct c; [destruct LO|exact Logic.I..]. }
        split; [exists st, a; auto|]. split; [exact G'|]. destruct (run_good _ _ _ R G') as [T LK]. exists T. split; [exact LK|discriminate].
    Qed.
    Lemma whole_done cs x : whole E m noInfo s0 x0 cs x true -> exists T, pf (fst x) = rpn T /\ ~ In zUnk (pf (fst x)) /\ unified3 (fst x) /\ complete E (fst x) T /\ shows db anything T m.
    Proof.
      intros W. destruct (whole_ok cs x true W) as [_ [_ [T [LK D]]]]. destruct (D eq_refl) as [U NU]. exists T.
      split; [exact (po_rpn _ _ _ (lk_pip _ _ _ _ LK))|]. split; [exact NU|]. split; [exact U|]. exact (all_unified E AO m (fst x) T LK U NU).
    Qed.
    Lemma whole_verifies cs x k stp p sev fuel st ds err : whole E m noInfo s0 x0 cs x true ->
      stmtAt db k stp -> s_type stp = S_p -> m = s_math stp -> map encStep p = pf (fst x) -> sev <= 2 ->
      verifyProof fuel db k p sev 0 = Ok (st, ds, err) -> (forall d, In d ds -> ~ isDisj d) -> validProof db stp p.
    Proof.
      intros W S P EM EP SV V ND. destruct (whole_done cs x W) as [T [ET [_ [_ [CO SH]]]]]. rewrite EM in SH. pose proof (co_pip _ _ _ CO) as PO.
      refine (MwDisj.shown_valid db (fo_wf E None (ao_flt E AO)) k stp p T sev fuel st ds err S P SV _ SH V ND).
      rewrite EP, ET. apply rpn_denotes; [exact (po_tree _ _ _ PO)|exact (po_norefs _ _ _ PO)].
    Qed.
    Lemma whole_back cs x b es st a : whole E m noInfo s0 x0 cs x b -> run pip I noProof noInfo s0 cs = Ok (st, a) ->
      (Z.of_nat (length es) <= UndoModel.u_size pip I (UndoModel.s_u pip I st) - 1)%Z ->
      exists st' a', run pip I noProof noInfo st (map (fun e => Edit pip I (fst e) (snd e)) es ++ repeat (Undo pip I) (length es)) = Ok (st', a') /\ s_cur pip I st' = fst x.
    Proof.
      intros W R L. destruct (whole_ok cs x b W) as [[st1 [a1 [R1 C1]]] _]. assert (st1 = st) by congruence. subst st1. destruct BG as [ID [_ PR]].
      destruct (undo_restores pip I noProof noInfo u (fst x0) cs s0 st a es ID PR R L) as [st' [a' [R' C']]]. exists st', a'. split; [exact R'|]. rewrite C'. exact C1.
    Qed.
    Lemma whole_ends cs x b : whole E m noInfo s0 x0 cs x b ->
      (forall o old, sensible E x o -> exists x' b' K, forall fuel, K <= fuel -> perform fuel E old x o = Ok (x', b')) /\
      (exists s', deleteFloating db (fst x) = Ok s') /\
      (forall c, looking c -> exists st a, run pip I noProof noInfo s0 (cs ++ [c]) = Ok (st, a)).
    Proof.
      intros W. destruct (whole_ok cs x b W) as [_ [_ [T [LK _]]]]. split; [|split].
      - intros o old SE. destruct (perform_ok E AO m HG old x T o LK SE) as [x2 [b2 [T2 [K2 [H2 _]]]]]. exists x2, b2, K2. exact H2.
      - destruct (C35_delete_floating db (fst x) T (fo_wf E None (ao_flt E AO)) (lk_pip _ _ _ _ LK) (linked_legal E AO m (fst x) T LK)) as [s' [D _]]. exists s'. exact D.
      - intros c _. destruct (run_cur (cs ++ [c])) as [st [a [R _]]]. exists st, a. exact R.
    Qed.
  End Stack.
End All.
