(* MwVal.v -- proofs about MwModel: valid proofs stay valid ($d requirements) *)
From Coq Require Import ZifyBool ZifyNat.
From Verif Require Import Base.
From Verif Require Import UniModel HenModel.
From Verif Require Import MMSpec VerModel VerSpec VerStep VerProofs ParModel ParSpec ExpModel SqModel SqSpec SqProofs SqAttr SqPack SqValid SqGood PfaModel PfaSpec PfaProofs PfaMore PfaValid PfaHist FltModel FltSpec FltProofs FltMain FltVal RepModel RepSpec RepProofs RepMain AkModel AkSpec AkProofs AkMain AkTop MinModel MinSpec MinProofs MinMain
  TrcModel TrcSpec MwModel MwSpec MwTree MwDisj.
Open Scope nat_scope.

Section Step.
  Variables (L : nat -> bool) (E : fenv) (repl : nat) (st : stmtRec).
  Hypothesis MO : minOk E repl st.
  Notation db := (f_db E).
  Hypothesis SP : separated L db.
  Hypothesis SF : syntaxFree L db.
  Hypothesis ND : s_reqDisj st = [].
  Variable stn : stmtRec.
  Let WD : wf_db db := fo_wf E None (mo_flt _ _ _ MO).

  Section At.
    Variables (s : pip) (T : tree) (e0 : list nat).
    Hypothesis CO : complete E s T.
    Hypothesis VT : tval db stn T e0.
    Let PO := co_pip _ _ _ CO.
    Let FOS : fltOk (envAt E s) (Some T).
    Proof. apply (flt_at E repl st MO); [exact (po_tree _ _ _ PO)|exact (po_rpn _ _ _ PO)|exact (po_tg _ _ _ PO)]. Qed.
    Lemma node_val k path u e : nodeAt T k path u -> shows db anything u e -> tval db stn u e.
    Proof.
      intros N SH. assert (X : exists e', tval db stn u e').
      { clear -VT N. revert e0 VT. induction N as [t|z kids j c k path u Nk Q IH]; intros e V; [eauto|]. inversion V as [? ? es ? F _]; subst. assert (exists y, tval db stn c y) as [y Y]; [|exact (IH y Y)].
        clear -F Nk. revert j Nk. induction F as [|x y l l' X F IH]; intros [|j] Nk; try discriminate Nk; [injection Nk as <-; eauto|exact (IH j Nk)]. }
      destruct X as [e' V]. pose proof V as V'. apply (shows_tval db stn u e' WD) in V'.
      - rewrite (shows_det E None (mo_flt _ _ _ MO) anything anything u e e' SH V'). exact V.
      - exact (mo_zero _ _ _ MO).
      - exact (mo_floated _ _ _ MO).
      - exact (sub_wf _ _ _ _ _ N (po_tree _ _ _ PO)).
      - intros z I. left. apply (codes_nat E s T CO z). exact (sub_in _ _ _ _ N z I).
      - intros z I. apply (po_norefs _ _ _ PO). exact (sub_in _ _ _ _ N z I).
    Qed.
    Lemma own_val h sh : ownHyp (envAt E s) h -> stmtAt db h sh -> tval db stn (Node (Z.of_nat h) []) (s_math sh).
    Proof.
      intros O S. destruct (fo_hyps _ _ FOS h O) as [sh' [K1 K2]]. unfold stmtAt in K1, S. cbn [envAt f_db] in K1. rewrite S in K1. injection K1 as <-. apply tval_hyp; [lia|rewrite Nat2Z.id; exact S|exact K2].
    Qed.
    Lemma use_val n st' kids es sg : usable (envAt E s) n st' -> s_reqDisj st' = [] -> Forall2 (tval db stn) kids es -> VerSpec.unifier db st' es sg -> tval db stn (Node (Z.of_nat n) kids) (MMSpec.subst (db_isvar db) sg (s_math st')).
    Proof.
      intros U NDs F UN. apply (tval_assert db WD stn (Z.of_nat n) st' kids es sg); [lia|rewrite Nat2Z.id; exact (us_stmt _ _ _ U)|exact (us_type _ _ _ U)|exact (mo_floated _ _ _ MO n st' (us_stmt _ _ _ U) (us_type _ _ _ U))|exact F|exact UN|].
      intros x y I. rewrite NDs in I. destruct I.
    Qed.
    Lemma synth_val t : forall m, proves (envAt E s) (Some T) t m -> head_of L m false -> tval db stn t m.
    Proof.
      induction t as [z kids IH] using tree_ind2. intros m P HM. pose proof (proves_shows E repl st MO s T CO _ m P) as SHT. inversion P as [h sh O1 O2 O3 O4|t k path u e' O1 O2 O3 O4 O5 O6|n st' kids' es sg U F UN O3 O4]; subst.
      - exact (own_val h sh O1 O2).
      - injection O1 as <-. exact (node_val _ _ _ _ O2 SHT).
      - pose proof (us_stmt _ _ _ U) as S. pose proof (us_type _ _ _ U) as A. cbn [envAt f_db f_n] in *.
        apply (subst_head L E repl st MO n st' sg false S (or_intror A)) in HM. apply (use_val n st' kids es sg U); [exact (SF n st' S A HM)| |exact UN].
        assert (HH : forall h sh, In h (s_reqHyps st') -> stmtAt db h sh -> s_type sh = S_f) by (intros h sh X Y; exact (sp_syn L db SP n st' h sh S A HM X Y)).
        unfold VerSpec.unifier in UN. cbn [envAt f_db] in UN. clear -UN F IH HH WD SP MO. revert kids F IH. induction UN as [|h e hs es [sh [S1 S2]] UN IHU]; intros kids F IH; inversion F as [|k y ks ys P1 P2]; subst; constructor.
        + inversion IH as [|? ? I1 I2]; subst. apply I1; [exact P1|]. pose proof (HH h sh (or_introl eq_refl) S1) as TF. apply (subst_head L E repl st MO h sh sg false S1 (or_introl (or_intror TF))). exact (sp_f L db SP h sh S1 TF).
        + inversion IH as [|? ? I1 I2]; subst. apply (IHU (fun h' sh' X => HH h' sh' (or_intror X)) _ P2 I2).
    Qed.
    Lemma made_val v m : proves (envAt E s) (Some T) v m -> oldKids (envAt E s) T repl st false v -> tval db stn v m.
    Proof.
      intros P [kids [-> [LK OK]]]. pose proof (proves_shows E repl st MO s T CO _ m P) as SHT. inversion P as [h sh O1 O2 O3 O4|t k path u e' O1 O2 O3 O4 O5 O6|n st' kids' es sg U F UN O3 O4].
      - apply Nat2Z.inj in O3. subst h. subst kids m. exact (own_val repl sh O1 O2).
      - injection O1 as <-. exact (node_val _ _ _ _ O2 SHT).
      - apply Nat2Z.inj in O3. subst n kids' m. pose proof (us_stmt _ _ _ U) as S. cbn [envAt f_db] in S. pose proof (mo_stmt _ _ _ MO) as S0. unfold stmtAt in S, S0. rewrite S0 in S. injection S as <-.
        apply (use_val repl st kids es sg U ND); [|exact UN].
        assert (EACH : forall i c h e, nth_error kids i = Some c -> nth_error (s_reqHyps st) i = Some h -> (exists sh, stmtAt db h sh /\ MMSpec.subst (db_isvar db) sg (s_math sh) = e) -> proves (envAt E s) (Some T) c e -> tval db stn c e).
        { intros i c h e I Hh [sh [S1 SE]] PC. destruct (wf_hyps db WD repl st h S0 (mo_type _ _ _ MO) (nth_error_In _ _ Hh)) as [sh' [S1' HS]]. unfold stmtAt in S1, S1'. rewrite S1 in S1'. injection S1' as <-. destruct HS as [TE|TF].
          - destruct (OK i c I eq_refl h sh Hh S1 TE) as [[q [X ->]]|[t [k [path [X Q]]]]].
            + inversion PC as [h' sh' P1 P2 P3 P4|t k path u e' P1 P2 P3 P4 P5 P6|n st'' kids' es' sg' U' F' UN' P3 P4].
              * apply Nat2Z.inj in P3. subst h'. exact (own_val q sh' P1 P2).
              * injection P1 as <-. exact (node_val _ _ _ _ P2 (proves_shows E repl st MO s T CO _ e PC)).
              * exfalso. apply Nat2Z.inj in P3. subst n. destruct (fo_hyps _ _ FOS q X) as [shq [K1 K2]]. pose proof (us_stmt _ _ _ U') as K3. pose proof (us_type _ _ _ U') as K4. unfold stmtAt in K1, K3. rewrite K1 in K3. injection K3 as <-. unfold isHyp, isAssertion in *. destruct K2, K4; congruence.
            + injection X as <-. exact (node_val _ _ _ _ Q (proves_shows E repl st MO s T CO _ e PC)).
          - apply synth_val; [exact PC|]. rewrite <- SE. apply (subst_head L E repl st MO h sh sg false S1 (or_introl (or_intror TF))). exact (sp_f L db SP h sh S1 TF). }
        unfold VerSpec.unifier in UN. cbn [envAt f_db] in UN. clear -UN F EACH. revert EACH. generalize (s_reqHyps st) as hs, UN. clear UN. intros hs UN. revert kids F. induction UN as [|h e hs es X UN IHU]; intros kids F EACH; inversion F as [|k y ks ys P1 P2]; subst; constructor.
        + exact (EACH 0 k h e eq_refl eq_refl X P1).
        + apply (IHU _ P2). intros i c h' e' I Hh. exact (EACH (S i) c h' e' I Hh).
    Qed.
  End At.
  Lemma val_step s T s' T' e : complete E s T -> swapped E repl st s T s' T' -> tval db stn T e -> tval db stn T' e.
  Proof.
    intros CO [step [path [u [v [m [N [SU [PV [OK [_ PT]]]]]]]]]] VT. eapply (put_val db stn v T path T' PT step u m e N); [exact (node_val s T e CO VT step path u m N SU)|exact (made_val s T e CO VT v m PV OK)|exact WD|exact VT].
  Qed.
End Step.

(* a replacement that passed the $d test *)
Lemma val_disj N stn s T : forall fuel text, wf_db (f_db (n_E N)) -> stmtAt (f_db (n_E N)) (f_n (n_E N)) stn -> s_type stn = S_p -> complete (n_E N) s T -> shows (f_db (n_E N)) anything T (s_math stn) -> readsSame fuel N (pf s) ->
  compressedText fuel N (pf s) = Ok text -> disjTrouble fuel N text = Ok false -> tval (f_db (n_E N)) stn T (s_math stn).
Proof.
  intros fuel text WD S P CO SH RS HT HD. unfold disjTrouble in HD. apply rbind_ok in HD. destruct HD as [pr [HP HD]]. apply rbind_ok in HD. destruct HD as [[[q ds] er] [HV HD]]. cbn [fst snd] in HD. apply Ok_inj in HD. apply orb_false_iff in HD. destruct HD as [SV HD].
  assert (KS : pr_sev pr = pr_k pr).
  { unfold parseTrial in HP. apply rbind_ok in HP. destruct HP as [st [_ HP]]. destruct (_ <? _)%Z; [discriminate HP|]. apply rbind_ok in HP. destruct HP as [[[k zs] ec] [_ HP]]. apply rbind_ok in HP. destruct HP as [p [_ HP]]. apply Ok_inj in HP. subst pr. reflexivity. }
  destruct (RS text pr HT HP ltac:(lia)) as [SQ E0]. rewrite E0 in HV. pose proof (co_pip _ _ _ CO) as PO.
  destruct (squish_ok (f_db (n_E N)) T (po_tree _ _ _ PO) (po_norefs _ _ _ PO)) as [q' [Q1 [Q2 _]]]. rewrite (po_rpn _ _ _ PO), Q1 in SQ. apply Ok_inj in SQ. subst q'.
  apply (valid_tval _ stn WD _ T Q2). eapply shown_valid; [exact WD|exact S|exact P| |exact Q2|exact SH|exact HV|]; [lia|].
  intros d I X. apply Bool.diff_true_false. rewrite <- HD. symmetry. apply existsb_exists. exists d. split; [exact I|]. destruct d; try destruct X; reflexivity.
Qed.
