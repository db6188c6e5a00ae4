(* MwTree.v -- proofs about MwModel: what a replacement is made of, and the rounds *)
From Coq Require Import ZifyBool ZifyNat.
From Verif Require Import Base.
From Verif Require Import UniModel HenModel.
From Verif Require Import MMSpec VerModel VerSpec VerProofs ParModel SqModel SqSpec SqProofs SqAttr SqValid PfaModel PfaSpec PfaProofs PfaMore PfaHist FltModel FltSpec FltProofs FltMain FltVal RepModel RepSpec RepProofs RepMain AkModel AkSpec AkProofs AkMain AkTop MinModel MinSpec MinProofs MinMain
  TrcModel TrcSpec MwModel MwSpec.
Open Scope nat_scope.

Section Tree.
  Variables (L : nat -> bool) (E : fenv) (repl : nat) (st : stmtRec).
  Hypothesis MO : minOk E repl st.
  Notation db := (f_db E).
  Hypothesis SP : separated L db.
  Let WD : wf_db db := fo_wf E None (mo_flt _ _ _ MO).

  (* where the steps of a new subproof come from *)
  Definition source (p : list Z) (z : Z) : Prop := In z p \/ exists n, z = Z.of_nat n /\ (ownHyp E n \/ (1 <= n < f_n E /\ syntaxAt L db n)).
  Definition head_of (m : list nat) (b : bool) : Prop := exists c r, m = c :: r /\ L c = b.
  Lemma subst_head n st' sg b : stmtAt db n st' -> isHyp st' \/ isAssertion st' -> (head_of (MMSpec.subst (db_isvar db) sg (s_math st')) b <-> head_of (s_math st') b).
  Proof.
    intros S K. destruct (wf_head db WD n st' S K) as [c [r [H V]]]. rewrite H. unfold MMSpec.subst. cbn [flat_map]. rewrite V. cbn [app]. split; intros [c' [r' [X Y]]]; injection X as <- _; eexists; eexists; split; try reflexivity; exact Y.
  Qed.

  Section At.
    Variables (s : pip) (T : tree).
    Hypothesis CO : complete E s T.
    Let PO := co_pip _ _ _ CO.
    Lemma node_in k path u z : nodeAt T k path u -> In z (rpn u) -> In z (pf s).
    Proof. intros Q I. rewrite (po_rpn _ _ _ PO). exact (sub_in _ _ _ _ Q z I). Qed.
    (* proofs of syntax: no new logical statement *)
    Lemma synth t : forall m, proves (envAt E s) (Some T) t m -> head_of m false -> forall z, In z (rpn t) -> source (pf s) z.
    Proof.
      induction t as [z kids IH] using tree_ind2. intros m P HM. inversion P as [h sh O1 O2 O3 O4|t k path u e' O1 O2 O3 O4 O5 O6|n st' kids' es sg U F UN O3 O4]; subst.
      - intros x [<-|[]]. right. exists h. split; [reflexivity|]. left. exact O1.
      - injection O1 as <-. intros x I. left. exact (node_in _ _ _ _ O2 I).
      - pose proof (us_stmt _ _ _ U) as S. pose proof (us_type _ _ _ U) as A. pose proof (us_range _ _ _ U) as R. cbn [envAt f_db f_n] in *.
        apply (subst_head n st' sg false S (or_intror A)) in HM. intros x I. cbn [rpn] in I. apply in_app_or in I. destruct I as [I|[<-|[]]].
        2:{ right. exists n. split; [reflexivity|]. right. split; [exact R|]. exists st'. split; [exact S|]. split; [exact A|exact HM]. }
        apply in_flat_map in I. destruct I as [c [I J]]. rewrite Forall_forall in IH.
        assert (exists y, proves (envAt E s) (Some T) c y /\ head_of y false) as [y [Q HY]]; [|exact (IH c I y Q HY x J)].
        assert (HH : forall h sh, In h (s_reqHyps st') -> stmtAt db h sh -> s_type sh = S_f) by (intros h sh X Y; exact (sp_syn L db SP n st' h sh S A HM X Y)).
        unfold VerSpec.unifier in UN. cbn [envAt f_db] in UN. clear -UN F I HH WD SP. revert kids F I. induction UN as [|h e hs es [sh [S1 S2]] UN IHU]; intros kids F I; [inversion F; subst; destruct I|].
        inversion F as [|k y ks ys P1 P2]; subst. destruct I as [<-|I]; [|apply (IHU ltac:(intros h' sh' X; apply HH; right; exact X) _ P2 I)].
        eexists. split; [exact P1|]. pose proof (HH h sh (or_introl eq_refl) S1) as TF. apply (subst_head h sh sg false S1 (or_introl (or_intror TF))). exact (sp_f L db SP h sh S1 TF).
    Qed.
    (* ... and of anything, from statement repl *)
    Lemma made v m : proves (envAt E s) (Some T) v m -> oldKids (envAt E s) T repl st false v -> forall z, In z (rpn v) -> z = Z.of_nat repl \/ source (pf s) z.
    Proof.
      intros P [kids [-> [LK OK]]]. inversion P as [h sh O1 O2 O3 O4|t k path u e' O1 O2 O3 O4 O5 O6|n st' kids' es sg U F UN O3 O4].
      - intros x [<-|[]]. left. reflexivity.
      - injection O1 as <-. intros x I. right. left. exact (node_in _ _ _ _ O2 I).
      - apply Nat2Z.inj in O3. subst n kids' m. pose proof (us_stmt _ _ _ U) as S. cbn [envAt f_db] in S. pose proof (mo_stmt _ _ _ MO) as S0. unfold stmtAt in S, S0. rewrite S0 in S. injection S as <-.
        intros x I. cbn [rpn] in I. apply in_app_or in I. destruct I as [I|[<-|[]]]; [|left; reflexivity]. right. apply in_flat_map in I. destruct I as [c [I J]]. apply In_nth_error in I. destruct I as [i I].
        destruct (nth_is (s_reqHyps st) i) as [h Hh]; [rewrite <- LK; exact (nth_lt _ _ _ I)|].
        destruct (wf_hyps db WD repl st h S0 (mo_type _ _ _ MO) (nth_error_In _ _ Hh)) as [sh [S1 HS]]. destruct HS as [TE|TF].
        + destruct (OK i c I eq_refl h sh Hh S1 TE) as [[q [X ->]]|[t [k [path [X Q]]]]].
          * destruct J as [<-|[]]. right. exists q. split; [reflexivity|]. left. exact X.
          * injection X as <-. left. exact (node_in _ _ _ _ Q J).
        + assert (exists y, proves (envAt E s) (Some T) c y /\ head_of y false) as [y [Q HY]]; [|exact (synth c y Q HY x J)].
          unfold VerSpec.unifier in UN. cbn [envAt f_db] in UN. clear -UN F I Hh S1 TF SP WD. revert kids i F I Hh. induction UN as [|h' e hs es [sh' [S1' S2]] UN IHU]; intros kids i F I Hh; [destruct i; discriminate Hh|].
          inversion F as [|k y ks ys P1 P2]; subst. destruct i as [|i]; cbn [nth_error] in *; [|exact (IHU ks i P2 I Hh)]. injection I as <-. injection Hh as <-. unfold stmtAt in S1, S1'. rewrite S1 in S1'. injection S1' as <-.
          eexists. split; [exact P1|]. apply (subst_head h' sh sg false S1 (or_introl (or_intror TF))). exact (sp_f L db SP h' sh S1 TF).
    Qed.
  End At.
  Lemma source_step (p q : list Z) z : source q z -> (forall x, In x q -> x = Z.of_nat repl \/ source p x) -> z = Z.of_nat repl \/ source p z.
  Proof. intros [I|I] H; [exact (H z I)|right; right; exact I]. Qed.
  Definition onlyFrom (s s' : pip) : Prop := forall z, In z (pf s') -> z = Z.of_nat repl \/ source (pf s) z.
  Lemma swapped_from s T s' T' : complete E s T -> swapped E repl st s T s' T' -> onlyFrom s s'.
  Proof.
    intros CO [step [path [u [v [m [N [_ [PV [OK [SPL _]]]]]]]]]] z I. rewrite SPL in I. apply splice_in in I. destruct I as [I|I]; [right; left; exact I|]. exact (made s T CO v m PV OK z I).
  Qed.
  Lemma onlyFrom_trans a b c : onlyFrom a b -> onlyFrom b c -> onlyFrom a c.
  Proof. intros H1 H2 z I. destruct (H2 z I) as [H|H]; [left; exact H|]. apply (source_step _ _ z H). exact H1. Qed.
End Tree.

(* ---------- the rounds, for any relation kept by replacements ---------- *)
Section Rounds.
  Variables (E : fenv) (repl : nat) (st : stmtRec).
  Hypothesis MO : minOk E repl st.
  Variable R : pip -> tree -> pip -> tree -> Prop.
  Hypothesis R_refl : forall s T, complete E s T -> R s T s T.
  Hypothesis R_trans : forall a A b B c C, R a A b B -> R b B c C -> R a A c C.
  Hypothesis R_step : forall s T s' T', complete E s T -> kept E s T s' T' -> swapped E repl st s T s' T' -> R s T s' T'.
  Lemma rounds_rel grow start : forall w s T, complete E s T -> exists r K, (forall fuel, K <= fuel -> minRounds w fuel E repl grow start s = r) /\ forall s', r = Ok s' ->
    exists T', kept E s T s' T' /\ R s T s' T' /\ (grow = false -> s' = s \/ length (pf s') < length (pf s)).
  Proof.
    induction w as [|w IH]; intros s T CO; [exists Fuel, 0; split; [reflexivity|discriminate]|].
    destruct (steps_ok E repl st MO grow s T CO (length (pf s)) (le_n _)) as [r [K [RR [->|[s1 [T1 [-> [KP [SW [LT _]]]]]]]]]].
    - exists (Ok s), K. split; [intros fuel LF; cbn [minRounds]; rewrite (RR fuel LF); reflexivity|]. intros s' H. apply Ok_inj in H. subst s'. exists T. split; [exact (kept_refl E s T CO)|]. split; [exact (R_refl s T CO)|auto].
    - pose proof (R_step s T s1 T1 CO KP SW) as R1. destruct (grow && (2 * start <? length (pf s))) eqn:G.
      + exists (Ok s1), K. split; [intros fuel LF; cbn [minRounds]; rewrite (RR fuel LF); cbn [rbind snd]; rewrite G; reflexivity|]. intros s' H. apply Ok_inj in H. subst s'. exists T1. split; [exact KP|]. split; [exact R1|]. intros X. right. exact (LT X).
      + destruct (IH s1 T1 (kp_complete _ _ _ _ _ KP)) as [r2 [K2 [R2 H2]]]. exists r2, (Nat.max K K2). split; [intros fuel LF; cbn [minRounds]; rewrite (RR fuel) by lia; cbn [rbind snd]; rewrite G; apply R2; lia|]. intros s' H.
        destruct (H2 s' H) as [T2 [KP2 [R3 LT2]]]. exists T2. split; [exact (kept_trans E _ _ _ _ _ _ KP KP2)|]. split; [exact (R_trans _ _ _ _ _ _ R1 R3)|].
        intros X. specialize (LT X). destruct (LT2 X) as [->|Y]; right; lia.
  Qed.
End Rounds.
