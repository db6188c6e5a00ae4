(* CheckCmpTok.v -- a correct compressed proof over the names of the text is a valid proof over
   the symbol numbers of the verifier. *)
From Verif Require Import Base LabModel StmModel StmSpec StmTab StmScope TokSpec SrcSpec MMSpec VerModel VerSpec VerProofs ParModel ParSpec
  ReadModel ReadOut ReadSpec ReadWf ReadTok ReadMain CheckSpec CheckTok CheckPar CheckCmp.
From Coq Require Import Permutation Sorted.
Open Scope nat_scope.

Lemma F2_len {A B} (R : A -> B -> Prop) l l' : Forall2 R l l' -> length l = length l'.
Proof. induction 1; cbn; auto. Qed.

Section Tok.
  Variable sts : list sinp.
  Variable out : list sout.
  Notation toks := (declTokens 1 sts).
  Hypothesis LG : legal sts.
  Hypothesis OL : length out = S (length sts).
  Hypothesis O0 : nth_error out 0 = Some out0.
  Hypothesis OP : Forall plainOut out.
  Hypothesis OG : forall n i o, stAt sts n i -> nth_error out n = Some o -> goodOut sts toks n i o.
  Variable env : penv.
  Hypothesis DB : e_db env = mkDb (tkVar toks) (length toks) (map toStmt out).
  Notation db := (e_db env).
  Variable n : nat.
  Variable i : sinp.
  Variable o : sout.
  Hypothesis Hi : stAt sts n i.
  Hypothesis HK : si_kind i = K_p.
  Hypothesis HG : goodOut sts toks n i o.
  Variable items : list item.
  Hypothesis IU : forall m m' l, isLabel items m l -> isLabel items m' l -> m = m'.
  Notation mn := (means sts n).

  Variables (hs lm : list nat) (ls : list name).
  Hypothesis MH : mandHyps sts n hs.
  Hypothesis FL : Forall2 (fun l m => isLabel items m l /\ refOk db n o m) ls lm.
  Let base := map Z.of_nat (hs ++ lm).

  Lemma hs_req : hs = o_reqHyps o.
  Proof.
    pose proof (asrt_frame sts n i o Hi HG (or_intror HK)) as FN. destruct MH as [A B].
    apply sorted_uniq; [exact B|apply (gf_hyps_sorted _ _ _ _ FN)|]. intros x. rewrite A. symmetry. apply (gf_hyps _ _ _ _ FN).
  Qed.
  Lemma base_hyp j h locs : nth_error hs j = Some h -> nth_error (base ++ locs) j = Some (encStep (Stm h)).
  Proof.
    intros H. assert (L : j < length hs) by (apply nth_error_Some; congruence).
    rewrite nth_error_app1 by (unfold base; rewrite map_length, app_length; lia). unfold base. apply map_nth_error. rewrite nth_error_app1 by exact L. exact H.
  Qed.
  Lemma base_lab j m locs : nth_error lm j = Some m -> nth_error (base ++ locs) (length hs + j) = Some (encStep (Stm m)).
  Proof.
    intros H. assert (L : j < length lm) by (apply nth_error_Some; congruence).
    rewrite nth_error_app1 by (unfold base; rewrite map_length, app_length; lia). unfold base. apply map_nth_error.
    rewrite nth_error_app2 by lia. replace (length hs + j - length hs) with j by lia. exact H.
  Qed.
  Lemma base_loc j z locs : nth_error locs j = Some z -> nth_error (base ++ locs) (length hs + length ls + j) = Some z.
  Proof.
    intros H. assert (EL : length ls = length lm) by exact (F2_len _ _ _ FL).
    rewrite nth_error_app2 by (unfold base; rewrite map_length, app_length; lia).
    replace (length hs + length ls + j - length base) with j by (unfold base; rewrite map_length, app_length; lia). exact H.
  Qed.
  Lemma asrt_is a : kindAt sts a K_a \/ kindAt sts a K_p -> asrtStep env (Stm a).
  Proof.
    intros K. assert (exists j, stAt sts a j /\ isA (si_kind j)) as (j & Hj & KJ) by (destruct K as [(j & A & B)|(j & A & B)]; exists j; unfold isA; auto).
    destruct (db_kind sts out OL OG db DB a j Hj) as (oa & HO & G & EK). exists a, (toStmt oa). split; [reflexivity|]. split; [exact HO|].
    apply type_a. now rewrite EK.
  Qed.
  Lemma step_top stp vals tS m e tS1 : rpnStep db stp vals tS (Stm m) e tS1 -> exists t, tS1 = e :: t.
  Proof. inversion 1; subst; eauto. Qed.

  Definition savedOk (vals : list (list nat)) (z : Z) (e : list name) : Prop :=
    exists k te, z = (-1000 - Z.of_nat k)%Z /\ nth_error vals k = Some te /\ mn te e.
  Lemma saved_more vals v locs sv : Forall2 (savedOk vals) locs sv -> Forall2 (savedOk (vals ++ [v])) locs sv.
  Proof.
    induction 1 as [|z e locs sv (k & te & A & B & C) F IH]; constructor; auto. exists k, te. split; [exact A|]. split; [|exact C].
    rewrite nth_error_app1; [exact B|]. apply nth_error_Some. congruence.
  Qed.

  Lemma code_tok cs s s1 : codeRun items sts n hs ls cs s s1 -> forall pre tS vals locs,
    Forall2 mn tS (fst (fst s)) -> length vals = length pre -> Forall2 (savedOk vals) locs (snd (fst s)) ->
    (snd s = true -> exists pre' x te tS', pre = pre' ++ [x] /\ asrtStep env x /\ tS = te :: tS' /\ nth_error vals (length pre') = Some te) ->
    exists p tS', emits env base pre locs cs p /\ Forall (fun y => y <> Unk) p /\ (forall m, In (Stm m) p -> refOk db n o m) /\
      Forall2 mn tS' (fst (fst s1)) /\ exists vals', rpnRun db (toStmt o) vals tS p vals' tS'.
  Proof.
    induction 1 as [s|c cs s s1 s2 ST R IH]; intros pre tS vals locs FS LV FV TB.
    { exists [], tS. split; [constructor|]. split; [constructor|]. split; [intros m []|]. split; [exact FS|]. exists vals. constructor. }
    inversion ST as [j h e q sv b HN TE|j h l q q1 sv b HN HL HKi SO|j a l q q1 sv b HN HL HKi SO|j e q sv b HN|e q sv]; subst; cbn [fst snd] in *.
    - (* mandatory hypothesis *)
      assert (IH0 : In h hs) by (eapply nth_error_In; eauto).
      assert (HM : mandHyp sts n h) by (apply (proj1 MH); exact IH0).
      destruct (mandHyp_hyp _ _ _ HM) as (jh & Hjh & KH).
      assert (KHi : kindAt sts h K_e \/ kindAt sts h K_f) by (destruct KH as [E|E]; [left|right]; exists jh; auto).
      destruct (hyp_ref sts out LG OL O0 OP OG db DB n i o Hi HK HG h KHi (proj1 HM)) as (oh & HO & IHy & RQ & ME).
      destruct (IH (pre ++ [Stm h]) (o_math oh :: tS) (vals ++ [o_math oh]) locs) as (p & tS' & EM & NU & RF & F' & vals' & RR); auto.
      { rewrite !app_length, LV. reflexivity. }
      { now apply saved_more. }
      { discriminate. }
      exists (Stm h :: p), tS'. split; [econstructor; [now apply base_hyp|exact EM]|]. split; [constructor; [discriminate|exact NU]|].
      split; [intros m [E|Hm]; [injection E as <-; exists (toStmt oh); auto|auto]|].
      split; [exact F'|]. exists vals'. econstructor; [|exact RR]. change (o_math oh) with (s_math (toStmt oh)). now apply rs_hyp.
    - (* optional hypothesis *)
      destruct (F2_nth _ _ _ FL _ _ HN) as (m & Hm & HLm & RM).
      destruct (step_tok sts out LG OL O0 OP OG db DB n i o Hi HK HG items l q q1 SO tS FS) as (m' & v & tS1 & HL' & _ & F1 & RS).
      assert (m' = m) by eauto. subst m'.
      destruct (IH (pre ++ [Stm m]) tS1 (vals ++ [v]) locs) as (p & tS' & EM & NU & RF & F' & vals' & RR); auto.
      { rewrite !app_length, LV. reflexivity. }
      { now apply saved_more. }
      { discriminate. }
      exists (Stm m :: p), tS'. split; [econstructor; [now apply base_lab|exact EM]|]. split; [constructor; [discriminate|exact NU]|].
      split; [intros m' [E|Hm']; [injection E as <-; exact RM|auto]|].
      split; [exact F'|]. exists vals'. econstructor; [apply RS|exact RR].
    - (* assertion *)
      destruct (F2_nth _ _ _ FL _ _ HN) as (m & Hm & HLm & RM).
      destruct (step_tok sts out LG OL O0 OP OG db DB n i o Hi HK HG items l q q1 SO tS FS) as (m' & v & tS1 & HL' & _ & F1 & RS).
      assert (m' = m) by eauto. subst m'. assert (m = a) by eauto. subst m.
      destruct (step_top _ _ _ _ _ _ (RS vals)) as (t1 & ET).
      destruct (IH (pre ++ [Stm a]) tS1 (vals ++ [v]) locs) as (p & tS' & EM & NU & RF & F' & vals' & RR); auto.
      { rewrite !app_length, LV. reflexivity. }
      { now apply saved_more. }
      { intros _. exists pre, (Stm a), v, t1. split; [reflexivity|]. split; [now apply asrt_is|]. split; [exact ET|].
        rewrite <- LV, nth_error_app2, Nat.sub_diag by lia. reflexivity. }
      exists (Stm a :: p), tS'. split; [econstructor; [now apply base_lab|exact EM]|]. split; [constructor; [discriminate|exact NU]|].
      split; [intros m' [E|Hm']; [injection E as <-; exact RM|auto]|].
      split; [exact F'|]. exists vals'. econstructor; [apply RS|exact RR].
    - (* saved expression *)
      destruct (F2_nth' _ _ _ FV _ _ HN) as (z & Hz & k & te & -> & Hk & MT).
      destruct (IH (pre ++ [Loc k]) (te :: tS) (vals ++ [te]) locs) as (p & tS' & EM & NU & RF & F' & vals' & RR); auto.
      { rewrite !app_length, LV. reflexivity. }
      { now apply saved_more. }
      { discriminate. }
      exists (Loc k :: p), tS'. split; [econstructor; [|exact EM]; apply base_loc; exact Hz|]. split; [constructor; [discriminate|exact NU]|].
      split; [intros m' [E|Hm']; [discriminate|auto]|].
      split; [exact F'|]. exists vals'. econstructor; [apply rs_loc; exact Hk|exact RR].
    - (* mark *)
      destruct (TB eq_refl) as (pre' & x & te & t' & -> & AS & -> & HV).
      inversion FS as [|? ? ? ? MT FS']; subst.
      destruct (IH (pre' ++ [x]) (te :: t') vals (locs ++ [(-1000 - Z.of_nat (length pre'))%Z])) as (p & tS' & EM & NU & RF & F' & vals' & RR); auto.
      { apply Forall2_app; [exact FV|]. constructor; [|constructor]. exists (length pre'), te. auto. }
      exists p, tS'. split; [now constructor|]. split; [exact NU|]. split; [exact RF|]. split; [exact F'|]. exists vals'. exact RR.
  Qed.

  Lemma proved_code cs e sv f : toksAt sts n e -> codeRun items sts n hs ls cs ([], [], false) ([e], sv, f) ->
    exists p, emits env base [] [] cs p /\ Forall (fun y => y <> Unk) p /\ (forall m, In (Stm m) p -> refOk db n o m) /\ validProof db (toStmt o) p.
  Proof.
    intros TE R. destruct (code_tok _ _ _ R [] [] [] [] (Forall2_nil _) eq_refl (Forall2_nil _) ltac:(discriminate)) as (p & tS & EM & NU & RF & F & vals & RV).
    exists p. split; [exact EM|]. split; [exact NU|]. split; [exact RF|]. exists vals. cbn [fst] in F.
    inversion F as [|te e1 l1 l2 M1 M2]; subst. inversion M2; subst.
    assert (te = s_math (toStmt o)); [|now subst te].
    cbn [toStmt s_math]. eapply (means_fun sts out LG OL O0 OP OG db DB); [exact M1|].
    apply (toksAt_at _ _ _ _ Hi) in TE. rewrite <- TE. apply (math_den sts n i o HG); rewrite HK; try discriminate; reflexivity.
  Qed.
End Tok.
