(* CheckConv.v -- a file read and verified without a message has correct proofs. *)
From Verif Require Import Base TokModel LabModel LabSpec LabProofs SrcModel StmModel TokSpec SrcSpec StmSpec TokProofs SrcProofs SrcFinal
  StmTab StmScope StmMain MMSpec VerModel VerSpec VerProofs ParModel ParSpec ParProps CmpSpec
  ReadModel ReadOut ReadSpec ReadWf ReadTok ReadSec ReadWords ReadMain TidySpec TidyFile TidyMain
  CheckSpec CheckTok CheckPar CheckCmp CheckCmpTok CheckMain CheckBack CheckParBack.
From Coq Require Import Permutation Sorted.
Open Scope nat_scope.

Lemma sym_word t : t <> [] -> Forall labelSym t -> labelWord t.
Proof. intros N F. split; [exact N|]. eapply Forall_impl; [|exact F]. intros c. apply labelChar_spec. Qed.
Lemma words_nonnil a ls : words a ls -> Forall (fun t => t <> []) ls.
Proof. induction 1; auto. Qed.
Lemma label_words a ls : words a ls -> labelWords ls -> Forall labelWord ls.
Proof.
  intros W F. apply words_nonnil in W. unfold labelWords in F. rewrite Forall_forall in *. intros t I. apply sym_word; auto.
Qed.

(* a run without message has no proof with '?' and none with an error *)
Lemma loop_err fuel db parse : forall cnt n ef em ms em' ms', verifyLoop fuel db parse n cnt ef em ms = Ok (false, em', ms') -> ef = false.
Proof.
  induction cnt as [|cnt IH]; intros n ef em ms em' ms' H; cbn [verifyLoop] in H.
  - apply Ok_inj in H. congruence.
  - apply rbind_ok in H. destruct H as (st & _ & H). destruct (s_type st); [now apply IH in H| |now apply IH in H..].
    apply rbind_ok in H. destruct H as ([e2 ds] & H1 & H). apply IH in H. subst e2.
    destruct (_ <? _); [apply rbind_ok in H1; destruct H1 as ([[status ds'] u] & _ & H1)|]; apply Ok_inj in H1; injection H1 as H1 _;
      repeat (apply orb_false_iff in H1; destruct H1 as [H1 _]); exact H1.
Qed.
Lemma loop_empty fuel db parse : forall cnt n ef em ms ef' em' ms', verifyLoop fuel db parse n cnt ef em ms = Ok (ef', em', ms') -> exists l, em' = em ++ l.
Proof.
  induction cnt as [|cnt IH]; intros n ef em ms ef' em' ms' H; cbn [verifyLoop] in H.
  - apply Ok_inj in H. exists []. rewrite app_nil_r. congruence.
  - apply rbind_ok in H. destruct H as (st & _ & H). destruct (s_type st); [now apply IH in H| |now apply IH in H..].
    apply rbind_ok in H. destruct H as ([e2 ds] & H1 & H). apply IH in H. destruct H as (l & ->). destruct (_ =? 1); [rewrite <- app_assoc|]; eauto.
Qed.
Lemma loop_zero fuel db parse : forall cnt n ms ms', verifyLoop fuel db parse n cnt false [] ms = Ok (false, [], ms') ->
  forall j st, j < cnt -> stmtAt db (n + j) st -> s_type st = S_p -> pr_k (parse (n + j)) = 0.
Proof.
  induction cnt as [|cnt IH]; intros n ms ms' H j st L HS HT; [lia|]. cbn [verifyLoop] in H.
  apply rbind_ok in H. destruct H as (s0 & H0 & H).
  assert (E0 : nth_error (db_stmts db) n = Some s0) by (unfold rget in H0; destruct (nth_error (db_stmts db) n); [apply Ok_inj in H0; congruence|discriminate]).
  assert (TL : forall ms1, verifyLoop fuel db parse (S n) cnt false [] ms1 = Ok (false, [], ms') -> 0 < j -> pr_k (parse (n + j)) = 0).
  { intros ms1 Q P. replace (n + j) with (S n + (j - 1)) by lia. apply (IH (S n) ms1 ms' Q (j - 1) st); auto; [lia|]. replace (S n + (j - 1)) with (n + j) by lia. exact HS. }
  destruct (Nat.eq_dec j 0) as [->|NJ].
  - rewrite Nat.add_0_r in *. assert (s0 = st) by (unfold stmtAt in HS; congruence). subst s0. rewrite HT in H.
    apply rbind_ok in H. destruct H as ([e2 ds] & H1 & H). pose proof (loop_empty _ _ _ _ _ _ _ _ _ _ _ H) as (l & EE). apply loop_err in H. subst e2.
    assert (K2 : (2 <=? pr_k (parse n)) = false).
    { destruct (_ <? 2); [apply rbind_ok in H1; destruct H1 as ([[status ds'] u] & _ & H1)|]; apply Ok_inj in H1; injection H1 as H1 _; cbn [orb] in H1;
        try (apply orb_false_iff in H1; destruct H1 as [H1 _]); exact H1. }
    apply Nat.leb_gt in K2. destruct (Nat.eqb_spec (pr_k (parse n)) 1); [discriminate|]. lia.
  - destruct (s_type s0); [eapply TL; [exact H|lia]| |eapply TL; [exact H|lia]..].
    apply rbind_ok in H. destruct H as ([e2 ds] & H1 & H).
    pose proof (loop_empty _ _ _ _ _ _ _ _ _ _ _ H) as (l & EE). pose proof (loop_err _ _ _ _ _ _ _ _ _ _ H) as EF. subst e2.
    destruct (_ =? 1); [discriminate|]. eapply TL; [exact H|lia].
Qed.
Lemma clean_zero fuel db parse : verifyProofs fuel db parse = Ok (true, []) ->
  forall n st, 1 <= n -> stmtAt db n st -> s_type st = S_p -> pr_k (parse n) = 0.
Proof.
  intros H n st P HS HT. unfold verifyProofs in H. apply rbind_ok in H. destruct H as ([[ef em] ms] & H1 & H). apply Ok_inj in H. injection H as H2 ->.
  destruct em; [|discriminate]. apply negb_true_iff in H2. subst ef.
  assert (L : n < length (db_stmts db)) by (apply nth_error_Some; unfold stmtAt in HS; congruence).
  replace n with (1 + (n - 1)) by lia. apply (loop_zero fuel db parse _ _ _ _ H1 (n - 1) st); auto; [lia|]. replace (1 + (n - 1)) with n by lia. exact HS.
Qed.

Section Read.
  Variable lsort : list lstmt -> list nat.
  Variable msort : list (list nat) -> list nat.
  Hypothesis LS : forall l, qsorted l (lsort l).
  Hypothesis MS : forall l, mqsorted l (msort l).
  Variables (minSub : nat) (src : list nat) (r : rdb).
  Hypothesis H : readText lsort msort minSub src = Ok ([], r).
  Let items := map (toItem src) (rd_ks r).
  Let sts := rd_sts r.
  Variable find : list (label * Z) -> label -> option Z.
  Hypothesis FS : forall tab l j, find tab l = Some j -> In (l, j) tab.
  Hypothesis FN : forall tab l, find tab l = None -> forall j, ~ In (l, j) tab.
  Let env := envOf find r.

  Lemma dec_enc zs p : decodes zs p -> forall q, zs = map encStep q -> (forall m, In (Stm m) q -> 0 < m) -> q = p.
  Proof.
    intros D q E PP. pose proof (decAll_enc q PP) as Q. rewrite <- E in Q. clear E PP. unfold decodes in D.
    revert p q D Q. induction zs as [|z zs IH]; intros p q D Q.
    - destruct p; [|discriminate]. cbn in Q. now injection Q as <-.
    - destruct p as [|x p]; [discriminate|]. cbn [map] in D. injection D as D1 D2. cbn [decAll] in Q. rewrite D1 in Q.
      destruct (decAll zs) as [q'|] eqn:EQ; [|discriminate]. injection Q as <-. f_equal. now apply IH.
  Qed.

  Lemma silent_correct fuel prev l : parseAll fuel env src (rd_ks r) 1 (length (db_stmts (dbOf r)) - 1) prev = Ok (Some l) ->
    verifyProofs fuel (dbOf r) (parsedAt l) = Ok (true, []) ->
    forall n it, kindAt sts n K_p -> nth_error items (n - 1) = Some it -> listLayout (it_proof it) \/ packedLayout (it_proof it) -> proofCorrect items sts n.
  Proof.
    intros HP HV n it KP Hit LAY.
    destruct (ok_out lsort msort MS minSub src r H) as (A & B & C & D). pose proof (ok_db lsort msort minSub src r H) as DBE. fold sts in A, C, D, DBE.
    pose proof (proj1 (ok_legal lsort msort MS minSub src r H)) as LG. fold sts in LG.
    pose proof (ok_env lsort msort LS MS minSub src r H find FS FN) as WE. fold env in WE.
    pose proof (ok_uniq lsort msort LS MS minSub src r H find) as UE. fold env in UE.
    pose proof (ok_wf lsort msort MS minSub src r H) as WF.
    destruct KP as (j & Hj & KJ). pose proof Hj as [P0 _].
    destruct (db_kind sts (rd_out r) A D (dbOf r) DBE n j Hj) as (o & HS & G & EK).
    assert (HT : s_type (toStmt o) = S_p) by (cbn [toStmt s_type]; rewrite EK, KJ; reflexivity).
    destruct (ok_parses lsort msort MS minSub src r H find fuel prev l HP n (toStmt o) HS HT) as (f1 & prev1 & k & zs & ec & PT & PK & _ & _ & DC).
    fold env in PT.
    pose proof (clean_zero fuel (dbOf r) (parsedAt l) HV n (toStmt o) P0 HS HT) as K0. rewrite K0 in PK. subst k. specialize (DC ltac:(lia)).
    destruct (C06_clean_run_text env (proofText src (rd_ks r)) (parsedAt l) fuel WF WE (ok_parses lsort msort MS minSub src r H find fuel prev l HP) HV n (toStmt o) P0 HS HT) as (VP & RH & RAs).
    set (p := pr_proof (parsedAt l n)) in *.
    pose proof (asrt_frame sts n j o Hj G (or_intror KJ)) as FR.
    assert (LB : forall m sm, stmtAt (dbOf r) m sm -> CmpSpec.labelled sm -> isLabel items m (labelAt r m)).
    { intros m sm HSM LK. destruct (db_labelled lsort msort MS minSub src r H m sm HSM LK) as (jm & Hjm & LK').
      exact (proj1 (label_at lsort msort minSub src r H m jm Hjm LK')). }
    assert (SEC : exists q, fst (proofText src (rd_ks r) n) = it_proof it /\ snd (proofText src (rd_ks r) n) = dollar :: 46 :: q /\ stops (snd (proofText src (rd_ks r) n))).
    { destruct n as [|n']; [lia|]. destruct (ks_at lsort msort minSub src r H n' j Hj) as (ki & Hki & EKi). rewrite KJ in EKi.
      destruct (proof_section lsort msort minSub src r H n' ki Hki EKi) as [E1 E2]. destruct (proof_dot lsort msort minSub src r H n' ki Hki EKi) as (q & E3).
      exists q. split; [|auto]. rewrite E1. cbn in Hit. rewrite Nat.sub_0_r in Hit. unfold items in Hit. rewrite (map_nth_error (toItem src) n' _ Hki) in Hit. now injection Hit as <-. }
    destruct SEC as (q & E1 & E2 & ST). rewrite E1 in PT.
    destruct LAY as [(ls & W & SY)|(w & a & b & ls & x & EP & WW & WA & SY & HL & OB)].
    - (* a list of labels *)
      pose proof (label_words _ _ W SY) as FW.
      assert (NR : snd (proofText src (rd_ks r) n) <> []) by (rewrite E2; discriminate).
      rewrite (parse_text_red env n ls f1 _ _ _ FW W ST NR) in PT.
      apply rbind_ok in PT. destruct PT as (out & PN & PT). apply Ok_inj in PT. injection PT as ->.
      assert (NE : ls <> []).
      { intros ->. pose proof (parse_empty env n (toStmt o) HS _ PN) as Q. cbn [fst snd] in Q. subst zs.
        destruct p as [|y [|? ?]] eqn:EPp; try discriminate. cbn in DC. injection DC as DC. assert (y = Unk) by congruence. subst y.
        destruct VP as (vals & VR). inversion VR as [|? ? ? ? ? ? ? ? RS RR]; subst. inversion RS. }
      pose proof (parse_normal_back env WE n (toStmt o) HS HT ls 0 zs ec NE FW PN) as LK.
      left. 
      assert (Q : exists ms, p = map Stm ms /\ Forall2 (fun l m => isLabel items m l /\ refOk (dbOf r) n o m) ls ms).
      { assert (NU : ~ In Unk p).
        { destruct VP as (vals & VR). clear -VR. intros I. induction VR as [|v0 s0 x0 l0 e0 s1 v2 s2 RS RR IH]; [destruct I|]. destruct I as [->|I]; [inversion RS|auto]. }
        clear HV HP VP PN FW W SY NE. revert DC NU RH RAs. generalize p. clear p K0.
        induction LK as [|t z ls zs LZ LK IH]; intros p DC NU RH RAs.
        - destruct p; [|discriminate]. exists []. split; [reflexivity|constructor].
        - destruct p as [|y p]; [discriminate|]. unfold decodes in DC. cbn [map] in DC. injection DC as DC1 DC2.
          destruct (IH p DC2) as (ms & -> & F).
          { intros I. apply NU. now right. } { intros m sm I. apply RH. now right. } { intros m sm I. apply RAs. now right. }
          destruct LZ as [->|(m & sm & -> & -> & HSM & LKm)].
          { exfalso. apply NU. left. assert (Some y = Some Unk) by (rewrite <- DC1; reflexivity). congruence. }
          assert (P : 0 < m).
          { destruct m as [|m]; [|lia]. exfalso. apply (db0 lsort msort MS minSub src r H) in HSM. destruct LKm as [[Q|Q]|[Q|Q]]; congruence. }
          assert (y = Stm m).
          { pose proof (decAll_enc [Stm m]) as Q. cbn [map decAll encStep] in Q. rewrite DC1 in Q. 
            assert (PS : positive [Stm m]) by (intros m' [E|[]]; injection E as <-; exact P). specialize (Q PS). congruence. }
          subst y. exists (m :: ms). split; [reflexivity|]. constructor; [|exact F]. split.
          + apply (LB m sm HSM). exact LKm.
          + exists sm. split; [exact HSM|]. destruct LKm as [Q|Q]; [left; split; [exact Q|]; apply (RAs m sm); auto; now left|right; split; [exact Q|]; apply (RH m sm); auto; now left]. }
      destruct Q as (ms & EPm & F). rewrite EPm in VP.
      destruct (proof_back sts (rd_out r) LG A B C D env DBE n j o Hj KJ G items ls ms F VP) as (e & TE & RN).
      exists it, ls, e. auto.
    - (* compressed *)
      pose proof (label_words _ _ WA SY) as FW. right.
      assert (DJ : forall h, In h (s_optHyps (toStmt o)) -> ~ In h (s_reqHyps (toStmt o))).
      { cbn [toStmt s_optHyps s_reqHyps]. intros h Hh Hr. apply (gf_hyps _ _ _ _ FR) in Hr. destruct (gf_opt _ _ _ _ FR ltac:(congruence)) as (Q & _). apply Q in Hh. destruct Hh as (_ & (j1 & J1 & K1) & c & y & (j2 & J2 & T2) & NM).
        destruct Hr as (_ & [(j3 & J3 & K3)|((j3 & J3 & K3) & c' & y' & (j4 & J4 & T4) & M)]).
        - rewrite (stAt_fun _ _ _ _ J3 J1) in K3. congruence.
        - rewrite (stAt_fun _ _ _ _ J4 J2) in T4. apply NM. congruence. }
      rewrite E2, EP in PT. rewrite EP in OB.
      destruct (parse_compressed_back env WE n (toStmt o) HS HT DJ w a b ls x _ q f1 zs ec WW WA FW HL OB PT) as (lm & cs & p' & FL & HC & EM & EZ).
      cbn [toStmt s_reqHyps] in EM.
      assert (HLh : forall h, In h (o_reqHyps o) -> exists l, isLabel items h l).
      { intros h Hh. destruct (hyp_labelled env WE n (toStmt o) HS HT h (or_introl Hh)) as (_ & sh & HSH & LKh). exists (labelAt r h). apply (LB h sh HSH). now right. }
      assert (FL' : Forall2 (fun l m => isLabel items m l /\ refOk (dbOf r) n o m) ls lm).
      { clear -FL LB. induction FL as [|l m ls lm (E & RF & NR) FL IH]; constructor; auto. split; [|exact RF]. rewrite E. destruct RF as (sm & HSM & Q). apply (LB m sm HSM).
        destruct Q as [[Q _]|[Q _]]; [now left|now right]. }
      assert (PP : forall m, In (Stm m) p' -> 0 < m).
      { intros m Hm. destruct m as [|m]; [|lia]. exfalso. assert (IZ : In 0%Z zs) by (rewrite EZ; apply in_map_iff; exists (Stm 0); auto).
        apply (in_map decStep) in IZ. unfold decodes in DC. rewrite DC in IZ. apply in_map_iff in IZ. destruct IZ as (y & E & _). discriminate. }
      pose proof (dec_enc zs p DC p' EZ PP) as EPP. subst p'.
      destruct VP as (vals & VR).
      destruct (CheckBack.code_back sts (rd_out r) LG A B C D env DBE n j o Hj KJ G items (o_reqHyps o) lm ls (fun h Hh => Hh) FL' HLh [] [] cs p EM [] [] vals _ [] false VR) as (sv & f & CR); auto.
      { intros pre' y E. destruct pre'; discriminate. }
      exists it, w, a, b, ls, x, cs, (o_reqHyps o), (map (nm sts) (o_math o)), sv, f.
      repeat (split; [now auto|]). split; [rewrite EP; exact OB|]. split.
      { intros l0 Hl0. destruct (F2_in _ _ _ _ FL Hl0) as (m & _ & E & (sm & HSM & Q) & NR). exists m. split; [rewrite E; apply (LB m sm HSM); destruct Q as [[Q _]|[Q _]]; [now left|now right]|].
        destruct (kind_of sts (rd_out r) A B D env DBE m sm HSM) as [KA KH].
        destruct Q as [[Q L]|[Q RI]]; [left; split; [exact L|now apply KA]|right]. split; [apply (hyp_scope sts n j o Hj KJ G); exact RI|].
        split; [now apply KH|]. intros M. apply NR. cbn [toStmt s_reqHyps]. now apply (gf_hyps _ _ _ _ FR). }
      split; [split; [intros h; apply (gf_hyps _ _ _ _ FR)|apply (gf_hyps_sorted _ _ _ _ FR)]|].
      split; [|exact CR]. exact (math_back sts n j o Hj KJ G).
  Qed.
End Read.
