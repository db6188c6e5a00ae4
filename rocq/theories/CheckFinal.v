(* CheckFinal.v -- a file whose proofs are correct is read and verified without a message. *)
From Verif Require Import Base TokModel LabModel LabSpec LabProofs SrcModel StmModel TokSpec SrcSpec StmSpec SrcProofs SrcFinal StmTab StmScope ReadWf ReadTok
  StmMain MMSpec VerModel VerSpec ParModel ParSpec
  ReadModel ReadOut ReadSpec ReadMain TidySpec TidyFile TidyMain CheckSpec CheckMain CheckConv.
Open Scope nat_scope.

Lemma bounded (f : nat -> nat) : forall N, exists M, forall n, n < N -> f n <= M.
Proof.
  induction N as [|N (M & IH)]; [exists 0; lia|]. exists (M + f N). intros n L.
  destruct (Nat.eq_dec n N) as [->|NE]; [lia|]. specialize (IH n ltac:(lia)). lia.
Qed.

Section Final.
  Variable lsort : list lstmt -> list nat.
  Variable msort : list (list nat) -> list nat.
  Hypothesis LS : forall l, qsorted l (lsort l).
  Hypothesis MS : forall l, mqsorted l (msort l).
  Variable find : list (label * Z) -> label -> option Z.
  Hypothesis FS : forall tab l j, find tab l = Some j -> In (l, j) tab.
  Hypothesis FN : forall tab l, find tab l = None -> forall j, ~ In (l, j) tab.

  Lemma room_bound minSub src r prev : readText lsort msort minSub src = Ok ([], r) ->
    exists M, prev <= M /\ forall n st, stmtAt (dbOf r) n st -> s_type st = S_p ->
       forall prev', prev' <= M -> wrkMax prev' st (fst (proofText src (rd_ks r) n)) <= M.
  Proof.
    intros H.
    destruct (bounded (fun n => match nth_error (db_stmts (dbOf r)) n with
      | Some st => length (fst (proofText src (rd_ks r) n)) + length (s_reqHyps st) + length (s_optHyps st)
      | None => 0 end) (length (db_stmts (dbOf r)))) as (M & HM).
    exists (prev + M + 2). split; [lia|]. intros n st HS HT prev' L. unfold wrkMax.
    assert (LN : n < length (db_stmts (dbOf r))) by (apply nth_error_Some; unfold stmtAt in HS; congruence).
    specialize (HM n LN). cbv beta in HM. unfold stmtAt in HS. rewrite HS in HM.
    destruct (prev' <? _); lia.
  Qed.

  Lemma item_len i : 2 + length (it_proof i) <= length (itemText i) \/ (2 <= length (itemText i) /\ ~ itemOK i) \/ 2 <= length (itemText i) /\ it_proof i = [].
  Proof.
    unfold itemText, itemOK. destruct (it_kind i); rewrite ?app_length; cbn [length app]; rewrite ?app_length; cbn [length]; rewrite ?app_length; cbn [length]; 
      destruct (it_proof i) eqn:E; cbn [length]; try lia; right; left; split; try lia; intros; intuition discriminate.
  Qed.
  Lemma text_len items tail i n : Forall itemOK items -> nth_error items n = Some i ->
    length (it_proof i) + S n <= length (sourceText items tail).
  Proof.
    unfold sourceText. rewrite app_length. revert n. induction items as [|j items IH]; intros n F HN; [destruct n; discriminate|].
    inversion F as [|? ? F1 F2]; subst. cbn [flat_map]. rewrite app_length. destruct n as [|n].
    - cbn in HN. injection HN as ->. destruct (item_len i) as [L|[[_ L]|[L E]]]; [lia|contradiction|rewrite E; cbn [length]; lia].
    - cbn in HN. specialize (IH n F2 HN). destruct (item_len j) as [L|[[L _]|[L E]]]; lia.
  Qed.

  Theorem correct_file minSub prev items tail sts : tidyFile items tail -> Forall2 readsAs items sts ->
    goodLabels items tail sts -> legal sts -> nestOK sts -> (Z.of_nat (length (sourceText items tail)) <= maxLong)%Z ->
    (forall n, kindAt sts n K_p -> proofCorrect items sts n) ->
    exists r F, rd_sts r = sts /\ forall fuel, F <= fuel ->
      readVerify lsort msort find minSub prev fuel (sourceText items tail) = Ok (Some ([], true, [], r)).
  Proof.
    intros TF RA GL LG NO ML PC.
    destruct (read_text_complete lsort msort LS MS minSub items tail sts TF RA GL LG NO) as (r & HR & ES).
    set (src := sourceText items tail) in *.
    assert (EI : map (toItem src) (rd_ks r) = items).
    { destruct (source_complete items tail TF) as (ks & dummy & E1 & E2 & _). fold src in E1, E2.
      pose proof (ok_src lsort msort minSub src r HR) as E3. rewrite E3 in E1. apply Ok_inj in E1. assert (rd_ks r = ks) by congruence. now subst ks. }
    destruct (room_bound minSub src r prev HR) as (M & PM & HM).
    destruct (silent_if lsort msort MS minSub src r HR find M prev PM) as (F & HF).
    { intros n st HS HT. split; [exact (HM n st HS HT)|].
      assert (KP : kindAt sts n K_p).
      { destruct (ok_out lsort msort MS minSub src r HR) as (A & B & C & D). pose proof (ok_db lsort msort minSub src r HR) as DBE.
        destruct (db_asrt (rd_sts r) (rd_out r) A B D (dbOf r) DBE n st HS (or_intror HT)) as (j & o & Hj & -> & G & IA & FR & _).
        rewrite <- ES. exists j. split; [exact Hj|]. cbn [toStmt s_type] in HT. destruct G as [EK _]. rewrite EK in HT. destruct (si_kind j); try discriminate; reflexivity. }
      destruct (PC n KP) as [PN|PN]; rewrite <- EI, <- ES in PN.
      - exact (normal_parses lsort msort LS MS minSub src r HR find FS FN M n st HS HT PN).
      - apply (compressed_parses lsort msort LS MS minSub src r HR find FS FN M n st HS HT PN).
        intros it Hit. rewrite EI in Hit. destruct (tidyFile_ok _ _ TF) as (H1 & _).
        assert (P0 : 0 < n) by (destruct KP as (? & [? _] & _); lia).
        pose proof (text_len items tail it (n - 1) H1 Hit) as L. fold src in L. lia. }
    exists r, F. split; [exact ES|exact HF].
  Qed.

  Theorem accepted_correct minSub prev fuel items tail sts r : tidyFile items tail -> Forall2 readsAs items sts ->
    goodLabels items tail sts -> legal sts -> nestOK sts ->
    readVerify lsort msort find minSub prev fuel (sourceText items tail) = Ok (Some ([], true, [], r)) ->
    forall n it, kindAt sts n K_p -> nth_error items (n - 1) = Some it -> listLayout (it_proof it) \/ packedLayout (it_proof it) ->
    proofCorrect items sts n.
  Proof.
    intros TF RA GL LG NO HV n it KP Hit LAY.
    destruct (read_text_complete lsort msort LS MS minSub items tail sts TF RA GL LG NO) as (r0 & HR & ES).
    set (src := sourceText items tail) in *. unfold readVerify in HV. rewrite HR in HV. cbn [rbind] in HV.
    assert (EI : map (toItem src) (rd_ks r0) = items).
    { destruct (source_complete items tail TF) as (ks & dummy & E1 & E2 & _). fold src in E1, E2.
      pose proof (ok_src lsort msort minSub src r0 HR) as E3. rewrite E3 in E1. apply Ok_inj in E1. assert (rd_ks r0 = ks) by congruence. now subst ks. }
    apply rbind_ok in HV. destruct HV as ([l|] & HP & HV); [|discriminate].
    apply rbind_ok in HV. destruct HV as ([b ms] & HVP & HV). apply Ok_inj in HV. cbn [fst snd] in HV. injection HV as -> -> ->.
    rewrite <- EI, <- ES in *.
    exact (silent_correct lsort msort LS MS minSub src r HR find FS FN fuel prev l HP HVP n it KP Hit LAY).
  Qed.
End Final.
