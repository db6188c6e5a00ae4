(* CheckMain.v -- a file whose proofs are correct is read and verified without a message. *)
From Verif Require Import Base TokModel LabModel LabSpec LabProofs SrcModel StmModel TokSpec SrcSpec StmSpec TokProofs SrcProofs SrcFinal
  StmTab StmScope StmMain MMSpec VerModel VerSpec VerProofs ParModel ParSpec ParProps CmpSpec
  ReadModel ReadOut ReadSpec ReadWf ReadTok ReadSec ReadWords ReadMain TidySpec TidyFile TidyMain CheckSpec CheckTok CheckPar CheckCmp CheckCmpTok.
From Coq Require Import Permutation Sorted.
Open Scope nat_scope.

Lemma labelTables_in st sorted dups all asrt : qsorted st sorted -> labelTables st sorted = Ok (dups, all, asrt) ->
  forall k, inb st k -> lab st k <> [] -> knd st k <> K_e -> knd st k <> K_f -> In k asrt.
Proof.
  intros [P S] H k IB NL NE NF.
  assert (F : Forall (inb st) sorted).
  { apply Forall_forall. intros j Hj. apply (Permutation_in _ P) in Hj. apply in_seq in Hj. apply inb_range. lia. }
  assert (IS : In k sorted).
  { apply (Permutation_in _ (Permutation_sym P)). apply in_seq. apply inb_range in IB. lia. }
  apply sorted_strong in S; [|exact F].
  destruct (skipNull_ok st sorted F S) as (pre & al & E1 & E2 & E3). unfold labelTables in H. rewrite E1 in H. cbn [rbind] in H. rb H.
  assert (F' : Forall (inb st) al).
  { apply Forall_forall. intros j Hj. apply E3 in Hj. rewrite Forall_forall in F. apply F, Hj. }
  rewrite (filterHyps_ok st al F') in H. cbn [rbind] in H. apply Ok_inj in H.
  assert (EA : asrt = filter (fun k : nat => match knd st k with K_e | K_f => false | _ => true end) al) by congruence.
  rewrite EA. apply filter_In. split; [apply E3; auto|]. destruct (knd st k); congruence.
Qed.

Section Read.
  Variable lsort : list lstmt -> list nat.
  Variable msort : list (list nat) -> list nat.
  Hypothesis LS : forall l, qsorted l (lsort l).
  Hypothesis MS : forall l, mqsorted l (msort l).
  Variables (minSub : nat) (src : list nat) (r : rdb).
  Hypothesis H : readText lsort msort minSub src = Ok ([], r).
  Let RI := readText_inv lsort msort minSub src [] r H eq_refl.
  Let items := map (toItem src) (rd_ks r).
  Let sts := rd_sts r.
  Let GL := ok_goodLabels lsort msort LS minSub src r H.

  (* the label of a labelled statement *)
  Lemma label_at m j : stAt sts m j -> ReadSpec.labelled (si_kind j) -> isLabel items m (labelAt r m) /\ labelWord (labelAt r m).
  Proof.
    intros [P Hj] LK. destruct m as [|m]; [lia|]. cbn in Hj. rewrite Nat.sub_0_r in Hj.
    destruct (F2_nth' _ _ _ (ro_math _ _ (proj1 RI)) _ _ Hj) as (k & Hk & EM). apply mathOf_kind in EM. rewrite EM in LK.
    destruct (ok_label lsort msort minSub src r H m k Hk) as (i & Hi & W & L & C).
    assert (EL : labelAt r (S m) = l_label i) by (unfold labelAt; cbn [lnth]; now rewrite Hi).
    apply L in LK. rewrite EL. split.
    - exists (toItem src k). split; [lia|]. cbn. rewrite Nat.sub_0_r. split; [unfold items; now apply map_nth_error|].
      unfold labOf in W. destruct (l_label i); [congruence|exact W].
    - split; [exact LK|]. apply Forall_forall. intros c Hc. rewrite Forall_forall in C. apply labelChar_spec. auto.
  Qed.
  Lemma isLabel_fun m m' x : isLabel items m x -> isLabel items m' x -> m = m'.
  Proof.
    intros (i & P & Hi & W) (i' & P' & Hi' & W'). pose proof (gl_diff _ _ _ GL _ _ _ _ _ Hi Hi' W W'). lia.
  Qed.
  Lemma isLabel_val m x y : isLabel items m x -> isLabel items m y -> x = y.
  Proof.
    intros (i & P & Hi & W) (i' & P' & Hi' & W'). assert (i = i') by congruence. subst i'.
    pose proof (words_fun _ _ _ W W') as E. congruence.
  Qed.

  Variable find : list (label * Z) -> label -> option Z.
  Hypothesis FS : forall tab l j, find tab l = Some j -> In (l, j) tab.
  Hypothesis FN : forall tab l, find tab l = None -> forall j, ~ In (l, j) tab.
  Let env := envOf find r.

  Lemma db_labelled m sm : stmtAt (dbOf r) m sm -> CmpSpec.labelled sm -> exists j, stAt sts m j /\ ReadSpec.labelled (si_kind j).
  Proof.
    destruct (ok_out lsort msort MS minSub src r H) as (A & B & C & D).
    intros HS [K|K].
    - destruct (db_asrt sts (rd_out r) A B D (dbOf r) (ok_db lsort msort minSub src r H) m sm HS K) as (j & o & Hj & _ & _ & IA & _). exists j. split; [exact Hj|].
      unfold ReadSpec.labelled. destruct IA as [->| ->]; auto.
    - destruct (db_hyp sts (rd_out r) A B D (dbOf r) (ok_db lsort msort minSub src r H) m sm HS K) as (j & o & Hj & _ & _ & IA & _). exists j. split; [exact Hj|].
      unfold ReadSpec.labelled. destruct IA as [->| ->]; auto.
  Qed.
  Lemma ok_uniq : uniq_env env.
  Proof.
    constructor; cbn [env envOf e_db e_name e_keys].
    - intros m1 m2 s1 s2 H1 H2 L1 L2 E. destruct (db_labelled _ _ H1 L1) as (j1 & A1 & B1). destruct (db_labelled _ _ H2 L2) as (j2 & A2 & B2).
      destruct (label_at _ _ A1 B1) as [I1 _]. destruct (label_at _ _ A2 B2) as [I2 _]. rewrite E in I1. eapply isLabel_fun; eauto.
    - intros m sm HS HA. apply in_map_iff. exists m. split; [reflexivity|].
      destruct (db_labelled _ _ HS (or_introl HA)) as (j & Hj & LK). destruct (label_at _ _ Hj LK) as [_ [NE _]].
      destruct (ok_out lsort msort MS minSub src r H) as (A & B & C & D).
      destruct (db_asrt sts (rd_out r) A B D (dbOf r) (ok_db lsort msort minSub src r H) m sm HS HA) as (j' & o & Hj' & _ & _ & IA & _).
      assert (j' = j) by (destruct Hj, Hj'; congruence). subst j'.
      destruct RI as (R0 & (dups & LT & _) & _).
      destruct Hj as [P Hj]. destruct m as [|m]; [lia|]. cbn in Hj. rewrite Nat.sub_0_r in Hj.
      destruct (F2_nth' _ _ _ (ro_math _ _ R0) _ _ Hj) as (k & Hk & EM). apply mathOf_kind in EM.
      destruct (F2_nth _ _ _ (ro_labs _ _ R0) _ _ Hk) as (i & Hi & q & EQ). apply lab_kind in EQ.
      assert (KN : knd (rd_lab r) (S m) = si_kind j) by (unfold knd; cbn [lnth]; rewrite Hi; congruence).
      apply (labelTables_in _ _ _ _ _ (LS _) LT).
      + exists i. exact Hi.
      + unfold lab. unfold labelAt in NE. exact NE.
      + rewrite KN. destruct IA as [->| ->]; discriminate.
      + rewrite KN. destruct IA as [->| ->]; discriminate.
    - intros m sm HS HA. destruct (db_labelled _ _ HS HA) as (j & Hj & LK). apply (label_at _ _ Hj LK).
  Qed.

  (* ---- one proof ---- *)
  Lemma proof_section n i : nth_error (rd_ks r) n = Some i -> k_kind i = K_p ->
    fst (proofText src (rd_ks r) (S n)) = it_proof (toItem src i) /\ stops (snd (proofText src (rd_ks r) (S n))).
  Proof.
    intros Hi HK. unfold proofText. rewrite Hi. destruct (ok_k lsort msort minSub src r H n i Hi) as (F & O & NE).
    destruct F as (_ & FK). rewrite HK in FK. 
    destruct FK as (m & p & _ & FP & _ & F2). unfold toItem. cbn [it_proof]. rewrite FP. cbn [osecText fst snd].
    split; [reflexivity|]. eapply foll_stops; [exact F2|now left].
  Qed.
  Lemma ks_at n j : stAt sts (S n) j -> exists k, nth_error (rd_ks r) n = Some k /\ k_kind k = si_kind j.
  Proof.
    intros [P Hj]. cbn in Hj. rewrite Nat.sub_0_r in Hj. destruct (F2_nth' _ _ _ (ro_math _ _ (proj1 RI)) _ _ Hj) as (k & Hk & EM).
    apply mathOf_kind in EM. exists k. auto.
  Qed.

  (* the proof of statement n is read as p *)
  Definition parsesAs (M n : nat) (st : stmtRec) (p : list pstep) : Prop :=
    exists F, forall fuel prev, F <= fuel -> prev <= M ->
      parseText fuel env n (wrkMax prev st (fst (proofText src (rd_ks r) n))) (fst (proofText src (rd_ks r) n)) (snd (proofText src (rd_ks r) n))
        = Ok (Some (0, map encStep p, 0)).
  Definition positive (p : list pstep) : Prop := forall m, In (Stm m) p -> 0 < m.
  Lemma decAll_enc p : positive p -> decAll (map encStep p) = Some p.
  Proof.
    induction p as [|x p IH]; intros PP; [reflexivity|]. cbn [map decAll]. rewrite IH by (intros m Hm; apply PP; now right).
    assert (E : decStep (encStep x) = Some x); [|now rewrite E].
    destruct x as [|k|m]; [reflexivity| |]; unfold encStep, decStep, zUnk, zLoc.
    - assert (E1 : (-1000 - Z.of_nat k =? -63)%Z = false) by (apply Z.eqb_neq; lia).
      assert (E2 : (-1000 - Z.of_nat k <=? -1000)%Z = true) by (apply Z.leb_le; lia). rewrite E1, E2. do 2 f_equal. lia.
    - pose proof (PP m (or_introl eq_refl)).
      assert (E1 : (Z.of_nat m =? -63)%Z = false) by (apply Z.eqb_neq; lia).
      assert (E2 : (Z.of_nat m <=? -1000)%Z = false) by (apply Z.leb_gt; lia).
      assert (E3 : (0 <? Z.of_nat m)%Z = true) by (apply Z.ltb_lt; lia). rewrite E1, E2, E3. do 2 f_equal. lia.
  Qed.

  Lemma parse_all M : forall cnt n prev, prev <= M -> n + cnt <= length (db_stmts (dbOf r)) ->
    (forall j st, j < cnt -> stmtAt (dbOf r) (n + j) st -> s_type st = S_p ->
       (forall prev', prev' <= M -> wrkMax prev' st (fst (proofText src (rd_ks r) (n + j))) <= M) /\
       exists p, parsesAs M (n + j) st p /\ positive p /\ validProof (dbOf r) st p) ->
    exists F l, (forall fuel, F <= fuel -> parseAll fuel env src (rd_ks r) n cnt prev = Ok (Some l)) /\
      forall j st, j < cnt -> stmtAt (dbOf r) (n + j) st -> s_type st = S_p ->
        exists p, nth j l (mkParsed 4 [] 4 0) = mkParsed 0 p 0 0 /\ validProof (dbOf r) st p.
  Proof.
    induction cnt as [|cnt IH]; intros n prev PM L HP.
    - exists 0, []. split; [reflexivity|]. intros j st Hj. lia.
    - destruct (nth_error (db_stmts (dbOf r)) n) as [st|] eqn:E; [|apply nth_error_None in E; lia].
      assert (HP' : forall j st', j < cnt -> stmtAt (dbOf r) (S n + j) st' -> s_type st' = S_p ->
       (forall prev', prev' <= M -> wrkMax prev' st' (fst (proofText src (rd_ks r) (S n + j))) <= M) /\
       exists p, parsesAs M (S n + j) st' p /\ positive p /\ validProof (dbOf r) st' p).
      { intros j st' Hj. replace (S n + j) with (n + S j) by lia. apply HP. lia. }
      destruct (s_type st) eqn:ET.
      2:{ destruct (HP 0 st ltac:(lia)) as (HM & p & (F1 & PA) & PP & VP); [rewrite Nat.add_0_r; exact E|exact ET|]. rewrite Nat.add_0_r in *.
          destruct (IH (S n) (wrkMax prev st (fst (proofText src (rd_ks r) n))) (HM prev PM) ltac:(lia) HP') as (F2 & l & A & B).
          exists (F1 + F2), (mkParsed 0 p 0 0 :: l). split.
          - intros fuel Hf. cbn [parseAll]. change (e_db env) with (dbOf r). rewrite E. cbn [rget rbind]. rewrite ET.
            rewrite (PA fuel prev) by lia. cbn [rbind]. rewrite (decAll_enc p PP). cbn [rbind]. rewrite A by lia. reflexivity.
          - intros [|j] st' Hj HS HT.
            + rewrite Nat.add_0_r in HS. assert (st' = st) by (unfold stmtAt in HS; congruence). subst st'. exists p. auto.
            + apply (B j st'); auto; [lia|]. replace (S n + j) with (n + S j) by lia. exact HS. }
      all: destruct (IH (S n) prev PM ltac:(lia) HP') as (F2 & l & A & B); exists F2, (mkParsed 4 [] 4 0 :: l); split;
        [intros fuel Hf; cbn [parseAll]; change (e_db env) with (dbOf r); rewrite E; cbn [rget rbind]; rewrite ET, A by exact Hf; reflexivity|];
        (intros [|j] st' Hj HS HT; [exfalso; rewrite Nat.add_0_r in HS; assert (st' = st) by (unfold stmtAt in HS; congruence); congruence|]);
        (apply (B j st'); auto; [lia|]; replace (S n + j) with (n + S j) by lia; exact HS).
  Qed.

  Lemma verify_all parse : forall cnt n, n + cnt <= length (db_stmts (dbOf r)) ->
    (forall j st, j < cnt -> stmtAt (dbOf r) (n + j) st -> s_type st = S_p ->
       exists p, parse (n + j) = mkParsed 0 p 0 0 /\ validProof (dbOf r) st p) ->
    exists F, forall fuel, F <= fuel -> verifyLoop fuel (dbOf r) parse n cnt false [] [] = Ok (false, [], []).
  Proof.
    pose proof (ok_wf lsort msort MS minSub src r H) as WF.
    induction cnt as [|cnt IH]; intros n L HP.
    - exists 0. reflexivity.
    - destruct (nth_error (db_stmts (dbOf r)) n) as [st|] eqn:E; [|apply nth_error_None in E; lia].
      destruct (IH (S n)) as (F2 & A); [lia| |].
      { intros j st' Hj. replace (S n + j) with (n + S j) by lia. apply HP. lia. }
      destruct (s_type st) eqn:ET.
      2:{ destruct (HP 0 st ltac:(lia)) as (p & EP & VP); [rewrite Nat.add_0_r; exact E|exact ET|]. rewrite Nat.add_0_r in *.
          destruct (valid_accepted (dbOf r) n st p 0 WF E ET ltac:(lia) VP) as (F1 & VA).
          exists (F1 + F2). intros fuel Hf. cbn [verifyLoop]. rewrite E. cbn [rget rbind]. rewrite ET, EP. cbn [pr_k pr_proof pr_sev pr_err Nat.leb Nat.ltb orb Nat.eqb].
          destruct (VA fuel ltac:(lia)) as (err & ->). cbn [rbind map app orb Nat.leb]. apply A. lia. }
      all: exists F2; intros fuel Hf; cbn [verifyLoop]; rewrite E; cbn [rget rbind]; rewrite ET; apply A; exact Hf.
  Qed.

  Lemma silent_if M prev : prev <= M ->
    (forall n st, stmtAt (dbOf r) n st -> s_type st = S_p ->
       (forall prev', prev' <= M -> wrkMax prev' st (fst (proofText src (rd_ks r) n)) <= M) /\
       exists p, parsesAs M n st p /\ positive p /\ validProof (dbOf r) st p) ->
    exists F, forall fuel, F <= fuel -> readVerify lsort msort find minSub prev fuel src = Ok (Some ([], true, [], r)).
  Proof.
    intros PM HP. destruct (ok_out lsort msort MS minSub src r H) as (A & B & _).
    assert (LD : length (db_stmts (dbOf r)) = S (length sts)) by (unfold dbOf; cbn [db_stmts]; rewrite map_length; exact A).
    destruct (parse_all M (length (db_stmts (dbOf r)) - 1) 1 prev PM ltac:(lia)) as (F1 & l & PA & PL); [intros; auto|].
    destruct (verify_all (parsedAt l) (length (db_stmts (dbOf r)) - 1) 1 ltac:(lia)) as (F2 & VA).
    { intros j st Hj HS HT. exact (PL j st Hj HS HT). }
    exists (F1 + F2). intros fuel Hf. unfold readVerify. rewrite H. cbn [rbind]. fold env. change (e_db env) with (dbOf r).
    rewrite PA by lia. cbn [rbind]. unfold verifyProofs. rewrite VA by lia. reflexivity.
  Qed.

  (* ---- proofs written as a list of labels ---- *)
  Lemma normal_parses M n st : stmtAt (dbOf r) n st -> s_type st = S_p -> provedByText items sts n ->
    exists p, parsesAs M n st p /\ positive p /\ validProof (dbOf r) st p.
  Proof.
    intros HS HT (it & ls & e & P & Hit & W & TE & R).
    destruct (ok_out lsort msort MS minSub src r H) as (A & B & C & D). pose proof (ok_db lsort msort minSub src r H) as DBE. fold sts in A, C, D, DBE.
    pose proof (proj1 (ok_legal lsort msort MS minSub src r H)) as LG. fold sts in LG.
    destruct (db_asrt sts (rd_out r) A B D (dbOf r) DBE n st HS (or_intror HT)) as (j & o & Hj & -> & G & IA & FR & _).
    assert (KJ : si_kind j = K_p).
    { cbn [toStmt s_type] in HT. destruct G as [EK _]. rewrite EK in HT. destruct (si_kind j); try discriminate. reflexivity. }
    destruct (proved_tok sts (rd_out r) LG A B C D (dbOf r) DBE n j o Hj KJ G items ls e TE R) as (p & FP & VP).
    pose proof (ok_env lsort msort LS MS minSub src r H find FS FN) as WE. fold env in WE.
    assert (RF : Forall (refersTo env n (toStmt o)) p).
    { clear -FP. induction FP as [|l m ls p [_ Q] FP IH]; constructor; auto. }
    assert (EL : ls = map (e_name env) p).
    { clear VP RF R W Hit TE. induction FP as [|l m ls p [I Q] FP IH]; [reflexivity|]. cbn [map]. f_equal; [|exact IH].
      destruct Q as (sm & HSM & Q). destruct (db_labelled m sm HSM) as (jm & Hjm & LK); [destruct Q as [[Q _]|[Q _]]; [now left|now right]|].
      destruct (label_at m jm Hjm LK) as [I2 _]. exact (isLabel_val m l _ I I2). }
    exists (map Stm p). split; [|split; [|exact VP]].
    - exists 0. intros fuel prev _ _. destruct n as [|n]; [lia|]. destruct (ks_at n j Hj) as (k & Hk & EK). rewrite KJ in EK.
      destruct (proof_section n k Hk EK) as [E1 E2]. rewrite map_map. cbn [encStep].
      apply (parse_text env WE ok_uniq (S n) (toStmt o) HS HT p); auto.
      + apply (validProof_wf _ _ _ VP).
      + rewrite E1, <- EL. cbn in Hit. rewrite Nat.sub_0_r in Hit. unfold items in Hit. rewrite (map_nth_error (toItem src) n _ Hk) in Hit.
        injection Hit as <-. exact W.
    - intros m Hm. apply in_map_iff in Hm. destruct Hm as (m' & E & Hm). injection E as ->. rewrite Forall_forall in RF. destruct (RF m Hm) as (sm & Q & Q').
      destruct m as [|m]; [|lia]. exfalso. apply (db0 lsort msort MS minSub src r H) in Q. destruct Q' as [[[Q'|Q'] _]|[[Q'|Q'] _]]; congruence.
  Qed.

  (* ---- compressed proofs ---- *)
  Lemma proof_dot n i : nth_error (rd_ks r) n = Some i -> k_kind i = K_p -> exists q, snd (proofText src (rd_ks r) (S n)) = dollar :: 46 :: q.
  Proof.
    intros Hi HK. unfold proofText. rewrite Hi. destruct (ok_k lsort msort minSub src r H n i Hi) as (F & O & NE).
    destruct F as (_ & FK). rewrite HK in FK.
    destruct FK as (m & p & _ & FP & _ & F2). rewrite FP. cbn [snd]. apply foll_skip in F2. exact F2.
  Qed.
  Lemma sorted_bound n : forall l, StronglySorted lt l -> (forall x, In x l -> x < n) -> length l <= n.
  Proof.
    intros l SS B. assert (ND : NoDup l).
    { clear B. induction SS as [|a l SS IH F]; constructor; [|exact IH]. intros I. rewrite Forall_forall in F. specialize (F a I). lia. }
    rewrite <- (seq_length n 0). apply NoDup_incl_length; [exact ND|]. intros x Hx. apply in_seq. specialize (B x Hx). lia.
  Qed.
  Lemma compressed_parses M n st : stmtAt (dbOf r) n st -> s_type st = S_p -> provedCompressed items sts n ->
    (forall it, nth_error items (n - 1) = Some it -> Z.of_nat (length (it_proof it) + n) <= maxLong)%Z ->
    exists p, parsesAs M n st p /\ positive p /\ validProof (dbOf r) st p.
  Proof.
    intros HS HT (it & w & a & b & ls & x & cs & hs & e & sv & f & P & Hit & EP & WW & WA & HL & HC & OB & LS1 & MH & TE & R) ML.
    destruct (ok_out lsort msort MS minSub src r H) as (A & B & C & D). pose proof (ok_db lsort msort minSub src r H) as DBE. fold sts in A, C, D, DBE.
    pose proof (proj1 (ok_legal lsort msort MS minSub src r H)) as LG. fold sts in LG.
    destruct (db_asrt sts (rd_out r) A B D (dbOf r) DBE n st HS (or_intror HT)) as (j & o & Hj & -> & G & IA & FR & _).
    assert (KJ : si_kind j = K_p).
    { cbn [toStmt s_type] in HT. destruct G as [EK _]. rewrite EK in HT. destruct (si_kind j); try discriminate. reflexivity. }
    pose proof (ok_env lsort msort LS MS minSub src r H find FS FN) as WE. fold env in WE.
    (* the labels *)
    assert (EL : exists lm, Forall2 (fun l m => isLabel items m l /\ refOk (dbOf r) n o m) ls lm /\ forall m, In m lm -> ~ In m (o_reqHyps o)).
    { clear WA R. induction ls as [|l ls IH]; [exists []; split; [constructor|intros m []]|].
      destruct IH as (lm & F & Q); [intros l' Hl'; apply LS1; now right|].
      destruct (LS1 l (or_introl eq_refl)) as (h & IL & K).
      assert (RH : refOk (dbOf r) n o h /\ ~ In h (o_reqHyps o)).
      { destruct K as [[L K]|(SC & K & NM)].
        - assert (exists jh, stAt sts h jh /\ isA (si_kind jh)) as (jh & Hjh & KH) by (destruct K as [(jh & A1 & B1)|(jh & A1 & B1)]; exists jh; unfold isA; auto).
          destruct (db_kind sts (rd_out r) A D (dbOf r) DBE h jh Hjh) as (oa & HO & GA & EK). split.
          + exists (toStmt oa). split; [exact HO|]. left. split; [|exact L]. apply type_a. now rewrite EK.
          + intros I. apply (gf_hyps _ _ _ _ FR) in I. destruct (mandHyp_hyp _ _ _ I) as (j2 & Hj2 & K2).
            assert (j2 = jh) by (destruct Hj2, Hjh; congruence). subst j2. destruct KH as [E|E], K2 as [E2|E2]; congruence.
        - destruct (hyp_ref sts (rd_out r) LG A B C D (dbOf r) DBE n j o Hj KJ G h K SC) as (oh & HO & IH1 & RQ & _). split.
          + exists (toStmt oh). auto.
          + intros I. apply NM. now apply (gf_hyps _ _ _ _ FR). }
      exists (h :: lm). split; [constructor; [split; [exact IL|apply RH]|exact F]|]. intros m [<-|Hm]; [apply RH|auto]. }
    destruct EL as (lm & FL & NR).
    assert (EN : ls = map (e_name env) lm).
    { clear WA R LS1 NR. induction FL as [|l m ls lm [I Q] FP IH]; [reflexivity|]. cbn [map]. f_equal; [|exact IH].
      destruct Q as (sm & HSM & Q). destruct (db_labelled m sm HSM) as (jm & Hjm & LK); [destruct Q as [[Q _]|[Q _]]; [now left|now right]|].
      destruct (label_at m jm Hjm LK) as [I2 _]. exact (isLabel_val m l _ I I2). }
    assert (RF : Forall (refersTo env n (toStmt o)) lm).
    { clear -FL. induction FL as [|l m ls lm [_ Q] FP IH]; constructor; auto. }
    destruct (proved_code sts (rd_out r) LG A B C D env DBE n j o Hj KJ G items isLabel_fun hs lm ls MH FL cs e sv f TE R) as (p & EM & NU & RP & VP).
    pose proof (hs_req sts n j o Hj KJ G hs MH) as EH.
    exists p. split; [|split; [|exact VP]].
    - exists (S (length (it_proof it))). intros fuel prev HF _. destruct n as [|n]; [lia|]. destruct (ks_at n j Hj) as (k & Hk & EK). rewrite KJ in EK.
      destruct (proof_section n k Hk EK) as [E1 _]. destruct (proof_dot n k Hk EK) as (q & E2).
      assert (EI : it_proof (toItem src k) = it_proof it).
      { cbn in Hit. rewrite Nat.sub_0_r in Hit. unfold items in Hit. rewrite (map_nth_error (toItem src) n _ Hk) in Hit. now injection Hit as <-. }
      assert (LH : length hs <= S n).
      { apply sorted_bound; [apply MH|]. intros h Hh. apply (proj1 MH) in Hh. destruct Hh as [SC _]. exact (proj2 (inScope_lt _ _ _ SC)). }
      rewrite E1, E2, EI. rewrite EP in *. 
      apply (parse_compressed env WE ok_uniq (S n) (toStmt o) HS HT w a b lm x cs p); auto.
      + rewrite <- EN. exact WA.
      + cbn [toStmt s_reqHyps]. rewrite <- EH. exact EM.
      + apply (validProof_wf _ _ _ VP).
      + unfold wrkMax. cbn [toStmt s_reqHyps s_optHyps]. destruct (prev <? _) eqn:EW; [lia|]. apply Nat.ltb_ge in EW. lia.
      + specialize (ML it Hit). rewrite EP in ML. cbn [toStmt s_reqHyps]. rewrite <- EH. lia.
    - intros m Hm. destruct (RP m Hm) as (sm & Q & Q').
      destruct m as [|m]; [|lia]. exfalso. apply (db0 lsort msort MS minSub src r H) in Q. destruct Q' as [[[Q'|Q'] _]|[[Q'|Q'] _]]; congruence.
  Qed.
End Read.
