(* ReadMain.v -- reading and verifying a source text: the parts put together. *)
From Verif Require Import Base TokModel LabModel LabSpec LabProofs SrcModel StmModel TokSpec SrcSpec StmSpec TokProofs SrcProofs SrcFinal
  StmTab StmScope StmMain MMSpec VerModel VerSpec VerProofs ParModel ParSpec ParProps
  ReadModel ReadOut ReadSpec ReadWf ReadTok ReadSec ReadWords.
From Coq Require Import Permutation Sorted.
Open Scope nat_scope.

Lemma map_nil {A B} (f : A -> B) l : map f l = [] -> l = [].
Proof. destruct l; [reflexivity|discriminate]. Qed.

(* ---- labels ---- *)
Lemma labelChar_spec c : labelChar c = true <-> labelSym c.
Proof. unfold labelChar, labelSym. rewrite !orb_true_iff, !andb_true_iff, !Nat.leb_le, !Nat.eqb_eq. tauto. Qed.
Lemma wants_spec k : wantsLabel k = true <-> labelled k.
Proof. unfold labelled. destruct k; cbn; split; intros H; auto; try discriminate; destruct H as [H|[H|[H|H]]]; discriminate. Qed.
(* the words of a label section *)
Definition labOf (i : lstmt) : list name := match l_label i with [] => [] | x => [x] end.
Lemma scan_words src n k i es : folK src k -> okK src k -> quiet (secText src (k_lab k)) ->
  scanLabel src n k = Ok (i, es) -> es = [] ->
  l_kind i = k_kind k /\ words (secText src (k_lab k)) (labOf i) /\
  (labelled (k_kind k) <-> l_label i <> []) /\ Forall labelSym (l_label i).
Proof.
  intros [FL _] [OL _] Q H HE. destruct (quiet_words _ _ (le_n _) Q) as (xs & W).
  assert (SP : stops (skipn (fst (k_lab k) + snd (k_lab k)) src)).
  { destruct (foll_skip _ _ _ FL) as (r & ->). right. exists (charOfKind (k_kind k)), r. split; [reflexivity|].
    unfold dollar. destruct (k_kind k); cbn; unfold chLC, chRC; lia. }
  pose proof (words_scan _ xs _ (S (S (length (secText src (k_lab k) ++ skipn (fst (k_lab k) + snd (k_lab k)) src)))) W SP ltac:(lia)) as M.
  unfold scanLabel in H. rewrite (sec_split src _ OL) in H.
  set (t := secText src (k_lab k) ++ skipn (fst (k_lab k) + snd (k_lab k)) src) in *.
  cbn [mathTokens] in M. destruct (whiteSpace t) as [s| | |]; try discriminate. cbn [rbind] in M, H.
  destruct (tokenLen s) as [|j] eqn:TL.
  - apply Ok_inj in M, H. injection M as M _. injection H as H1 H2. subst xs i es. cbn [l_kind l_label labOf] in *.
    split; [reflexivity|]. split; [exact W|]. split; [|constructor].
    rewrite <- wants_spec. destruct (wantsLabel (k_kind k)); [discriminate|]. split; [discriminate|congruence].
  - destruct (whiteSpace (skipn (S j) s)) as [s2| | |] eqn:W2; try discriminate. cbn [rbind] in H. apply Ok_inj in H.
    assert (E1 : i = Build_lstmt (k_kind k) (firstn (S j) s)) by congruence.
    assert (E2 : es = (if forallb labelChar (firstn (S j) s) then [] else [LChar n]) ++
          (if wantsLabel (k_kind k) then [] else [LNotAllowed n]) ++
          (match tokenLen s2 with 0 => [] | _ => [LTwo n] end)) by congruence. clear H.
    rewrite E2 in HE. apply app_eq_nil in HE. destruct HE as [A1 HE]. apply app_eq_nil in HE. destruct HE as [A2 A3].
    destruct (forallb labelChar (firstn (S j) s)) eqn:FC; [|discriminate].
    destruct (wantsLabel (k_kind k)) eqn:WL; [|discriminate]. destruct (tokenLen s2) eqn:T2; [|discriminate].
    subst i. cbn [l_kind l_label].
    cbn [rbind] in M. rewrite T2 in M. cbn [rbind] in M. apply Ok_inj in M.
    assert (E3 : xs = [firstn (S j) s]) by congruence. subst xs.
    destruct s as [|c s]; [discriminate TL|]. cbn [firstn] in *. split; [reflexivity|]. split; [exact W|].
    split; [split; [discriminate|intros _; now apply wants_spec]|].
    apply Forall_forall. intros x Hx. rewrite forallb_forall in FC. apply labelChar_spec. auto.
Qed.
Lemma scanLabels_ok src : forall ks n labs es, scanLabels src n ks = Ok (labs, es) -> es = [] ->
  Forall2 (fun k i => exists m, scanLabel src m k = Ok (i, [])) ks labs.
Proof.
  induction ks as [|k ks IH]; intros n labs es H HE; cbn [scanLabels] in H.
  - apply Ok_inj in H. injection H as <- _. constructor.
  - rb H. rb H. apply Ok_inj in H. destruct a as [i e1], a0 as [labs' e2]. cbn [fst snd] in H. assert (labs = i :: labs') by congruence.
    assert (EE : es = e1 ++ e2) by congruence. rewrite HE in EE. symmetry in EE. apply app_eq_nil in EE. destruct EE as [-> ->]. subst labs.
    constructor; [eauto|]. eapply IH; eauto.
Qed.
Lemma labelTables_asrt st sorted dups all asrt : qsorted st sorted -> labelTables st sorted = Ok (dups, all, asrt) ->
  forall k, In k asrt -> inb st k /\ lab st k <> [] /\ knd st k <> K_e /\ knd st k <> K_f.
Proof.
  intros [P S] H k HI.
  assert (F : Forall (inb st) sorted).
  { apply Forall_forall. intros j Hj. apply (Permutation_in _ P) in Hj. apply in_seq in Hj. apply inb_range. lia. }
  apply sorted_strong in S; [|exact F].
  destruct (skipNull_ok st sorted F S) as (pre & al & E1 & E2 & E3). unfold labelTables in H. rewrite E1 in H. cbn [rbind] in H. rb H.
  assert (F' : Forall (inb st) al).
  { apply Forall_forall. intros j Hj. apply E3 in Hj. rewrite Forall_forall in F. apply F, Hj. }
  rewrite (filterHyps_ok st al F') in H. cbn [rbind] in H. apply Ok_inj in H.
  assert (EA : asrt = filter (fun k : nat => match knd st k with K_e | K_f => false | _ => true end) al) by congruence.
  rewrite EA in HI. apply filter_In in HI. destruct HI as [HI HQ]. rewrite Forall_forall in F'. split; [auto|].
  apply E3 in HI. split; [apply HI|]. destruct (knd st k); try discriminate; split; discriminate.
Qed.

Lemma mathOfAll_ok src : forall ks sts, mathOfAll src ks = Ok sts -> Forall2 (fun k i => mathOfStmt src k = Ok i) ks sts.
Proof.
  induction ks as [|k ks IH]; intros sts H; cbn [mathOfAll] in H.
  - apply Ok_inj in H. subst. constructor.
  - rb H. rb H. apply Ok_inj in H. subst. constructor; auto.
Qed.
Lemma mathOf_kind src k i : mathOfStmt src k = Ok i -> si_kind i = k_kind k.
Proof. unfold mathOfStmt. destruct (k_kind k); intros H; try (apply Ok_inj in H; subst; reflexivity); rb H; apply Ok_inj in H; subst; reflexivity. Qed.

(* ---- proofs ---- *)
Lemma decAll_ok : forall zs p, decAll zs = Some p -> decodes zs p.
Proof.
  unfold decodes. induction zs as [|z zs IH]; intros p H; cbn in H; [injection H as <-; reflexivity|].
  destruct (decStep z) as [x|] eqn:E; [|discriminate]. destruct (decAll zs) as [q|]; [|discriminate].
  injection H as <-. cbn [map]. rewrite E. f_equal. now apply IH.
Qed.
Lemma parseAll_ok fuel env src ks : forall cnt n prev l, parseAll fuel env src ks n cnt prev = Ok (Some l) ->
  forall j st, j < cnt -> stmtAt (e_db env) (n + j) st -> s_type st = S_p ->
  exists prev' k zs ec p, parseText fuel env (n + j) (wrkMax prev' st (fst (proofText src ks (n + j))))
      (fst (proofText src ks (n + j))) (snd (proofText src ks (n + j))) = Ok (Some (k, zs, ec)) /\
    nth j l (mkParsed 4 [] 4 0) = mkParsed k p k ec /\ (k <= 1 -> decodes zs p).
Proof.
  induction cnt as [|cnt IH]; intros n prev l H j st Hj HS HT; [lia|]. cbn [parseAll] in H. rb H. rename a into st0. rename E into E0.
  assert (E0' : stmtAt (e_db env) n st0) by (unfold stmtAt; destruct (nth_error _ n); cbn in E0; [congruence|discriminate]).
  assert (REST : forall prev1 l1 x, parseAll fuel env src ks (S n) cnt prev1 = Ok (Some l1) -> forall j1, j = S j1 ->
    exists prev' k zs ec p, parseText fuel env (n + j) (wrkMax prev' st (fst (proofText src ks (n + j))))
      (fst (proofText src ks (n + j))) (snd (proofText src ks (n + j))) = Ok (Some (k, zs, ec)) /\
    nth j (x :: l1) (mkParsed 4 [] 4 0) = mkParsed k p k ec /\ (k <= 1 -> decodes zs p)).
  { intros prev1 l1 x H1 j1 ->. specialize (IH (S n) prev1 l1 H1 j1 st). replace (S n + j1) with (n + S j1) in IH by lia.
    apply IH; auto. lia. }
  destruct (s_type st0) eqn:T0.
  2:{ rb H. destruct a as [[[k zs] ec]|]; [|discriminate]. rb H. rb H. apply Ok_inj in H. destruct a0 as [l1|]; [|discriminate].
      cbn [option_map] in H. injection H as <-. destruct j as [|j].
      - rewrite Nat.add_0_r in *. assert (st0 = st) by (unfold stmtAt in *; congruence). subst st0.
        exists prev, k, zs, ec, a. split; [exact E|]. split; [reflexivity|]. intros HK. apply decAll_ok.
        destruct (decAll zs) as [q|]; [congruence|]. destruct (k <? 2) eqn:EK; [discriminate|]. apply Nat.ltb_ge in EK. lia.
      - eapply REST; eauto. }
  all: rb H; apply Ok_inj in H; destruct a as [l1|]; [|discriminate]; cbn [option_map] in H; injection H as <-;
    (destruct j as [|j]; [exfalso; rewrite Nat.add_0_r in HS; assert (st0 = st) by (unfold stmtAt in *; congruence); congruence|eapply REST; eauto]).
Qed.

(* ---- READ ---- *)
Record readOK (src : list nat) (r : rdb) : Prop := {
  ro_src : readSource src = Ok ([], [], rd_ks r, rd_dummy r);
  ro_labs : Forall2 (fun k i => exists m, scanLabel src m k = Ok (i, [])) (rd_ks r) (rd_lab r);
  ro_tail : tailErr src (rd_dummy r) = Ok [];
  ro_math : Forall2 (fun k i => mathOfStmt src k = Ok i) (rd_ks r) (rd_sts r);
  ro_toks : rd_toks r = declTokens 1 (rd_sts r) }.
Section Read.
  Variable lsort : list lstmt -> list nat.
  Variable msort : list (list nat) -> list nat.
  Hypothesis LS : forall l, qsorted l (lsort l).
  Hypothesis MS : forall l, mqsorted l (msort l).

  Lemma readText_inv minSub src errs r : readText lsort msort minSub src = Ok (errs, r) -> errs = [] ->
    readOK src r /\
    (exists dups, labelTables (rd_lab r) (lsort (rd_lab r)) = Ok (dups, rd_all r, rd_asrt r) /\ dups = []) /\
    tokenClash (rd_lab r) (rd_all r) (map mt_name (rd_toks r)) = Ok [] /\
    (exists s, parseStmts (msort (map mt_name (rd_toks r))) minSub (rd_sts r) = Ok s /\ p_err s = [] /\ p_out s = rd_out r).
  Proof.
    intros H HE. unfold readText in H. rb H. destruct a as [[[raw kw] ks] dummy]. rb H. destruct a as [labs les]. rb H. rename a into te.
    cbn [fst snd] in *. rb H. destruct a as [[dups all] asrt]. rb H. rename a into sts.
    destruct (potentialSymbols ks <? _) eqn:PS; [discriminate|]. rb H. rename a into cl. destruct (negb _) eqn:WF; [discriminate|]. rb H. rename a into s.
    apply Ok_inj in H.
    assert (ER : r = mkR ks dummy labs sts (declTokens 1 sts) (p_out s) asrt all) by congruence.
    assert (EE : errs = map ERaw raw ++ map EKw kw ++ map ELab les ++ map ELab te ++
        map (fun k => ELab (LDup k)) dups ++ map (fun x => ELab (LClash x)) cl ++ map EStm (p_err s)) by congruence.
    rewrite HE in EE. symmetry in EE.
    apply app_eq_nil in EE. destruct EE as [A1 EE]. apply app_eq_nil in EE. destruct EE as [A2 EE].
    apply app_eq_nil in EE. destruct EE as [A3 EE]. apply app_eq_nil in EE. destruct EE as [A4 EE].
    apply app_eq_nil in EE. destruct EE as [A5 EE]. apply app_eq_nil in EE. destruct EE as [A6 A7].
    apply map_nil in A1, A2, A3, A4, A5, A6, A7. subst raw kw les te dups cl.
    subst r. cbn [rd_ks rd_dummy rd_lab rd_sts rd_toks rd_out rd_asrt rd_all].
    split.
    - constructor; cbn [rd_ks rd_dummy rd_lab rd_sts rd_toks]; auto.
      + eapply scanLabels_ok; eauto.
      + now apply mathOfAll_ok.
    - split; [exists []; auto|]. split; [assumption|]. exists s. auto.
  Qed.

  Lemma F2_map {A B C} (R : A -> B -> Prop) (f : A -> C) (g : B -> C) l l' :
    (forall a b, R a b -> f a = g b) -> Forall2 R l l' -> map f l = map g l'.
  Proof. intros H. induction 1; cbn; [reflexivity|]. f_equal; auto. Qed.
  Lemma F2_nth {A B} (R : A -> B -> Prop) l l' : Forall2 R l l' -> forall n a, nth_error l n = Some a -> exists b, nth_error l' n = Some b /\ R a b.
  Proof. induction 1; intros [|n] a H'; try discriminate; cbn in *; [injection H' as <-; eauto|eauto]. Qed.
  Lemma F2_nth' {A B} (R : A -> B -> Prop) l l' : Forall2 R l l' -> forall n b, nth_error l' n = Some b -> exists a, nth_error l n = Some a /\ R a b.
  Proof. induction 1; intros [|n] a H'; try discriminate; cbn in *; [injection H' as <-; eauto|eauto]. Qed.
  Lemma lab_kind src k i m es : scanLabel src m k = Ok (i, es) -> l_kind i = k_kind k.
  Proof.
    unfold scanLabel. intros H. rb H. destruct (tokenLen a); [apply Ok_inj in H; injection H as <- _; reflexivity|].
    rb H. apply Ok_inj in H. assert (i = Build_lstmt (k_kind k) (firstn (S n) a)) by congruence. subst i. reflexivity.
  Qed.

  Section Ok.
    Variables (minSub : nat) (src : list nat) (r : rdb).
    Hypothesis H : readText lsort msort minSub src = Ok ([], r).
    Let RI := readText_inv minSub src [] r H eq_refl.
    Let sts := rd_sts r.

    Lemma ok_src : readSource src = Ok ([], [], rd_ks r, rd_dummy r). Proof. exact (ro_src _ _ (proj1 RI)). Qed.
    Lemma ok_items : exists items tail, src = sourceText items tail /\ Forall neat items /\ quiet tail /\
      map (toItem src) (rd_ks r) = items /\ secText src (rd_dummy r) = tail.
    Proof. exact (c48_error_free_source _ _ _ ok_src). Qed.
    Lemma ok_folk : Forall (folK src) (rd_ks r) /\ Forall (okK src) (rd_ks r) /\ fst (rd_dummy r) + snd (rd_dummy r) = length src.
    Proof. exact (sections_followed src _ _ _ ok_src). Qed.
    Lemma ok_k n k : nth_error (rd_ks r) n = Some k -> folK src k /\ okK src k /\ neat (toItem src k).
    Proof.
      intros Hk. destruct ok_folk as (F & O & _). destruct ok_items as (items & tail & _ & NE & _ & EI & _). apply nth_error_In in Hk.
      rewrite Forall_forall in F, O, NE. split; [auto|]. split; [auto|]. apply NE. rewrite <- EI. now apply in_map.
    Qed.
    Lemma ok_reads n k i : nth_error (rd_ks r) n = Some k -> nth_error sts n = Some i -> readsAs (toItem src k) i.
    Proof.
      intros Hk Hi. destruct (ok_k n k Hk) as (F & O & NE). apply (math_words src k i F O); [apply NE|].
      destruct (F2_nth _ _ _ (ro_math _ _ (proj1 RI)) _ _ Hk) as (i' & Hi' & E). fold sts in Hi'. congruence.
    Qed.
    Lemma ok_readsAs : Forall2 readsAs (map (toItem src) (rd_ks r)) sts.
    Proof.
      assert (G : forall ks l, Forall2 (fun k i => mathOfStmt src k = Ok i) ks l ->
        (forall n k i, nth_error ks n = Some k -> nth_error l n = Some i -> readsAs (toItem src k) i) -> Forall2 readsAs (map (toItem src) ks) l).
      { induction 1 as [|k i ks l E F IH]; intros Q; cbn; constructor; [apply (Q 0); reflexivity|]. apply IH. intros n. apply (Q (S n)). }
      apply G; [exact (ro_math _ _ (proj1 RI))|exact ok_reads].
    Qed.
    Lemma ok_legal : legal sts /\ nestOK sts.
    Proof.
      destruct RI as (_ & _ & _ & (s & P & E & _)). apply (read_sound sts _ (MS _) minSub s); [|exact E].
      unfold sts. rewrite <- (ro_toks _ _ (proj1 RI)). exact P.
    Qed.
    Lemma ok_out : length (rd_out r) = S (length sts) /\ nth_error (rd_out r) 0 = Some out0 /\ Forall plainOut (rd_out r) /\
      forall n i o, stAt sts n i -> nth_error (rd_out r) n = Some o -> goodOut sts (declTokens 1 sts) n i o.
    Proof.
      destruct RI as (R0 & _ & _ & (s & P & E & EO)). rewrite <- EO. rewrite (ro_toks _ _ R0) in P. fold sts in P.
      destruct ok_legal as [L N]. destruct (read_complete sts _ (MS _) minSub L N) as (s' & P' & _ & G1 & G2).
      rewrite P' in P. apply Ok_inj in P. subst s'. destruct (parse_out0 _ _ _ _ P') as [A B]. auto.
    Qed.
    Lemma ok_db : dbOf r = mkDb (tkVar (declTokens 1 sts)) (length (declTokens 1 sts)) (map toStmt (rd_out r)).
    Proof. unfold dbOf. now rewrite (ro_toks _ _ (proj1 RI)). Qed.
    Lemma ok_wf : wf_db (dbOf r).
    Proof. destruct ok_out as (A & B & C & D). exact (wf_ok sts (rd_out r) (proj1 ok_legal) A B C D (dbOf r) ok_db). Qed.
    Lemma ok_labelled : labelled_ok (rd_lab r).
    Proof.
      intros s HS HL. apply In_nth_error in HS. destruct HS as (n & HS).
      destruct (F2_nth' _ _ _ (ro_labs _ _ (proj1 RI)) _ _ HS) as (k & Hk & m & E).
      destruct (ok_k n k Hk) as (F & O & NE). destruct (scan_words src m k s [] F O ltac:(apply NE) E eq_refl) as (K & _ & L & _).
      apply L in HL. rewrite K. destruct HL as [->|[->|[->| ->]]]; exact I.
    Qed.

    Variable find : list (label * Z) -> label -> option Z.
    Hypothesis FS : forall tab l j, find tab l = Some j -> In (l, j) tab.
    Hypothesis FN : forall tab l, find tab l = None -> forall j, ~ In (l, j) tab.
    Lemma ok_env : wf_env (envOf find r).
    Proof.
      destruct ok_out as (A & B & C & D). constructor; cbn [envOf e_find e_keys e_db e_name]; auto.
      - intros l j HI. apply in_map_iff in HI. destruct HI as (k & E & HK). injection E as <- <-.
        destruct RI as (R0 & (dups & LT & _) & _). destruct (labelTables_asrt _ _ _ _ _ (LS _) LT k HK) as (IB & NL & NE & NF).
        destruct IB as (s & HS). assert (KS : knd (rd_lab r) k = l_kind s) by (unfold knd; now rewrite HS).
        assert (LSs : lab (rd_lab r) k = l_label s) by (unfold lab; now rewrite HS). rewrite KS in *. rewrite LSs in *.
        destruct k as [|k]; [discriminate|]. cbn [lnth] in HS.
        pose proof (ok_labelled s (nth_error_In _ _ HS) NL) as LK.
        destruct (F2_nth' _ _ _ (ro_labs _ _ R0) _ _ HS) as (ks & Hks & m & E). apply lab_kind in E.
        destruct (F2_nth _ _ _ (ro_math _ _ R0) _ _ Hks) as (i & Hi & Em). apply mathOf_kind in Em.
        assert (HA : stAt sts (S k) i) by (split; [lia|]; cbn; rewrite Nat.sub_0_r; exact Hi).
        destruct (db_kind sts (rd_out r) A D (dbOf r) ok_db (S k) i HA) as (o & HO & G & EK).
        exists (S k), (toStmt o). split; [lia|]. split; [reflexivity|]. split; [exact HO|]. split; [|reflexivity].
        apply type_a. unfold isA. rewrite EK, Em, <- E. destruct (l_kind s); try contradiction; try congruence; auto.
      - intros n st h HS HT HH. assert (HA : isAssertion st) by now right.
        destruct (db_asrt sts (rd_out r) A B D (dbOf r) ok_db n st HS HA) as (i & o & Hi & -> & G & K & F & _).
        cbn [toStmt s_reqHyps s_optHyps s_type] in *.
        assert (Q : exists j, stAt sts h j /\ (si_kind j = K_e \/ si_kind j = K_f)).
        { destruct HH as [HH|HH]; [apply (gf_hyps _ _ _ _ F) in HH; now apply mandHyp_hyp in HH|].
          assert (OK : o_kind o = K_p) by (destruct (o_kind o); try discriminate; reflexivity).
          destruct (gf_opt _ _ _ _ F OK) as (Q & _). apply Q in HH. destruct HH as (_ & (j & Hj & KF) & _). eauto. }
        destruct Q as (j & Hj & KJ). split; [exact (proj1 Hj)|].
        destruct (db_kind sts (rd_out r) A D (dbOf r) ok_db h j Hj) as (o' & HO & _ & EK). exists (toStmt o'). split; [exact HO|].
        apply type_h. now rewrite EK.
    Qed.
    Lemma db0 st : stmtAt (dbOf r) 0 st -> s_type st = S_other.
    Proof.
      destruct ok_out as (A & B & C & D). intros HS. apply (db_at sts (rd_out r) (dbOf r) ok_db) in HS. destruct HS as (o & HO & ->).
      rewrite B in HO. injection HO as <-. reflexivity.
    Qed.
    Lemma ok_parses fuel prev l : parseAll fuel (envOf find r) src (rd_ks r) 1 (length (db_stmts (dbOf r)) - 1) prev = Ok (Some l) ->
      parsesTo (envOf find r) (proofText src (rd_ks r)) (parsedAt l).
    Proof.
      intros HP n st HS HT. destruct n as [|n].
      - exfalso. apply db0 in HS. congruence.
      - cbn [envOf e_db] in HS. assert (L : S n < length (db_stmts (dbOf r))) by (apply nth_error_Some; unfold stmtAt in HS; congruence).
        destruct (parseAll_ok _ _ _ _ _ _ _ _ HP n st ltac:(lia) HS HT) as (prev' & k & zs & ec & p & P1 & P2 & P3).
        exists fuel, prev', k, zs, ec. cbn [plus] in *. split; [exact P1|]. cbn [parsedAt]. rewrite P2. cbn [pr_k pr_sev pr_err pr_proof]. auto.
    Qed.

    Lemma ok_theorems fuel prev l : parseAll fuel (envOf find r) src (rd_ks r) 1 (length (db_stmts (dbOf r)) - 1) prev = Ok (Some l) ->
      verifyProofs fuel (dbOf r) (parsedAt l) = Ok (true, []) -> forall n, kindAt sts n K_p -> theorem sts n.
    Proof.
      intros HP HV. destruct ok_out as (A & B & C & D).
      apply (all_theorems sts (rd_out r) (proj1 ok_legal) A B C D (dbOf r) ok_db (fun n => pr_proof (parsedAt l n))).
      intros n st Hn HS HT.
      exact (C06_clean_run_text (envOf find r) (proofText src (rd_ks r)) (parsedAt l) fuel ok_wf ok_env (ok_parses _ _ _ HP) HV n st Hn HS HT).
    Qed.

    (* ---- labels of an error-free text ---- *)
    Lemma ok_label n k : nth_error (rd_ks r) n = Some k -> exists i, nth_error (rd_lab r) n = Some i /\
      words (it_lab (toItem src k)) (labOf i) /\ (labelled (k_kind k) <-> l_label i <> []) /\ Forall labelSym (l_label i).
    Proof.
      intros Hk. destruct (F2_nth _ _ _ (ro_labs _ _ (proj1 RI)) _ _ Hk) as (i & Hi & m & E). exists i. split; [exact Hi|].
      destruct (ok_k n k Hk) as (F & O & NE). destruct (scan_words src m k i [] F O ltac:(apply NE) E eq_refl) as (K & W & L & C). auto.
    Qed.
    Lemma ok_word n k x : nth_error (rd_ks r) n = Some k -> words (it_lab (toItem src k)) [x] -> hasLabel (rd_lab r) (S n) x.
    Proof.
      intros Hk W. destruct (ok_label n k Hk) as (i & Hi & W' & _). pose proof (words_fun _ _ _ W W') as E. unfold labOf in E.
      destruct (l_label i) eqn:EL; [discriminate|]. injection E as ->. split; [discriminate|]. exists i. cbn [lnth]. auto.
    Qed.
    Lemma decl_tok h x v : declares sts h x v -> In x (map mt_name (rd_toks r)).
    Proof.
      intros [(i & Hi & HK) HT]. apply (hasTok_at _ _ _ _ Hi) in HT. apply In_nth_error in HT. destruct HT as (j & HJ).
      assert (HD : isDecl (si_kind i) = true) by (rewrite HK; now destruct v).
      pose proof (own_at _ _ _ _ Hi HD _ HJ) as E. rewrite (ro_toks _ _ (proj1 RI)). fold sts.
      apply in_map_iff. eexists. split; [|eapply nth_error_In; exact E]. reflexivity.
    Qed.
    Lemma tok_ne x : In x (map mt_name (rd_toks r)) -> x <> [].
    Proof.
      intros HX. apply in_map_iff in HX. destruct HX as (k & <- & HK). rewrite (ro_toks _ _ (proj1 RI)) in HK. fold sts in HK.
      apply In_nth_error in HK. destruct HK as (t & HK). apply tok_declares in HK. destruct HK as [(i & Hi & HK) HT].
      apply (hasTok_at _ _ _ _ Hi) in HT. destruct Hi as [H0 Hi].
      destruct (F2_nth' _ _ _ (ro_math _ _ (proj1 RI)) _ _ Hi) as (ks & Hks & _).
      destruct (ok_reads _ _ _ Hks Hi) as [_ W]. intros E. rewrite E in HT. revert HT. clear -W.
      induction W as [| | |t r xs N T TE W IH]; auto. intros [Q|Q]; auto.
    Qed.
    Lemma ok_tailwords : words (secText src (rd_dummy r)) [].
    Proof.
      destruct ok_items as (items & tail & _ & _ & QT & _ & ET). rewrite ET. destruct (quiet_words _ _ (le_n _) QT) as (xs & W).
      pose proof (ro_tail _ _ (proj1 RI)) as T. unfold tailErr in T. destruct ok_folk as (_ & _ & EL).
      assert (SE : skipn (fst (rd_dummy r)) src = tail).
      { rewrite <- ET. unfold secText. rewrite firstn_all2; [reflexivity|]. rewrite skipn_length. lia. }
      rewrite SE in T. pose proof (words_scan tail xs [] (S (length (tail ++ []))) W (or_introl eq_refl) ltac:(lia)) as M.
      rewrite app_nil_r in M. cbn [mathTokens] in M. destruct (whiteSpace tail) as [s| | |]; try discriminate. cbn [rbind] in *.
      destruct (tokenLen s); [|discriminate]. apply Ok_inj in M. injection M as <- _. exact W.
    Qed.
    Lemma ok_goodLabels : goodLabels (map (toItem src) (rd_ks r)) (secText src (rd_dummy r)) sts.
    Proof.
      destruct RI as (R0 & (dups & LT & ED) & CL & _).
      destruct (tables_ok _ _ (LS (rd_lab r)) ok_labelled) as (dups' & all' & asrt' & LT' & DU & _ & TC).
      rewrite LT in LT'. apply Ok_inj in LT'. assert (dups' = dups /\ all' = rd_all r) as [-> ->] by (split; congruence).
      constructor.
      - intros i HI LK. apply in_map_iff in HI. destruct HI as (k & <- & HK). apply In_nth_error in HK. destruct HK as (n & HK).
        destruct (ok_label n k HK) as (l & _ & W & L & C). cbn [it_kind toItem] in LK. apply L in LK. exists (l_label l).
        split; [|exact C]. unfold labOf in W. destruct (l_label l); [congruence|exact W].
      - intros i HI LK. apply in_map_iff in HI. destruct HI as (k & <- & HK). apply In_nth_error in HK. destruct HK as (n & HK).
        destruct (ok_label n k HK) as (l & _ & W & L & C). cbn [it_kind toItem] in LK. unfold labOf in W.
        destruct (l_label l); [exact W|]. exfalso. apply LK, L. discriminate.
      - intros n m i j x Hn Hm W1 W2. rewrite nth_error_map in Hn, Hm.
        destruct (nth_error (rd_ks r) n) as [k1|] eqn:K1; [|discriminate]. destruct (nth_error (rd_ks r) m) as [k2|] eqn:K2; [|discriminate].
        cbn in Hn, Hm. injection Hn as <-. injection Hm as <-. pose proof (ok_word _ _ _ K1 W1) as A. pose proof (ok_word _ _ _ K2 W2) as B.
        destruct (Nat.eq_dec n m) as [|N]; [assumption|]. exfalso.
        assert (Q : In (S n) dups) by (apply DU; exists x, (S m); split; [exact A|]; split; [exact B|]; lia). rewrite ED in Q. destruct Q.
      - intros i x h v HI W D. apply in_map_iff in HI. destruct HI as (k & <- & HK). apply In_nth_error in HK. destruct HK as (n & HK).
        pose proof (ok_word _ _ _ HK W) as A. apply decl_tok in D.
        destruct (TC (map mt_name (rd_toks r)) tok_ne) as (bad & TB & HB). rewrite CL in TB. apply Ok_inj in TB. subst bad.
        apply (proj2 (HB x)). split; [exact D|]. exists (S n). exact A.
      - exact ok_tailwords.
    Qed.
  End Ok.
End Read.
