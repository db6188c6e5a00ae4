(* TidyMain.v -- READ reports nothing on a legal source file. *)
From Verif Require Import Base TokModel LabModel LabSpec LabProofs SrcModel StmModel VerModel ParModel TokSpec SrcSpec StmSpec TokProofs SrcProofs SrcFinal
  StmTab StmScope StmMain ReadModel ReadOut ReadSpec ReadSec ReadWords ReadMain ReadSize TidySpec TidyFile.
Open Scope nat_scope.

Definition goodLab (k : kind) (xs : list name) : Prop :=
  (~ labelled k /\ xs = []) \/ (labelled k /\ exists x, xs = [x] /\ Forall labelSym x).
Lemma words_ne l xs : words l xs -> forall x, In x xs -> x <> [].
Proof. induction 1 as [| | |t r xs N T TE W IH]; auto. intros x [<-|H]; auto. Qed.
Lemma scan_complete src n k xs : folK src k -> okK src k -> words (secText src (k_lab k)) xs -> goodLab (k_kind k) xs ->
  exists i, scanLabel src n k = Ok (i, []) /\ l_kind i = k_kind k /\ labOf i = xs.
Proof.
  intros [FL _] [OL _] W G.
  assert (SP : stops (skipn (fst (k_lab k) + snd (k_lab k)) src)).
  { destruct (foll_skip _ _ _ FL) as (r & ->). right. exists (charOfKind (k_kind k)), r. split; [reflexivity|].
    unfold dollar. destruct (k_kind k); cbn; unfold chLC, chRC; lia. }
  pose proof (words_scan _ xs _ (S (S (length (secText src (k_lab k) ++ skipn (fst (k_lab k) + snd (k_lab k)) src)))) W SP ltac:(lia)) as M.
  unfold scanLabel. rewrite (sec_split src _ OL).
  set (t := secText src (k_lab k) ++ skipn (fst (k_lab k) + snd (k_lab k)) src) in *.
  cbn [mathTokens] in M. destruct (whiteSpace t) as [s| | |]; try discriminate. cbn [rbind] in M |- *.
  destruct (tokenLen s) as [|j] eqn:TL.
  - apply Ok_inj in M. assert (EX : xs = []) by congruence. exists (Build_lstmt (k_kind k) []). split; [|split; [reflexivity|symmetry; exact EX]].
    destruct G as [[NL _]|(_ & x & E & _)]; [|congruence]. rewrite <- wants_spec in NL. destruct (wantsLabel (k_kind k)); [congruence|reflexivity].
  - destruct (whiteSpace (skipn (S j) s)) as [s2| | |] eqn:W2; try discriminate. cbn [rbind] in M |- *.
    assert (HX : exists ys, xs = firstn (S j) s :: ys /\ (tokenLen s2 = 0 <-> ys = [])).
    { destruct (tokenLen s2) eqn:T2.
      - cbn [rbind] in M. apply Ok_inj in M. exists []. split; [|tauto]. congruence.
      - rb M. destruct a as [ts e]. apply Ok_inj in M. rb E. destruct a as [us e']. apply Ok_inj in E. exists ts. split; [congruence|].
        split; [discriminate|]. intros ->. congruence. }
    destruct HX as (ys & EX & HY). destruct G as [[_ E]|(HL & x & E & F)]; [congruence|].
    assert (ys = []) by congruence. assert (x = firstn (S j) s) by congruence. subst x.
    rewrite (proj2 HY H). apply wants_spec in HL. rewrite HL.
    assert (FC : forallb labelChar (firstn (S j) s) = true).
    { apply forallb_forall. intros c Hc. apply labelChar_spec. rewrite Forall_forall in F. auto. }
    rewrite FC. eexists. split; [reflexivity|]. cbn [l_kind]. split; [reflexivity|]. unfold labOf. cbn [l_label].
    destruct s as [|c s]; [discriminate TL|]. cbn [firstn] in *. congruence.
Qed.
Lemma scanLabels_complete src : forall ks xss n, Forall (folK src) ks -> Forall (okK src) ks ->
  Forall2 (fun k xs => words (secText src (k_lab k)) xs /\ goodLab (k_kind k) xs) ks xss ->
  exists labs, scanLabels src n ks = Ok (labs, []) /\ Forall2 (fun k i => l_kind i = k_kind k) ks labs /\ map labOf labs = xss.
Proof.
  induction ks as [|k ks IH]; intros xss n FK OK H; inversion H; subst; cbn [scanLabels].
  - exists []. repeat split; constructor.
  - inversion FK; subst. inversion OK; subst. destruct H2 as [W G].
    destruct (scan_complete src n k y ltac:(assumption) ltac:(assumption) W G) as (i & E1 & E2 & E3).
    destruct (IH l' (S n)) as (labs & F1 & F2 & F3); auto. rewrite E1. cbn [rbind]. rewrite F1. cbn [rbind fst snd app].
    exists (i :: labs). split; [reflexivity|]. split; [constructor; auto|]. cbn. congruence.
Qed.
Lemma math_complete src k i : folK src k -> okK src k -> readsAs (toItem src k) i -> mathOfStmt src k = Ok i.
Proof.
  intros (_ & FK) (_ & OM & _) [RK W]. unfold mathOfStmt. cbn [toItem it_kind it_math] in RK, W.
  assert (Q : forall sec c, k_math k = Some sec -> foll src sec c -> c = chDot \/ c = chEq ->
     mathTokens (S (length (skipn (fst sec) src))) (skipn (fst sec) src) = Ok (si_toks i, skipn (fst sec + snd sec) src)).
  { intros sec c E F HC. rewrite E in *. cbn [osecText osecOK] in *. rewrite (sec_split src sec OM).
    apply words_scan; [exact W|exact (foll_stops _ _ _ F HC)|lia]. }
  destruct i as [ik it]. cbn [si_kind si_toks] in *. subst ik.
  destruct (k_kind k) eqn:EK;
    try (destruct FK as [FM _]; rewrite FM in W; cbn [osecText] in W; rewrite (words_fun _ _ _ W w_nil); reflexivity);
    try (destruct FK as (FP & m & FM & FF); rewrite FM; rewrite (Q m chDot FM FF) by auto; reflexivity);
    (destruct FK as (m & p & FM & FP & FF & FF'); rewrite FM; rewrite (Q m chEq FM FF) by auto; reflexivity).
Qed.
Lemma mathAll_complete src : forall ks sts, Forall (folK src) ks -> Forall (okK src) ks ->
  Forall2 readsAs (map (toItem src) ks) sts -> mathOfAll src ks = Ok sts.
Proof.
  induction ks as [|k ks IH]; intros sts FK OK H; inversion H; subst; cbn [mathOfAll]; [reflexivity|].
  inversion FK; subst. inversion OK; subst. rewrite (math_complete src k y) by auto. cbn [rbind]. rewrite (IH l') by auto. reflexivity.
Qed.

Lemma labOf_in i x : labOf i = [x] <-> l_label i = x /\ x <> [].
Proof. unfold labOf. destruct (l_label i); split; intros H; try discriminate; try (injection H as <-; split; [reflexivity|discriminate]); destruct H; congruence. Qed.
Section Complete.
  Variable lsort : list lstmt -> list nat.
  Variable msort : list (list nat) -> list nat.
  Hypothesis LS : forall l, qsorted l (lsort l).
  Hypothesis MS : forall l, mqsorted l (msort l).
  Lemma F2_ex {A B} (R : A -> B -> Prop) l : (forall a, In a l -> exists b, R a b) -> exists l', Forall2 R l l'.
  Proof.
    induction l as [|a l IH]; intros H; [exists []; constructor|]. destruct (H a (or_introl eq_refl)) as (b & Hb).
    destruct IH as (l' & Hl); [intros; apply H; now right|]. exists (b :: l'). now constructor.
  Qed.
  Lemma labelled_dec k : labelled k \/ ~ labelled k.
  Proof. unfold labelled. destruct k; auto; right; intros [H|[H|[H|H]]]; discriminate. Qed.

  Lemma read_text_complete minSub items tail sts : tidyFile items tail -> Forall2 readsAs items sts ->
    goodLabels items tail sts -> legal sts -> nestOK sts ->
    exists r, readText lsort msort minSub (sourceText items tail) = Ok ([], r) /\ rd_sts r = sts.
  Proof.
    intros TF RA GL LG NO. destruct (source_complete items tail TF) as (ks & dummy & ES & EI & ET).
    set (src := sourceText items tail) in *.
    destruct (sections_followed src _ _ _ ES) as (FK & OK & EL).
    (* labels *)
    assert (HX : exists xss, Forall2 (fun k xs => words (secText src (k_lab k)) xs /\ goodLab (k_kind k) xs) ks xss).
    { apply F2_ex. intros k Hk. assert (HI : In (toItem src k) items) by (rewrite <- EI; now apply in_map).
      destruct (labelled_dec (k_kind k)) as [L|L].
      - destruct (gl_one _ _ _ GL _ HI L) as (x & W & F). exists [x]. split; [exact W|]. right. split; [exact L|]. eauto.
      - exists []. split; [exact (gl_none _ _ _ GL _ HI L)|]. now left. }
    destruct HX as (xss & HX). destruct (scanLabels_complete src ks xss 1 FK OK HX) as (labs & E1 & LK & LX).
    (* tail *)
    assert (SE : skipn (fst dummy) src = tail).
    { rewrite <- ET. unfold secText. rewrite firstn_all2; [reflexivity|]. rewrite skipn_length. lia. }
    assert (E2 : tailErr src dummy = Ok []).
    { unfold tailErr. rewrite SE. pose proof (words_scan tail [] [] (S (length (tail ++ []))) (gl_tail _ _ _ GL) (or_introl eq_refl) ltac:(lia)) as M.
      rewrite app_nil_r in M. cbn [mathTokens] in M. destruct (whiteSpace tail) as [s| | |]; try discriminate. cbn [rbind] in *.
      destruct (tokenLen s); [reflexivity|]. rb M. destruct a as [ts e]. apply Ok_inj in M. discriminate. }
    (* one label each *)
    assert (HLW : forall n i, nth_error labs n = Some i -> exists j, nth_error items n = Some j /\ l_kind i = it_kind j /\
       words (it_lab j) (labOf i) /\ goodLab (it_kind j) (labOf i)).
    { intros n i Hi. destruct (F2_nth' _ _ _ LK _ _ Hi) as (k & Hk & EK). exists (toItem src k).
      split; [rewrite <- EI; now apply map_nth_error|]. split; [exact EK|].
      destruct (F2_nth _ _ _ HX _ _ Hk) as (xs & Hxs & WG). rewrite <- LX in Hxs. rewrite (map_nth_error labOf n labs Hi) in Hxs.
      injection Hxs as <-. exact WG. }
    assert (LO : labelled_ok labs).
    { intros s HS HL. apply In_nth_error in HS. destruct HS as (n & Hn). destruct (HLW _ _ Hn) as (j & _ & EK & _ & G).
      destruct G as [[_ E]|[L _]].
      - unfold labOf in E. destruct (l_label s); [congruence|discriminate].
      - rewrite EK. destruct L as [->|[->|[->| ->]]]; exact I. }
    assert (HL : forall k x, hasLabel labs k x -> exists n j, k = S n /\ nth_error items n = Some j /\ words (it_lab j) [x]).
    { intros k x [NX (s & HS & EQ)]. destruct k as [|n]; [discriminate|]. cbn [lnth] in HS. destruct (HLW _ _ HS) as (j & Hj & _ & W & _).
      exists n, j. split; [reflexivity|]. split; [exact Hj|]. rewrite (proj2 (labOf_in s x)) in W; auto. }
    destruct (tables_ok labs (lsort labs) (LS labs) LO) as (dups & all & asrt & E3 & DU & _ & TC).
    assert (ED : dups = []).
    { destruct dups as [|k dups]; [reflexivity|]. exfalso. destruct (proj1 (DU k) (or_introl eq_refl)) as (x & j & H1 & H2 & N).
      destruct (HL _ _ H1) as (n1 & j1 & -> & Hn1 & W1). destruct (HL _ _ H2) as (n2 & j2 & -> & Hn2 & W2).
      apply N. f_equal. exact (gl_diff _ _ _ GL _ _ _ _ _ Hn2 Hn1 W2 W1). }
    assert (E4 : mathOfAll src ks = Ok sts) by (apply mathAll_complete; auto; now rewrite EI).
    destruct (tables_fit src ks dummy sts ES E4) as [T1 T2].
    assert (DN : forall x, In x (map mt_name (declTokens 1 sts)) -> exists h v, declares sts h x v).
    { intros x Hx. apply in_map_iff in Hx. destruct Hx as (t & <- & Ht). apply In_nth_error in Ht. destruct Ht as (n & Ht).
      apply tok_declares in Ht. eauto. }
    assert (TN : forall x, In x (map mt_name (declTokens 1 sts)) -> x <> []).
    { intros x Hx. destruct (DN x Hx) as (h & v & (i & Hi & HK) & HT). apply (hasTok_at _ _ _ _ Hi) in HT. destruct Hi as [_ Hi].
      destruct (F2_nth' _ _ _ RA _ _ Hi) as (j & _ & _ & W). exact (words_ne _ _ W x HT). }
    destruct (TC _ TN) as (bad & E5 & HB).
    assert (EB : bad = []).
    { destruct bad as [|x bad]; [reflexivity|]. exfalso. destruct (proj1 (HB x) (or_introl eq_refl)) as [HX1 (k & Hk)].
      destruct (DN x HX1) as (h & v & D). destruct (HL _ _ Hk) as (n & j & _ & Hj & W).
      exact (gl_sym _ _ _ GL j x h v (nth_error_In _ _ Hj) W D). }
    destruct (read_complete sts (msort (map mt_name (declTokens 1 sts))) (MS _) minSub LG NO) as (s & E6 & E7 & _).
    unfold readText. fold src. rewrite ES. cbn [rbind]. rewrite E1. cbn [rbind fst snd]. rewrite E2. cbn [rbind]. rewrite E3. cbn [rbind].
    rewrite E4. cbn [rbind]. apply Nat.ltb_ge in T1. rewrite T1, E5. cbn [rbind]. rewrite T2. cbn [negb]. rewrite E6. cbn [rbind].
    subst dups bad. rewrite E7. cbn [map app]. eexists. split; [reflexivity|]. reflexivity.
  Qed.
End Complete.
