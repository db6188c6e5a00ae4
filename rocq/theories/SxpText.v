(* SxpText.v -- SAVE PROOF /EXPLICIT: the text stored and how it is read. *)
From Coq Require Import ZifyBool ZifyNat.
From Verif Require Import Base TokSpec MMSpec VerModel VerSpec TokModel TokProofs ParModel ParSpec CmpSpec CheckPar VstrModel VstrSpec CmdModel CmdProofs
  SqModel SqSpec SqProofs SqPack SqAttr SqValid SqGood OrdModel LineModel LineSpec LineProofs LineText SavModel LineCmp SavProofs ReadWords
  NrmModel NrmSpec NrmProofs NrmParse NrmText ExpModel ExpSpec ExpMain ExpText SxpModel SxpSpec SxpProofs SxpMean.
Open Scope nat_scope.

(* ---- words made of several tokens ---- *)
Definition oneTok (t : label) : Prop := exists c, t = [c] /\ oneCharToken c.
Inductive glued : list label -> Prop :=
| gl_one t : labelWord t \/ oneTok t -> glued [t]
| gl_word t u ts : labelWord t -> oneTok u -> glued (u :: ts) -> glued (t :: u :: ts)
| gl_char t ts : oneTok t -> glued ts -> glued (t :: ts).
Lemma glued_ink ts r : glued ts -> startsInk (concat ts ++ r).
Proof.
  intros H. destruct H as [t H|t u ts H _ _|t ts H _]; cbn [concat]; rewrite <- app_assoc; [destruct H as [H|H]|..]; try (now apply word_ink); destruct H as (c & -> & H); now apply one_ink.
Qed.
Lemma one_proofTok t s : oneTok t -> proofToken t s.
Proof. intros (c & -> & H). left. eauto. Qed.
Lemma glued_tokens ts : glued ts -> forall w s more e, TokSpec.blanks w s -> startsInk s -> plainEnds (w ++ s) -> tokenised proofToken noProofToken s more e ->
  tokenised proofToken noProofToken (concat ts ++ w ++ s) (ts ++ more) e.
Proof.
  induction 1 as [t H|t u ts H1 H2 G IH|t ts H G IH]; intros w s more e B SI PE TK; cbn [concat app].
  - rewrite app_nil_r. apply tk_tok; auto. destruct H as [H|H]; [now apply word_proofTok|now apply one_proofTok].
  - rewrite <- app_assoc. change (t ++ concat (u :: ts) ++ w ++ s) with (t ++ [] ++ (concat (u :: ts) ++ w ++ s)).
    apply (tk_tok _ _ t [] (concat (u :: ts) ++ w ++ s)); [|constructor|now apply glued_ink|apply IH; auto].
    apply word_proofTok; [exact H1|]. destruct H2 as (c & -> & H2). cbn. right. left. exact H2.
  - rewrite <- app_assoc. change (t ++ concat ts ++ w ++ s) with (t ++ [] ++ (concat ts ++ w ++ s)).
    apply (tk_tok _ _ t [] (concat ts ++ w ++ s)); [now apply one_proofTok|constructor|now apply glued_ink|apply IH; auto].
Qed.
Lemma glued_words rest (SR : stops rest) : rest <> [] -> forall tss, Forall glued tss -> forall t, LineSpec.words t = map (@concat nat) tss ->
  exists w s, t ++ 32 :: rest = w ++ s /\ TokSpec.blanks w s /\ startsInk s /\ tokenised proofToken noProofToken s (concat tss) rest.
Proof.
  intros NR. induction 1 as [|ts tss G F IH]; intros t W.
  - apply words_nil in W. exists (t ++ [32]), rest. split; [rewrite <- app_assoc; reflexivity|].
    split; [apply blanks_of; apply Forall_app; split; [exact W|repeat constructor]|]. split; [now apply stops_ink|].
    constructor. destruct SR as [->|(c & r & -> & H1 & _)]; [exact I|]. cbn. right. auto.
  - cbn [map] in W. destruct (words_cons _ _ _ W) as (w0 & r & -> & B0 & T & W'). destruct (IH r W') as (w & s & E & B & SI & TK).
    assert (ED : exists d u, w ++ s = d :: u /\ ~ graphic d).
    { rewrite <- E. destruct T as [->|(d & r' & -> & BD)]; [exists 32, rest|exists d, (r' ++ 32 :: rest)]; (split; [reflexivity|]); [unfold graphic; lia|now apply blank_white]. }
    assert (PE : plainEnds (w ++ s)) by (destruct ED as (d & u & -> & G'); left; exact G').
    exists w0, (concat ts ++ w ++ s). split; [rewrite <- E, <- !app_assoc; reflexivity|]. split; [now apply blanks_of|].
    split; [now apply glued_ink|]. cbn [concat]. apply glued_tokens; auto.
Qed.

Section Saved.
  Variable env : penv.
  Hypothesis WD : wf_db (e_db env).
  Hypothesis WE : wf_env env.
  Hypothesis UE : uniq_env env.
  Hypothesis FO : fromOne env.
  Variable n : nat.
  Variable st : stmtRec.
  Hypothesis HS : stmtAt (e_db env) n st.
  Hypothesis HT : s_type st = S_p.
  Let db := e_db env.

  Lemma tgOk_of h sh : stmtAt db h sh -> labelled sh -> tgOk env (Z.of_nat h).
  Proof. intros A B. split; [pose proof (FO h sh A B); lia|]. exists sh. rewrite Nat2Z.id. auto. Qed.
  Lemma targets_tgOk U : wfTree db U -> forall own sh, stmtAt db own sh -> labelled sh -> Forall (tgOk env) (targets db U own).
  Proof.
    induction U as [z kids IH] using tree_ind2. intros W own sh A B. inversion W as [? ? AR F]; subst. rewrite targets_eq. apply Forall_app. split; [|repeat constructor; eapply tgOk_of; eassumption].
    assert (HH : forall h, In h (hypsOf db z) -> exists s, stmtAt db h s /\ labelled s).
    { intros h I. unfold hypsOf in I. destruct (z <? 0)%Z; [destruct I|]. destruct (nth_error (db_stmts db) (Z.to_nat z)) as [sz|] eqn:SZ; [|destruct I].
      assert (X : isAssertion sz /\ In h (s_reqHyps sz)) by (destruct (s_type sz) eqn:T; try destruct I; (split; [|exact I]); [now left|now right]).
      destruct X as [X1 X2]. destruct (wf_hyps _ WD _ _ _ SZ X1 X2) as (s & S1 & S2). exists s. split; [exact S1|now right]. }
    clear AR W. revert IH F HH. generalize (hypsOf db z). induction kids as [|k kids IHk]; intros [|h hs] IH F HH; try constructor.
    cbn [zipw concat]. inversion IH; subst. inversion F; subst. apply Forall_app. split.
    - destruct (HH h (or_introl eq_refl)) as (s & S1 & S2). eauto.
    - apply IHk; auto. intros; apply HH; now right.
  Qed.

  Variable q : list pstep.
  Hypothesis G : goodProof db n st q.
  Hypothesis LA : forall i, In (Loc i) q -> exists m sm, nth_error q i = Some (Stm m) /\ stmtAt db m sm /\ isAssertion sm.
  Variable U : tree.
  Hypothesis WU : wfTree db U.
  Hypothesis EU : map encStep q = rpn U.
  Variable nm : nat -> nat.
  Hypothesis NL : forall i, In (Loc i) q -> ~ In (num (nm i)) (allLabels env).
  Hypothesis NI : forall i j, In (Loc i) q -> In (Loc j) q -> nm i = nm j -> i = j.
  Let tg := targets db U n.
  Let es := esteps env q nm 0 q tg.

  Lemma tg_ok : Forall (tgOk env) tg.
  Proof. apply (targets_tgOk U WU n st HS). left. now right. Qed.
  Lemma tg_len : length tg = length q.
  Proof. unfold tg. rewrite targets_len by exact WU. rewrite <- EU, map_length. reflexivity. Qed.
  Lemma refOk : forall m, In (Stm m) q -> refersTo env n st m.
  Proof. intros m H. exact (gp_ref _ _ _ _ G m H). Qed.

  Lemma es_means t : denotes db (map encStep q) t -> explicitProof env n st es t.
  Proof.
    intros [hist D]. exists (e_name env n).
    pose proof (means_tree env n st q refOk LA nm NL NI U WU [] q [] n [] [] [] (hist, [t]) []) as M.
    rewrite !app_nil_r in M. rewrite <- EU in M. destruct (M eq_refl eq_refl eq_refl) as (t' & X & loc' & LX & P & _ & MM); [intros i t' H; cbn in H; lia|exact D|].
    cbn [prun app] in P. injection P as _ <-. specialize (MM [] _ [] (me_nil env n st loc' _)). rewrite app_nil_r in MM. exact MM.
  Qed.

  Lemma es_in : forall l k tg0 s, (forall h, In h tg0 -> In h tg) -> In s (esteps env q nm k l tg0) -> exists j x h, nth_error l j = Some x /\ In h tg /\ s = estepOf env q nm (k + j) x h.
  Proof.
    induction l as [|x l IH]; intros k [|h tg0] s IT I; try (destruct I; fail). cbn [esteps] in I. destruct I as [<-|I].
    - exists 0, x, h. rewrite Nat.add_0_r. split; [reflexivity|]. split; [apply IT; now left|reflexivity].
    - destruct (IH (S k) tg0 s) as (j & y & h' & A & B & E); [intros; apply IT; now right|exact I|]. exists (S j), y, h'. split; [exact A|]. split; [exact B|].
      replace (k + S j) with (S k + j) by lia. exact E.
  Qed.
  Lemma es_locals s a : In s es -> In a (x_locals s) -> exists k, In (Loc k) q /\ a = num (nm k).
  Proof.
    intros I A. destruct (es_in q 0 tg s (fun h H => H) I) as (j & x & h & _ & _ & ->). destruct x as [|i|m]; cbn [estepOf x_locals] in A; try destruct A.
    destruct (decl q (0 + j)) eqn:D; [|destruct A]. destruct A as [<-|[]]. apply decl_iff in D. eauto.
  Qed.
  Lemma es_nodup : forall l k tg0, NoDup (flat_map x_locals (esteps env q nm k l tg0)) /\
    forall a, In a (flat_map x_locals (esteps env q nm k l tg0)) -> exists i, k <= i /\ In (Loc i) q /\ a = num (nm i).
  Proof.
    induction l as [|x l IH]; intros k [|h tg0]; try (split; [constructor|intros a []]; fail). cbn [esteps flat_map]. destruct (IH (S k) tg0) as [A B].
    assert (B' : forall a, In a (flat_map x_locals (esteps env q nm (S k) l tg0)) -> exists i, k <= i /\ In (Loc i) q /\ a = num (nm i)).
    { intros a I. destruct (B a I) as (i & C & D). exists i. split; [lia|exact D]. }
    destruct x as [|i|m]; cbn [estepOf x_locals app]; try (split; [exact A|exact B']; fail).
    destruct (decl q k) eqn:D; [|split; [exact A|exact B']]. apply decl_iff in D. cbn [app]. split.
    - constructor; [|exact A]. intros I. destruct (B _ I) as (i & C & E1 & E2). apply num_inj in E2. apply (NI k i D E1) in E2. lia.
    - intros a [<-|I]; [exists k; auto|auto].
  Qed.
  Lemma es_localsOk : localsOk env n st es.
  Proof.
    constructor.
    - intros s a I A. destruct (es_locals s a I A) as (k & _ & ->). apply num_word.
    - apply es_nodup.
    - intros s a m sm I A S1 S2 _ E. destruct (es_locals s a I A) as (k & K & ->). apply (NL k K). rewrite E. eapply name_label; [exact S1|now left].
    - intros s a h I A H E. destruct (es_locals s a I A) as (k & K & ->). destruct (hyp_labelled env WE n st HS HT h H) as (_ & sh & S1 & S2).
      apply (NL k K). rewrite E. eapply name_label; [exact S1|now right].
    - intros s I. destruct (es_in q 0 tg s (fun h H => H) I) as (j & x & h & _ & IH & ->).
      pose proof tg_ok as T. rewrite Forall_forall in T. destruct (T h IH) as (_ & sh & S1 & S2).
      replace (x_target (estepOf env q nm (0 + j) x h)) with (e_name env (Z.to_nat h)) by (destruct x; reflexivity). exact (ue_chars _ UE _ _ S1 S2).
  Qed.
  Lemma es_unk : forall l, In Unk l -> forall k t0, length t0 = length l -> hasUnknown (esteps env q nm k l t0).
  Proof.
    induction l as [|x l IH]; intros I k [|h t0] L; try discriminate; [destruct I|]. cbn [esteps]. destruct I as [->|I].
    - eexists. split; [now left|]. reflexivity.
    - destruct (IH I (S k) t0 ltac:(now injection L)) as (s & A & B). exists s. split; [now right|exact B].
  Qed.
  Lemma es_unknown : hasUnknown es <-> In Unk q.
  Proof.
    assert (NQ : forall t, labelWord t -> t <> [chQ]) by (intros t [_ F] ->; inversion F; discriminate). split.
    - intros (s & I & E). destruct (es_in q 0 tg s (fun h H => H) I) as (j & x & h & A & _ & ->). destruct x as [|i|m]; cbn [estepOf x_name] in E.
      + eapply nth_error_In; exact A.
      + exfalso. eapply NQ; [apply num_word|exact E].
      + exfalso. eapply NQ; [|exact E]. apply (ref_word env UE n st m). apply refOk. eapply nth_error_In; exact A.
    - intros I. apply (es_unk q I 0 tg tg_len).
  Qed.

  Definition stepToks (s : estep) : list label := flat_map (fun a => [a; [chColon]]) (x_locals s) ++ [x_target s; [chEq]; x_name s].
  Lemma chunks_toks : forall l k t0, length t0 = length l -> chunksX env q nm k l t0 = map (@concat nat) (map stepToks (esteps env q nm k l t0)).
  Proof.
    induction l as [|x l IH]; intros k [|h t0] L; try discriminate; [reflexivity|]. cbn [chunksX esteps map]. rewrite <- IH by now injection L. f_equal.
    destruct x as [|i|m]; cbn [chunkX estepOf stepToks x_locals x_target x_name flat_map app concat]; unfold stepToks; cbn [x_locals x_target x_name flat_map app concat]; try (now rewrite ?app_nil_r).
    destruct (decl q k); cbn [flat_map app concat]; rewrite !app_nil_r; reflexivity.
  Qed.
  Lemma es_glued : forall s, In s es -> glued (stepToks s) /\ forall c, In c (concat (stepToks s)) -> 45 <= c <= 122.
  Proof.
    intros s I. assert (LK := es_localsOk).
    assert (T := lk_target _ _ _ _ LK s I). assert (W := fun a => lk_word _ _ _ _ LK s a I).
    assert (N : labelWord (x_name s) \/ x_name s = [chQ]).
    { destruct (es_in q 0 tg s (fun h H => H) I) as (j & x & h & A & _ & ->). destruct x as [|i|m]; cbn [estepOf x_name]; [now right|left; apply num_word|].
      left. apply (ref_word env UE n st m). apply refOk. eapply nth_error_In; exact A. }
    assert (O1 : oneTok [chEq]) by (exists chEq; split; [reflexivity|]; cbv; tauto).
    assert (O2 : oneTok [chColon]) by (exists chColon; split; [reflexivity|]; cbv; tauto).
    assert (O3 : oneTok [chQ]) by (exists chQ; split; [reflexivity|]; cbv; tauto).
    assert (CW : forall t, labelWord t -> forall c, In c t -> 45 <= c <= 122) by (intros t [_ F] c Ic; rewrite Forall_forall in F; apply labelChar_45, F, Ic).
    unfold stepToks. split.
    - assert (B : glued [x_target s; [chEq]; x_name s]) by (apply gl_word; [exact T|exact O1|]; apply gl_char; [exact O1|]; apply gl_one; destruct N as [N| ->]; auto).
      induction (x_locals s) as [|a al IH]; cbn [flat_map app]; [exact B|]. apply gl_word; [apply W; now left|exact O2|]. apply gl_char; [exact O2|]. apply IH. intros; apply W; now right.
    - intros c Ic. apply in_concat in Ic. destruct Ic as (t & It & Ic). apply in_app_or in It. destruct It as [It|It].
      + apply in_flat_map in It. destruct It as (a & Ia & It). destruct It as [<-|[<-|[]]]; [apply (CW a); [apply W, Ia|exact Ic]|].
        destruct Ic as [<-|[]]. unfold chColon. lia.
      + destruct It as [<-|[<-|[<-|[]]]].
        * apply (CW _ T c Ic).
        * destruct Ic as [<-|[]]. unfold chEq. lia.
        * destruct N as [N|N]; [apply (CW _ N c Ic)|]. rewrite N in Ic. destruct Ic as [<-|[]]. unfold chQ. lia.
  Qed.
End Saved.
