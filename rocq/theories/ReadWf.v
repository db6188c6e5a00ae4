(* ReadWf.v -- the tables left by an error-free read meet the assumptions of the verifier
   and proof parser theorems (VerSpec.wf_db, floated). *)
From Verif Require Import Base LabModel StmModel StmSpec StmTab StmScope MMSpec VerModel VerSpec ReadModel ReadOut.
From Coq Require Import Permutation Sorted.
Open Scope nat_scope.

Section Wf.
  Variable sts : list sinp.
  Variable out : list sout.
  Notation toks := (declTokens 1 sts).
  Notation denotes := (denotes sts toks).
  Notation inScope := (inScope sts).
  Notation kindAt := (kindAt sts).
  Notation visible := (visible sts).
  Notation declares := (declares sts).
  Hypothesis LG : legal sts.
  Hypothesis OL : length out = S (length sts).
  Hypothesis O0 : nth_error out 0 = Some out0.
  Hypothesis OP : Forall plainOut out.
  Hypothesis OG : forall n i o, stAt sts n i -> nth_error out n = Some o -> goodOut sts toks n i o.

  Lemma out_at n o : nth_error out n = Some o -> n = 0 /\ o = out0 \/ exists i, stAt sts n i /\ goodOut sts toks n i o.
  Proof.
    intros H. destruct n as [|n]; [left; split; congruence|]. right.
    assert (S n < length out) by (apply nth_error_Some; congruence).
    destruct (stAt_ex sts (S n)) as (i & Hi); [lia|]. exists i. split; [exact Hi|]. eauto.
  Qed.
  Lemma out_ex n i : stAt sts n i -> exists o, nth_error out n = Some o /\ goodOut sts toks n i o.
  Proof.
    intros Hi. pose proof (stAt_lt _ _ _ Hi). destruct (nth_some out n) as (o & HO); [lia|]. exists o. eauto.
  Qed.

  (* a name is a variable or a constant throughout *)
  Lemma decl_kind h h' x v v' : declares h x v -> declares h' x v' -> v = v'.
  Proof.
    intros H H'. destruct LG as [L _]. pose proof H as [(i & Hi & HK) HT].
    specialize (L h i Hi). unfold legalStmt in L.
    assert (NN : newNames sts h v (si_toks i)) by (rewrite HK in L; destruct v; tauto).
    destruct NN as [_ NN]. apply (hasTok_at _ _ _ _ Hi) in HT. destruct (NN x HT) as [_ Q]. symmetry. eauto.
  Qed.
  Lemma vis_kind x v v' n m : visible x v n -> visible x v' m -> v = v'.
  Proof. intros (h & H & _) (h' & H' & _). eapply decl_kind; eauto. Qed.
  Lemma den_kind t x n v m : denotes t x n -> visible x v m -> tkVar toks t = v.
  Proof. intros H H'. apply denotes_visible in H. eapply vis_kind; eauto. Qed.
  Lemma den_lt t x n : denotes t x n -> t < length toks.
  Proof. intros (k & H & _). apply nth_error_Some. congruence. Qed.

  (* only one declaration of a name is in force *)
  Lemma den_uniq t u x n : denotes t x n -> denotes u x n -> t = u.
  Proof.
    assert (W : forall t u k k', nth_error toks t = Some k -> nth_error toks u = Some k' -> mt_name k = mt_name k' ->
              inScope (mt_stmt k) n -> inScope (mt_stmt k') n -> mt_stmt k <= mt_stmt k' -> t = u).
    { intros t1 u1 k k' HT HU HN S1 S2 L. pose proof (tok_declares _ _ _ HT) as D1. pose proof (tok_declares _ _ _ HU) as D2.
      destruct D2 as [(i & Hi & HK) HX]. destruct LG as [LL _]. specialize (LL _ i Hi). unfold legalStmt in LL.
      assert (NN : newNames sts (mt_stmt k') (mt_var k') (si_toks i)) by (rewrite HK in LL; destruct (mt_var k'); tauto).
      destruct NN as [ND NN]. apply (hasTok_at _ _ _ _ Hi) in HX.
      destruct (Nat.eq_dec (mt_stmt k) (mt_stmt k')) as [E|N].
      - assert (HD : isDecl (si_kind i) = true) by (rewrite HK; now destruct (mt_var k')).
        pose proof (proj1 (tok_own _ _ _ _ _ Hi HU) eq_refl) as R2.
        pose proof (proj1 (tok_own _ _ _ _ _ Hi HT) E) as R1. rewrite (oldOf_S _ _ _ Hi), HD in R1, R2.
        destruct (nth_some (si_toks i) (t1 - oldOf sts (mt_stmt k'))) as (x1 & X1); [lia|].
        destruct (nth_some (si_toks i) (u1 - oldOf sts (mt_stmt k'))) as (x2 & X2); [lia|].
        pose proof (own_at _ _ _ _ Hi HD _ X1) as E1. pose proof (own_at _ _ _ _ Hi HD _ X2) as E2.
        replace (oldOf sts (mt_stmt k') + (t1 - oldOf sts (mt_stmt k'))) with t1 in E1 by lia.
        replace (oldOf sts (mt_stmt k') + (u1 - oldOf sts (mt_stmt k'))) with u1 in E2 by lia.
        rewrite HT in E1. rewrite HU in E2. injection E1 as E1. injection E2 as E2.
        assert (x1 = x2) as <- by (rewrite E1, E2 in HN; exact HN).
        assert (t1 - oldOf sts (mt_stmt k') = u1 - oldOf sts (mt_stmt k')).
        { apply (proj1 (NoDup_nth_error _) ND); [apply nth_error_Some; congruence|congruence]. }
        lia.
      - exfalso. destruct (NN _ HX) as [V _]. apply (V (mt_var k)). exists (mt_stmt k). rewrite <- HN. split; [exact D1|].
        split; [pose proof (inScope_lt _ _ _ S1); lia|]. intros q Hq. destruct S1 as [_ S1]. apply S1.
        pose proof (inScope_lt _ _ _ S2). lia. }
    intros (k & A1 & A2 & A3) (k' & B1 & B2 & B3). destruct (le_lt_dec (mt_stmt k) (mt_stmt k')).
    - eapply W; eauto. congruence.
    - symmetry. eapply W; eauto; [congruence|lia].
  Qed.

  Lemma F2_in {A B} (R : A -> B -> Prop) l l' a : Forall2 R l l' -> In a l -> exists b, In b l' /\ R a b.
  Proof.
    induction 1 as [|x y l l' H F IH]; intros Hin; [destruct Hin|]. destruct Hin as [<-|Hin]; [exists y; cbn; auto|].
    destruct (IH Hin) as (b & B1 & B2). exists b. cbn; auto.
  Qed.
  Lemma F2_in' {A B} (R : A -> B -> Prop) l l' b : Forall2 R l l' -> In b l' -> exists a, In a l /\ R a b.
  Proof.
    induction 1 as [|x y l l' H F IH]; intros Hin; [destruct Hin|]. destruct Hin as [<-|Hin]; [exists x; cbn; auto|].
    destruct (IH Hin) as (a & B1 & B2). exists a. cbn; auto.
  Qed.

  Definition isA (k : kind) : Prop := k = K_a \/ k = K_p.
  Lemma asrt_frame n i o : stAt sts n i -> goodOut sts toks n i o -> isA (si_kind i) -> goodFrame sts toks n o.
  Proof. intros Hi (_ & _ & G) [E|E]; rewrite E in G; exact G. Qed.
  Lemma math_den n i o : goodOut sts toks n i o -> si_kind i <> K_lb -> si_kind i <> K_rb -> isDecl (si_kind i) = false ->
    Forall2 (fun t x => denotes t x n) (o_math o) (si_toks i).
  Proof. intros (_ & G & _) H1 H2 H3. destruct (si_kind i); try discriminate; try congruence; exact G. Qed.
  Lemma math_tok n i o t : stAt sts n i -> goodOut sts toks n i o -> In t (o_math o) -> t < length toks.
  Proof.
    intros Hi (_ & G & _) HT.
    assert (D : Forall2 (fun t x => denotes t x n) (o_math o) (si_toks i) -> t < length toks).
    { intros F. destruct (F2_in _ _ _ _ F HT) as (x & _ & D). eapply den_lt; eauto. }
    destruct (si_kind i); auto; try (rewrite G in HT; destruct HT);
    destruct G as [_ G]; destruct (G t HT) as (k & K & _); apply nth_error_Some; congruence.
  Qed.
  (* ---- the database as the verifier sees it ---- *)
  Variable db : dbase.
  Hypothesis DB : db = mkDb (tkVar toks) (length toks) (map toStmt out).
  Lemma db_at n st : stmtAt db n st <-> exists o, nth_error out n = Some o /\ st = toStmt o.
  Proof.
    rewrite DB. unfold stmtAt. cbn [db_stmts]. rewrite nth_error_map. destruct (nth_error out n) as [o|]; cbn.
    - split; [intros [= <-]; eauto|intros (o' & [= <-] & ->); reflexivity].
    - split; [discriminate|intros (o' & [=] & _)].
  Qed.
  Lemma db_var : db_isvar db = tkVar toks. Proof. now rewrite DB. Qed.
  Lemma db_at' n st : stmtAt db n st -> s_type st = S_other /\ s_math st = [] /\ s_reqDisj st = [] /\ s_optDisj st = [] /\ n = 0 \/
    exists i o, stAt sts n i /\ nth_error out n = Some o /\ st = toStmt o /\ goodOut sts toks n i o /\ o_kind o = si_kind i.
  Proof.
    intros H. apply db_at in H. destruct H as (o & HO & ->). destruct (out_at n o HO) as [[-> ->]|(i & Hi & G)].
    - left. split; [reflexivity|]. split; [reflexivity|]. split; [reflexivity|]. split; reflexivity.
    - right. exists i, o. split; [exact Hi|]. split; [exact HO|]. split; [reflexivity|]. split; [exact G|]. apply G.
  Qed.
  Lemma type_a o : isAssertion (toStmt o) <-> isA (o_kind o).
  Proof. unfold isAssertion, isA. cbn [toStmt s_type]. destruct (o_kind o); cbn; split; intros [E|E]; try discriminate; auto. Qed.
  Lemma type_h o : isHyp (toStmt o) <-> o_kind o = K_e \/ o_kind o = K_f.
  Proof. unfold isHyp. cbn [toStmt s_type]. destruct (o_kind o); cbn; split; intros [E|E]; try discriminate; auto. Qed.
  (* an assertion or hypothesis of the database *)
  Lemma db_asrt n st : stmtAt db n st -> isAssertion st -> exists i o, stAt sts n i /\ st = toStmt o /\
    goodOut sts toks n i o /\ isA (si_kind i) /\ goodFrame sts toks n o /\
    Forall2 (fun t x => denotes t x n) (o_math o) (si_toks i).
  Proof.
    intros H HA. destruct (db_at' _ _ H) as [(E & _)|(i & o & Hi & HO & -> & G & EK)].
    - destruct HA as [HA|HA]; congruence.
    - apply type_a in HA. rewrite EK in HA. exists i, o. split; [exact Hi|]. split; [reflexivity|]. split; [exact G|]. split; [exact HA|]. split.
      + eapply asrt_frame; eauto.
      + destruct HA as [HA|HA]; apply math_den; auto; rewrite HA; try discriminate; reflexivity.
  Qed.
  Lemma db_hyp n st : stmtAt db n st -> isHyp st -> exists i o, stAt sts n i /\ st = toStmt o /\
    goodOut sts toks n i o /\ (si_kind i = K_e \/ si_kind i = K_f) /\
    Forall2 (fun t x => denotes t x n) (o_math o) (si_toks i).
  Proof.
    intros H HA. destruct (db_at' _ _ H) as [(E & _)|(i & o & Hi & HO & -> & G & EK)].
    - destruct HA as [HA|HA]; congruence.
    - apply type_h in HA. rewrite EK in HA. exists i, o. split; [exact Hi|]. split; [reflexivity|]. split; [exact G|]. split; [exact HA|].
      destruct HA as [HA|HA]; apply math_den; auto; rewrite HA; try discriminate; reflexivity.
  Qed.
  Lemma db_kind n i : stAt sts n i -> exists o, stmtAt db n (toStmt o) /\ goodOut sts toks n i o /\ o_kind o = si_kind i.
  Proof.
    intros Hi. destruct (out_ex n i Hi) as (o & HO & G). exists o. split; [apply db_at; eauto|]. split; [exact G|]. now destruct G.
  Qed.

  Lemma mand_float n i x : stAt sts n i -> isA (si_kind i) -> mandVar sts n x ->
    exists f c, mandHyp sts n f /\ toksAt sts f [c; x] /\ kindAt f K_f /\ inScope f n.
  Proof.
    intros Hi HA M. destruct LG as [LL _]. specialize (LL n i Hi). unfold legalStmt in LL.
    assert (AO : asrtOK sts n) by (destruct HA as [E|E]; rewrite E in LL; tauto). destruct AO as (A1 & A2 & _).
    assert (F : exists f, floats sts n f x).
    { destruct (M) as [V [T|(e & K & S & T)]]; [auto|]. destruct (A2 e x K S T V) as (f & _ & F). eauto. }
    destruct F as (f & S & K & (c & TK)). exists f, c. split; [|auto]. split; [exact S|]. right. split; [exact K|]. eauto.
  Qed.
  (* the symbol of an $f in force at n is the one in force there *)
  Lemma float_math n f c x t : stAt sts f (mkS K_f [c; x]) -> inScope f n -> denotes t x n ->
    exists tc o, stmtAt db f (toStmt o) /\ o_math o = [tc; t] /\ tkVar toks tc = false.
  Proof.
    intros Hf S D. destruct (db_kind f _ Hf) as (o & HO & G & EK). exists (hd 0 (o_math o)), o.
    destruct G as (_ & G & _). cbn in G. inversion G as [|tc y l l' R1 F1 EA EB]; subst. inversion F1 as [|tx y' l2 l2' R2 F2]; subst. inversion F2; subst.
    split; [exact HO|]. cbn [hd]. split; [f_equal; f_equal; eapply den_uniq; [eapply denotes_up; eauto|exact D]|].
    destruct LG as [LL _]. specialize (LL f _ Hf). cbn in LL. destruct LL as (c1 & x1 & E1 & V1 & _). injection E1 as <- <-. eapply den_kind; eauto.
  Qed.
  Lemma toksAt_f f c x : kindAt f K_f -> toksAt sts f [c; x] -> stAt sts f (mkS K_f [c; x]).
  Proof.
    intros (i & Hi & HK) H. apply (toksAt_at _ _ _ _ Hi) in H. destruct i as [k l]. cbn in *. now subst.
  Qed.

  Lemma floated_ok n st : stmtAt db n st -> isAssertion st -> floated db st.
  Proof.
    intros H HA t HT. destruct (db_asrt n st H HA) as (i & o & Hi & -> & G & IA & F & FM). cbn [toStmt s_reqVars s_reqHyps] in *.
    destruct (gf_vars_den _ _ _ _ F t HT) as (x & D).
    assert (M : mandVar sts n x) by (apply (gf_vars _ _ _ _ F); eauto).
    destruct (mand_float n i x Hi IA M) as (f & c & MH & TK & KF & S).
    destruct (float_math n f c x t (toksAt_f _ _ _ KF TK) S D) as (tc & o' & HO & EM & CV).
    exists f, (toStmt o'), tc. split; [apply (gf_hyps _ _ _ _ F); exact MH|]. split; [exact HO|]. split; [exact EM|]. now rewrite db_var.
  Qed.
  Lemma mandHyp_hyp n h : mandHyp sts n h -> exists i, stAt sts h i /\ (si_kind i = K_e \/ si_kind i = K_f).
  Proof. intros [_ [(i & Hi & K)|[(i & Hi & K) _]]]; eauto. Qed.
  Lemma var_vis t x n : tkVar toks t = true -> denotes t x n -> visible x true n.
  Proof. intros E D. apply denotes_visible in D. now rewrite E in D. Qed.

  Lemma wf_ok : wf_db db.
  Proof.
    constructor.
    - rewrite db_var, DB. cbn [db_sep]. unfold tkVar. destruct (nth_error toks (length toks)) eqn:E; [|now rewrite Nat.eqb_refl].
      assert (length toks < length toks) by (apply nth_error_Some; congruence). lia.
    - intros n st H. destruct (db_at' _ _ H) as [(_ & E & _)|(i & o & Hi & HO & -> & G & EK)]; [rewrite E; intros []|].
      rewrite DB. cbn [db_sep toStmt s_math]. intros HT. pose proof (math_tok _ _ _ _ Hi G HT). lia.
    - intros n st H HK.
      assert (X : exists i o, stAt sts n i /\ st = toStmt o /\ Forall2 (fun t x => denotes t x n) (o_math o) (si_toks i) /\
                   (si_kind i = K_e \/ si_kind i = K_f \/ si_kind i = K_a \/ si_kind i = K_p)).
      { destruct HK as [HK|HK].
        - destruct (db_hyp n st H HK) as (i & o & Hi & -> & G & K & F). exists i, o. tauto.
        - destruct (db_asrt n st H HK) as (i & o & Hi & -> & G & K & _ & F). exists i, o. unfold isA in K. tauto. }
      destruct X as (i & o & Hi & -> & F & K).
      assert (V : exists c r, si_toks i = c :: r /\ visible c false n).
      { destruct LG as [LL _]. specialize (LL n i Hi). unfold legalStmt in LL.
        destruct K as [K|[K|[K|K]]]; rewrite K in LL.
        - destruct LL as (c & r & E & V & _). eauto.
        - destruct LL as (c & r & E & V & _). eauto.
        - destruct LL as ((c & r & E & V & _) & _). eauto.
        - destruct LL as ((c & r & E & V & _) & _). eauto. }
      destruct V as (c & r & E & V). rewrite E in F. cbn [toStmt s_math].
      destruct (o_math o) as [|t l]; [inversion F|]. assert (R1 : denotes t c n) by (now inversion F).
      exists t, l. split; [reflexivity|]. rewrite db_var. eapply den_kind; eauto.
    - intros n st h H HA HT. destruct (db_asrt n st H HA) as (i & o & Hi & -> & G & IA & F & FM). cbn [toStmt s_reqHyps] in HT.
      apply (gf_hyps _ _ _ _ F) in HT. destruct (mandHyp_hyp _ _ HT) as (j & Hj & K). destruct (db_kind h j Hj) as (o' & HO & G' & EK).
      exists (toStmt o'). split; [exact HO|]. apply type_h. now rewrite EK.
    - intros n st H HA. destruct (db_asrt n st H HA) as (i & o & Hi & -> & G & IA & F & FM). apply (gf_vars_nodup _ _ _ _ F).
    - intros n st H HA t. pose proof (floated_ok n st H HA t) as FL. destruct (db_asrt n st H HA) as (i & o & Hi & -> & G & IA & F & FM).
      cbn [toStmt s_reqVars s_reqHyps] in *. rewrite db_var. split.
      + intros HT. split.
        * destruct (gf_vars_den _ _ _ _ F t HT) as (x & D). assert (M : mandVar sts n x) by (apply (gf_vars _ _ _ _ F); eauto).
          eapply den_kind; [exact D|apply M].
        * destruct (FL HT) as (h & sh & c & A1 & A2 & A3 & _). exists h, sh. split; [exact A1|]. split; [exact A2|]. rewrite A3. cbn; auto.
      + intros (TV & h & sh & HH & HS & HT). apply (gf_hyps _ _ _ _ F) in HH. destruct (mandHyp_hyp _ _ HH) as (j & Hj & K).
        destruct (db_hyp h sh HS) as (j' & o' & Hj' & -> & G' & K' & F').
        { apply db_at in HS. destruct HS as (o' & HO & ->). apply type_h. destruct (OG h j o' Hj HO) as [EK _]. now rewrite EK. }
        rewrite (stAt_fun _ _ _ _ Hj' Hj) in *. clear j' Hj' K'. cbn [toStmt s_math] in HT.
        destruct (F2_in _ _ _ _ F' HT) as (x & HX & D).
        assert (M : mandVar sts n x).
        { destruct HH as [SC HH]. assert (D' : denotes t x n) by (eapply denotes_up; eauto).
          destruct HH as [KE|[KF (c & y & TK & M)]].
          - split; [now apply (var_vis t)|]. right. exists h. split; [exact KE|]. split; [exact SC|]. exists j. auto.
          - apply (toksAt_at _ _ _ _ Hj) in TK. rewrite TK in HX. destruct HX as [<-|[<-|[]]]; [|exact M].
            exfalso. destruct LG as [LL _]. specialize (LL h j Hj). unfold legalStmt in LL. apply (kindAt_at _ _ _ _ Hj) in KF. rewrite KF in LL.
            destruct LL as (c1 & x1 & E1 & V1 & _). rewrite TK in E1. injection E1 as -> ->.
            rewrite (den_kind _ _ _ _ _ D V1) in TV. discriminate. }
        apply (gf_vars _ _ _ _ F) in M. destruct M as (t' & HT' & D'). destruct HH as [SC _].
        rewrite (den_uniq t t' x n); auto. eapply denotes_up; eauto.
    - intros n st H HA t HT TV. destruct (db_asrt n st H HA) as (i & o & Hi & -> & G & IA & F & FM). cbn [toStmt s_math s_reqVars] in *.
      rewrite db_var in TV. destruct (F2_in _ _ _ _ FM HT) as (x & HX & D).
      assert (M : mandVar sts n x) by (split; [now apply (var_vis t)|left; exists i; auto]).
      apply (gf_vars _ _ _ _ F) in M. destruct M as (t' & HT' & D'). now rewrite (den_uniq t t' x n).
    - intros n st H HA x y HT. destruct (db_asrt n st H HA) as (i & o & Hi & -> & G & IA & F & FM). cbn [toStmt s_reqDisj s_reqVars] in *.
      apply in_map_iff in HT. destruct HT as ([[a b] d] & E & HT). cbn in E. injection E as -> ->.
      destruct (gf_disj_ord _ _ _ _ F _ _ _ (or_introl HT)) as (_ & (nx & DX) & (ny & DY)).
      assert (M : mandVar sts n nx /\ mandVar sts n ny /\ disjAt sts n nx ny) by (apply (gf_disj _ _ _ _ F); exists x, y, d; auto).
      destruct M as (M1 & M2 & _). apply (gf_vars _ _ _ _ F) in M1, M2. destruct M1 as (t1 & T1 & D1). destruct M2 as (t2 & T2 & D2).
      rewrite (den_uniq x t1 nx n), (den_uniq y t2 ny n); auto.
    - intros n st H x y HT. destruct (db_at' _ _ H) as [(_ & _ & E1 & E2 & _)|(i & o & Hi & HO & -> & G & EK)].
      { rewrite E1, E2 in HT. destruct HT as [[]|[]]. }
      assert (P : plainOut o) by (rewrite Forall_forall in OP; apply OP; eapply nth_error_In; eauto).
      cbn [toStmt s_reqDisj s_optDisj] in HT. rewrite !in_map_iff in HT.
      destruct P as [K|[K|[E1 E2]]].
      + assert (F : goodFrame sts toks n o) by (apply (asrt_frame n i o Hi G); left; congruence).
        destruct HT as [([[a b] d] & E & HT)|([[a b] d] & E & HT)]; cbn in E; injection E as -> ->; eapply (gf_disj_ord _ _ _ _ F); eauto.
      + assert (F : goodFrame sts toks n o) by (apply (asrt_frame n i o Hi G); right; congruence).
        destruct HT as [([[a b] d] & E & HT)|([[a b] d] & E & HT)]; cbn in E; injection E as -> ->; eapply (gf_disj_ord _ _ _ _ F); eauto.
      + rewrite E1, E2 in HT. destruct HT as [(q & _ & [])|(q & _ & [])].
  Qed.
End Wf.
