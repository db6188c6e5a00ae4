(* CheckBack.v -- a valid proof over the symbol numbers of the verifier is a correct proof over
   the names of the text. *)
From Verif Require Import Base LabModel StmModel StmSpec StmTab StmScope TokSpec SrcSpec MMSpec VerModel VerSpec VerProofs ParModel ParSpec
  ReadModel ReadOut ReadSpec ReadWf ReadTok ReadMain CheckSpec CheckTok CheckPar CheckCmp CheckCmpTok.
From Coq Require Import Permutation Sorted.
Open Scope nat_scope.

Lemma F2_map_l {A B C} (R : C -> B -> Prop) (f : A -> C) l l' : Forall2 (fun a b => R (f a) b) l l' -> Forall2 R (map f l) l'.
Proof. induction 1; cbn; constructor; auto. Qed.

Section Tok.
  Variable sts : list sinp.
  Variable out : list sout.
  Notation toks := (declTokens 1 sts).
  Notation denotes := (denotes sts toks).
  Hypothesis LG : legal sts.
  Hypothesis OL : length out = S (length sts).
  Hypothesis O0 : nth_error out 0 = Some out0.
  Hypothesis OP : Forall plainOut out.
  Hypothesis OG : forall n i o, stAt sts n i -> nth_error out n = Some o -> goodOut sts toks n i o.
  Variable env : penv.
  Hypothesis DB : e_db env = mkDb (tkVar toks) (length toks) (map toStmt out).
  Notation db := (e_db env).
  Notation isvar := (db_isvar db).
  Notation nm := (nm sts).
  Let WF := wf_ok sts out LG OL O0 OP OG db DB.
  Let VAR := db_var sts out db DB.
  Variable n : nat.
  Variable i : sinp.
  Variable o : sout.
  Hypothesis Hi : stAt sts n i.
  Hypothesis HK : si_kind i = K_p.
  Hypothesis HG : goodOut sts toks n i o.
  Variable items : list item.

  Definition known (e : list nat) : Prop := forall t, In t e -> exists x, denotes t x n.
  Notation nmS := (map (map nm)).

  Lemma step_back vals tS m e tS1 l : rpnStep db (toStmt o) vals tS (Stm m) e tS1 -> isLabel items m l -> refOk db n o m ->
    Forall known tS -> stepOf items sts n l (nmS tS) (nmS tS1) /\ Forall known tS1.
  Proof.
    intros ST IL RF KN. inversion ST as [m' sm HS HH E1 E2 E3| |m' sm es rest sigma HS HA ES UN UQ DJ E1 E2 E3]; subst.
    - destruct RF as (sm' & HS' & RF). assert (sm' = sm) by (unfold stmtAt in *; congruence). subst sm'.
      assert (RI : In m (o_reqHyps o) \/ In m (o_optHyps o)).
      { destruct RF as [[RF _]|[_ RF]]; [|exact RF]. unfold isAssertion, isHyp in *. destruct RF, HH; congruence. }
      pose proof (hyp_scope sts n i o Hi HK HG m RI) as SC.
      destruct (db_hyp sts out OL O0 OG db DB m sm HS HH) as (j & oj & Hj & -> & G & K & F). cbn [toStmt s_math].
      split.
      + cbn [map]. rewrite (F2_nm sts _ _ _ F). apply so_hyp with (h := m); auto; [|exists j; auto].
        destruct K as [K|K]; [left|right]; exists j; auto.
      + constructor; [|exact KN]. intros t HT. destruct (F2_in _ _ _ _ F HT) as (x & _ & D). exists x. eapply denotes_up; eauto.
    - destruct RF as (sm' & HS' & RF). assert (sm' = sm) by (unfold stmtAt in *; congruence). subst sm'.
      assert (LM : m < n).
      { destruct RF as [[_ RF]|[RF _]]; [exact RF|]. unfold isAssertion, isHyp in *. destruct RF, HA; congruence. }
      destruct (db_asrt sts out OL O0 OG db DB m sm HS HA) as (j & oj & Hj & -> & G & K & F & FM).
      unfold unifier in UN. cbn [toStmt s_math s_reqHyps] in *.
      pose proof (wf_reqVars _ WF m _ HS HA) as RV. cbn [toStmt s_reqVars s_reqHyps] in RV.
      pose proof (wf_vars_math _ WF m _ HS HA) as VM. cbn [toStmt s_reqVars s_math] in VM.
      apply Forall_app in KN. destruct KN as [KE KR]. apply Forall_rev in KE. rewrite rev_involutive in KE.
      assert (SV : forall t u, In t (o_reqVars oj) -> In u (sigma t) -> exists x, denotes u x n).
      { intros t u HT HU. apply RV in HT. destruct HT as (TV & h & sh & H1 & H2 & H3).
        destruct (F2_in _ _ _ _ UN H1) as (y & Hy & sh' & HSH & EY). assert (sh' = sh) by (unfold stmtAt in *; congruence). subst sh'.
        rewrite Forall_forall in KE. apply (KE y Hy). rewrite <- EY. unfold subst. apply in_flat_map. exists t. split; [exact H3|]. rewrite TV. exact HU. }
      split.
      + cbn [map]. rewrite map_app, map_rev.
        apply so_app with (a := m) (hs := o_reqHyps oj) (es := nmS es) (sg := nsub sts (o_reqVars oj) sigma) (e := si_toks j); auto.
        * destruct K as [K|K]; [left|right]; exists j; auto.
        * split; [intros h; apply (gf_hyps _ _ _ _ F)|apply (gf_hyps_sorted _ _ _ _ F)].
        * assert (FH : forall h y, In h (o_reqHyps oj) -> (exists sh, stmtAt db h sh /\ subst isvar sigma (s_math sh) = y) ->
              exists mm, toksAt sts h mm /\ instance sts (nsub sts (o_reqVars oj) sigma) mm (map nm y)).
          { intros h y HI (sh & HSH & <-). pose proof (proj1 (gf_hyps _ _ _ _ F h) HI) as HH. pose proof HH as [SC _].
            destruct (mandHyp_hyp _ _ _ HH) as (jh & Hjh & KH).
            destruct (db_kind sts out OL OG db DB h jh Hjh) as (oh & HOH & GH & EKH).
            assert (sh = toStmt oh) by (unfold stmtAt in *; congruence). subst sh.
            destruct (db_hyp sts out OL O0 OG db DB h (toStmt oh) HOH) as (jh' & oh' & Hjh' & EO & _ & _ & FH).
            { apply type_h. now rewrite EKH. }
            rewrite (stAt_fun _ _ _ _ Hjh' Hjh) in FH.
            exists (si_toks jh). split; [exists jh; auto|]. rewrite EO. cbn [toStmt s_math].
            apply (inst_ok sts out LG OL db DB m oj sigma F _ _ h FH); [right; exact SC|]. intros t HT TV. apply RV. split; [exact TV|].
            exists h, (toStmt oh). split; [exact HI|]. split; [exact HOH|]. rewrite EO. exact HT. }
          clear -UN FH. revert FH. induction UN as [|h y hs es U UN IH]; intros FH; cbn [map]; constructor.
          -- apply FH; [now left|exact U].
          -- apply IH. intros; apply FH; [now right|assumption].
        * intros x y MX MY DJ' u v HU HV' VU VV.
          assert (P : exists a b d, In (a, b, d) (o_reqDisj oj) /\ (denotes a x m /\ denotes b y m \/ denotes a y m /\ denotes b x m)).
          { destruct (proj1 (gf_disj _ _ _ _ F x y) (conj MX (conj MY DJ'))) as (a & b & d & [(A & B & C)|(A & B & C)]); exists a, b, d; auto. }
          destruct P as (a & b & d & HP & DP).
          assert (HP' : In (a, b) (s_reqDisj (toStmt oj))) by (cbn [toStmt s_reqDisj]; apply in_map_iff; exists (a, b, d); auto).
          pose proof (DJ a b HP') as OKD. destruct (wf_vars_disj _ WF m _ HS HA a b HP') as [VA VB]. cbn [toStmt s_reqVars] in VA, VB.
          assert (GEN : forall x1 y1 u1 v1, denotes a x1 m -> denotes b y1 m ->
            In u1 (nsub sts (o_reqVars oj) sigma x1) -> In v1 (nsub sts (o_reqVars oj) sigma y1) -> isVar sts u1 -> isVar sts v1 -> disjAt sts n u1 v1).
          { intros x1 y1 u1 v1 D1 D2 H1 H2 V1 V2. rewrite (nsub_at sts out LG OL m oj sigma a x1 F VA D1) in H1. rewrite (nsub_at sts out LG OL m oj sigma b y1 F VB D2) in H2.
            apply in_map_iff in H1, H2. destruct H1 as (p & <- & H1). destruct H2 as (q & <- & H2).
            destruct (SV _ _ VA H1) as (xp & DP1). destruct (SV _ _ VB H2) as (xq & DQ1).
            rewrite (den_nm _ _ _ _ DP1) in *. rewrite (den_nm _ _ _ _ DQ1) in *.
            assert (isvar p = true) by (rewrite VAR; eapply tk_isVar; eauto).
            assert (isvar q = true) by (rewrite VAR; eapply tk_isVar; eauto).
            destruct (OKD p q H1 H2) as [_ [Q|Q]]; auto; [|apply disjAt_sym]; eapply disj_text; eauto. }
          destruct DP as [[D1 D2]|[D1 D2]]; [eapply GEN; eauto|]. apply disjAt_sym. eapply GEN; eauto.
        * exists j; auto.
        * apply (inst_ok sts out LG OL db DB m oj sigma F _ _ m FM); [left; reflexivity|]. exact VM.
      + constructor; [|exact KR]. intros t HT. unfold subst in HT. apply in_flat_map in HT. destruct HT as (u & HU & HT).
        destruct (isvar u) eqn:TV; [eapply SV; [apply VM; eauto|exact HT]|]. destruct HT as [<-|[]].
        destruct (F2_in _ _ _ _ FM HU) as (x & _ & D). exists x. rewrite VAR in TV.
        eapply con_up; eauto. pose proof (stAt_lt _ _ _ Hi). lia.
  Qed.

  Lemma run_back ls p : Forall2 (fun l m => isLabel items m l /\ refOk db n o m) ls p -> forall vals tS vals' tS',
    rpnRun db (toStmt o) vals tS (map Stm p) vals' tS' -> Forall known tS -> runOf items sts n ls (nmS tS) (nmS tS') /\ Forall known tS'.
  Proof.
    induction 1 as [|l m ls p [IL RF] F IH]; intros vals tS vals' tS' R KN; cbn [map] in R; inversion R as [|v0 s0 x0 l0 e0 s1 v2 s2 RS RR]; subst.
    - split; [constructor|exact KN].
    - destruct (step_back _ _ _ _ _ l RS IL RF KN) as [S1 K1]. destruct (IH _ _ _ _ RR K1) as [S2 K2]. split; [econstructor; eauto|exact K2].
  Qed.
  Lemma math_back : toksAt sts n (map nm (o_math o)).
  Proof.
    exists i. split; [exact Hi|]. symmetry. apply (F2_nm sts _ _ n). apply (math_den sts n i o HG); rewrite HK; try discriminate; reflexivity.
  Qed.
  Lemma proof_back ls p : Forall2 (fun l m => isLabel items m l /\ refOk db n o m) ls p -> validProof db (toStmt o) (map Stm p) ->
    exists e, toksAt sts n e /\ runOf items sts n ls [] [e].
  Proof.
    intros F (vals & R). exists (map nm (o_math o)). split; [exact math_back|].
    exact (proj1 (run_back _ _ F _ _ _ _ R (Forall_nil _))).
  Qed.

  (* ---- compressed proofs ---- *)
  Variables (hs lm : list nat) (ls : list name).
  Hypothesis EH : forall h, In h hs -> In h (o_reqHyps o).
  Hypothesis FL : Forall2 (fun l m => isLabel items m l /\ refOk db n o m) ls lm.
  Hypothesis HL : forall h, In h hs -> exists l, isLabel items h l.
  Let base := map Z.of_nat (hs ++ lm).

  Definition savedB (vals : list (list nat)) (z : Z) (e : list name) : Prop :=
    exists k te, z = (-1000 - Z.of_nat k)%Z /\ nth_error vals k = Some te /\ e = map nm te /\ known te.
  Lemma savedB_more vals v locs sv : Forall2 (savedB vals) locs sv -> Forall2 (savedB (vals ++ [v])) locs sv.
  Proof.
    induction 1 as [|z e locs sv (k & te & A & B & C) F IH]; constructor; auto. exists k, te. split; [exact A|]. split; [|exact C].
    rewrite nth_error_app1; [exact B|]. apply nth_error_Some. congruence.
  Qed.
  Lemma enc_stm x m : encStep x = Z.of_nat m -> x = Stm m.
  Proof. destruct x as [|k|m']; unfold encStep, zUnk, zLoc; intros E; [lia|lia|]. f_equal. lia. Qed.
  Lemma enc_loc x k : encStep x = (-1000 - Z.of_nat k)%Z -> x = Loc k.
  Proof. destruct x as [|k'|m']; unfold encStep, zUnk, zLoc; intros E; [lia| |lia]. f_equal. lia. Qed.
  Lemma hs_ref h : In h hs -> refOk db n o h.
  Proof.
    intros I. apply EH in I. pose proof (asrt_frame sts n i o Hi HG (or_intror HK)) as FN.
    pose proof (proj1 (gf_hyps _ _ _ _ FN h) I) as HM. destruct (mandHyp_hyp _ _ _ HM) as (jh & Hjh & KH).
    destruct (db_kind sts out OL OG db DB h jh Hjh) as (oh & HO & G & EK). exists (toStmt oh). split; [exact HO|]. right. split; [|now left].
    apply type_h. now rewrite EK.
  Qed.
  Lemma kind_of m sm : stmtAt db m sm -> (isAssertion sm -> kindAt sts m K_a \/ kindAt sts m K_p) /\ (isHyp sm -> kindAt sts m K_e \/ kindAt sts m K_f).
  Proof.
    intros HS. split; intros K.
    - destruct (db_asrt sts out OL O0 OG db DB m sm HS K) as (j & oj & Hj & _ & _ & [E|E] & _); [left|right]; exists j; auto.
    - destruct (db_hyp sts out OL O0 OG db DB m sm HS K) as (j & oj & Hj & _ & _ & [E|E] & _); [left|right]; exists j; auto.
  Qed.

  Lemma code_back pre locs cs p : emits env base pre locs cs p -> forall vals tS vals' tS' sv b,
    rpnRun db (toStmt o) vals tS p vals' tS' -> Forall known tS -> length vals = length pre -> Forall2 (savedB vals) locs sv ->
    (forall pre' x, pre = pre' ++ [x] -> asrtStep env x -> b = true /\ exists te t', tS = te :: t' /\ nth_error vals (length pre') = Some te) ->
    exists sv' b', codeRun items sts n hs ls cs (nmS tS, sv, b) (nmS tS', sv', b').
  Proof.
    induction 1 as [pre locs|pre locs j x cs p HN EM IH|pre x locs cs p AS EM IH]; intros vals tS vals' tS' sv b R KN LV FV TB.
    - inversion R; subst. exists sv, b. constructor.
    - inversion R as [|v0 s0 x0 l0 e0 s1 v2 s2 RS RR]; subst.
      assert (NX : forall s1' b1, Forall known s1 -> nmS s1 = s1' -> (forall pre' y, pre ++ [x] = pre' ++ [y] -> asrtStep env y -> b1 = true /\ exists te t', s1 = te :: t' /\ nth_error (vals ++ [e0]) (length pre') = Some te) ->
        exists sv' b', codeRun items sts n hs ls cs (s1', sv, b1) (nmS tS', sv', b')).
      { intros s1' b1 K1 E1 T1. subst s1'. apply (IH (vals ++ [e0]) s1 vals' tS' sv b1 RR K1); [rewrite !app_length, LV; reflexivity|now apply savedB_more|exact T1]. }
      pose proof (F2_len _ _ _ FL) as LL.
      assert (LB : length base = length hs + length lm) by (unfold base; now rewrite map_length, app_length).
      destruct (Nat.lt_ge_cases j (length hs)) as [J1|J1]; [|destruct (Nat.lt_ge_cases j (length hs + length lm)) as [J2|J2]].
      + (* mandatory hypothesis *)
        destruct (nth_error hs j) as [h|] eqn:EJ; [|apply nth_error_None in EJ; lia].
        rewrite nth_error_app1 in HN by lia. unfold base in HN. rewrite (map_nth_error Z.of_nat j (hs ++ lm) (d := h)) in HN by (rewrite nth_error_app1 by lia; exact EJ).
        injection HN as HN. symmetry in HN. apply enc_stm in HN. subst x.
        assert (IH0 : In h hs) by (eapply nth_error_In; eauto). pose proof (hs_ref h IH0) as RH. destruct (HL h IH0) as (l & IL).
        pose proof (EH h IH0) as IH1. pose proof (asrt_frame sts n i o Hi HG (or_intror HK)) as FN.
        pose proof (proj1 (gf_hyps _ _ _ _ FN h) IH1) as HM. destruct (mandHyp_hyp _ _ _ HM) as (jh & Hjh & KH).
        destruct (step_back _ _ _ _ _ l RS IL RH KN) as [S1 K1].
        inversion RS as [m' sm HS HH E1 E2 E3| |m' sm es rest sigma HS HA ES UN UQ DJ E1 E2 E3]; subst.
        2:{ exfalso. destruct (proj1 (kind_of h sm HS) HA) as [(q & Q1 & Q2)|(q & Q1 & Q2)]; rewrite (stAt_fun _ _ _ _ Q1 Hjh) in Q2; destruct KH; congruence. }
        destruct (db_hyp sts out OL O0 OG db DB h sm HS HH) as (j2 & oj & Hj2 & -> & G & K & F).
        destruct (NX (map nm (o_math oj) :: nmS tS) false) as (sv' & b' & CR); auto.
        { intros pre' y E A. exfalso. apply app_inj_tail in E. destruct E as [_ <-]. destruct A as (m2 & sm2 & E & HS2 & A2). injection E as <-.
          assert (sm2 = toStmt oj) by (unfold stmtAt in *; congruence). subst sm2. unfold isAssertion, isHyp in *. destruct A2, HH; congruence. }
        exists sv', b'. econstructor; [|exact CR]. apply cs_mand with (h := h); [exact EJ|]. rewrite (F2_nm sts _ _ _ F). exists j2. auto.
      + (* label *)
        destruct (nth_error lm (j - length hs)) as [m|] eqn:EJ; [|apply nth_error_None in EJ; lia].
        rewrite nth_error_app1 in HN by lia. unfold base in HN. rewrite (map_nth_error Z.of_nat j (hs ++ lm) (d := m)) in HN by (rewrite nth_error_app2 by lia; exact EJ).
        injection HN as HN. symmetry in HN. apply enc_stm in HN. subst x.
        destruct (F2_nth' _ _ _ FL _ _ EJ) as (l & Hl & IL & RM).
        destruct (step_back _ _ _ _ _ l RS IL RM KN) as [S1 K1].
        replace j with (length hs + (j - length hs)) by lia.
        destruct RM as (sm & HS & RM).
        assert (DEC : isAssertion sm \/ isHyp sm) by (destruct RM as [[RM _]|[RM _]]; auto).
        destruct DEC as [A|A].
        * destruct (NX (nmS s1) true) as (sv' & b' & CR); auto.
          { intros pre' y E _. apply app_inj_tail in E. destruct E as [<- _]. split; [reflexivity|]. destruct (step_top _ _ _ _ _ _ _ RS) as (t & ->).
            exists e0, t. split; [reflexivity|]. rewrite <- LV, nth_error_app2, Nat.sub_diag by lia. reflexivity. }
          exists sv', b'. econstructor; [|exact CR]. apply cs_app with (a := m) (l := l); auto. now apply (kind_of m sm HS).
        * destruct (NX (nmS s1) false) as (sv' & b' & CR); auto.
          { intros pre' y E A2. exfalso. apply app_inj_tail in E. destruct E as [_ <-]. destruct A2 as (m2 & sm2 & E & HS2 & A2). injection E as <-.
            assert (sm2 = sm) by (unfold stmtAt in *; congruence). subst sm2. unfold isAssertion, isHyp in *. destruct A2, A; congruence. }
          exists sv', b'. econstructor; [|exact CR]. apply cs_hyp with (h := m) (l := l); auto. now apply (kind_of m sm HS).
      + (* saved *)
        rewrite nth_error_app2 in HN by lia. rewrite LB in HN.
        destruct (F2_nth _ _ _ FV _ _ HN) as (e & He & k & te & EZ & Hk & -> & KT). apply enc_loc in EZ. subst x.
        inversion RS as [ |k' e1 Hk' E1 E2 E3| ]; subst. assert (e0 = te) by congruence. subst e0.
        destruct (NX (map nm te :: nmS tS) false) as (sv' & b' & CR); auto.
        { intros pre' y E A2. exfalso. apply app_inj_tail in E. destruct E as [_ <-]. destruct A2 as (m2 & sm2 & E & _). discriminate. }
        exists sv', b'. econstructor; [|exact CR]. replace j with (length hs + length ls + (j - (length hs + length lm))) by lia. apply cs_again. exact He.
    - destruct (TB pre x eq_refl AS) as (-> & te & t' & -> & HV).
      assert (KT : known te) by (now inversion KN).
      destruct (IH vals (te :: t') vals' tS' (sv ++ [map nm te]) true R KN LV) as (sv' & b' & CR).
      { apply Forall2_app; [exact FV|]. constructor; [|constructor]. exists (length pre), te. auto. }
      { intros pre' y E A. apply app_inj_tail in E. destruct E as [<- <-]. split; [reflexivity|]. exists te, t'. auto. }
      exists sv', b'. econstructor; [|exact CR]. cbn [map]. constructor.
  Qed.
End Tok.
