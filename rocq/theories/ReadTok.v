(* ReadTok.v -- from derivations over the symbol numbers of the verifier to derivations
   over the names in the text. *)
From Verif Require Import Base LabModel StmModel StmSpec StmTab StmScope MMSpec VerModel VerSpec VerProofs ReadModel ReadOut ReadSpec ReadWf.
From Coq Require Import Permutation Sorted.
Open Scope nat_scope.

Definition nameEqb (a b : name) : bool := if list_eq_dec Nat.eq_dec a b then true else false.
Lemma nameEqb_eq a b : nameEqb a b = true <-> a = b.
Proof. unfold nameEqb. destruct (list_eq_dec Nat.eq_dec a b); split; congruence. Qed.

Section Tok.
  Variable sts : list sinp.
  Variable out : list sout.
  Notation toks := (declTokens 1 sts).
  Notation denotes := (denotes sts toks).
  Notation inScope := (inScope sts).
  Notation kindAt := (kindAt sts).
  Notation visible := (visible sts).
  Notation declares := (declares sts).
  Hypothesis LG : legal sts.
  Hypothesis OL : length out = S (length sts).
  Hypothesis O0 : nth_error out 0 = Some out0.
  Hypothesis OP : Forall plainOut out.
  Hypothesis OG : forall n i o, stAt sts n i -> nth_error out n = Some o -> goodOut sts toks n i o.
  Variable db : dbase.
  Hypothesis DB : db = mkDb (tkVar toks) (length toks) (map toStmt out).
  Notation isvar := (db_isvar db).

  Definition nm (t : nat) : name := match nth_error toks t with Some k => mt_name k | None => [] end.
  Lemma den_nm t x n : denotes t x n -> nm t = x.
  Proof. intros (k & H & E & _). unfold nm. now rewrite H. Qed.
  Lemma F2_nm l xs n : Forall2 (fun t x => denotes t x n) l xs -> map nm l = xs.
  Proof. induction 1 as [|t x l xs H F IH]; [reflexivity|]. cbn. now rewrite IH, (den_nm _ _ _ H). Qed.

  Lemma depth_nonneg n : 0 < n <= S (length sts) -> (0 <= depth sts n)%Z.
  Proof.
    induction n as [|n IH]; [lia|]. intros B. destruct n as [|n]; [unfold depth; cbn; lia|].
    destruct (stAt_ex sts (S n)) as (i & Hi); [lia|]. rewrite (depth_S _ _ _ Hi). specialize (IH ltac:(lia)).
    destruct LG as [L _]. specialize (L _ _ Hi). unfold legalStmt in L. unfold delta; destruct (si_kind i); cbv beta iota in L |- *; lia.
  Qed.
  (* a constant, once declared, stays *)
  Lemma con_up t x a n : denotes t x a -> tkVar toks t = false -> a <= n <= length sts -> denotes t x n.
  Proof.
    intros (k & H & E & S) TV B. exists k. split; [exact H|]. split; [exact E|]. destruct S as [S1 S2]. split; [lia|].
    intros q Hq. pose proof (tok_declares _ _ _ H) as [(i & Hi & HK) _]. destruct LG as [L _]. specialize (L _ _ Hi).
    unfold legalStmt in L. unfold tkVar in TV. rewrite H in TV. rewrite TV in HK. rewrite HK in L. destruct L as [-> _].
    apply depth_nonneg. lia.
  Qed.
  Lemma tk_isVar t x n : denotes t x n -> (tkVar toks t = true <-> isVar sts x).
  Proof.
    intros D. pose proof (denotes_visible _ _ _ _ D) as (h & H & _). split.
    - intros E. rewrite E in H. exists h. exact H.
    - intros (h' & H'). exact (decl_kind sts LG _ _ _ _ _ H H').
  Qed.

  Section Step.
    Variable n : nat.
    Variable i : sinp.
    Variable o : sout.
    Hypothesis Hi : stAt sts n i.
    Hypothesis HK : si_kind i = K_p.
    Hypothesis HG : goodOut sts toks n i o.
    Hypothesis IH : forall m, m < n -> kindAt m K_p -> theorem sts m.
    Variable uses : nat -> Prop.
    Hypothesis UH : forall m sm, uses m -> stmtAt db m sm -> isHyp sm -> In m (o_reqHyps o) \/ In m (o_optHyps o).
    Hypothesis UA : forall m sm, uses m -> stmtAt db m sm -> isAssertion sm -> m < n.

    Lemma n_frame : goodFrame sts toks n o.
    Proof. apply (asrt_frame sts n i o Hi HG). now right. Qed.
    Lemma n_kind : o_kind o = K_p. Proof. destruct HG as [E _]. congruence. Qed.
    Lemma n_le : n <= length sts. Proof. pose proof (stAt_lt _ _ _ Hi). lia. Qed.
    Lemma hyp_scope m : In m (o_reqHyps o) \/ In m (o_optHyps o) -> inScope m n.
    Proof.
      intros [H|H].
      - apply (gf_hyps _ _ _ _ n_frame) in H. apply H.
      - destruct (gf_opt _ _ _ _ n_frame n_kind) as [Q _]. apply Q in H. apply H.
    Qed.
    (* a declared pair is declared by the text *)
    Lemma disj_text a b x y : declaredDisj (toStmt o) a b -> denotes a x n -> denotes b y n -> disjAt sts n x y.
    Proof.
      unfold declaredDisj. cbn [toStmt s_reqDisj s_optDisj]. rewrite !in_map_iff. intros H DX DY.
      destruct H as [([[a' b'] d] & E & H)|([[a' b'] d] & E & H)]; cbn in E; injection E as -> ->.
      - assert (Q : mandVar sts n x /\ mandVar sts n y /\ disjAt sts n x y).
        { apply (gf_disj _ _ _ _ n_frame). exists a, b, d. auto. }
        apply Q.
      - destruct (gf_opt _ _ _ _ n_frame n_kind) as (_ & _ & _ & Q).
        assert (Q' : disjAt sts n x y /\ ~ (mandVar sts n x /\ mandVar sts n y)) by (apply Q; exists a, b, d; auto).
        apply Q'.
    Qed.
    Lemma disjAt_sym x y : disjAt sts n x y -> disjAt sts n y x.
    Proof. intros [H (d & A & B & C & D)]. split; [congruence|]. exists d. auto. Qed.

    (* the substitution on names *)
    Definition nsub (rv : list nat) (sigma : nat -> list nat) (x : name) : list name :=
      match find (fun t => nameEqb (nm t) x) rv with Some t => map nm (sigma t) | None => [] end.
    Lemma nsub_at a oa sigma t x : goodFrame sts toks a oa -> In t (o_reqVars oa) -> denotes t x a ->
      nsub (o_reqVars oa) sigma x = map nm (sigma t).
    Proof.
      intros F HT D. unfold nsub. destruct (find _ _) as [u|] eqn:E.
      - apply find_some in E. destruct E as [HU E]. apply nameEqb_eq in E.
        destruct (gf_vars_den _ _ _ _ F u HU) as (y & DU). rewrite (den_nm _ _ _ DU) in E. subst y.
        now rewrite (den_uniq sts out LG OL u t x a).
      - exfalso. pose proof (find_none _ _ E t HT) as Q. cbn in Q. rewrite (den_nm _ _ _ D) in Q.
        assert (nameEqb x x = true) by now apply nameEqb_eq. congruence.
    Qed.
    Lemma inst_ok a oa sigma : goodFrame sts toks a oa -> forall l xs q,
      Forall2 (fun t x => denotes t x q) l xs -> (q = a \/ inScope q a) ->
      (forall t, In t l -> isvar t = true -> In t (o_reqVars oa)) ->
      instance sts (nsub (o_reqVars oa) sigma) xs (map nm (subst isvar sigma l)).
    Proof.
      intros F l xs q FA SC. induction FA as [|t x l xs D FA IHF]; intros HV; [constructor|].
      specialize (IHF (fun t' H' => HV t' (or_intror H'))).
      assert (DA : denotes t x a) by (destruct SC as [->|SC]; [exact D|eapply denotes_up; eauto]).
      cbn [subst flat_map]. change (flat_map _ l) with (subst isvar sigma l). rewrite map_app.
      rewrite (db_var sts out db DB). destruct (tkVar toks t) eqn:TV.
      - rewrite <- (nsub_at a oa sigma t x F (HV t (or_introl eq_refl) ltac:(rewrite (db_var sts out db DB); exact TV)) DA).
        apply in_var; [eapply tk_isVar; eauto|]. rewrite (db_var sts out db DB) in IHF. exact IHF.
      - cbn [map app]. rewrite (den_nm _ _ _ D). apply in_con.
        + intros V. rewrite (proj2 (tk_isVar _ _ _ D) V) in TV. discriminate.
        + rewrite (db_var sts out db DB) in IHF. exact IHF.
    Qed.

    Lemma wfdb : wf_db db.
    Proof. exact (wf_ok sts out LG OL O0 OP OG db DB). Qed.

    Lemma derive_names e : provable db (toStmt o) uses e ->
      (forall t, In t e -> exists x, denotes t x n) /\ follows sts n (map nm e).
    Proof.
      unfold provable. induction 1 as [e (m & sm & U & HS & HH & <-)|f sigma (m & sm & U & HS & HA & FR) HD IHd HV].
      - pose proof (hyp_scope m (UH m sm U HS HH)) as SC.
        destruct (db_hyp sts out OL O0 OG db DB m sm HS HH) as (j & oj & Hj & -> & G & K & F). cbn [toStmt s_math].
        split.
        + intros t HT. destruct (F2_in _ _ _ _ F HT) as (x & _ & D). exists x. eapply denotes_up; eauto.
        + rewrite (F2_nm _ _ _ F). apply fo_hyp with (h := m); [|exact SC|exists j; auto].
          destruct K as [K|K]; [left|right]; exists j; auto.
      - pose proof (UA m sm U HS HA) as LM. destruct FR as (HM & EV & EC).
        destruct (db_asrt sts out OL O0 OG db DB m sm HS HA) as (j & oj & Hj & -> & G & K & F & FM).
        cbn [toStmt s_math s_reqDisj] in EV, EC. rewrite EC in *.
        (* the instances of the hypotheses *)
        assert (HY : forall h sh, In h (o_reqHyps oj) -> stmtAt db h sh -> In (s_math sh) (f_hyps f)).
        { intros h sh HI HSH. unfold hypMaths in HM. cbn [toStmt s_reqHyps] in HM.
          destruct (F2_in _ _ _ _ HM HI) as (mm & M1 & (sh' & M2 & M3)). unfold stmtAt in *. congruence. }
        pose proof (wf_reqVars _ wfdb m _ HS HA) as RV. cbn [toStmt s_reqVars s_reqHyps] in RV.
        pose proof (wf_vars_math _ wfdb m _ HS HA) as VM. cbn [toStmt s_reqVars s_math] in VM.
        (* what is put for a mandatory variable is made of symbols in force at n *)
        assert (SV : forall t u, In t (o_reqVars oj) -> In u (sigma t) -> exists x, denotes u x n).
        { intros t u HT HU. apply RV in HT. destruct HT as (TV & h & sh & H1 & H2 & H3).
          destruct (IHd (s_math sh) (HY h sh H1 H2)) as [Q _]. apply Q. unfold subst. apply in_flat_map. exists t.
          split; [exact H3|]. rewrite TV. exact HU. }
        split.
        + intros t HT. unfold subst in HT. apply in_flat_map in HT. destruct HT as (u & HU & HT).
          destruct (isvar u) eqn:TV; [eapply SV; [apply VM; eauto|exact HT]|]. destruct HT as [<-|[]].
          destruct (F2_in _ _ _ _ FM HU) as (x & _ & D). exists x. rewrite (db_var sts out db DB) in TV.
          eapply con_up; eauto. pose proof n_le. lia.
        + apply fo_app with (a := m) (sg := nsub (o_reqVars oj) sigma) (e := si_toks j); auto.
          * destruct K as [K|K]; [left; exists j; auto|right]. apply IH; [exact LM|]. exists j; auto.
          * intros h HH. pose proof HH as [SC _]. destruct (mandHyp_hyp _ _ _ HH) as (jh & Hjh & KH).
            destruct (db_kind sts out OL OG db DB h jh Hjh) as (oh & HOH & GH & EKH).
            destruct (db_hyp sts out OL O0 OG db DB h (toStmt oh) HOH) as (jh' & oh' & Hjh' & EO & _ & _ & FH).
            { apply type_h. now rewrite EKH. }
            rewrite (stAt_fun _ _ _ _ Hjh' Hjh) in FH. apply (gf_hyps _ _ _ _ F) in HH.
            exists (si_toks jh), (map nm (subst isvar sigma (o_math oh'))). split; [exists jh; auto|].
            assert (EM : o_math oh' = s_math (toStmt oh)) by (rewrite EO; reflexivity). split.
            -- apply (inst_ok m oj sigma F _ _ h FH); [right; exact SC|]. intros t HT TV. apply RV. split; [exact TV|].
               exists h, (toStmt oh). split; [exact HH|]. split; [exact HOH|]. now rewrite <- EM.
            -- rewrite EM. apply IHd. apply (HY h); auto.
          * intros x y MX MY DJ u v HU HV' VU VV.
            assert (P : exists a b d, In (a, b, d) (o_reqDisj oj) /\ (denotes a x m /\ denotes b y m \/ denotes a y m /\ denotes b x m)).
            { destruct (proj1 (gf_disj _ _ _ _ F x y) (conj MX (conj MY DJ))) as (a & b & d & [(A & B & C)|(A & B & C)]); exists a, b, d; auto. }
            destruct P as (a & b & d & HP & DP).
            assert (HP' : In (a, b) (f_dv f)) by (rewrite EV; apply in_map_iff; exists (a, b, d); auto).
            pose proof (HV a b HP') as OKD. pose proof (wf_vars_disj _ wfdb m _ HS HA a b) as VD. cbn [toStmt s_reqDisj s_reqVars] in VD.
            rewrite EV in HP'. specialize (VD HP'). destruct VD as [VA VB].
            assert (GEN : forall x1 y1 u1 v1, denotes a x1 m -> denotes b y1 m ->
              In u1 (nsub (o_reqVars oj) sigma x1) -> In v1 (nsub (o_reqVars oj) sigma y1) -> isVar sts u1 -> isVar sts v1 -> disjAt sts n u1 v1).
            { intros x1 y1 u1 v1 D1 D2 H1 H2 V1 V2. rewrite (nsub_at m oj sigma a x1 F VA D1) in H1. rewrite (nsub_at m oj sigma b y1 F VB D2) in H2.
              apply in_map_iff in H1, H2. destruct H1 as (p & <- & H1). destruct H2 as (q & <- & H2).
              destruct (SV _ _ VA H1) as (xp & DP1). destruct (SV _ _ VB H2) as (xq & DQ1).
              rewrite (den_nm _ _ _ DP1) in *. rewrite (den_nm _ _ _ DQ1) in *.
              assert (isvar p = true) by (rewrite (db_var sts out db DB); eapply tk_isVar; eauto).
              assert (isvar q = true) by (rewrite (db_var sts out db DB); eapply tk_isVar; eauto).
              destruct (OKD p q H1 H2) as [_ [Q|Q]]; auto; [|apply disjAt_sym]; eapply disj_text; eauto. }
            destruct DP as [[D1 D2]|[D1 D2]]; [eapply GEN; eauto|]. apply disjAt_sym. eapply GEN; eauto.
          * exists j; auto.
          * apply (inst_ok m oj sigma F _ _ m FM); [left; reflexivity|]. exact VM.
    Qed.
  End Step.

  Variable proofs : nat -> list pstep.
  Hypothesis VP : forall n st, 1 <= n -> stmtAt db n st -> s_type st = S_p ->
    validProof db st (proofs n) /\
    (forall m sm, In (Stm m) (proofs n) -> stmtAt db m sm -> isHyp sm -> In m (s_reqHyps st) \/ In m (s_optHyps st)) /\
    (forall m sm, In (Stm m) (proofs n) -> stmtAt db m sm -> isAssertion sm -> m < n).

  Lemma all_theorems n : kindAt n K_p -> theorem sts n.
  Proof.
    induction n as [n IH] using lt_wf_ind. intros KP. pose proof KP as (i & Hi & HK).
    destruct (db_kind sts out OL OG db DB n i Hi) as (o & HO & G & EK).
    assert (ST : s_type (toStmt o) = S_p) by (cbn [toStmt s_type]; rewrite EK, HK; reflexivity).
    destruct (VP n (toStmt o)) as (V & V1 & V2); [pose proof (proj1 Hi); lia|exact HO|exact ST|].
    pose proof (wf_ok sts out LG OL O0 OP OG db DB) as WF.
    apply validProof_provable in V; [|exact WF].
    destruct (derive_names n i o Hi HK G (fun m L K => IH m L K) (fun m => In (Stm m) (proofs n)) V1 V2 _ V) as [_ F].
    cbn [toStmt s_math] in F.
    assert (FM : Forall2 (fun t x => denotes t x n) (o_math o) (si_toks i)).
    { apply (math_den sts n i o G); rewrite HK; try discriminate; reflexivity. }
    rewrite (F2_nm _ _ _ FM) in F. apply th_intro with (e := si_toks i); [exact KP|exists i; auto|exact F].
  Qed.
End Tok.
