(* StmCheck.v -- the final check of each assertion, and the whole of "$a" and "$p". *)
From Verif Require Import Base LabModel StmModel StmSpec StmTab StmScope StmLook StmFlags StmBlock StmHyp StmAsrt.
From Coq Require Import Permutation Sorted.
Open Scope nat_scope.

Section Check.
  Variable sts : list sinp.
  Variable key : list nat.
  Notation toks := (declTokens 1 sts).
  Hypothesis HQ : mqsorted (map mt_name toks) key.
  Notation T := (mkTenv toks key).
  Notation stAt := (stAt sts).
  Notation inScope := (inScope sts).
  Notation denotes := (denotes sts toks).
  Notation kindAt := (kindAt sts).
  Notation hasTok := (hasTok sts).
  Notation toksAt := (toksAt sts).
  Notation dDepth := (dDepth sts).
  Notation Inv := (Inv sts).
  Notation oldOf := (oldOf sts).
  Notation visible := (visible sts).
  Notation mandVar := (mandVar sts).
  Notation mandHyp := (mandHyp sts).

  Section At.
    Variables (n : nat) (i : sinp) (s : pst) (vl : list nat).
    Hypothesis HI : Inv n s vl.
    Hypothesis Hi : stAt n i.
    Variable ts : list nat.
    Hypothesis F : Forall2 (fun t x => denotes t x n) ts (si_toks i).
    Variable o : sout.
    Hypothesis GF : goodFrame sts toks n o.
    Hypothesis OM : o_math o = ts.
    Let out := p_out s ++ [o].

    Lemma out_at h : inScope h n -> exists j x, stAt h j /\ nth_error out h = Some x /\ goodOut sts toks h j x.
    Proof.
      intros HS. pose proof (inScope_lt _ _ _ HS). pose proof (i_len _ _ _ _ HI) as L. pose proof (stAt_lt _ _ _ Hi).
      destruct (stAt_ex sts h) as (j & Hj); [lia|]. destruct (nth_some (p_out s) h) as (x & HX); [lia|].
      exists j, x. split; [exact Hj|]. split; [unfold out; rewrite nth_error_app1 by lia; exact HX|].
      apply (i_out _ _ _ _ HI h j x Hj); [lia|exact HX].
    Qed.
    Lemma out_n : nth_error out n = Some o.
    Proof. unfold out. pose proof (i_len _ _ _ _ HI) as L. rewrite nth_error_app2 by lia. now rewrite L, Nat.sub_diag. Qed.

    (* $f number f is for token t *)
    Definition fv (f t : nat) : Prop := kindAt f K_f /\ exists c x, toksAt f [c; x] /\ denotes t x f.
    Lemma fVar_f h : inScope h n -> kindAt h K_f -> exists t, fVarOf out h = Ok (Some t) /\ forall u, fv h u <-> u = t.
    Proof.
      intros HS HK. destruct (out_at h HS) as (j & x & Hj & HX & (G1 & G2 & _)).
      destruct (f_vis _ n s vl HI h HK HS) as (c & y & TY & V1 & V2).
      assert (KJ := HK). apply (kindAt_at _ _ _ _ Hj) in KJ. rewrite KJ in G1, G2.
      assert (TJ := TY). apply (toksAt_at _ _ _ _ Hj) in TJ. rewrite TJ in G2.
      inversion G2 as [|a c' l1 l2 A1 A2 E1 E2]; subst. inversion A2 as [|b y' l3 l4 B1 B2 E3 E4]; subst. inversion B2; subst.
      exists b. split.
      - unfold fVarOf. rewrite HX. cbn [rget rbind]. now rewrite G1, <- E1.
      - intros u. split.
        + intros (_ & c1 & y1 & T1 & D). apply (toksAt_at _ _ _ _ Hj) in T1. rewrite TJ in T1. injection T1 as <- <-.
          apply (i_uniq _ _ _ _ HI u b y); eapply denotes_up; eauto.
        + intros ->. split; [exact HK|]. exists c, y. auto.
    Qed.
    Lemma fVar_other h : inScope h n -> ~ kindAt h K_f -> fVarOf out h = Ok None.
    Proof.
      intros HS HK. destruct (out_at h HS) as (j & x & Hj & HX & (G1 & _)). unfold fVarOf. rewrite HX. cbn [rget rbind].
      rewrite G1. destruct (si_kind j) eqn:E; try reflexivity. exfalso. apply HK. exists j. auto.
    Qed.
    Lemma kind_dec h k : inScope h n -> kindAt h k \/ ~ kindAt h k.
    Proof.
      intros HS. destruct (out_at h HS) as (j & x & Hj & _). rewrite (kindAt_at _ _ _ _ Hj).
      destruct (si_kind j), k; (left; reflexivity) || (right; discriminate).
    Qed.
    Lemma findF_ok t : forall hs, (forall h, In h hs -> inScope h n) -> exists b, findF out t hs = Ok b /\
      (b = true <-> exists f, In f hs /\ fv f t).
    Proof.
      induction hs as [|h r IH]; intros HS; cbn [findF].
      - exists false. split; [reflexivity|]. split; [discriminate|intros (f & [] & _)].
      - destruct (IH ltac:(intros u Hu; apply HS; now right)) as (b & E & HB).
        assert (Sh : inScope h n) by (apply HS; now left).
        destruct (kind_dec h K_f Sh) as [HK|HK].
        + destruct (fVar_f h Sh HK) as (u & EU & FU). rewrite EU. cbn [rbind]. destruct (Nat.eqb_spec u t) as [->|N].
          * exists true. split; [reflexivity|]. split; [intros _|auto]. exists h. split; [now left|now apply FU].
          * exists b. split; [exact E|]. rewrite HB. split; [intros (f & A & B); exists f; split; [now right|exact B]|].
            intros (f & [ <- |A] & B); [apply FU in B; congruence|eauto].
        + rewrite (fVar_other h Sh HK). cbn [rbind]. exists b. split; [exact E|]. rewrite HB.
          split; [intros (f & A & B); exists f; split; [now right|exact B]|].
          intros (f & [ <- |A] & B); [destruct B; contradiction|eauto].
    Qed.
    Lemma needF_ok m bef : (forall h, In h bef -> inScope h n) -> forall math s1, p_err s1 = [] ->
      exists s2, needF T out m bef math s1 = Ok s2 /\
        (p_err s2 = [] <-> forall t, In t math -> tkVar toks t = true -> exists f, In f bef /\ fv f t) /\ (p_err s2 = [] -> s2 = s1).
    Proof.
      intros HB. induction math as [|t r IH]; intros s1 HE; cbn [needF mkTenv tk_toks].
      - exists s1. split; [reflexivity|]. split; [split; [intros _ t []|auto]|auto].
      - destruct (tkVar toks t) eqn:ET.
        + destruct (findF_ok t bef HB) as (b & EB & HF). rewrite EB. cbn [rbind]. destruct b; cbn [negb errIf].
          * destruct (IH s1 HE) as (s2 & E & H1 & H2). exists s2. split; [exact E|]. split; [|exact H2]. rewrite H1. split.
            -- intros H u [ <- |Hu] V; [now apply HF|auto].
            -- intros H u Hu. apply H. now right.
          * assert (NB : ~ exists f, In f bef /\ fv f t) by (intros X; apply HF in X; discriminate).
            assert (X : exists s2, needF T out m bef r (err (ENoF m m) s1) = Ok s2).
            { clear IH. generalize (err (ENoF m m) s1). induction r as [|u r IH]; intros s0; cbn [needF mkTenv tk_toks]; [eauto|].
              destruct (tkVar toks u); [|apply IH]. destruct (findF_ok u bef HB) as (b' & EB' & _). rewrite EB'. cbn [rbind]. apply IH. }
            destruct X as (s2 & E). exists s2. split; [exact E|]. apply needF_ext in E.
            assert (N : p_err s2 <> []) by (intros Z; pose proof (ext_nil _ _ E Z) as Z'; now apply err_not_nil in Z').
            split; [|contradiction]. split; [contradiction|]. intros H. exfalso. apply NB. apply H; [now left|exact ET].
        + destruct (IH s1 HE) as (s2 & E & H1 & H2). exists s2. split; [exact E|]. split; [|exact H2]. rewrite H1. split.
          -- intros H u [ <- |Hu] V; [congruence|auto].
          -- intros H u Hu. apply H. now right.
    Qed.
    (* what checkHyps asks of the list hs, bef being already passed *)
    Definition hypCond (bef : list nat) (m : nat) : Prop :=
      (kindAt m K_f -> forall t f, fv m t -> In f bef -> ~ fv f t) /\
      (kindAt m K_e -> forall x, hasTok m x -> visible x true n -> exists t f, denotes t x n /\ In f bef /\ fv f t).
    Fixpoint hypsCond (bef hs : list nat) : Prop :=
      match hs with
      | [] => forall t, In t ts -> tkVar toks t = true -> exists f, In f bef /\ fv f t
      | m :: r => hypCond bef m /\ hypsCond (bef ++ [m]) r
      end.
    Lemma checkHyps_ok : forall hs bef s1, p_err s1 = [] -> (forall h, In h bef -> inScope h n) ->
      (forall h, In h hs -> mandHyp n h) ->
      exists s2, checkHyps T out n bef hs s1 = Ok s2 /\ (p_err s2 = [] <-> hypsCond bef hs) /\ (p_err s2 = [] -> s2 = s1).
    Proof.
      assert (TOT : forall hs bef s1, (forall h, In h bef -> inScope h n) -> (forall h, In h hs -> mandHyp n h) -> exists s2, checkHyps T out n bef hs s1 = Ok s2).
      { assert (NT : forall m bef, (forall h, In h bef -> inScope h n) -> forall math s1, exists s2, needF T out m bef math s1 = Ok s2).
        { intros m bef HB. induction math as [|u r IH]; intros s0; cbn [needF mkTenv tk_toks]; [eauto|].
          destruct (tkVar toks u); [|apply IH]. destruct (findF_ok u bef HB) as (b & EB & _). rewrite EB. cbn [rbind]. apply IH. }
        induction hs as [|m r IH]; intros bef s1 HB HM; cbn [checkHyps].
        - rewrite out_n. cbn [rget rbind]. now apply NT.
        - assert (Sm : inScope m n) by (apply (HM m (or_introl eq_refl))).
          destruct (out_at m Sm) as (j & x & Hj & HX & (G1 & _)). rewrite HX. cbn [rget rbind].
          assert (X : exists s2, (match o_kind x with
                | K_f => do v <- fVarOf out m;
                         match v with
                         | None => Ok s1
                         | Some t => do b <- findF out t bef; Ok (errIf b (EDupF n m) s1)
                         end
                | _ => needF T out m bef (o_math x) s1
                end) = Ok s2).
          { destruct (o_kind x); try (now apply NT). destruct (kind_dec m K_f Sm) as [HK|HK].
            - destruct (fVar_f m Sm HK) as (t & Et & _). rewrite Et. cbn [rbind]. destruct (findF_ok t bef HB) as (b & EB & _). rewrite EB. cbn [rbind]. eauto.
            - rewrite (fVar_other m Sm HK). cbn. eauto. }
          destruct X as (s2 & E). rewrite E. cbn [rbind]. apply IH.
          + intros h Hh. apply in_app_or in Hh. destruct Hh as [Hh|[ <- |[]]]; auto.
          + intros h Hh. apply HM. now right. }
      induction hs as [|m r IH]; intros bef s1 HE HB HM.
      - cbn [checkHyps hypsCond]. rewrite out_n. cbn [rget rbind]. rewrite OM. now apply needF_ok.
      - destruct (TOT (m :: r) bef s1 HB HM) as (s2 & E2). exists s2. split; [exact E2|]. cbn [checkHyps] in E2.
        assert (Sm : inScope m n) by (apply (HM m (or_introl eq_refl))).
        assert (HB' : forall h, In h (bef ++ [m]) -> inScope h n).
        { intros h Hh. apply in_app_or in Hh. destruct Hh as [Hh|[ <- |[]]]; auto. }
        assert (HM' : forall h, In h r -> mandHyp n h) by (intros h Hh; apply HM; now right).
        destruct (out_at m Sm) as (j & x & Hj & HX & (G1 & G2 & _)). rewrite HX in E2. cbn [rget rbind] in E2.
        apply rbind_ok in E2. destruct E2 as (s3 & E3 & E4).
        assert (X : (p_err s3 = [] <-> hypCond bef m) /\ (p_err s3 = [] -> s3 = s1)).
        { destruct (HM m (or_introl eq_refl)) as [_ [KE|[KF _]]].
          - assert (KJ := KE). apply (kindAt_at _ _ _ _ Hj) in KJ. rewrite KJ in G1, G2. rewrite G1 in E3.
            destruct (needF_ok m bef HB (o_math x) s1 HE) as (s4 & E5 & H5 & H6). assert (s4 = s3) by congruence. subst s4.
            split; [|exact H6]. rewrite H5. unfold hypCond. split.
            + intros H. split; [intros (j' & J1 & J2); rewrite (stAt_fun _ _ _ _ J1 Hj) in J2; congruence|]. intros _ y Y V.
              assert (YI := Y). apply (hasTok_at _ _ _ _ Hj) in YI. destruct (den_in _ _ _ _ _ G2 YI) as (t & T1 & T2).
              pose proof (denotes_up _ _ _ _ _ T2 Sm) as TN. destruct (H t T1) as (f & F1 & F2); [now apply (den_var _ _ _ _ HI t y true TN)|].
              exists t, f. auto.
            + intros [_ H] t Ht V. destruct (den_in' _ _ _ _ _ G2 Ht) as (y & Y1 & Y2). pose proof (denotes_up _ _ _ _ _ Y2 Sm) as TN.
              destruct (H KE y) as (u & f & U1 & U2 & U3); [exists j; auto|now apply (den_var _ _ _ _ HI t y true TN)|].
              exists f. split; [exact U2|]. now rewrite (i_uniq _ _ _ _ HI t u y TN U1).
          - assert (KJ := KF). apply (kindAt_at _ _ _ _ Hj) in KJ. rewrite KJ in G1. rewrite G1 in E3.
            destruct (fVar_f m Sm KF) as (t & Et & FT). rewrite Et in E3. cbn [rbind] in E3.
            destruct (findF_ok t bef HB) as (b & EB & HF). rewrite EB in E3. cbn [rbind] in E3. apply Ok_inj in E3. subst s3.
            split; [|intros H; now apply errIf_nil in H]. split.
            + intros H. apply errIf_nil in H. destruct H as [-> _]. split.
              * intros _ u f U1 U2 U3. apply FT in U1. subst u. assert (false = true) by (apply HF; eauto). discriminate.
              * intros (j' & J1 & J2). rewrite (stAt_fun _ _ _ _ J1 Hj) in J2. congruence.
            + intros [H _]. destruct b; [|exact HE]. exfalso. destruct (proj1 HF eq_refl) as (f & F1 & F2).
              apply (H KF t f); auto. now apply FT. }
        destruct X as [X1 X2]. cbn [hypsCond]. split.
        + split.
          * intros HZ. pose proof (ext_nil _ _ (checkHyps_ext _ _ _ _ _ _ _ E4) HZ) as Z3. rewrite (X2 Z3) in E4. split; [now apply X1|].
            destruct (IH (bef ++ [m]) s1 HE HB' HM') as (s5 & E5 & H5 & _). assert (s5 = s2) by congruence. subst s5. now apply H5.
          * intros [C1 C2]. apply X1 in C1. rewrite (X2 C1) in E4.
            destruct (IH (bef ++ [m]) s1 HE HB' HM') as (s5 & E5 & H5 & _). assert (s5 = s2) by congruence. subst s5. now apply H5.
        + intros HZ. pose proof (ext_nil _ _ (checkHyps_ext _ _ _ _ _ _ _ E4) HZ) as Z3. rewrite (X2 Z3) in E4.
          destruct (IH (bef ++ [m]) s1 HE HB' HM') as (s5 & E5 & _ & H6). assert (s5 = s2) by congruence. subst s5. auto.
    Qed.

    (* the condition on the whole list, in terms of membership and order *)
    Lemma hypsCond_iff : forall hs bef, StronglySorted lt (bef ++ hs) ->
      (hypsCond bef hs <->
       (forall m, In m hs -> hypCond (filter (fun f => f <? m) (bef ++ hs)) m) /\
       (forall t, In t ts -> tkVar toks t = true -> exists f, In f (bef ++ hs) /\ fv f t)).
    Proof.
      induction hs as [|m r IH]; intros bef HS; cbn [hypsCond].
      - rewrite app_nil_r. split; [intros H; split; [intros m []|exact H]|tauto].
      - assert (HS' : StronglySorted lt ((bef ++ [m]) ++ r)) by (rewrite <- app_assoc; exact HS).
        rewrite (IH _ HS'). rewrite <- app_assoc. cbn [app].
        assert (EF : filter (fun f => f <? m) (bef ++ m :: r) = bef).
        { rewrite filter_app. cbn [filter]. rewrite Nat.ltb_irrefl.
          assert (A : filter (fun f => f <? m) bef = bef).
          { clear -HS. induction bef as [|b l IHl]; [reflexivity|]. inversion HS as [|? ? H1 H2]; subst. cbn [filter].
            rewrite Forall_forall in H2. assert (b < m) by (apply H2; apply in_or_app; right; now left).
            destruct (Nat.ltb_spec b m); [|lia]. f_equal. now apply IHl. }
          assert (B : filter (fun f => f <? m) r = []).
          { apply sorted_suffix in HS. inversion HS as [|? ? H1 H2]; subst. rewrite Forall_forall in H2. clear -H2.
            induction r as [|b l IHl]; [reflexivity|]. cbn [filter]. assert (m < b) by (apply H2; now left).
            destruct (Nat.ltb_spec b m); [lia|]. apply IHl. intros u Hu. apply H2. now right. }
          rewrite A, B. apply app_nil_r. }
        split.
        + intros (C1 & C2 & C3). split; [|exact C3]. intros u [ <- |Hu]; [now rewrite EF|auto].
        + intros (C1 & C2). split; [rewrite <- EF; apply C1; now left|]. split; [intros u Hu; apply C1; now right|exact C2].
    Qed.
    Lemma fv_floats f x t : inScope f n -> denotes t x n -> (fv f t <-> floats sts n f x).
    Proof.
      intros HS D. split.
      - intros (HK & c & y & TY & DY). split; [exact HS|]. split; [exact HK|]. exists c. now rewrite (denotes_name _ _ _ _ _ _ D DY).
      - intros (_ & HK & c & TY). split; [exact HK|]. exists c, x. split; [exact TY|].
        destruct (f_vis _ n s vl HI f HK HS) as (c' & x' & TX & _ & V).
        assert (x' = x).
        { destruct TY as (j & J1 & J2). destruct TX as (j' & J1' & J2'). rewrite (stAt_fun _ _ _ _ J1 J1') in J2. congruence. }
        subst x'. eapply den_back; eauto.
    Qed.
    Lemma cond_asrtOK : hypsCond [] (o_reqHyps o) <-> asrtOK sts n.
    Proof.
      rewrite hypsCond_iff by (apply (gf_hyps_sorted _ _ _ _ GF)). cbn [app].
      assert (MH : forall h, In h (o_reqHyps o) <-> mandHyp n h) by apply (gf_hyps _ _ _ _ GF).
      assert (FM : forall f x, mandVar n x -> floats sts n f x -> In f (o_reqHyps o)).
      { intros f x M (HS & HK & c & TY). apply MH. split; [exact HS|]. right. split; [exact HK|]. eauto. }
      split.
      - intros [C1 C2]. split; [|split].
        + intros x HX V. apply (hasTok_at _ _ _ _ Hi) in HX. destruct (den_in _ _ _ _ _ F HX) as (t & T1 & T2).
          destruct (C2 t T1) as (f & F1 & F2); [now apply (den_var _ _ _ _ HI t x true T2)|]. exists f.
          apply (fv_floats f x t); auto. apply MH in F1. apply F1.
        + intros e x KE SE HX V. assert (EM : In e (o_reqHyps o)) by (apply MH; split; auto).
          destruct (C1 e EM) as [_ C]. destruct (C KE x HX V) as (t & f & D & F1 & F2). apply filter_In in F1. destruct F1 as [F1 F3].
          apply Nat.ltb_lt in F3. exists f. split; [exact F3|]. apply (fv_floats f x t); auto. apply MH in F1. apply F1.
        + intros x f g M HF HG. destruct (visible_denotes _ _ _ _ (proj1 M)) as (t & D & _).
          assert (Ff := FM f x M HF). assert (Fg := FM g x M HG).
          assert (Vf : fv f t) by (apply (fv_floats f x t); auto; apply HF). assert (Vg : fv g t) by (apply (fv_floats g x t); auto; apply HG).
          destruct (lt_eq_lt_dec f g) as [[H|H]|H]; [|exact H|]; exfalso.
          * destruct (C1 g Fg) as [C _]. apply (C (proj1 Vg) t f Vg); [|exact Vf]. apply filter_In. split; [exact Ff|now apply Nat.ltb_lt].
          * destruct (C1 f Ff) as [C _]. apply (C (proj1 Vf) t g Vf); [|exact Vg]. apply filter_In. split; [exact Fg|now apply Nat.ltb_lt].
      - intros (A1 & A2 & A3). split.
        + intros m Hm. assert (MM := Hm). apply MH in MM. split.
          * intros KF t f V Hf Vf. apply filter_In in Hf. destruct Hf as [Hf L]. apply Nat.ltb_lt in L.
            destruct V as (_ & c & x & TX & DX). pose proof (denotes_up _ _ _ _ _ DX (proj1 MM)) as DN.
            assert (M : mandVar n x).
            { destruct MM as [_ [KE|[_ (c' & x' & TX' & M)]]].
              - destruct KE as (j & J1 & J2). apply (kindAt_at _ _ _ _ J1) in KF. congruence.
              - destruct TX as (j & J1 & J2). destruct TX' as (j' & J1' & J2'). rewrite (stAt_fun _ _ _ _ J1 J1') in J2.
                assert (x' = x) by congruence. now subst x'. }
            assert (f = m); [|lia]. apply (A3 x f m M).
            -- apply (fv_floats f x t); auto. apply MH in Hf. apply Hf.
            -- split; [apply MM|]. split; [exact KF|]. eauto.
          * intros KE x HX V. destruct (A2 m x KE (proj1 MM) HX V) as (f & L & HF). destruct (visible_denotes _ _ _ _ V) as (t & D & _).
            exists t, f. split; [exact D|]. split; [|apply (fv_floats f x t); auto; apply HF]. apply filter_In. split; [|now apply Nat.ltb_lt].
            apply (FM f x); [|exact HF]. split; [exact V|]. right. exists m. split; [exact KE|]. split; [apply MM|exact HX].
        + intros t Ht HV. destruct (den_in' _ _ _ _ _ F Ht) as (x & X1 & X2). assert (V : visible x true n) by (now apply (den_var _ _ _ _ HI t x true X2)).
          assert (HX : hasTok n x) by (exists i; auto). destruct (A1 x HX V) as (f & HF). exists f.
          split; [|apply (fv_floats f x t); auto; apply HF]. apply (FM f x); [|exact HF]. split; auto.
    Qed.
  End At.

  Lemma asrt_step n i s : si_kind i = K_a \/ si_kind i = K_p ->
    stepStmt T n (oldOf n) i s =
      (do x <- symLoop T n (si_kind i) 0 (si_toks i) s;
       do y <- doAsrt T n (si_kind i) (p_begin s) (p_cur s) (fst x) (lenErrs n (si_kind i) (length (fst x)) (snd x));
       let s1 := putOut (fst y) (snd y) in
       let s2 := match si_kind i with
                | K_a => if negb (Nat.eqb (p_min s1) 0) && Nat.eqb (length (fst x)) 1 then setMin 0 s1 else s1
                | _ => s1 end in
       checkHyps T (p_out s2) n [] (o_reqHyps (fst y)) s2).
  Proof. intros [H|H]; unfold stepStmt; rewrite H; reflexivity. Qed.
  Definition finish (k : kind) (len : nat) (s1 : pst) : pst :=
    match k with K_a => if negb (Nat.eqb (p_min s1) 0) && Nat.eqb len 1 then setMin 0 s1 else s1 | _ => s1 end.
  Lemma finish_ok k len s1 : p_err (finish k len s1) = p_err s1 /\ p_out (finish k len s1) = p_out s1 /\
    p_active (finish k len s1) = p_active s1 /\ p_scope (finish k len s1) = p_scope s1 /\ p_c (finish k len s1) = p_c s1 /\
    p_vptr (finish k len s1) = p_vptr s1 /\ p_tmp (finish k len s1) = p_tmp s1 /\ p_cur (finish k len s1) = p_cur s1 /\
    p_begin (finish k len s1) = p_begin s1 /\ p_v (finish k len s1) = p_v s1 /\ p_e (finish k len s1) = p_e s1 /\
    p_f (finish k len s1) = p_f s1 /\ p_d (finish k len s1) = p_d s1.
  Proof. unfold finish. destruct k; try (repeat split; reflexivity). destruct (_ && _); repeat split; reflexivity. Qed.

  Lemma asrt_sound n i s vl s' : Inv n s vl -> stAt n i -> si_kind i = K_a \/ si_kind i = K_p ->
    stepStmt T n (oldOf n) i s = Ok s' -> p_err s' = [] -> legalStmt sts n i.
  Proof.
    intros HI Hi HK H HE. rewrite (asrt_step n i s HK) in H. set (k := si_kind i) in *.
    assert (KD : k <> K_d) by (destruct HK; congruence).
    apply rbind_ok in H. destruct H as ((ts & s1) & H1 & H). cbn [fst snd] in H.
    apply rbind_ok in H. destruct H as ((o & s2) & H2 & H). cbv zeta in H. cbn [fst snd] in H. fold (finish k (length ts) (putOut o s2)) in H.
    destruct (finish_ok k (length ts) (putOut o s2)) as (FE & FO & _).
    pose proof (ext_nil _ _ (checkHyps_ext _ _ _ _ _ _ _ H) HE) as E2. rewrite FE in E2. cbn [putOut p_err] in E2.
    pose proof (ext_nil _ _ (doAsrt_ext _ _ _ _ _ _ _ _ _ H2) E2) as E1.
    destruct (math_sound sts key HQ n s vl k _ _ _ HI KD H1 E1) as ( -> & F & L).
    rewrite (lenErrs_id n s k) in H2 by (apply (lenErrs_iff _ _ _ _ HI); exact E1).
    pose proof (asrt_noOrphan sts key n i s vl HI Hi ts F _ _ _ _ _ H2 E2) as NO.
    destruct (asrt_do sts key n i s vl HI Hi ts F k (p_begin s) (p_cur s) NO) as (o' & v & EO & V & O1 & O2 & O3 & GF).
    rewrite EO in H2. injection H2 as <- <-.
    assert (MO : forall h, In h (o_reqHyps o') -> mandHyp n h) by (intros h Hh; now apply (gf_hyps _ _ _ _ GF)).
    destruct (checkHyps_ok n i s vl HI Hi ts F o' O3 (o_reqHyps o') [] (finish k (length ts) (putOut o' (setV v s)))) as (s3 & E3 & H3 & _); auto.
    { now rewrite FE. }
    { intros h []. }
    rewrite FO in H. cbn [putOut p_out setV] in H. rewrite E3 in H. injection H as <-. apply H3 in HE.
    apply (cond_asrtOK n i s vl HI Hi ts F o' GF) in HE.
    unfold legalStmt. fold k. destruct HK as [E|E]; rewrite E in *; split; auto.
  Qed.
  Lemma asrt_ok n i s vl : Inv n s vl -> stAt n i -> si_kind i = K_a \/ si_kind i = K_p -> legalStmt sts n i ->
    exists s', stepStmt T n (oldOf n) i s = Ok s' /\ Inv (S n) s' vl.
  Proof.
    intros HI Hi HK HL. rewrite (asrt_step n i s HK). set (k := si_kind i) in *.
    assert (KD : k <> K_d) by (destruct HK; congruence).
    assert (L : hypOK sts n k (si_toks i) /\ asrtOK sts n).
    { unfold legalStmt in HL. fold k in HL. destruct HK as [E|E]; rewrite E in *; exact HL. }
    destruct L as [L LA]. destruct (math_ok sts key HQ n s vl k _ HI KD L) as (ts & E1 & E2 & F). rewrite E1. cbn [rbind fst snd]. rewrite E2.
    assert (NO : noOrphan sts s ts).
    { intros t Ht HV. destruct (den_in' _ _ _ _ _ F Ht) as (x & X1 & X2). assert (V : visible x true n) by (now apply (den_var _ _ _ _ HI t x true X2)).
      destruct (proj1 LA x) as (f & HF); [exists i; auto|exact V|]. right.
      destruct (hs_complete _ _ _ _ (i_f _ _ _ _ HI) f) as (h & H1 & H2); [apply HF|apply HF|].
      exists h. split; [now apply -> in_rev|]. destruct (hs_sound _ _ _ _ (i_f _ _ _ _ HI) h H1) as (_ & B2 & _ & _ & B5). apply B5. split; [exact HV|].
      exists x. rewrite H2. destruct HF as (FS & FK & c & (j & J1 & J2)). split; [exists j; split; [exact J1|rewrite J2; right; now left]|].
      destruct (f_vis _ n s vl HI f FK FS) as (c' & x' & TX & _ & VX). apply (toksAt_at _ _ _ _ J1) in TX. rewrite J2 in TX. injection TX as <- <-.
      apply (den_back _ n s vl HI f t x true FS VX X2). }
    destruct (asrt_do sts key n i s vl HI Hi ts F k (p_begin s) (p_cur s) NO) as (o & v & EO & V & O1 & O2 & O3 & GF).
    rewrite EO. cbn [rbind fst snd]. cbv zeta. fold (finish k (length ts) (putOut o (setV v s))).
    destruct (finish_ok k (length ts) (putOut o (setV v s))) as (FE & FO & F1 & F2 & F3 & F4 & F5 & F6 & F7 & F8 & F9 & F10 & F11).
    assert (MO : forall h, In h (o_reqHyps o) -> mandHyp n h) by (intros h Hh; now apply (gf_hyps _ _ _ _ GF)).
    destruct (checkHyps_ok n i s vl HI Hi ts F o O3 (o_reqHyps o) [] (finish k (length ts) (putOut o (setV v s)))) as (s3 & E3 & H3 & H4); auto.
    { rewrite FE. apply (i_err _ _ _ _ HI). }
    { intros h []. }
    rewrite FO. cbn [putOut p_out setV]. exists s3. split; [exact E3|].
    assert (HZ : p_err s3 = []) by (apply H3; now apply (cond_asrtOK n i s vl HI Hi ts F o GF)).
    assert (ES := H4 HZ). rewrite <- ES in FE, FO, F1, F2, F3, F4, F5, F6, F7, F8, F9, F10, F11.
    assert (H0 : delta (si_kind i) = 0%Z) by (fold k; destruct HK as [E|E]; now rewrite E). assert (KP := keeps_plain _ _ _ Hi H0).
    apply (plain_inv sts n i s vl s3 o HI Hi); auto.
    - fold k. destruct HK as [E|E]; now rewrite E.
    - rewrite F8. exact V.
    - rewrite F9. apply (hyps_keep _ _ _ i); auto; try (fold k; destruct HK as [E|E]; rewrite E; discriminate); apply (i_e _ _ _ _ HI).
    - rewrite F10. apply (hyps_keep _ _ _ i); auto; try (fold k; destruct HK as [E|E]; rewrite E; discriminate); apply (i_f _ _ _ _ HI).
    - rewrite F11. apply (disj_keep _ _ i); auto; try (fold k; destruct HK as [E|E]; rewrite E; discriminate); apply (i_d _ _ _ _ HI).
    - split; [exact O1|]. fold k. rewrite O3. destruct HK as [E|E]; rewrite E in *; split; auto.
  Qed.
End Check.
