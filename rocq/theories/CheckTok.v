(* CheckTok.v -- a correct proof over the names of the text is a valid proof over the symbol
   numbers of the verifier. *)
From Verif Require Import Base LabModel StmModel StmSpec StmTab StmScope TokSpec SrcSpec MMSpec VerModel VerSpec VerProofs ReadModel ReadOut
  ReadSpec ReadWf ReadTok CheckSpec.
From Coq Require Import Permutation Sorted.
Open Scope nat_scope.

Lemma sorted_uniq (l l' : list nat) : StronglySorted lt l -> StronglySorted lt l' -> (forall x, In x l <-> In x l') -> l = l'.
Proof.
  intros S. revert l'. induction S as [|a l S IH F]; intros l' S' E.
  - destruct l' as [|b l']; [reflexivity|]. exfalso. apply (E b). now left.
  - destruct S' as [|b l' S' F']; [exfalso; apply (E a); now left|].
    rewrite Forall_forall in F, F'.
    assert (a = b).
    { destruct (proj1 (E a) (or_introl eq_refl)) as [H|H]; [congruence|]. destruct (proj2 (E b) (or_introl eq_refl)) as [K|K]; [congruence|].
      specialize (F b K). specialize (F' a H). lia. }
    subst b. f_equal. apply IH; [exact S'|]. intros x. split; intros H.
    + destruct (proj1 (E x) (or_intror H)) as [K|K]; [|exact K]. subst x. specialize (F a H). lia.
    + destruct (proj2 (E x) (or_intror H)) as [K|K]; [|exact K]. subst x. specialize (F' a H). lia.
Qed.
Lemma F2_choice {A B} (R : A -> B -> Prop) l : (forall a, In a l -> exists b, R a b) -> exists l', Forall2 R l l'.
Proof.
  induction l as [|a l IH]; intros H; [exists []; constructor|]. destruct (H a (or_introl eq_refl)) as (b & Hb).
  destruct IH as (l' & F); [intros x Hx; apply H; now right|]. exists (b :: l'). now constructor.
Qed.
Lemma fun_choice {B} (d : B) (R : nat -> B -> Prop) l : (forall a, In a l -> exists b, R a b) -> exists f, forall a, In a l -> R a (f a).
Proof.
  induction l as [|a l IH]; intros H; [exists (fun _ => d); intros a []|]. destruct (H a (or_introl eq_refl)) as (b & Hb).
  destruct IH as (f & F); [intros x Hx; apply H; now right|]. exists (fun x => if Nat.eqb x a then b else f x).
  intros x Hx. destruct (Nat.eqb x a) eqn:E; [apply Nat.eqb_eq in E; now subst x|]. destruct Hx as [<-|Hx]; [|auto].
  rewrite Nat.eqb_refl in E. discriminate.
Qed.

Lemma inst_nil sts sg ys : instance sts sg [] ys -> ys = [].
Proof. now inversion 1. Qed.
Lemma inst_cons sts sg x r ys : instance sts sg (x :: r) ys ->
  isVar sts x /\ (exists r', ys = sg x ++ r' /\ instance sts sg r r') \/ ~ isVar sts x /\ exists r', ys = x :: r' /\ instance sts sg r r'.
Proof. inversion 1; subst; [left|right]; eauto. Qed.

Section Tok.
  Variable sts : list sinp.
  Variable out : list sout.
  Notation toks := (declTokens 1 sts).
  Notation denotes := (denotes sts toks).
  Notation inScope := (inScope sts).
  Notation kindAt := (kindAt sts).
  Hypothesis LG : legal sts.
  Hypothesis OL : length out = S (length sts).
  Hypothesis O0 : nth_error out 0 = Some out0.
  Hypothesis OP : Forall plainOut out.
  Hypothesis OG : forall n i o, stAt sts n i -> nth_error out n = Some o -> goodOut sts toks n i o.
  Variable db : dbase.
  Hypothesis DB : db = mkDb (tkVar toks) (length toks) (map toStmt out).
  Notation isvar := (db_isvar db).
  Notation nm := (nm sts).
  Let WF := wf_ok sts out LG OL O0 OP OG db DB.
  Let VAR := db_var sts out db DB.

  (* the numbers of a list of names in force at n *)
  Definition means (n : nat) (l : list nat) (xs : list name) : Prop := Forall2 (fun t x => denotes t x n) l xs.
  Lemma means_fun n l l' xs : means n l xs -> means n l' xs -> l = l'.
  Proof.
    intros H. revert l'. induction H as [|t x l xs D F IH]; intros l' H'; inversion H'; subst; [reflexivity|].
    f_equal; [eapply den_uniq; eauto|apply IH; assumption].
  Qed.
  Lemma means_app n a b xs ys : means n a xs -> means n b ys -> means n (a ++ b) (xs ++ ys).
  Proof. apply Forall2_app. Qed.
  Lemma means_all n xs : (forall x, In x xs -> exists t, denotes t x n) -> exists l, means n l xs.
  Proof.
    induction xs as [|x xs IH]; intros H; [exists []; constructor|]. destruct (H x (or_introl eq_refl)) as (t & D).
    destruct IH as (l & F); [intros y Hy; apply H; now right|]. exists (t :: l). now constructor.
  Qed.
  Lemma means_in n l xs x : means n l xs -> In x xs -> exists t, In t l /\ denotes t x n.
  Proof. intros F H. destruct (F2_in' _ _ _ _ F H) as (t & A & B). eauto. Qed.
  Lemma means_inv n l xs t : means n l xs -> In t l -> exists x, In x xs /\ denotes t x n.
  Proof. intros F H. destruct (F2_in _ _ _ _ F H) as (x & A & B). eauto. Qed.

  Lemma inst_in sg m x y : instance sts sg m x -> In y m -> isVar sts y -> forall u, In u (sg y) -> In u x.
  Proof.
    induction 1 as [|z r r' V I IH|z r r' V I IH]; intros HY VY u HU; [destruct HY| |].
    - apply in_or_app. destruct HY as [<-|HY]; [now left|right; auto].
    - destruct HY as [<-|HY]; [contradiction|right; auto].
  Qed.

  Section Step.
    Variable n : nat.
    Variable i : sinp.
    Variable o : sout.
    Hypothesis Hi : stAt sts n i.
    Hypothesis HK : si_kind i = K_p.
    Hypothesis HG : goodOut sts toks n i o.
    Let FN : goodFrame sts toks n o.
    Proof. apply (asrt_frame sts n i o Hi HG). now right. Qed.
    Let KN : o_kind o = K_p.
    Proof. destruct HG as [E _]. congruence. Qed.

    (* a distinct pair of the text is a declared pair *)
    Lemma text_disj a b x y : disjAt sts n x y -> denotes a x n -> denotes b y n ->
      declaredDisj (toStmt o) a b \/ declaredDisj (toStmt o) b a.
    Proof.
      intros D DA DB'. unfold declaredDisj. cbn [toStmt s_reqDisj s_optDisj]. rewrite !in_map_iff.
      assert (Q : exists a' b' d, (In (a', b', d) (o_reqDisj o) \/ In (a', b', d) (o_optDisj o)) /\
                (denotes a' x n /\ denotes b' y n \/ denotes a' y n /\ denotes b' x n)).
      { assert (DEC : (mandVar sts n x /\ mandVar sts n y) \/ ~ (mandVar sts n x /\ mandVar sts n y)).
        { assert (MD : forall t z, denotes t z n -> mandVar sts n z \/ ~ mandVar sts n z).
          { intros t z DZ. destruct (in_dec Nat.eq_dec t (o_reqVars o)) as [I|I].
            - left. apply (gf_vars _ _ _ _ FN). eauto.
            - right. intros M. apply (gf_vars _ _ _ _ FN) in M. destruct M as (t' & T & D'). apply I.
              rewrite (den_uniq sts out LG OL t t' z n); auto. }
          destruct (MD _ _ DA); destruct (MD _ _ DB'); tauto. }
        destruct DEC as [[M1 M2]|N].
        - destruct (proj1 (gf_disj _ _ _ _ FN x y) (conj M1 (conj M2 D))) as (a' & b' & d & [(A & B & C)|(A & B & C)]); exists a', b', d; auto.
        - destruct (gf_opt _ _ _ _ FN KN) as (_ & _ & _ & Q).
          destruct (proj1 (Q x y) (conj D N)) as (a' & b' & d & [(A & B & C)|(A & B & C)]); exists a', b', d; auto. }
      destruct Q as (a' & b' & d & I & [[A B]|[A B]]).
      - rewrite (den_uniq sts out LG OL a a' x n DA A), (den_uniq sts out LG OL b b' y n DB' B).
        left. destruct I as [I|I]; [left|right]; exists (a', b', d); auto.
      - rewrite (den_uniq sts out LG OL a b' x n DA B), (den_uniq sts out LG OL b a' y n DB' A).
        right. destruct I as [I|I]; [left|right]; exists (a', b', d); auto.
    Qed.

    (* an instance on names and on numbers *)
    Lemma inst_tok a oa sg sigma : goodFrame sts toks a oa -> a <= n ->
      (forall t x, In t (o_reqVars oa) -> denotes t x a -> means n (sigma t) (sg x)) ->
      forall l xs q, means q l xs -> q = a \/ inScope q a ->
      (forall t, In t l -> isvar t = true -> In t (o_reqVars oa)) ->
      forall ys, instance sts sg xs ys -> means n (subst isvar sigma l) ys.
    Proof.
      intros F LA SG l xs q M SC. induction M as [|t x l xs D M IH]; intros HV ys I.
      { apply inst_nil in I. rewrite I. constructor. }
      apply inst_cons in I. destruct I as [(H1 & r' & -> & I)|(H1 & r' & -> & I)].
      - assert (DA : denotes t x a) by (destruct SC as [->|SC]; [exact D|eapply denotes_up; eauto]).
        cbn [subst flat_map]. change (flat_map _ l) with (subst isvar sigma l).
        assert (TV : isvar t = true) by (rewrite VAR; eapply tk_isVar; eauto). rewrite TV.
        apply means_app; [apply SG; auto; apply HV; auto; now left|]. apply IH; auto. intros; apply HV; auto. now right.
      - assert (DA : denotes t x a) by (destruct SC as [->|SC]; [exact D|eapply denotes_up; eauto]).
        cbn [subst flat_map]. change (flat_map _ l) with (subst isvar sigma l).
        assert (TV : isvar t = false).
        { rewrite VAR. destruct (tkVar toks t) eqn:E; [|reflexivity]. exfalso. apply H1. eapply tk_isVar; eauto. }
        rewrite TV. change (t :: subst isvar sigma l) with ([t] ++ subst isvar sigma l). constructor; [|apply IH; auto; intros; apply HV; auto; now right].
        rewrite VAR in TV. eapply con_up; eauto. pose proof (stAt_lt _ _ _ Hi). lia.
    Qed.

    Definition refOk (m : nat) : Prop := exists sm, stmtAt db m sm /\
      ((isAssertion sm /\ m < n) \/ (isHyp sm /\ (In m (o_reqHyps o) \/ In m (o_optHyps o)))).
    Lemma mand_dec t x : denotes t x n -> mandVar sts n x \/ ~ mandVar sts n x.
    Proof.
      intros DZ. destruct (in_dec Nat.eq_dec t (o_reqVars o)) as [I|I].
      - left. apply (gf_vars _ _ _ _ FN). eauto.
      - right. intros M. apply (gf_vars _ _ _ _ FN) in M. destruct M as (t' & T & D'). apply I.
        rewrite (den_uniq sts out LG OL t t' x n); auto.
    Qed.
    Lemma hyp_ref h : kindAt h K_e \/ kindAt h K_f -> inScope h n -> exists oh, stmtAt db h (toStmt oh) /\ isHyp (toStmt oh) /\
      (In h (o_reqHyps o) \/ In h (o_optHyps o)) /\ forall e, toksAt sts h e -> means n (o_math oh) e.
    Proof.
      intros K SC.
      assert (exists j, stAt sts h j /\ (si_kind j = K_e \/ si_kind j = K_f)) as (j & Hj & KJ) by (destruct K as [(j & A & B)|(j & A & B)]; eauto).
      destruct (db_kind sts out OL OG db DB h j Hj) as (oh & HO & G & EK). exists oh. split; [exact HO|].
      assert (IH : isHyp (toStmt oh)) by (apply type_h; now rewrite EK). split; [exact IH|].
      assert (ME : Forall2 (fun t x => denotes t x h) (o_math oh) (si_toks j)).
      { apply (math_den sts h j oh G); destruct KJ as [E|E]; rewrite E; try discriminate; reflexivity. }
      split.
      - destruct K as [K|K].
        + left. apply (gf_hyps _ _ _ _ FN). split; [exact SC|]. now left.
        + pose proof (proj1 LG h j Hj) as L. unfold legalStmt in L. apply (kindAt_at _ _ _ _ Hj) in K as K'. rewrite K' in L.
          destruct L as (c & x & ET & _ & _). rewrite ET in ME. inversion ME as [|tc c' l l' R1 F1]; subst. inversion F1 as [|tx x' l2 l2' R2 F2]; subst.
          assert (TA : toksAt sts h [c; x]) by (exists j; auto).
          destruct (mand_dec tx x) as [M|M]; [eapply denotes_up; eauto| |].
          * left. apply (gf_hyps _ _ _ _ FN). split; [exact SC|]. right. split; [exact K|]. eauto.
          * right. apply (proj1 (gf_opt _ _ _ _ FN KN)). split; [exact SC|]. split; [exact K|]. eauto.
      - intros e TE. apply (toksAt_at _ _ _ _ Hj) in TE. rewrite TE in ME. unfold means. clear -ME SC LG OL.
        induction ME; constructor; auto. eapply denotes_up; eauto.
    Qed.

    Variable items : list item.
    Lemma F2_link {A B C} (R : A -> B -> Prop) (Q : C -> B -> Prop) (P : A -> C -> Prop) la lb : Forall2 R la lb ->
      forall lc, Forall2 Q lc lb -> (forall a b c, In a la -> R a b -> Q c b -> P a c) -> Forall2 P la lc.
    Proof.
      induction 1 as [|a b la lb H F IH]; intros lc H' HP; inversion H' as [|c b' lc' lb' Q1 Q2]; subst; constructor.
      - apply (HP a b); auto. now left.
      - apply IH; auto. intros. eapply HP; eauto. now right.
    Qed.
    Lemma F2_rev {A B} (R : A -> B -> Prop) l l' : Forall2 R l l' -> Forall2 R (rev l) (rev l').
    Proof. induction 1; cbn; [constructor|]. apply Forall2_app; auto. Qed.
    Lemma means_name t x y : denotes t x n -> denotes t y n -> x = y.
    Proof. intros D1 D2. rewrite <- (den_nm _ _ _ _ D1). apply (den_nm _ _ _ _ D2). Qed.

    Lemma step_tok l S S1 : stepOf items sts n l S S1 -> forall tS, Forall2 (means n) tS S ->
      exists m e tS1, isLabel items m l /\ refOk m /\ Forall2 (means n) tS1 S1 /\
        forall vals, rpnStep db (toStmt o) vals tS (Stm m) e tS1.
    Proof.
      intros ST. destruct ST as [h e S HL HKi SC TE|a hs es sg e e' S HL HKi LA [MH MS] FE DV TE IE]; intros tS FS.
      - destruct (hyp_ref h HKi SC) as (oh & HO & IH & RQ & ME). exists h, (o_math oh), (o_math oh :: tS).
        split; [exact HL|]. split; [exists (toStmt oh); auto|]. split; [constructor; auto|].
        intros vals. change (o_math oh) with (s_math (toStmt oh)). now apply rs_hyp.
      - assert (exists j, stAt sts a j /\ isA (si_kind j)) as (j & Hj & KJ) by (destruct HKi as [(j & A & B)|(j & A & B)]; exists j; unfold isA; auto).
        destruct (db_kind sts out OL OG db DB a j Hj) as (oa & HO & G & EK).
        assert (IA : isAssertion (toStmt oa)) by (apply type_a; now rewrite EK).
        pose proof (asrt_frame sts a j oa Hj G KJ) as FA.
        assert (EH : hs = o_reqHyps oa).
        { apply sorted_uniq; [exact MS|apply (gf_hyps_sorted _ _ _ _ FA)|]. intros x. rewrite MH. symmetry. apply (gf_hyps _ _ _ _ FA). }
        subst hs.
        apply Forall2_app_inv_r in FS. destruct FS as (rt & t0 & F1 & F0 & ES). apply F2_rev in F1. rewrite rev_involutive in F1.
        set (tes := rev rt) in *. assert (ET : tS = rev tes ++ t0) by (unfold tes; now rewrite rev_involutive). clearbody tes. clear ES rt.
        pose proof (wf_reqVars _ WF a _ HO IA) as RV. cbn [toStmt s_reqVars s_reqHyps] in RV.
        pose proof (wf_vars_math _ WF a _ HO IA) as VM. cbn [toStmt s_reqVars s_math] in VM.
        (* symbols of a mandatory hypothesis *)
        assert (HM : forall h m, In h (o_reqHyps oa) -> toksAt sts h m -> exists oh, stmtAt db h (toStmt oh) /\ means h (o_math oh) m /\ inScope h a).
        { intros h m HI TM. apply MH in HI. pose proof HI as [SCh _]. destruct (mandHyp_hyp _ _ _ HI) as (jh & Hjh & KH).
          destruct (db_kind sts out OL OG db DB h jh Hjh) as (oh & HOH & GH & EKH). exists oh. split; [exact HOH|]. split; [|exact SCh].
          apply (toksAt_at _ _ _ _ Hjh) in TM. rewrite <- TM.
          apply (math_den sts h jh oh GH); destruct KH as [E|E]; rewrite E; try discriminate; reflexivity. }
        (* the substitution *)
        assert (EX : forall t, In t (o_reqVars oa) -> exists b, forall x, denotes t x a -> means n b (sg x)).
        { intros t HT. destruct (gf_vars_den _ _ _ _ FA t HT) as (x & Dx).
          apply RV in HT. destruct HT as (TV & h & sh & H1 & H2 & H3).
          destruct (F2_in _ _ _ _ FE H1) as (y & Hy & m & TM & IM).
          destruct (HM h m H1 TM) as (oh & HOH & MM & SCh).
          assert (sh = toStmt oh) by (unfold stmtAt in *; congruence). subst sh. cbn [toStmt s_math] in H3.
          destruct (means_inv _ _ _ _ MM H3) as (x' & HX & Dx').
          assert (x' = x) by (rewrite <- (den_nm _ _ _ _ Dx), <- (den_nm _ _ _ _ Dx'); reflexivity). subst x'.
          destruct (F2_in' _ _ _ _ F1 Hy) as (ty & _ & MY).
          destruct (means_all n (sg x)) as (b & Hb).
          { intros u HU. assert (VX : isVar sts x) by (rewrite VAR in TV; eapply tk_isVar; eauto).
            destruct (means_in _ _ _ _ MY (inst_in _ _ _ _ IM HX VX u HU)) as (tu & _ & Du). eauto. }
          exists b. intros x1 D1. assert (x1 = x) by (rewrite <- (den_nm _ _ _ _ Dx), <- (den_nm _ _ _ _ D1); reflexivity). now subst x1. }
        destruct (fun_choice [] (fun t b => forall x, denotes t x a -> means n b (sg x)) _ EX) as (sigma & SG).
        pose proof (stAt_lt _ _ _ Hi) as LN.
        assert (UN : unifier db (toStmt oa) tes sigma).
        { unfold unifier. cbn [toStmt s_reqHyps]. eapply F2_link; [exact FE|exact F1|].
          intros h y ty HI (m & TM & IM) MY. destruct (HM h m HI TM) as (oh & HOH & MM & SCh). exists (toStmt oh). split; [exact HOH|].
          cbn [toStmt s_math]. eapply means_fun; [|exact MY].
          eapply inst_tok; [exact FA|lia|intros t x HT; apply SG; exact HT|exact MM|right; exact SCh| |exact IM].
          intros t HT TV. apply RV. split; [exact TV|]. exists h, (toStmt oh). auto. }
        assert (MA : means a (o_math oa) e).
        { apply (toksAt_at _ _ _ _ Hj) in TE. rewrite <- TE. apply (math_den sts a j oa G); destruct KJ as [E|E]; rewrite E; try discriminate; reflexivity. }
        exists a, (subst isvar sigma (o_math oa)), (subst isvar sigma (o_math oa) :: t0).
        split; [exact HL|]. split; [exists (toStmt oa); auto|]. split.
        { constructor; [|exact F0].
          eapply inst_tok; [exact FA|lia|intros t x HT; apply SG; exact HT|exact MA|left; reflexivity|exact VM|exact IE]. }
        intros vals. rewrite ET. change (o_math oa) with (s_math (toStmt oa)). apply rs_assert with (es := tes); auto.
        + intros sg' U'. apply (floated_unique db (toStmt oa) tes sigma sg'); auto.
          * exact (floated_ok sts out LG OL O0 OG db DB a _ HO IA).
          * intros t I. apply RV in I. apply I.
        + intros x y HP. pose proof HP as HP'. cbn [toStmt s_reqDisj] in HP'. apply in_map_iff in HP'. destruct HP' as ([[x1 y1] d] & E & HP'). cbn in E. injection E as -> ->.
          destruct (wf_vars_disj _ WF a _ HO IA x y HP) as [VX VY]. cbn [toStmt s_reqVars] in VX, VY.
          destruct (gf_disj_ord _ _ _ _ FA _ _ _ (or_introl HP')) as (_ & (nx & DX) & (ny & DY)).
          assert (M : mandVar sts a nx /\ mandVar sts a ny /\ disjAt sts a nx ny) by (apply (gf_disj _ _ _ _ FA); exists x, y, d; auto).
          destruct M as (M1 & M2 & M3).
          intros p q Hp Hq Vp Vq.
          destruct (means_inv _ _ _ _ (SG x VX nx DX) Hp) as (u & HU & Du).
          destruct (means_inv _ _ _ _ (SG y VY ny DY) Hq) as (v & HV & Dv).
          assert (VU : isVar sts u) by (rewrite VAR in Vp; eapply tk_isVar; eauto).
          assert (VV : isVar sts v) by (rewrite VAR in Vq; eapply tk_isVar; eauto).
          pose proof (DV nx ny M1 M2 M3 u v HU HV VU VV) as DJ. split.
          * intros <-. destruct DJ as [N _]. apply N. eapply means_name; eauto.
          * eapply text_disj; eauto.
    Qed.

    Lemma run_tok ls S S1 : runOf items sts n ls S S1 -> forall tS, Forall2 (means n) tS S ->
      exists p tS1, Forall2 (fun l m => isLabel items m l /\ refOk m) ls p /\ Forall2 (means n) tS1 S1 /\
        forall vals, exists vals', rpnRun db (toStmt o) vals tS (map Stm p) vals' tS1.
    Proof.
      induction 1 as [S|l ls S S1 S2 ST R IH]; intros tS FS.
      - exists [], tS. split; [constructor|]. split; [exact FS|]. intros vals. exists vals. constructor.
      - destruct (step_tok l S S1 ST tS FS) as (m & e & tS1 & HL & RF & F1 & RS).
        destruct (IH tS1 F1) as (p & tS2 & FP & F2 & RR). exists (m :: p), tS2. split; [constructor; auto|]. split; [exact F2|].
        intros vals. destruct (RR (vals ++ [e])) as (vals' & RR'). exists vals'. cbn [map]. econstructor; [apply RS|exact RR'].
    Qed.

    Lemma proved_tok ls e : toksAt sts n e -> runOf items sts n ls [] [e] ->
      exists p, Forall2 (fun l m => isLabel items m l /\ refOk m) ls p /\ validProof db (toStmt o) (map Stm p).
    Proof.
      intros TE R. destruct (run_tok ls [] [e] R [] (Forall2_nil _)) as (p & tS & FP & F & RR). exists p. split; [exact FP|].
      destruct (RR []) as (vals & RV). exists vals.
      inversion F as [|te e1 l1 l2 M1 M2]; subst. inversion M2; subst.
      assert (te = s_math (toStmt o)); [|now subst te].
      cbn [toStmt s_math]. eapply means_fun; [exact M1|].
      apply (toksAt_at _ _ _ _ Hi) in TE. rewrite <- TE. apply (math_den sts n i o HG); rewrite HK; try discriminate; reflexivity.
    Qed.
  End Step.
End Tok.
