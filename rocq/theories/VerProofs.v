(* VerProofs.v -- verifyProof against the RPN semantics and against derivability. *)
From Verif Require Import Base MMSpec VerModel VerSpec VerMatch VerStep.
Open Scope nat_scope.

Lemma verifyStep_mono fuel fuel' db stp ns v x r :
  fuel <= fuel' -> verifyStep fuel db stp ns v x = r -> r <> Fuel ->
  verifyStep fuel' db stp ns v x = r.
Proof.
  intros Hle H Hr. unfold verifyStep in *. destruct x as [|i|n]; auto.
  destruct (rget _) as [st| | |]; cbn [rbind] in *; auto.
  assert (K : forall nh, (if length (v_stack v) <? nh then UB else
      do insts <- mapRes (mathOf ns (v_maths v)) (rev (firstn nh (v_stack v)));
      do r <- bigHyps db (s_reqHyps st) insts;
      let '(sc, ins, unk) := r in
      do a <- assignVar fuel db (db_sep db :: sc) (db_sep db :: ins) n st stp (length (v_maths v)) unk (v_err v);
      let '(result, ds, err') := a in
      Ok (mkVst (v_maths v ++ [result]) (length (v_maths v) :: skipn nh (v_stack v))
           (v_diags v ++ ds) err'
           match result with [] => if unk then v_flag v else 2 | _ => v_flag v end)) = r ->
   (if length (v_stack v) <? nh then UB else
      do insts <- mapRes (mathOf ns (v_maths v)) (rev (firstn nh (v_stack v)));
      do r <- bigHyps db (s_reqHyps st) insts;
      let '(sc, ins, unk) := r in
      do a <- assignVar fuel' db (db_sep db :: sc) (db_sep db :: ins) n st stp (length (v_maths v)) unk (v_err v);
      let '(result, ds, err') := a in
      Ok (mkVst (v_maths v ++ [result]) (length (v_maths v) :: skipn nh (v_stack v))
           (v_diags v ++ ds) err'
           match result with [] => if unk then v_flag v else 2 | _ => v_flag v end)) = r).
  { clear H. intros nh. destruct (length (v_stack v) <? nh); auto. destruct (mapRes _ _); cbn [rbind]; auto.
    destruct (bigHyps _ _ _) as [[[sc ins] unk]| | |]; cbn [rbind]; auto.
    intros Hx.
    destruct (assignVar fuel db (db_sep db :: sc) (db_sep db :: ins) n st stp (length (v_maths v)) unk (v_err v)) as [a|b| |] eqn:E.
    - rewrite (assignVar_mono _ _ _ _ _ _ _ _ _ _ _ _ Hle E) by discriminate. exact Hx.
    - rewrite (assignVar_mono _ _ _ _ _ _ _ _ _ _ _ _ Hle E) by discriminate. exact Hx.
    - rewrite (assignVar_mono _ _ _ _ _ _ _ _ _ _ _ _ Hle E) by discriminate. exact Hx.
    - exfalso. apply Hr. symmetry. exact Hx. }
  destruct (s_type st); auto; apply K; exact H.
Qed.

Lemma verifySteps_mono fuel fuel' db stp ns l : forall v r,
  fuel <= fuel' -> verifySteps fuel db stp ns v l = r -> r <> Fuel ->
  verifySteps fuel' db stp ns v l = r.
Proof.
  induction l as [|x l IH]; intros v r Hle H Hr; simpl in *; auto.
  destruct (verifyStep fuel db stp ns v x) eqn:E; cbn [rbind] in H;
    rewrite (verifyStep_mono _ _ _ _ _ _ _ _ Hle E) by congruence; cbn [rbind]; auto.
Qed.

Lemma verifyProof_mono fuel fuel' db k proof sev err r :
  fuel <= fuel' -> verifyProof fuel db k proof sev err = r -> r <> Fuel ->
  verifyProof fuel' db k proof sev err = r.
Proof.
  intros Hle H Hr. unfold verifyProof in *.
  destruct (rget _) as [st| | |]; cbn [rbind] in *; auto.
  destruct (s_type st); auto. destruct (2 <? sev); auto. destruct proof as [|x l]; auto.
  destruct (verifySteps fuel _ _ _ _ _) eqn:E; cbn [rbind] in H;
    rewrite (verifySteps_mono _ _ _ _ _ _ _ _ Hle E) by congruence; cbn [rbind]; auto.
Qed.

Section Run.
  Variable db : dbase.
  Hypothesis WF : wf_db db.
  Let isvar := db_isvar db.
  Let sep := db_sep db.
  Variable k : nat.
  Variable stp : stmtRec.
  Hypothesis Hstp : stmtAt db k stp.

  Definition stkOf (v : vst) : list (list nat) := map (fun i => nth i (v_maths v) []) (v_stack v).

  Definition good (v : vst) : Prop := v_flag v = 0 /\ v_diags v = [] /\ v_err v = 0.

  Record VInv (v : vst) : Prop := {
    vi_stack : forall i, In i (v_stack v) -> i < length (v_maths v);
    vi_sep : forall m, In m (v_maths v) -> ~ In sep m;
    vi_flag : v_flag v <= 2;
    vi_err : v_diags v = [] -> v_err v = 0;
    vi_ne : good v -> forall m, In m (v_maths v) -> m <> [] }.

  Lemma no_violation step ss sg :
    (forall d, ~ violation isvar step (s_reqDisj stp) (s_optDisj stp) (s_reqDisj ss) sg d) <->
    disj_ok db stp ss sg.
  Proof.
    unfold violation, disj_ok, dv_ok, declaredDisj. split.
    - intros H x y Hxy a b Ha Hb Va Vb.
      destruct (Nat.eq_dec a b) as [->|Hne].
      { exfalso. apply (H (DDisjCommon step x y b)). exists x, y, b, b. auto 10. }
      split; auto.
      assert (pd : forall p q : nat * nat, {p = q} + {p <> q}) by (decide equality; apply Nat.eq_dec).
      destruct (in_dec pd (a, b) (s_reqDisj stp)); auto.
      destruct (in_dec pd (a, b) (s_optDisj stp)); auto.
      destruct (in_dec pd (b, a) (s_reqDisj stp)); auto.
      destruct (in_dec pd (b, a) (s_optDisj stp)); auto.
      exfalso. apply (H (DDisjMissing step x y a b)). exists x, y, a, b.
      do 5 (split; auto). right. auto 8.
    - intros H d (x&y&a&b&Hxy&Ha&Hb&Va&Vb&Hd).
      destruct (H x y Hxy a b Ha Hb Va Vb) as [Hne HD].
      destruct Hd as [[E _]|(_&N1&N2&N3&N4&_)]; tauto.
  Qed.

  Lemma disj_ok_ext n ss sg sg' : stmtAt db n ss -> isAssertion ss ->
    (forall t, In t (s_reqVars ss) -> sg t = sg' t) -> disj_ok db stp ss sg -> disj_ok db stp ss sg'.
  Proof.
    intros Hn Ha He H x y Hxy a b H1 H2.
    destruct (wf_vars_disj db WF n ss Hn Ha x y Hxy).
    apply (H x y Hxy a b); rewrite He; auto.
  Qed.

  Lemma subst_ne n ss sg : stmtAt db n ss -> isAssertion ss -> subst isvar sg (s_math ss) <> [].
  Proof.
    intros Hn Ha. destruct (wf_head db WF n ss Hn (or_intror Ha)) as [c [r [E Hc]]].
    rewrite E. unfold subst. simpl. unfold isvar. rewrite Hc. simpl. discriminate.
  Qed.

  Lemma mapRes_mathOf ns maths l : (forall i, In i l -> i < length maths) ->
    mapRes (mathOf ns maths) l = Ok (map (fun i => nth i maths []) l).
  Proof.
    induction l as [|i l IH]; intros H; simpl; auto.
    unfold mathOf at 1. rewrite (nth_error_nth' maths [] (H i (or_introl eq_refl))). cbn [rbind].
    rewrite IH by (intros; apply H; simpl; auto). reflexivity.
  Qed.

  Lemma stkOf_snoc v e stack :
    (forall i, In i stack -> i < length (v_maths v)) ->
    map (fun i => nth i (v_maths v ++ [e]) []) stack = map (fun i => nth i (v_maths v) []) stack.
  Proof.
    intros H. apply map_ext_in. intros i Hi. apply app_nth1. auto.
  Qed.

  Lemma nth_snoc v (e : list nat) : nth (length (v_maths v)) (v_maths v ++ [e]) [] = e.
  Proof. rewrite app_nth2 by lia. rewrite Nat.sub_diag. reflexivity. Qed.

  Lemma balanced_step x l d d' : balanced db (x :: l) d = Some d' ->
    match x with
    | Stm n => exists st, stmtAt db n st /\
        ((isHyp st /\ balanced db l (S d) = Some d') \/
         (isAssertion st /\ length (s_reqHyps st) <= d /\
          balanced db l (S (d - length (s_reqHyps st))) = Some d'))
    | _ => balanced db l (S d) = Some d'
    end.
  Proof.
    destruct x as [|i|n]; simpl; auto. unfold stmtAt, isHyp, isAssertion.
    destruct (nth_error (db_stmts db) n) as [st|]; [|discriminate].
    intros H. exists st. split; auto.
    destruct (s_type st); try discriminate; auto;
      destruct (length (s_reqHyps st) <=? d) eqn:E; try discriminate; apply Nat.leb_le in E; auto.
  Qed.

  Lemma firstn_map_rev (s : list nat) (f : nat -> list nat) nh : nh <= length s ->
    map f s = rev (map f (rev (firstn nh s))) ++ map f (skipn nh s).
  Proof.
    intros H. rewrite map_rev, rev_involutive, <- map_app, firstn_skipn. reflexivity.
  Qed.

  Lemma app_inv_len {A} (a b c d : list A) : a ++ b = c ++ d -> length a = length c -> a = c /\ b = d.
  Proof. apply app_len_inj. Qed.

  Lemma step_ok ns v x l d' :
    VInv v -> balanced db (x :: l) (length (v_stack v)) = Some d' ->
    (forall i, x = Loc i -> i < length (v_maths v)) ->
    exists F v', (forall fuel, F <= fuel -> verifyStep fuel db stp ns v x = Ok v') /\
      VInv v' /\ length (v_maths v') = S (length (v_maths v)) /\
      balanced db l (length (v_stack v')) = Some d' /\
      (good v' -> good v /\ exists e stk', rpnStep db stp (v_maths v) (stkOf v) x e stk' /\
                     v_maths v' = v_maths v ++ [e] /\ stkOf v' = stk') /\
      (good v -> forall e stk', rpnStep db stp (v_maths v) (stkOf v) x e stk' ->
                     good v' /\ v_maths v' = v_maths v ++ [e] /\ stkOf v' = stk') /\
      v_flag v <= v_flag v' /\ (x = Unk -> 1 <= v_flag v').
  Proof.
    intros HV Hbal Hloc. apply balanced_step in Hbal.
    destruct x as [|i|n].
    - (* unknown *)
      exists 0. eexists. split; [intros; reflexivity|]. cbn [v_maths v_stack length].
      split; [|split; [rewrite app_length; simpl; lia|split; [exact Hbal|]]].
      + constructor; cbn [v_maths v_stack].
        * intros j [<-|Hj]; rewrite app_length; simpl; [lia|]. pose proof (vi_stack v HV j Hj). lia.
        * intros m Hm. apply in_app_or in Hm. destruct Hm as [Hm|[<-|[]]]; auto. apply (vi_sep v HV); auto.
        * cbn [v_flag]. pose proof (vi_flag v HV). destruct (v_flag v <? 1); lia.
        * apply (vi_err v HV).
        * unfold good. cbn [v_flag v_diags v_err]. intros [Hf _]. destruct (v_flag v <? 1) eqn:E; [discriminate|].
          apply Nat.ltb_ge in E. lia.
      + split; [|split; [|split]].
        * unfold good. cbn [v_flag v_diags v_err]. intros [Hf _]. destruct (v_flag v <? 1) eqn:E; [discriminate|].
             apply Nat.ltb_ge in E. lia.
        * intros _ e stk' H. inversion H.
        * cbn [v_flag]. destruct (v_flag v <? 1) eqn:E; [apply Nat.ltb_lt in E|]; lia.
        * intros _. cbn [v_flag]. destruct (v_flag v <? 1) eqn:E; [lia|]. apply Nat.ltb_ge in E. lia.
    - (* local reference *)
      assert (Hi : i < length (v_maths v)) by (apply Hloc; auto).
      set (e := nth i (v_maths v) []).
      assert (En : nth_error (v_maths v) i = Some e) by (apply nth_error_nth'; auto).
      exists 0, (mkVst (v_maths v ++ [e]) (length (v_maths v) :: v_stack v) (v_diags v) (v_err v) (v_flag v)).
      split; [intros; unfold verifyStep, mathOf; rewrite En; reflexivity|].
      cbn [v_maths v_stack length].
      assert (Hg : good (mkVst (v_maths v ++ [e]) (length (v_maths v) :: v_stack v) (v_diags v) (v_err v) (v_flag v)) <-> good v)
        by (unfold good; cbn; tauto).
      split; [|split; [rewrite app_length; simpl; lia|split; [exact Hbal|]]].
      + constructor; cbn [v_maths v_stack].
        * intros j [<-|Hj]; rewrite app_length; simpl; [lia|]. pose proof (vi_stack v HV j Hj). lia.
        * intros m Hm. apply in_app_or in Hm.
          destruct Hm as [Hm|[<-|[]]]; apply (vi_sep v HV); auto. eapply nth_error_In; eauto.
        * apply (vi_flag v HV).
        * apply (vi_err v HV).
        * intros G m Hm. apply Hg in G. apply in_app_or in Hm.
          destruct Hm as [Hm|[<-|[]]]; apply (vi_ne v HV G); auto. eapply nth_error_In; eauto.
      + assert (Hstk : stkOf (mkVst (v_maths v ++ [e]) (length (v_maths v) :: v_stack v) (v_diags v) (v_err v) (v_flag v)) = e :: stkOf v).
        { unfold stkOf. cbn [v_maths v_stack map]. rewrite nth_snoc, stkOf_snoc; auto. apply (vi_stack v HV). }
        split; [|split; [|split; [cbn; lia|discriminate]]].
        * intros G. apply Hg in G. split; auto. exists e, (e :: stkOf v). split; [apply rs_loc; auto|]. auto.
        * intros G e' stk' H. inversion H as [| i' e'' En' | ]; subst.
          rewrite En in En'. injection En' as <-. rewrite Hstk. tauto.
    - destruct Hbal as [st [Hn [[Hh Hbal]|[Ha [Hle Hbal]]]]].
      + (* hypothesis *)
        set (e := s_math st).
        exists 0, (mkVst (v_maths v ++ [e]) (length (v_maths v) :: v_stack v) (v_diags v) (v_err v) (v_flag v)).
        split.
        { intros fuel _. unfold verifyStep. unfold stmtAt in Hn. rewrite Hn. cbn [rget rbind].
          destruct Hh as [E|E]; rewrite E; reflexivity. }
        cbn [v_maths v_stack length].
        assert (Hg : good (mkVst (v_maths v ++ [e]) (length (v_maths v) :: v_stack v) (v_diags v) (v_err v) (v_flag v)) <-> good v)
          by (unfold good; cbn; tauto).
        split; [|split; [rewrite app_length; simpl; lia|split; [exact Hbal|]]].
        * constructor; cbn [v_maths v_stack].
          -- intros j [<-|Hj]; rewrite app_length; simpl; [lia|]. pose proof (vi_stack v HV j Hj). lia.
          -- intros m Hm. apply in_app_or in Hm.
             destruct Hm as [Hm|[<-|[]]]; [apply (vi_sep v HV); auto|]. eapply (wf_sep_fresh db WF); eauto.
          -- apply (vi_flag v HV).
          -- apply (vi_err v HV).
          -- intros G m Hm. apply Hg in G. apply in_app_or in Hm.
             destruct Hm as [Hm|[<-|[]]]; [apply (vi_ne v HV G); auto|].
             destruct (wf_head db WF n st Hn (or_introl Hh)) as [c [r [E _]]]. unfold e. rewrite E. discriminate.
        * assert (Hstk : stkOf (mkVst (v_maths v ++ [e]) (length (v_maths v) :: v_stack v) (v_diags v) (v_err v) (v_flag v)) = e :: stkOf v).
          { unfold stkOf. cbn [v_maths v_stack map]. rewrite nth_snoc, stkOf_snoc; auto. apply (vi_stack v HV). }
          split; [|split; [|split; [cbn; lia|discriminate]]].
          -- intros G. apply Hg in G. split; auto. exists e, (e :: stkOf v). split; [apply rs_hyp; auto|]. auto.
          -- intros G e' stk' H. inversion H as [n0 st0 Hn0 Hh0 | |n0 st0 es rest sg Hn0 Ha0 Es Hu Huniq Hdis]; subst;
               unfold stmtAt in Hn, Hn0; rewrite Hn in Hn0; injection Hn0 as <-.
             ++ rewrite Hstk. tauto.
             ++ unfold isHyp, isAssertion in *. exfalso. destruct Hh, Ha0; congruence.
      + (* assertion *)
        set (nh := length (s_reqHyps st)) in *.
        set (insts := map (fun i => nth i (v_maths v) []) (rev (firstn nh (v_stack v)))).
        assert (Hli : length insts = length (s_reqHyps st)).
        { unfold insts. rewrite map_length, rev_length, firstn_length. fold nh. lia. }
        assert (Hidx : forall i, In i (rev (firstn nh (v_stack v))) -> i < length (v_maths v)).
        { intros i Hi. apply in_rev in Hi. apply (vi_stack v HV).
          rewrite <- (firstn_skipn nh (v_stack v)). apply in_or_app; auto. }
        assert (Hin : forall m, In m insts -> In m (v_maths v)).
        { intros m Hm. unfold insts in Hm. apply in_map_iff in Hm. destruct Hm as [i [<- Hi]].
          apply nth_In. auto. }
        assert (Hsf : forall m, In m insts -> ~ In sep m) by (intros m Hm; apply (vi_sep v HV); auto).
        destruct (stepCall_spec db WF stp k st n insts (length (v_maths v)) (v_err v) Hstp Hn Ha Hli Hsf)
          as [F [[[result ds] err'] [Hcall [Hres [Herr0 [Hout _]]]]]].
        simpl in Hres, Herr0.
        set (unk := existsb isnil insts).
        set (flag' := match result with [] => if unk then v_flag v else 2 | _ => v_flag v end).
        exists F, (mkVst (v_maths v ++ [result]) (length (v_maths v) :: skipn nh (v_stack v))
                     (v_diags v ++ ds) err' flag').
        split.
        { intros fuel Hf. specialize (Hcall fuel Hf). unfold stepCall in Hcall.
          unfold verifyStep. unfold stmtAt in Hn. rewrite Hn. cbn [rget rbind].
          assert (E : (length (v_stack v) <? length (s_reqHyps st)) = false) by (apply Nat.ltb_ge; exact Hle).
          destruct (hypMaths_exist db WF _ _ Hn Ha) as [maths Hm].
          assert (Hbig : bigHyps db (s_reqHyps st) insts =
                    Ok (bigS sep (mask maths insts), bigS sep insts, unk)).
          { apply bigHyps_spec; auto. }
          rewrite Hbig in Hcall. cbn [rbind] in Hcall.
          destruct Ha as [Et|Et]; rewrite Et, E; fold nh;
            rewrite (mapRes_mathOf ns _ _ Hidx); fold insts; cbn [rbind];
            rewrite Hbig; cbn [rbind]; rewrite Hcall; cbn [rbind]; reflexivity. }
        cbn [v_maths v_stack length].
        assert (Hlstk : length (skipn nh (v_stack v)) = length (v_stack v) - nh) by apply skipn_length.
        assert (Hknown : good v -> unk = false).
        { intros G. unfold unk. destruct (existsb isnil insts) eqn:E; auto.
          apply existsb_exists in E. destruct E as [m [Hm E]].
          destruct m; [|discriminate]. exfalso. apply (vi_ne v HV G []); auto. }
        (* characterisation of acceptance *)
        assert (Hg : good (mkVst (v_maths v ++ [result]) (length (v_maths v) :: skipn nh (v_stack v))
                     (v_diags v ++ ds) err' flag') ->
            good v /\ exists sg, result = subst isvar sg (s_math st) /\ unifier db st insts sg /\
               (forall sg', unifier db st insts sg' -> forall t, In t (s_reqVars st) -> sg' t = sg t) /\
               disj_ok db stp st sg).
        { unfold good at 1. cbn [v_flag v_diags v_err].
          { intros [Hf [Hd He]]. apply app_eq_nil in Hd. destruct Hd as [Hd Hds].
            assert (Hfl : v_flag v = 0).
            { unfold flag' in Hf. destruct result; [destruct unk; [auto|discriminate]|auto]. }
            assert (Herr : v_err v <= err' ).
            { unfold stepCall in Hcall. specialize (Hcall F (le_n _)).
              destruct (hypMaths_exist db WF _ _ Hn Ha) as [maths Hm].
              rewrite (bigHyps_spec db _ maths insts Hm) in Hcall by auto. cbn [rbind] in Hcall.
              unfold assignVar in Hcall.
              repeat match type of Hcall with
              | (if ?b then _ else _) = _ => destruct b
              | (rbind ?m _) = _ => destruct m; cbn [rbind] in Hcall
              | (match ?o with Some _ => _ | None => _ end) = _ => destruct o
              | Ok _ = Ok _ => injection Hcall as <- <- <-
              end; try discriminate; try lia. }
            assert (G : good v) by (unfold good; repeat split; auto; lia).
            split; auto. specialize (Hknown G). specialize (Hout Hknown).
            assert (He0 : v_err v = 0) by (destruct G as [_ [_ ?]]; auto).
            inversion Hout as [Hno E|sg ds0 H1 H2 H3 E|sg sg2 t ds0 H1 H2 H3 H4 H5 E]; subst.
            + lia.
            + exists sg. do 3 (split; [auto|]).
              apply no_violation with (step := length (v_maths v)). intros d Hv.
              apply H3 in Hv. rewrite He0 in *.
              match goal with K : gated 0 ds0 = [] |- _ => simpl in K; subst ds0 end. destruct Hv.
            + lia. } }
        assert (Hg2 : good v -> forall sg, unifier db st insts sg ->
               (forall sg', unifier db st insts sg' -> forall t, In t (s_reqVars st) -> sg' t = sg t) ->
               disj_ok db stp st sg ->
               result = subst isvar sg (s_math st) /\
               good (mkVst (v_maths v ++ [result]) (length (v_maths v) :: skipn nh (v_stack v))
                     (v_diags v ++ ds) err' flag')).
        { intros G sg Hu Huniq Hdis.
          specialize (Hknown G). specialize (Hout Hknown). pose proof G as [G1 [G2 G3]].
          inversion Hout as [Hno E|sg0 ds0 H1 H2 H3 E|sg0 sg2 t ds0 H1 H2 H3 H4 H5 E]; subst result ds err'.
          + exfalso. eapply Hno; eauto.
          + split.
            { apply subst_ext. intros t Ht Hv. apply Huniq; auto. eapply (wf_vars_math db WF); eauto. }
            unfold good. cbn [v_flag v_diags v_err]. unfold flag'. rewrite G1, G2, G3. split; [|split]; auto.
            * destruct (subst (db_isvar db) sg0 (s_math st)) eqn:E'; auto.
              exfalso. eapply subst_ne; eauto.
            * cbn [gated app]. destruct ds0 as [|d ds0]; auto. exfalso.
              assert (Hok : disj_ok db stp st sg0).
              { eapply disj_ok_ext; [exact Hn|exact Ha| |exact Hdis].
                intros t Ht. symmetry. apply Huniq; auto. }
              apply (proj2 (no_violation (length (v_maths v)) st sg0) Hok d).
              apply H3. simpl; auto.
          + exfalso. apply H4. rewrite (Huniq sg2 H2 t H3), (Huniq sg0 H1 t H3). reflexivity. }
        assert (Hstk : stkOf (mkVst (v_maths v ++ [result]) (length (v_maths v) :: skipn nh (v_stack v))
                     (v_diags v ++ ds) err' flag') =
                  result :: map (fun i => nth i (v_maths v) []) (skipn nh (v_stack v))).
        { unfold stkOf. cbn [v_maths v_stack map]. rewrite nth_snoc, stkOf_snoc; auto.
          intros i Hi. apply (vi_stack v HV). eapply In_skipn; eauto. }
        split; [|split; [rewrite app_length; simpl; lia|split; [rewrite Hlstk; exact Hbal|]]].
        * constructor; cbn [v_maths v_stack].
          -- intros j [<-|Hj]; rewrite app_length; simpl; [lia|].
             apply In_skipn in Hj. pose proof (vi_stack v HV j Hj). lia.
          -- intros m Hm. apply in_app_or in Hm.
             destruct Hm as [Hm|[<-|[]]]; [apply (vi_sep v HV); auto|]. exact Hres.
          -- cbn [v_flag]. unfold flag'. pose proof (vi_flag v HV). destruct result; [destruct unk|]; lia.
          -- cbn [v_diags v_err]. intros Hd. apply app_eq_nil in Hd. destruct Hd as [Hd1 Hd2].
             apply Herr0; auto. apply (vi_err v HV); auto.
          -- intros G m Hm. apply Hg in G. destruct G as [G [sg [Hr _]]]. apply in_app_or in Hm.
             destruct Hm as [Hm|[<-|[]]]; [apply (vi_ne v HV G); auto|].
             rewrite Hr. eapply subst_ne; eauto.
        * split; [|split; [|split; [|discriminate]]].
          -- intros Gv'. destruct (Hg Gv') as [G [sg [Hr [Hu [Huniq Hdis]]]]]. split; auto.
             exists result, (result :: map (fun i => nth i (v_maths v) []) (skipn nh (v_stack v))).
             split; [|split; auto].
             rewrite Hr. eapply rs_assert with (es := insts); eauto.
             unfold stkOf, insts. apply firstn_map_rev. exact Hle.
          -- intros G e stk' Hst.
             inversion Hst as [n0 st0 Hn0 Hh0| |n0 st0 es rest sg Hn0 Ha0 Es Hu Huniq Hdis]; subst;
               pose proof Hn as Hn'; unfold stmtAt in Hn', Hn0; rewrite Hn' in Hn0; injection Hn0 as <-.
             ++ unfold isHyp, isAssertion in *. exfalso. destruct Hh0, Ha; congruence.
             ++ assert (es = insts /\ rest = map (fun i => nth i (v_maths v) []) (skipn nh (v_stack v))) as [-> ->].
                { unfold stkOf in Es. rewrite (firstn_map_rev (v_stack v) _ nh Hle) in Es.
                  fold insts in Es. apply app_inv_len in Es.
                  - destruct Es as [Es Er]. split; auto.
                    rewrite <- (rev_involutive es), <- Es, rev_involutive. reflexivity.
                  - rewrite !rev_length, Hli. unfold unifier in Hu. apply Forall2_len in Hu. auto. }
                destruct (Hg2 G sg Hu Huniq Hdis) as [Hr G'].
                split; auto. rewrite Hstk. cbn [v_maths]. rewrite Hr. auto.
          -- cbn [v_flag]. unfold flag'. pose proof (vi_flag v HV). destruct result; [destruct unk|]; lia.
  Qed.

  Lemma run_ok ns l : forall v d',
    VInv v -> balanced db l (length (v_stack v)) = Some d' ->
    (forall j i, nth_error l j = Some (Loc i) -> i < length (v_maths v) + j) ->
    exists F v', (forall fuel, F <= fuel -> verifySteps fuel db stp ns v l = Ok v') /\
      VInv v' /\ length (v_maths v') = length (v_maths v) + length l /\
      length (v_stack v') = d' /\
      (good v' -> good v /\ rpnRun db stp (v_maths v) (stkOf v) l (v_maths v') (stkOf v')) /\
      (good v -> forall vals stk, rpnRun db stp (v_maths v) (stkOf v) l vals stk ->
         good v' /\ v_maths v' = vals /\ stkOf v' = stk) /\
      v_flag v <= v_flag v' /\ (In Unk l -> 1 <= v_flag v').
  Proof.
    induction l as [|x l IH]; intros v d' HV Hb Hloc.
    - exists 0, v. split; [intros; reflexivity|]. split; [auto|].
      simpl in Hb. injection Hb as <-. split; [simpl; lia|]. split; [auto|].
      split; [intros; split; [auto|constructor]|]. split; [|split; [lia|intros []]].
      intros G vals stk H. inversion H; subst. auto.
    - destruct (step_ok ns v x l d' HV Hb) as [F1 [v1 [E1 [HV1 [Hl1 [Hb1 [Hg1 [Hk1 [Hf1 Hu1]]]]]]]]].
      { intros i ->. specialize (Hloc 0 i eq_refl). lia. }
      destruct (IH v1 d' HV1 Hb1) as [F2 [v2 [E2 [HV2 [Hl2 [Hb2 [Hg2 [Hc2 [Hf2 Hu2]]]]]]]]].
      { intros j i Hj. rewrite Hl1. specialize (Hloc (S j) i Hj). lia. }
      exists (max F1 F2), v2. split.
      { intros fuel Hf. simpl. rewrite E1 by lia. cbn [rbind]. apply E2. lia. }
      split; [auto|]. split; [simpl; lia|]. split; [auto|]. split; [|split; [|split]].
      + intros G2. destruct (Hg2 G2) as [G1 R]. apply Hg1 in G1.
        destruct G1 as [G [e [stk' [Hst [Hm Hs]]]]]. split; auto.
        econstructor; [exact Hst|]. rewrite <- Hm, <- Hs. exact R.
      + intros G vals stk R. inversion R as [|? ? ? ? e stk1 ? ? Hst R']; subst.
        destruct (Hk1 G e stk1 Hst) as [G1 [Em Es]]. apply Hc2; auto. rewrite Em, Es. exact R'.
      + lia.
      + intros [->|H]; auto. specialize (Hu1 eq_refl). lia.
  Qed.
End Run.

(* ---------- verifyProof ---------- *)
Section Whole.
  Variable db : dbase.
  Hypothesis WF : wf_db db.
  Let isvar := db_isvar db.

  Lemma verifySteps_balanced stp ns fuel l : forall v v',
    verifySteps fuel db stp ns v l = Ok v' ->
    balanced db l (length (v_stack v)) = Some (length (v_stack v')).
  Proof.
    induction l as [|x l IH]; intros v v' H; simpl in H.
    - injection H as ->. reflexivity.
    - apply rbind_ok in H. destruct H as [v1 [H1 H2]]. apply IH in H2.
      destruct x as [|i|n]; simpl in H1.
      + injection H1 as <-. exact H2.
      + apply rbind_ok in H1. destruct H1 as [m [_ H1]]. injection H1 as <-. exact H2.
      + simpl. apply rbind_ok in H1. destruct H1 as [st [Hn H1]].
        destruct (nth_error (db_stmts db) n) as [st0|]; [|discriminate]. injection Hn as ->.
        destruct (s_type st); try discriminate; try (injection H1 as <-; exact H2);
          (destruct (length (v_stack v) <? length (s_reqHyps st)) eqn:E; [discriminate|];
           apply Nat.ltb_ge in E; rewrite (proj2 (Nat.leb_le _ _) E);
           repeat (apply rbind_ok in H1; let a := fresh in destruct H1 as [a [_ H1]]; try destruct a as [[? ?] ?]);
           injection H1 as <-; simpl in H2; rewrite skipn_length in H2; exact H2).
  Qed.

  Lemma VInv_init : VInv db (mkVst [] [] [] 0 0).
  Proof. constructor; cbn; auto; try lia; try (intros; contradiction). Qed.

  (* what verifyProof returns on a well-formed proof *)
  Lemma verify_core k stp proof sev :
    stmtAt db k stp -> s_type stp = S_p -> sev <= 2 -> wf_proof db proof ->
    exists F st ds err, (forall fuel, F <= fuel -> verifyProof fuel db k proof sev 0 = Ok (st, ds, err)) /\
      (st = 0 /\ ds = [] <-> validProof db stp proof) /\ (In Unk proof -> 1 <= st).
  Proof.
    intros Hk Ht Hsev [Hb Hloc].
    destruct proof as [|x l].
    { simpl in Hb. discriminate. }
    set (proof := x :: l) in *.
    destruct (run_ok db WF k stp Hk (length proof) proof (mkVst [] [] [] 0 0) 1 VInv_init Hb)
      as [F [v [E [HV [Hl [Hs [Hg [Hc [Hf Hu]]]]]]]]].
    { intros j i Hj. simpl. apply (Hloc j i Hj). }
    cbn [v_maths length] in Hl. simpl in Hl.
    set (lst := nth (length proof - 1) (v_maths v) []).
    assert (Hlast : mathOf (length proof) (v_maths v) (length proof - 1) = Ok lst).
    { unfold mathOf. rewrite (nth_error_nth' (v_maths v) []); [reflexivity|]. unfold proof in *. simpl in *. lia. }
    (* the single stack entry is the last step *)
    assert (Hstk : stkOf v = [lst]).
    { assert (Hgen : forall l0 v0 v1 fuel, verifySteps fuel db stp (length proof) v0 l0 = Ok v1 -> l0 <> [] ->
        hd_error (v_stack v1) = Some (length (v_maths v1) - 1)).
      { induction l0 as [|y l0 IHl]; intros v0 v1 fuel H Hne; [congruence|].
        simpl in H. apply rbind_ok in H. destruct H as [v2 [H1 H2]].
        destruct l0 as [|z l0].
        - simpl in H2. injection H2 as <-.
          assert (Hmk : forall m s d e f, hd_error (v_stack (mkVst (v_maths v0 ++ [m]) (length (v_maths v0) :: s) d e f)) =
             Some (length (v_maths (mkVst (v_maths v0 ++ [m]) (length (v_maths v0) :: s) d e f)) - 1)).
          { intros. cbn. rewrite app_length. simpl. f_equal. lia. }
          destruct y as [|i|n]; simpl in H1.
          + injection H1 as <-. apply Hmk.
          + apply rbind_ok in H1. destruct H1 as [m [_ H1]]. injection H1 as <-. apply Hmk.
          + apply rbind_ok in H1. destruct H1 as [st [_ H1]].
            destruct (s_type st); try discriminate; try (injection H1 as <-; apply Hmk);
              (destruct (length (v_stack v0) <? length (s_reqHyps st)); [discriminate|];
               repeat (apply rbind_ok in H1; let a := fresh in destruct H1 as [a [_ H1]]; try destruct a as [[? ?] ?]);
               injection H1 as <-; apply Hmk).
        - eapply IHl; eauto. discriminate. }
      specialize (Hgen proof _ v F (E F (le_n _)) ltac:(unfold proof; discriminate)).
      unfold stkOf. destruct (v_stack v) as [|i [|j r]]; simpl in Hs, Hgen; try discriminate.
      injection Hgen as ->. simpl. unfold lst. rewrite Hl. reflexivity. }
    exists F, (v_flag v),
      (if Nat.eqb (v_flag v) 0 && negb (listEqb (s_math stp) lst)
       then v_diags v ++ gated (v_err v) [DMismatch (length proof - 1)] else v_diags v),
      (if Nat.eqb (v_flag v) 0 && negb (listEqb (s_math stp) lst) then v_err v + 1 else v_err v).
    split; [|split].
    - intros fuel Hfu. unfold verifyProof. unfold stmtAt in Hk. rewrite Hk. cbn [rget rbind].
      rewrite Ht. assert (Es : (2 <? sev) = false) by (apply Nat.ltb_ge; lia). rewrite Es.
      unfold proof at 1. fold proof. rewrite (E fuel Hfu). cbn [rbind].
      rewrite Hs. cbn [Nat.eqb negb]. rewrite Hlast. cbn [rbind].
      destruct (Nat.eqb (v_flag v) 0 && negb (listEqb (s_math stp) lst)); reflexivity.
    - unfold validProof. split.
      + intros [Hf0 Hd]. rewrite Hf0 in Hd. cbn [Nat.eqb andb] in Hd.
        unfold listEqb in Hd. destruct (list_eq_dec Nat.eq_dec (s_math stp) lst) as [Heq|Hne]; cbn [negb] in Hd.
        * assert (G : good v) by (split; [auto|split; [auto|apply (vi_err db v HV); auto]]).
          destruct (Hg G) as [_ R]. exists (v_maths v). rewrite Heq, <- Hstk. exact R.
        * exfalso. apply app_eq_nil in Hd. destruct Hd as [Hd1 Hd2].
          rewrite (vi_err db v HV Hd1) in Hd2. discriminate.
      + intros [vals R]. assert (G0 : good (mkVst [] [] [] 0 0)) by (unfold good; cbn; auto).
        destruct (Hc G0 vals [s_math stp] R) as [[G1 [G2 G3]] [_ Hst]].
        rewrite Hstk in Hst. injection Hst as Hst. split; auto.
        unfold listEqb. rewrite G1, Hst. cbn [Nat.eqb andb].
        destruct (list_eq_dec Nat.eq_dec (s_math stp) (s_math stp)); [auto|congruence].
    - exact Hu.
  Qed.

  (* a valid RPN proof proves its statement *)
  Lemma rpnRun_provable stp (uses : nat -> Prop) l : forall vals stk vals' stk',
    rpnRun db stp vals stk l vals' stk' ->
    (forall n, In (Stm n) l -> uses n) ->
    (forall e, In e vals -> provable db stp uses e) ->
    (forall e, In e stk -> provable db stp uses e) ->
    (forall e, In e vals' -> provable db stp uses e) /\ (forall e, In e stk' -> provable db stp uses e).
  Proof.
    induction l as [|x l IH]; intros vals stk vals' stk' R Hu Hv Hs.
    - inversion R; subst. auto.
    - inversion R as [|? ? ? ? e stk1 ? ? Hst R']; subst.
      assert (H : provable db stp uses e /\ forall e', In e' stk1 -> provable db stp uses e').
      { inversion Hst as [n st Hn Hh|i e0 He|n st es rest sg Hn Ha Es Hun Huq Hd]; subst.
        - assert (P : provable db stp uses (s_math st)).
          { apply der_hyp. exists n, st. split; [apply Hu; simpl; auto|auto]. }
          split; auto. intros e' [<-|H]; auto.
        - assert (P : provable db stp uses e) by (apply Hv; eapply nth_error_In; eauto).
          split; auto. intros e' [<-|H]; auto.
        - assert (P : provable db stp uses (subst (db_isvar db) sg (s_math st))).
          { destruct (hypMaths_exist db WF _ _ Hn Ha) as [maths Hm].
            apply (der_app (db_isvar db) _ _ _ (mkFrame maths (s_reqDisj st) (s_math st)) sg).
            - exists n, st. split; [apply Hu; simpl; auto|]. split; [auto|]. split; [auto|].
              unfold frameOf. simpl. auto.
            - intros h Hh. simpl in Hh. apply (unifier_maths db st maths es sg Hm) in Hun.
              assert (Hin : exists i, In i es /\ subst (db_isvar db) sg h = i).
              { clear -Hun Hh. induction Hun as [|m i ms is E HF IH]; [destruct Hh|].
                destruct Hh as [->|Hh]; [exists i; simpl; auto|].
                destruct (IH Hh) as [i' [H1 H2]]. exists i'. simpl; auto. }
              destruct Hin as [i [Hi ->]]. apply Hs. apply in_or_app. left. apply in_rev in Hi. exact Hi.
            - intros a b Hab. apply Hd. exact Hab. }
          split; auto. intros e' [<-|H]; auto. apply Hs. apply in_or_app; auto. }
      destruct H as [He Hstk1]. eapply IH; [exact R'| | |exact Hstk1].
      + intros n Hn. apply Hu. simpl; auto.
      + intros e' Hin. apply in_app_or in Hin. destruct Hin as [Hin|[<-|[]]]; auto.
  Qed.

  Lemma validProof_provable stp proof : validProof db stp proof ->
    provable db stp (fun n => In (Stm n) proof) (s_math stp).
  Proof.
    intros [vals R].
    destruct (rpnRun_provable stp (fun n => In (Stm n) proof) proof _ _ _ _ R) as [_ H]; auto;
      try (intros e []). apply H. simpl; auto.
  Qed.

  Lemma verify_sound fuel k proof sev err :
    (forall j i, nth_error proof j = Some (Loc i) -> i < j) ->
    verifyProof fuel db k proof sev 0 = Ok (0, [], err) ->
    exists stp, stmtAt db k stp /\ s_type stp = S_p /\ validProof db stp proof.
  Proof.
    intros Hloc H. pose proof H as H0. unfold verifyProof in H0.
    destruct (nth_error (db_stmts db) k) as [stp|] eqn:Hk; [|discriminate]. cbn [rget rbind] in H0.
    destruct (s_type stp) eqn:Ht; try discriminate.
    destruct (2 <? sev) eqn:Es; [injection H0 as -> _; discriminate|].
    apply Nat.ltb_ge in Es. exists stp. split; auto. split; auto.
    destruct proof as [|x l]; [discriminate|].
    apply rbind_ok in H0. destruct H0 as [v [Hv H0]].
    destruct (negb (Nat.eqb (length (v_stack v)) 1)) eqn:E1; [discriminate|].
    apply negb_false_iff, Nat.eqb_eq in E1.
    pose proof (verifySteps_balanced _ _ _ _ _ _ Hv) as Hb. rewrite E1 in Hb.
    destruct (verify_core k stp (x :: l) sev Hk Ht Es (conj Hb Hloc)) as [F [st [ds [er [Hr [Hiff _]]]]]].
    apply (verifyProof_mono fuel (max fuel F)) in H; [|lia|discriminate].
    rewrite (Hr (max fuel F)) in H by lia. injection H as -> -> ->. apply Hiff. auto.
  Qed.
End Whole.

(* ---------- incomplete proofs (no well-formedness needed) ---------- *)
Lemma verifyStep_flag fuel db stp ns v x v' :
  verifyStep fuel db stp ns v x = Ok v' -> (v_flag v <> 0 \/ x = Unk) -> v_flag v' <> 0.
Proof.
  intros H Hf. destruct x as [|i|n]; simpl in H.
  - injection H as <-. cbn [v_flag]. destruct (v_flag v <? 1) eqn:E; [discriminate|].
    apply Nat.ltb_ge in E. lia.
  - apply rbind_ok in H. destruct H as [m [_ H]]. injection H as <-. cbn.
    destruct Hf; [auto|discriminate].
  - destruct Hf as [Hf|Hf]; [|discriminate].
    apply rbind_ok in H. destruct H as [st [_ H]].
    destruct (s_type st); try discriminate; try (injection H as <-; exact Hf);
      (destruct (length (v_stack v) <? length (s_reqHyps st)); [discriminate|];
       apply rbind_ok in H; destruct H as [insts [_ H]];
       apply rbind_ok in H; destruct H as [[[sc ins] unk] [_ H]];
       apply rbind_ok in H; destruct H as [[[result ds] er] [_ H]];
       injection H as <-; cbn [v_flag]; destruct result; [destruct unk; auto|auto]).
Qed.

Lemma verifySteps_flag fuel db stp ns l : forall v v',
  verifySteps fuel db stp ns v l = Ok v' -> (v_flag v <> 0 \/ In Unk l) -> v_flag v' <> 0.
Proof.
  induction l as [|x l IH]; intros v v' H Hf; simpl in H.
  - injection H as <-. destruct Hf as [|[]]; auto.
  - apply rbind_ok in H. destruct H as [v1 [H1 H2]]. apply (IH _ _ H2).
    destruct Hf as [Hf|[Hf|Hf]]; auto; left; eapply verifyStep_flag; eauto.
Qed.

Lemma verify_incomplete fuel db k proof sev e st ds err :
  In Unk proof -> verifyProof fuel db k proof sev e = Ok (st, ds, err) -> st <> 0.
Proof.
  intros Hu H. unfold verifyProof in H. apply rbind_ok in H. destruct H as [stp [_ H]].
  destruct (s_type stp); try (injection H as <- _ _; discriminate).
  destruct (2 <? sev) eqn:E.
  { injection H as <- _ _. apply Nat.ltb_lt in E. lia. }
  destruct proof as [|x l]; [destruct Hu|].
  apply rbind_ok in H. destruct H as [v [Hv H]].
  assert (Hf : v_flag v <> 0) by (eapply verifySteps_flag; eauto).
  destruct (negb _); [discriminate|]. apply rbind_ok in H. destruct H as [lst [_ H]].
  destruct (_ && _); injection H as <- _ _; exact Hf.
Qed.

(* ---------- valid proofs are well formed ---------- *)
Lemma rpnRun_balanced db stp l : forall vals stk vals' stk',
  rpnRun db stp vals stk l vals' stk' ->
  balanced db l (length stk) = Some (length stk') /\
  (forall j i, nth_error l j = Some (Loc i) -> i < length vals + j).
Proof.
  induction l as [|x l IH]; intros vals stk vals' stk' R.
  - inversion R; subst. split; auto. intros [|j] i H; discriminate.
  - inversion R as [|? ? ? ? e stk1 ? ? Hst R']; subst.
    destruct (IH _ _ _ _ R') as [Hb Hl]. split.
    + inversion Hst as [n st Hn Hh|i e0 He|n st es rest sg Hn Ha Es Hun Huq Hd]; subst; simpl.
      * unfold stmtAt in Hn. rewrite Hn. destruct Hh as [E|E]; rewrite E; exact Hb.
      * exact Hb.
      * unfold stmtAt in Hn. rewrite Hn. unfold unifier in Hun. apply Forall2_len in Hun.
        assert (E1 : (length (s_reqHyps st) <=? length (rev es ++ rest)) = true).
        { apply Nat.leb_le. rewrite app_length, rev_length. unfold expr in *. lia. }
        assert (E2 : length (rev es ++ rest) - length (s_reqHyps st) = length rest).
        { rewrite app_length, rev_length. unfold expr in *. lia. }
        destruct Ha as [E|E]; rewrite E, E1, E2; exact Hb.
    + intros [|j] i H.
      * simpl in H. injection H as ->. inversion Hst; subst.
        rewrite Nat.add_0_r. apply nth_error_Some. congruence.
      * simpl in H. apply Hl in H. rewrite app_length in H. simpl in H. lia.
Qed.

Lemma validProof_wf db stp proof : validProof db stp proof -> wf_proof db proof.
Proof.
  intros [vals R]. destruct (rpnRun_balanced _ _ _ _ _ _ _ R) as [H1 H2]. split; auto.
Qed.

(* ---------- derivations have accepted proofs ---------- *)
Lemma floated_unique db st es sg sg' : floated db st ->
  (forall t, In t (s_reqVars st) -> db_isvar db t = true) ->
  unifier db st es sg -> unifier db st es sg' -> forall t, In t (s_reqVars st) -> sg' t = sg t.
Proof.
  intros Hfl Hvr H1 H2 t Ht. destruct (Hfl t Ht) as [h [sh [c [Hh [Hs [Hm Hc]]]]]].
  assert (E : subst (db_isvar db) sg (s_math sh) = subst (db_isvar db) sg' (s_math sh)).
  { unfold unifier in *. revert Hh H1 H2. generalize (s_reqHyps st). intros l Hh H1.
    induction H1 as [|h0 e l es [sh1 [K1 K2]] HF IH]; intros H2; [destruct Hh|].
    inversion H2 as [|? ? ? ? [sh2 [K3 K4]] HF2]; subst.
    destruct Hh as [->|Hh]; [|auto].
    unfold stmtAt in *. rewrite Hs in K1, K3. injection K1 as <-. injection K3 as <-. congruence. }
  rewrite Hm in E. unfold subst in E. simpl in E. rewrite Hc in E.
  rewrite (Hvr t Ht) in E. simpl in E. rewrite !app_nil_r in E. congruence.
Qed.

Section Deriv.
  Variable db : dbase.
  Hypothesis WF : wf_db db.
  Variable stp : stmtRec.
  Variable uses : nat -> Prop.
  Hypothesis FL : forall n st, uses n -> stmtAt db n st -> isAssertion st -> floated db st.

  Lemma rpnRun_app l1 : forall l2 vals stk v1 s1 v2 s2,
    rpnRun db stp vals stk l1 v1 s1 -> rpnRun db stp v1 s1 l2 v2 s2 ->
    rpnRun db stp vals stk (l1 ++ l2) v2 s2.
  Proof.
    induction l1 as [|x l1 IH]; intros l2 vals stk v1 s1 v2 s2 R1 R2; simpl.
    - inversion R1; subst. exact R2.
    - inversion R1; subst. econstructor; eauto.
  Qed.

  Lemma derivable_proof e : provable db stp uses e ->
    exists l, (forall n, In (Stm n) l -> uses n) /\ (~ In Unk l) /\
      forall vals stk, exists vals', rpnRun db stp vals stk l vals' (e :: stk).
  Proof.
    unfold provable. induction 1 as [e [n [st [Hu [Hn [Hh <-]]]]]|f sg [n [st [Hu [Hn [Ha Hf]]]]] Hhyps IH Hdv].
    - exists [Stm n]. split; [intros m [E|[]]; congruence|]. split; [intros [E|[]]; discriminate|].
      intros vals stk. exists (vals ++ [s_math st]). econstructor; [apply rs_hyp; eauto|constructor].
    - destruct Hf as [Hm [Edv Ec]].
      (* prove the hypotheses one after the other *)
      assert (K : forall ms, (forall h, In h ms -> In h (f_hyps f)) ->
        exists l, (forall n, In (Stm n) l -> uses n) /\ (~ In Unk l) /\
          forall vals stk, exists vals', rpnRun db stp vals stk l vals' (rev (map (subst (db_isvar db) sg) ms) ++ stk)).
      { induction ms as [|m ms IHms]; intros Hsub.
        - exists []. split; [intros ? []|]. split; [intros []|]. intros vals stk. exists vals. constructor.
        - destruct (IH m) as [l1 [U1 [N1 R1]]]; [apply Hsub; simpl; auto|].
          destruct IHms as [l2 [U2 [N2 R2]]]; [intros; apply Hsub; simpl; auto|].
          exists (l1 ++ l2). split; [intros n' H; apply in_app_or in H; destruct H; auto|].
          split; [intros H; apply in_app_or in H; tauto|].
          intros vals stk. destruct (R1 vals stk) as [v1 Q1].
          destruct (R2 v1 (subst (db_isvar db) sg m :: stk)) as [v2 Q2]. exists v2.
          simpl. rewrite <- app_assoc. simpl. eapply rpnRun_app; eauto. }
      destruct (K (f_hyps f) (fun h H => H)) as [l [U [N R]]].
      exists (l ++ [Stm n]). split.
      { intros n' H. apply in_app_or in H. destruct H as [H|[H|[]]]; auto. congruence. }
      split; [intros H; apply in_app_or in H; destruct H as [H|[H|[]]]; [tauto|discriminate]|].
      intros vals stk. destruct (R vals stk) as [v1 Q1].
      exists (v1 ++ [subst (db_isvar db) sg (f_concl f)]). eapply rpnRun_app; [exact Q1|].
      econstructor; [|constructor]. rewrite Ec.
      assert (Hun : unifier db st (map (subst (db_isvar db) sg) (f_hyps f)) sg).
      { apply (unifier_maths db st (f_hyps f)); auto. clear. induction (f_hyps f); simpl; constructor; auto. }
      eapply rs_assert; eauto.
      + intros sg' Hsg'. eapply floated_unique; eauto.
        intros t Ht. apply (wf_reqVars db WF n st Hn Ha) in Ht. tauto.
      + intros x y Hxy. apply Hdv. rewrite Edv. exact Hxy.
  Qed.

  Lemma provable_validProof : provable db stp uses (s_math stp) ->
    exists proof, validProof db stp proof /\ (forall n, In (Stm n) proof -> uses n) /\ ~ In Unk proof.
  Proof.
    intros H. destruct (derivable_proof _ H) as [l [U [N R]]]. exists l. split; auto.
    destruct (R [] []) as [v Q]. exists v. exact Q.
  Qed.
End Deriv.

(* ---------- VERIFY PROOF * ---------- *)
Section All.
  Variable db : dbase.
  Hypothesis WF : wf_db db.
  Variable parse : nat -> parsed.

  Lemma verifyLoop_mono fuel cnt : forall i e em msgs e' em' msgs',
    verifyLoop fuel db parse i cnt e em msgs = Ok (e', em', msgs') ->
    (e = true -> e' = true) /\ (exists t, em' = em ++ t) /\ (exists t, msgs' = msgs ++ t).
  Proof.
    induction cnt as [|cnt IH]; intros i e em msgs e' em' msgs' H; simpl in H.
    - injection H as <- <- <-. split; auto. split; exists []; now rewrite app_nil_r.
    - apply rbind_ok in H. destruct H as [st [_ H]].
      destruct (s_type st); try (eapply IH; eassumption).
      apply rbind_ok in H. destruct H as [[e2 ds] [H1 H2]].
      destruct (IH _ _ _ _ _ _ _ H2) as [A1 [[t1 A2] [t2 A3]]].
      split; [|split].
      + intros ->. apply A1. destruct (pr_k (parse i) <? 2).
        * apply rbind_ok in H1. destruct H1 as [[[s d] er] [_ H1]]. injection H1 as <- _. reflexivity.
        * injection H1 as <- _. reflexivity.
      + destruct (Nat.eqb (pr_k (parse i)) 1); rewrite A2; [rewrite <- app_assoc|]; eexists; reflexivity.
      + rewrite A3, <- app_assoc. eexists; reflexivity.
  Qed.

  (* what a clean run tells about every $p statement in the range *)
  Lemma verifyLoop_clean fuel cnt : forall i e em msgs,
    verifyLoop fuel db parse i cnt e em msgs = Ok (false, [], []) ->
    forall n st, i <= n < i + cnt -> stmtAt db n st -> s_type st = S_p ->
      pr_k (parse n) = 0 /\ exists status err,
        verifyProof fuel db n (pr_proof (parse n)) (pr_sev (parse n)) (pr_err (parse n)) = Ok (status, [], err) /\
        status < 2.
  Proof.
    induction cnt as [|cnt IH]; intros i e em msgs H n st Hn Hs Ht; [lia|].
    simpl in H. apply rbind_ok in H. destruct H as [st0 [H0 H]].
    destruct (Nat.eq_dec n i) as [->|Hne].
    - unfold stmtAt in Hs. rewrite Hs in H0. injection H0 as <-. rewrite Ht in H.
      apply rbind_ok in H. destruct H as [[e2 ds] [H1 H2]].
      destruct (verifyLoop_mono _ _ _ _ _ _ _ _ _ H2) as [A1 [[t1 A2] [t2 A3]]].
      symmetry in A2, A3. apply app_eq_nil in A2. apply app_eq_nil in A3. destruct A2 as [A2 _], A3 as [A3 _].
      apply app_eq_nil in A3. destruct A3 as [_ ->].
      assert (He2 : e2 = false) by (destruct e2; auto; specialize (A1 eq_refl); discriminate).
      destruct (pr_k (parse i) <? 2) eqn:Ek.
      + apply Nat.ltb_lt in Ek.
        assert (pr_k (parse i) = 0).
        { destruct (Nat.eqb (pr_k (parse i)) 1) eqn:E1.
          - apply app_eq_nil in A2. destruct A2; discriminate.
          - apply Nat.eqb_neq in E1. lia. }
        split; auto. apply rbind_ok in H1. destruct H1 as [[[s d] er] [Hv H1]].
        injection H1 as E1 E2. exists s, er. destruct d; [|discriminate]. split; auto.
        rewrite He2 in E1. apply orb_false_iff in E1. destruct E1 as [_ E1].
        destruct s as [|[|s]]; [lia|lia|discriminate].
      + apply Nat.ltb_ge in Ek. exfalso. injection H1 as E1. rewrite He2 in E1.
        apply orb_false_iff in E1. destruct E1 as [_ E1].
        destruct (pr_k (parse i)) as [|[|q]]; [lia|lia|discriminate].
    - assert (Hr : i + 1 <= n < i + 1 + cnt) by lia.
      destruct (s_type st0); try (eapply IH; [exact H| |exact Hs|exact Ht]; lia).
      apply rbind_ok in H. destruct H as [[e2 ds] [H1 H2]].
      eapply IH; [exact H2| |exact Hs|exact Ht]; lia.
  Qed.
End All.

Lemma verifyStep_flag1 fuel db stp ns v x v' :
  verifyStep fuel db stp ns v x = Ok v' -> x <> Unk -> v_flag v <> 1 -> v_flag v' <> 1.
Proof.
  intros H Hx Hf. destruct x as [|i|n]; simpl in H; [congruence| |].
  - apply rbind_ok in H. destruct H as [m [_ H]]. injection H as <-. exact Hf.
  - apply rbind_ok in H. destruct H as [st [_ H]].
    destruct (s_type st); try discriminate; try (injection H as <-; exact Hf);
      (destruct (length (v_stack v) <? length (s_reqHyps st)); [discriminate|];
       apply rbind_ok in H; destruct H as [insts [_ H]];
       apply rbind_ok in H; destruct H as [[[sc ins] unk] [_ H]];
       apply rbind_ok in H; destruct H as [[[result ds] er] [_ H]];
       injection H as <-; cbn [v_flag]; destruct result; [destruct unk; auto|auto]).
Qed.

Lemma verify_status1 fuel db k proof sev e st ds err :
  ~ In Unk proof -> verifyProof fuel db k proof sev e = Ok (st, ds, err) -> st <> 1.
Proof.
  intros Hu H. unfold verifyProof in H. apply rbind_ok in H. destruct H as [stp [_ H]].
  destruct (s_type stp); try (injection H as <- _ _; discriminate).
  destruct (2 <? sev) eqn:E.
  { injection H as <- _ _. apply Nat.ltb_lt in E. lia. }
  destruct proof as [|x l]; [injection H as <- _ _; discriminate|].
  apply rbind_ok in H. destruct H as [v [Hv H]].
  assert (Hf : v_flag v <> 1).
  { revert Hv Hu. generalize (length (x :: l)). intros ns.
    assert (G : forall l v0 v1, verifySteps fuel db stp ns v0 l = Ok v1 -> ~ In Unk l ->
              v_flag v0 <> 1 -> v_flag v1 <> 1).
    { induction l0 as [|y l0 IH]; intros v0 v1 H1 H2 H3; simpl in H1.
      - injection H1 as <-. exact H3.
      - apply rbind_ok in H1. destruct H1 as [v2 [H4 H5]]. eapply IH; [exact H5| |].
        + intros Hc. apply H2. simpl; auto.
        + eapply verifyStep_flag1; [exact H4| |exact H3]. intros ->. apply H2. simpl; auto. }
    intros Hv Hu. eapply G; [exact Hv|exact Hu|]. cbn. discriminate. }
  destruct (negb _); [discriminate|]. apply rbind_ok in H. destruct H as [lst [_ H]].
  destruct (_ && _); injection H as <- _ _; exact Hf.
Qed.

(* what parseProof guarantees when it returns 0 (proved for the parser model in
   ParProofs.v): no unknown step, local references point backwards, assertions
   used come before the statement, no error recorded *)
Definition parse_ok (db : dbase) (n : nat) (pr : parsed) : Prop :=
  pr_k pr = 0 ->
  ~ In Unk (pr_proof pr) /\
  (forall j i, nth_error (pr_proof pr) j = Some (Loc i) -> i < j) /\
  (forall m sm, In (Stm m) (pr_proof pr) -> stmtAt db m sm -> isAssertion sm -> m < n) /\
  (forall m sm st, In (Stm m) (pr_proof pr) -> stmtAt db m sm -> isHyp sm -> stmtAt db n st ->
     In m (s_reqHyps st) \/ In m (s_optHyps st)) /\
  pr_err pr = 0.

Lemma verifyProofs_clean db parse fuel :
  wf_db db -> (forall n st, stmtAt db n st -> s_type st = S_p -> parse_ok db n (parse n)) ->
  verifyProofs fuel db parse = Ok (true, []) ->
  forall n st, 1 <= n -> stmtAt db n st -> s_type st = S_p ->
    validProof db st (pr_proof (parse n)) /\
    (forall m sm, In (Stm m) (pr_proof (parse n)) -> stmtAt db m sm -> isHyp sm ->
       In m (s_reqHyps st) \/ In m (s_optHyps st)) /\
    (forall m sm, In (Stm m) (pr_proof (parse n)) -> stmtAt db m sm -> isAssertion sm -> m < n).
Proof.
  intros WF Hp H n st Hn Hs Ht. unfold verifyProofs in H.
  apply rbind_ok in H. destruct H as [[[e em] msgs] [H1 H2]].
  injection H2 as E1 E2. subst msgs. destruct em; [|discriminate]. destruct e; [discriminate|].
  assert (Hlen : n < length (db_stmts db)) by (apply nth_error_Some; unfold stmtAt in Hs; congruence).
  destruct (verifyLoop_clean db parse fuel _ _ _ _ _ H1 n st) as [Hk [status [err [Hv Hst]]]]; auto; [lia|].
  destruct (Hp n st Hs Ht Hk) as [P1 [P2 [P3 [P5 P4]]]]. rewrite P4 in Hv.
  pose proof (verify_status1 _ _ _ _ _ _ _ _ _ P1 Hv) as Hs1.
  assert (status = 0) as -> by lia.
  destruct (verify_sound db WF _ _ _ _ _ P2 Hv) as [st' [Hs' [_ Hval]]].
  unfold stmtAt in *. assert (st' = st) as -> by congruence. split; auto. split; eauto.
Qed.

Lemma verifyProofs_entailed db parse fuel :
  wf_db db -> (forall n st, stmtAt db n st -> s_type st = S_p -> parse_ok db n (parse n)) ->
  (forall st, stmtAt db 0 st -> ~ isAssertion st) ->
  verifyProofs fuel db parse = Ok (true, []) ->
  forall n st, stmtAt db n st -> isAssertion st -> entailed db n.
Proof.
  intros WF Hp H0 H n. induction n as [n IH] using (well_founded_induction lt_wf). intros st Hs Ha.
  destruct Ha as [Ha|Ha].
  - eapply ent_axiom; eauto.
  - assert (1 <= n).
    { destruct n; [|lia]. exfalso. eapply H0; eauto. right; auto. }
    destruct (verifyProofs_clean db parse fuel WF Hp H n st) as [Hv [Hhy Hlt]]; auto.
    apply ent_theorem with (st := st) (uses := fun m => In (Stm m) (pr_proof (parse n))); auto.
    + intros m sm Hm Hsm Ham. apply IH with (st := sm); auto. eapply Hlt; eauto.
    + apply validProof_provable; auto.
Qed.

(* ---------- step level summaries ---------- *)
Section StepSummary.
  Variable db : dbase.
  Hypothesis WF : wf_db db.
  Variables (k : nat) (stp : stmtRec) (n : nat) (ss : stmtRec) (insts : list (list nat)) (step : nat).
  Hypothesis Hk : stmtAt db k stp.
  Hypothesis Hn : stmtAt db n ss.
  Hypothesis Ha : isAssertion ss.
  Hypothesis Hlen : length insts = length (s_reqHyps ss).
  Hypothesis Hsf : forall i, In i insts -> ~ In (db_sep db) i.

  Lemma known_existsb : (forall i, In i insts -> i <> []) -> existsb isnil insts = false.
  Proof.
    intros H. destruct (existsb isnil insts) eqn:E; auto. apply existsb_exists in E.
    destruct E as [i [Hi E]]. destruct i; [|discriminate]. exfalso. eapply H; eauto.
  Qed.

  Lemma step_known err : (forall i, In i insts -> i <> []) ->
    exists F result ds err', (forall fuel, F <= fuel ->
        stepCall fuel db stp ss n insts step err = Ok (result, ds, err')) /\
      stepOutcome db stp ss insts step n err (result, ds, err').
  Proof.
    intros Hne. destruct (stepCall_spec db WF stp k ss n insts step err Hk Hn Ha Hlen Hsf)
      as [F [[[result ds] err'] [H1 [_ [_ [H2 _]]]]]].
    exists F, result, ds, err'. split; auto. apply H2. apply known_existsb. exact Hne.
  Qed.

  Lemma unifier_exact err : (forall i, In i insts -> i <> []) ->
    exists F result ds err', (forall fuel, F <= fuel ->
        stepCall fuel db stp ss n insts step err = Ok (result, ds, err')) /\
      ((result = [] /\ (forall sg, ~ unifier db ss insts sg) /\ err' = err + 1 /\
          (err = 0 -> ds = [DNoUnify step n])) \/
       (result <> [] /\ (forall s m, ~ In (DNoUnify s m) ds) /\ exists sg, unifier db ss insts sg /\
          result = subst (db_isvar db) sg (s_math ss) /\
          (forall t, In t (s_reqVars ss) -> ~ In (db_sep db) (sg t)))).
  Proof.
    intros Hne. destruct (step_known err Hne) as [F [result [ds [err' [H1 H2]]]]].
    exists F, result, ds, err'. split; auto.
    assert (Hsep : forall sg, unifier db ss insts sg -> forall t, In t (s_reqVars ss) -> ~ In (db_sep db) (sg t)).
    { intros sg Hu t Ht. apply (wf_reqVars db WF n ss Hn Ha) in Ht.
      destruct Ht as [Hv [h [sh [Hh [Hs Hin]]]]].
      destruct (hypMaths_exist db WF n ss Hn Ha) as [maths Hm].
      apply (unifier_maths db ss maths insts sg Hm) in Hu.
      eapply unif_sepfree; eauto. eapply hypMaths_In'; eauto. }
    assert (Hgn : forall e l (s m : nat), In (DNoUnify s m) (gated e l) -> In (DNoUnify s m) l).
    { intros e l s m. destruct e; simpl; tauto. }
    inversion H2 as [Hno E|sg ds0 G1 G2 G3 E|sg sg2 t ds0 G1 G2 G3 G4 G5 E]; subst.
    - left. split; auto. split; auto. split; auto. intros ->. reflexivity.
    - right. split; [eapply subst_ne; eauto|]. split.
      + intros s m Hc. apply Hgn in Hc. apply G3 in Hc.
        destruct Hc as (x&y&a&b&_&_&_&_&_&[[_ Hc]|(_&_&_&_&_&Hc)]); discriminate.
      + exists sg. auto.
    - right. split; [eapply subst_ne; eauto|]. split.
      + intros s m Hc. apply in_app_or in Hc. destruct Hc as [Hc|Hc].
        * apply Hgn in Hc. apply G5 in Hc.
          destruct Hc as (x&y&a&b&_&_&_&_&_&[[_ Hc]|(_&_&_&_&_&Hc)]); discriminate.
        * apply Hgn in Hc. destruct Hc as [Hc|[]]. discriminate.
      + exists sg2. auto.
  Qed.

  Lemma ambiguity_detected : (forall i, In i insts -> i <> []) ->
    exists F result ds err', (forall fuel, F <= fuel ->
        stepCall fuel db stp ss n insts step 0 = Ok (result, ds, err')) /\
      (In (DNotUnique step) ds <->
       exists sg sg2 t, unifier db ss insts sg /\ unifier db ss insts sg2 /\
         In t (s_reqVars ss) /\ sg t <> sg2 t).
  Proof.
    intros Hne. destruct (step_known 0 Hne) as [F [result [ds [err' [H1 H2]]]]].
    exists F, result, ds, err'. split; auto.
    inversion H2 as [Hno E|sg ds0 G1 G2 G3 E|sg sg2 t ds0 G1 G2 G3 G4 G5 E]; subst; cbn [gated].
    - split; [intros [H|[]]; discriminate|]. intros (sg&sg2&t&Hu&_). exfalso. eapply Hno; eauto.
    - split.
      + intros Hc. apply G3 in Hc.
        destruct Hc as (x&y&a&b&_&_&_&_&_&[[_ Hc]|(_&_&_&_&_&Hc)]); discriminate.
      + intros (s1&s2&t&Hu1&Hu2&Ht&Hd). exfalso. apply Hd. rewrite (G2 s1), (G2 s2); auto.
    - split.
      + intros _. exists sg, sg2, t. auto.
      + intros _. apply in_or_app. simpl. auto.
  Qed.

  (* with unknown hypotheses: a result is produced only when it is forced *)
  Lemma ambiguity_unknown err : In [] insts ->
    exists F result ds err', (forall fuel, F <= fuel ->
        stepCall fuel db stp ss n insts step err = Ok (result, ds, err')) /\
      (result <> [] <->
         (forall t, In t (s_reqVars ss) -> determined db ss insts t) /\
         exists sg, punifier db ss insts sg /\
           forall sg', punifier db ss insts sg' -> forall t, In t (s_reqVars ss) -> sg' t = sg t) /\
      (result <> [] -> exists sg, punifier db ss insts sg /\
           result = subst (db_isvar db) sg (s_math ss)).
  Proof.
    intros Hnil. destruct (stepCall_spec db WF stp k ss n insts step err Hk Hn Ha Hlen Hsf)
      as [F [[[result ds] err'] [H1 [_ [_ [_ H2]]]]]].
    exists F, result, ds, err'. split; auto.
    assert (Hu : existsb isnil insts = true).
    { apply existsb_exists. exists []. auto. }
    specialize (H2 Hu).
    assert (Hdet : forall sg, punifier db ss insts sg ->
       (exists t, In t (s_reqVars ss) /\ ~ determined db ss insts t) ->
       exists sg', punifier db ss insts sg' /\ exists t, In t (s_reqVars ss) /\ sg' t <> sg t).
    { intros sg Hsg [t [Ht Hd]].
      destruct (hypMaths_exist db WF n ss Hn Ha) as [maths Hm].
      assert (Hlm : length maths = length insts).
      { unfold hypMaths in Hm. apply Forall2_len in Hm. lia. }
      exists (fun u => if Nat.eqb u t then 0 :: sg t else sg u). split.
      - apply (punifier_mask db ss maths insts _ Hm Hlm).
        apply (punifier_mask db ss maths insts _ Hm Hlm) in Hsg.
        rewrite (mask_determined db ss maths insts t Hm Hlm) in Hd.
        revert Hd. revert Hsg. generalize (mask maths insts) as ms0, insts as is0. intros ms0 is0 Hsg.
        induction Hsg as [|m i ms is E HF IH]; intros Hd; constructor.
        + rewrite <- E. apply subst_ext. intros u Hu1 Hu2.
          destruct (Nat.eqb u t) eqn:Eu; auto. apply Nat.eqb_eq in Eu. subst u.
          exfalso. apply Hd. exists m. simpl; auto.
        + apply IH. intros [m' [H3 H4]]. apply Hd. exists m'. simpl; auto.
      - exists t. split; auto. rewrite Nat.eqb_refl. intros Hc.
        apply (f_equal (@length nat)) in Hc. simpl in Hc. lia. }
    inversion H2 as [t Ht Hd E|Hno E|sg ds0 G1 G2 G3 E|sg sg2 t ds0 G1 G2 G3 G4 G5 E]; subst.
    - split; [|tauto]. split; [tauto|]. intros [Hall _]. exfalso. auto.
    - split; [|tauto]. split; [tauto|]. intros [_ [sg [Hp _]]]. exfalso. eapply Hno; eauto.
    - split; [|eauto]. split.
      + intros _. split; [|eauto]. intros t Ht.
        destruct (hypMaths_exist db WF n ss Hn Ha) as [maths Hm].
        assert (Hlm : length maths = length insts).
        { unfold hypMaths in Hm. apply Forall2_len in Hm. lia. }
        rewrite (mask_determined db ss maths insts t Hm Hlm).
        destruct (existsb (fun m => memb t m) (mask maths insts)) eqn:Ex.
        * apply existsb_exists in Ex. destruct Ex as [m [K1 K2]]. exists m. split; auto. apply memb_In; auto.
        * exfalso. destruct (Hdet sg G1) as [sg' [K1 [u [K2 K3]]]].
          { exists t. split; auto. rewrite (mask_determined db ss maths insts t Hm Hlm).
            intros [m [K1 K2]]. assert (existsb (fun m => memb t m) (mask maths insts) = true).
            { apply existsb_exists. exists m. split; auto. apply memb_In; auto. }
            congruence. }
          apply K3. apply G2; auto.
      + intros _. eapply subst_ne; eauto.
    - split; [|tauto]. split; [tauto|]. intros [_ [s0 [Hp Huq]]]. exfalso. apply G4.
      rewrite (Huq sg2), (Huq sg); auto.
  Qed.

  Definition isDisj (d : diag) : Prop :=
    match d with DDisjCommon _ _ _ _ | DDisjMissing _ _ _ _ _ => True | _ => False end.

  Lemma disj_reported : (forall i, In i insts -> i <> []) ->
    (exists sg, unifier db ss insts sg) ->
    exists F result ds err' sg, (forall fuel, F <= fuel ->
        stepCall fuel db stp ss n insts step 0 = Ok (result, ds, err')) /\
      unifier db ss insts sg /\
      (forall d, isDisj d -> (In d ds <->
         violation (db_isvar db) step (s_reqDisj stp) (s_optDisj stp) (s_reqDisj ss) sg d)) /\
      ((forall d, isDisj d -> ~ In d ds) <-> disj_ok db stp ss sg).
  Proof.
    intros Hne [sg1 Hsg1]. destruct (step_known 0 Hne) as [F [result [ds [err' [H1 H2]]]]].
    assert (Hv : forall sg d, violation (db_isvar db) step (s_reqDisj stp) (s_optDisj stp) (s_reqDisj ss) sg d -> isDisj d).
    { intros sg d (x&y&a&b&_&_&_&_&_&[[_ Hc]|(_&_&_&_&_&Hc)]); subst d; exact I. }
    assert (Hiff : forall sg ds, (forall d, isDisj d -> (In d ds <->
         violation (db_isvar db) step (s_reqDisj stp) (s_optDisj stp) (s_reqDisj ss) sg d)) ->
      ((forall d, isDisj d -> ~ In d ds) <-> disj_ok db stp ss sg)).
    { intros sg ds1 HH. rewrite <- (no_violation db stp step ss sg). split.
      - intros K d Hd. apply (K d (Hv _ _ Hd)). apply HH; eauto.
      - intros K d Hd Hin. apply (K d). apply HH; auto. }
    inversion H2 as [Hno E|sg ds0 G1 G2 G3 E|sg sg2 t ds0 G1 G2 G3 G4 G5 E]; subst.
    - exfalso. eapply Hno; eauto.
    - eexists F, _, _, _, sg. split; [exact H1|].
      split; auto.
    - eexists F, _, _, _, sg. split; [exact H1|].
      split; auto. cbn [gated] in *. assert (HH : forall d, isDisj d -> (In d (ds0 ++ [DNotUnique step]) <->
         violation (db_isvar db) step (s_reqDisj stp) (s_optDisj stp) (s_reqDisj ss) sg d)).
      { intros d Hd. rewrite in_app_iff, G5. split; [|auto]. intros [H|[H|[]]]; auto. subst d. destruct Hd. }
      split; auto.
  Qed.
End StepSummary.

(* verifyStep on an assertion is stepCall plus bookkeeping *)
Lemma verifyStep_assert fuel db stp ns v n st insts result ds err' :
  stmtAt db n st -> isAssertion st -> length (s_reqHyps st) <= length (v_stack v) ->
  mapRes (mathOf ns (v_maths v)) (rev (firstn (length (s_reqHyps st)) (v_stack v))) = Ok insts ->
  stepCall fuel db stp st n insts (length (v_maths v)) (v_err v) = Ok (result, ds, err') ->
  exists flag, verifyStep fuel db stp ns v (Stm n) =
    Ok (mkVst (v_maths v ++ [result]) (length (v_maths v) :: skipn (length (s_reqHyps st)) (v_stack v))
          (v_diags v ++ ds) err' flag).
Proof.
  intros Hn Ha Hle Hm Hc. unfold verifyStep. unfold stmtAt in Hn. rewrite Hn. cbn [rget rbind].
  apply Nat.ltb_ge in Hle. unfold stepCall in Hc. apply rbind_ok in Hc.
  destruct Hc as [[[sc ins] unk] [Hb Hc]].
  destruct Ha as [E|E]; rewrite E, Hle, Hm; cbn [rbind]; rewrite Hb; cbn [rbind]; rewrite Hc;
    cbn [rbind]; eexists; reflexivity.
Qed.

Lemma valid_accepted db k stp proof sev :
  wf_db db -> stmtAt db k stp -> s_type stp = S_p -> sev <= 2 -> validProof db stp proof ->
  exists F, forall fuel, F <= fuel -> exists err, verifyProof fuel db k proof sev 0 = Ok (0, [], err).
Proof.
  intros WF Hk Ht Hs Hv.
  destruct (verify_core db WF k stp proof sev Hk Ht Hs (validProof_wf _ _ _ Hv))
    as [F [st [ds [err [H1 [H2 _]]]]]].
  exists F. intros fuel Hf. exists err. rewrite (H1 fuel Hf). apply H2 in Hv. destruct Hv as [-> ->]. auto.
Qed.

Lemma derivable_accepted db k stp sev (uses : nat -> Prop) :
  wf_db db -> stmtAt db k stp -> s_type stp = S_p -> sev <= 2 ->
  (forall n st, uses n -> stmtAt db n st -> isAssertion st -> floated db st) ->
  provable db stp uses (s_math stp) ->
  exists proof F, (forall n, In (Stm n) proof -> uses n) /\
    forall fuel, F <= fuel -> exists err, verifyProof fuel db k proof sev 0 = Ok (0, [], err).
Proof.
  intros WF Hk Ht Hs Hfl Hp. destruct (provable_validProof db WF stp uses Hfl Hp) as [proof [Hv [Hu _]]].
  destruct (valid_accepted db k stp proof sev WF Hk Ht Hs Hv) as [F HF]. exists proof, F. auto.
Qed.

(* ---------- "cannot be unified" always raises the status ---------- *)
Lemma dvPair_noU step x y a b req opt s m : ~ In (DNoUnify s m) (dvPair step x y a b req opt).
Proof.
  unfold dvPair. destruct (Nat.eqb a b); [intros [H|[]]; discriminate|].
  destruct (_ || _); [intros []|intros [H|[]]; discriminate].
Qed.

Lemma dvCheck_noU isvar step vars inst asg req opt s m : forall pairs ds,
  dvCheck isvar step vars inst asg req opt pairs = Ok ds -> ~ In (DNoUnify s m) ds.
Proof.
  assert (HB : forall x y a r o bs, ~ In (DNoUnify s m) (dvScanB isvar step x y a r o bs)).
  { intros x y a r o bs Hc. unfold dvScanB in Hc. apply in_flat_map in Hc. destruct Hc as [b [_ Hc]].
    destruct (isvar b); [eapply dvPair_noU; eauto|destruct Hc]. }
  induction pairs as [|[x y] pairs IH]; intros ds H; simpl in H.
  - injection H as <-. auto.
  - destruct (indexOf x vars); [|discriminate]. destruct (indexOf y vars); [|discriminate].
    destruct (asgGet asg n) as [[? ?]|]; [|discriminate]. destruct (asgGet asg n0) as [[? ?]|]; [|discriminate].
    apply rbind_ok in H. destruct H as [rest [H1 H2]]. injection H2 as <-.
    intros Hc. apply in_app_or in Hc. destruct Hc as [Hc|Hc]; [|eapply IH; eauto].
    unfold dvScanA in Hc. apply in_flat_map in Hc. destruct Hc as [a [_ Hc]].
    destruct (isvar a); [|destruct Hc]. destruct (_ <? _); eapply HB; eauto.
Qed.

Lemma assignVar_noU fuel db sc ins n ss stp step unk err result ds err' s m :
  assignVar fuel db sc ins n ss stp step unk err = Ok (result, ds, err') ->
  In (DNoUnify s m) ds -> result = [].
Proof.
  unfold assignVar. intros H Hin.
  destruct (negb _).
  { destruct unk; [injection H as <- <- <-; auto|].
    destruct (Nat.eqb err 0); [discriminate|]. injection H as <- <- <-. auto. }
  apply rbind_ok in H. destruct H as [[s0|] [_ H]]; [|injection H as <- _ _; auto].
  destruct (negb _); [discriminate|].
  apply rbind_ok in H. destruct H as [dv [Hdv H]]. apply rbind_ok in H. destruct H as [res0 [_ H]].
  assert (Hg : ~ In (DNoUnify s m) (gated err dv)).
  { destruct err; simpl; auto. eapply dvCheck_noU; eauto. }
  apply rbind_ok in H. destruct H as [[s1|] [_ H]]; [|injection H as _ <- _; contradiction].
  apply rbind_ok in H. destruct H as [[s2|] [_ H]]; [|injection H as _ <- _; contradiction].
  destruct (negb _); [discriminate|]. destruct unk; [injection H as <- _ _; auto|].
  apply rbind_ok in H. destruct H as [r2 [_ H]]. injection H as _ <- _.
  apply in_app_or in Hin. destruct Hin as [Hin|Hin]; [contradiction|].
  destruct err; simpl in Hin; [destruct Hin as [E|[]]; discriminate|destruct Hin].
Qed.

Lemma bigHyps_unk db : forall hyps insts sc ins unk,
  bigHyps db hyps insts = Ok (sc, ins, unk) -> (forall i, In i insts -> i <> []) -> unk = false.
Proof.
  induction hyps as [|h hyps IH]; intros [|i insts] sc ins unk H Hne; simpl in H; try discriminate.
  - injection H as _ _ <-. auto.
  - apply rbind_ok in H. destruct H as [[[sc1 ins1] u1] [H1 H]].
    assert (u1 = false) by (eapply IH; eauto; intros; apply Hne; simpl; auto).
    destruct i as [|c i]; [exfalso; apply (Hne []); simpl; auto|].
    apply rbind_ok in H. destruct H as [st [_ H]]. injection H as _ _ <-. auto.
Qed.

Record NUInv (v : vst) : Prop := {
  nu_stack : forall i, In i (v_stack v) -> i < length (v_maths v);
  nu_flag : v_flag v = 0 \/ v_flag v = 2;
  nu_ne : v_flag v = 0 -> forall m, In m (v_maths v) -> m <> [];
  nu_no : v_flag v = 0 -> forall s m, ~ In (DNoUnify s m) (v_diags v) }.

Lemma verifyStep_NU fuel db stp ns v x v' : wf_db db ->
  verifyStep fuel db stp ns v x = Ok v' -> x <> Unk ->
  (forall i, x = Loc i -> i < length (v_maths v)) ->
  NUInv v -> NUInv v' /\ length (v_maths v') = S (length (v_maths v)).
Proof.
  intros WF H Hx Hl [I1 I2 I3 I4]. destruct x as [|i|n]; [congruence| |]; simpl in H.
  - unfold mathOf in H. specialize (Hl i eq_refl).
    destruct (nth_error (v_maths v) i) as [m|] eqn:E; [|apply nth_error_None in E; lia].
    cbn [rbind] in H. injection H as <-. cbn [v_maths]. split; [|rewrite app_length; simpl; lia].
    constructor; cbn [v_stack v_maths v_flag v_diags]; auto.
    + intros j [<-|Hj]; rewrite app_length; simpl; [lia|]. apply I1 in Hj. lia.
    + intros Hf m' Hm'. apply in_app_or in Hm'. destruct Hm' as [Hm'|[<-|[]]]; [auto|].
      apply nth_error_In in E. auto.
  - destruct (nth_error (db_stmts db) n) as [st|] eqn:En; [|discriminate]. cbn [rget rbind] in H.
    assert (Hhyp : isHyp st -> forall v2, Ok (mkVst (v_maths v ++ [s_math st]) (length (v_maths v) :: v_stack v) (v_diags v)
                (v_err v) (v_flag v)) = Ok v2 -> NUInv v2 /\ length (v_maths v2) = S (length (v_maths v))).
    { intros Hh v2 E. injection E as <-. cbn [v_maths]. split; [|rewrite app_length; simpl; lia].
      constructor; cbn [v_stack v_maths v_flag v_diags]; auto.
      - intros j [<-|Hj]; rewrite app_length; simpl; [lia|]. apply I1 in Hj. lia.
      - intros Hf m' Hm'. apply in_app_or in Hm'. destruct Hm' as [Hm'|[<-|[]]]; [auto|].
        destruct (wf_head db WF n st En (or_introl Hh)) as [c [r [-> _]]]. discriminate. }
    assert (Hass : forall v2,
         (if length (v_stack v) <? length (s_reqHyps st) then UB
          else
            do insts <- mapRes (mathOf ns (v_maths v)) (rev (firstn (length (s_reqHyps st)) (v_stack v)));
            do r <- bigHyps db (s_reqHyps st) insts;
            let '(sc, ins, unk) := r in
            do a <- assignVar fuel db (db_sep db :: sc) (db_sep db :: ins) n st stp (length (v_maths v)) unk
                      (v_err v);
            let '(result, ds, err') := a in
            let flag' := match result with
                         | [] => if unk then v_flag v else 2
                         | _ => v_flag v
                         end in
            Ok (mkVst (v_maths v ++ [result]) (length (v_maths v) :: skipn (length (s_reqHyps st)) (v_stack v))
                  (v_diags v ++ ds) err' flag')) = Ok v2 -> NUInv v2 /\ length (v_maths v2) = S (length (v_maths v))).
    { intros v2 E. destruct (_ <? _); [discriminate|].
      set (l := rev (firstn _ _)) in *.
      assert (Hlb : forall i, In i l -> i < length (v_maths v)).
      { intros i Hi. apply I1. unfold l in Hi. apply in_rev in Hi.
        rewrite <- (firstn_skipn (length (s_reqHyps st)) (v_stack v)). apply in_or_app; auto. }
      rewrite (mapRes_mathOf ns (v_maths v) l Hlb) in E. cbn [rbind] in E.
      apply rbind_ok in E. destruct E as [[[sc ins] unk] [Eb E]].
      apply rbind_ok in E. destruct E as [[[result ds] err'] [Ea E]]. injection E as <-.
      cbn [v_maths]. split; [|rewrite app_length; simpl; lia].
      assert (Hunk : v_flag v = 0 -> unk = false).
      { intros Hf. eapply bigHyps_unk; eauto. intros i Hi. apply in_map_iff in Hi.
        destruct Hi as [j [<- Hj]]. apply I3; auto. apply nth_In. auto. }
      constructor; cbn [v_stack v_maths v_flag v_diags].
      - intros j [<-|Hj]; rewrite app_length; simpl; [lia|].
        assert (j < length (v_maths v)); [|lia]. apply I1.
        rewrite <- (firstn_skipn (length (s_reqHyps st)) (v_stack v)). apply in_or_app; auto.
      - destruct result; [destruct unk|]; auto.
      - intros Hf m' Hm'. apply in_app_or in Hm'. destruct result as [|c r].
        + destruct unk; [|discriminate]. specialize (Hunk Hf). discriminate.
        + destruct Hm' as [Hm'|[<-|[]]]; [auto|discriminate].
      - intros Hf s m Hc. apply in_app_or in Hc. destruct result as [|c r].
        + destruct unk; [|discriminate]. specialize (Hunk Hf). discriminate.
        + destruct Hc as [Hc|Hc]; [eapply I4; eauto|].
          apply (assignVar_noU _ _ _ _ _ _ _ _ _ _ _ _ _ _ _ Ea) in Hc. discriminate. }
    destruct (s_type st) eqn:Et; try discriminate; auto; apply Hhyp; auto; unfold isHyp; auto.
Qed.

Lemma verifySteps_NU fuel db stp ns : wf_db db -> forall l v v',
  verifySteps fuel db stp ns v l = Ok v' -> ~ In Unk l ->
  (forall j i, nth_error l j = Some (Loc i) -> i < length (v_maths v) + j) ->
  NUInv v -> NUInv v'.
Proof.
  intros WF. induction l as [|x l IH]; intros v v' H Hu Hl I; simpl in H.
  - injection H as <-. exact I.
  - apply rbind_ok in H. destruct H as [v1 [H1 H2]].
    destruct (verifyStep_NU _ _ _ _ _ _ _ WF H1) as [I1 L1]; auto.
    { intros ->. apply Hu. simpl; auto. }
    { intros i ->. specialize (Hl 0 i eq_refl). lia. }
    apply (IH v1); auto.
    + intros Hc. apply Hu. simpl; auto.
    + intros j i Hj. specialize (Hl (S j) i Hj). lia.
Qed.

(* status < 2 for a proof without unknown steps: no "cannot be unified" message *)
Lemma verify_nounify fuel db k proof sev e st ds err : wf_db db ->
  ~ In Unk proof -> (forall j i, nth_error proof j = Some (Loc i) -> i < j) ->
  verifyProof fuel db k proof sev e = Ok (st, ds, err) ->
  (exists s m, In (DNoUnify s m) ds) -> 2 <= st.
Proof.
  intros WF Hu Hl H [s [m Hin]]. unfold verifyProof in H. apply rbind_ok in H. destruct H as [stp [_ H]].
  destruct (s_type stp); try (injection H as <- <- <-; destruct Hin).
  destruct (2 <? sev) eqn:E; [injection H as <- <- <-; destruct Hin|].
  destruct proof as [|x l]; [injection H as <- <- <-; destruct Hin|].
  apply rbind_ok in H. destruct H as [v [Hv H]].
  assert (I : NUInv v).
  { apply (verifySteps_NU _ _ _ _ WF _ _ _ Hv); auto.
    constructor; cbn [v_stack v_maths v_flag v_diags]; auto. intros i []. }
  destruct (negb _); [discriminate|]. apply rbind_ok in H. destruct H as [lst [_ H]].
  destruct (nu_flag v I) as [F|F].
  - exfalso. destruct (_ && _); injection H as _ <- _.
    + apply in_app_or in Hin. destruct Hin as [Hin|Hin]; [eapply nu_no; eauto|].
      destruct (v_err v); simpl in Hin; [destruct Hin as [Hin|[]]; discriminate|destruct Hin].
    + eapply nu_no; eauto.
  - rewrite F in H. destruct (_ && _); injection H as <- _ _; lia.
Qed.

Lemma verifyLoop_msgs db parse fuel cnt : forall i e em msgs msgs',
  verifyLoop fuel db parse i cnt e em msgs = Ok (false, [], msgs') ->
  forall n d, In (n, d) msgs' -> In (n, d) msgs \/
    (pr_k (parse n) = 0 /\ exists st status ds err, stmtAt db n st /\ s_type st = S_p /\
       verifyProof fuel db n (pr_proof (parse n)) (pr_sev (parse n)) (pr_err (parse n)) = Ok (status, ds, err) /\
       status < 2 /\ In d ds).
Proof.
  induction cnt as [|cnt IH]; intros i e em msgs msgs' H n d Hin; cbn [verifyLoop] in H.
  - injection H as _ _ <-. auto.
  - destruct (nth_error (db_stmts db) i) as [st|] eqn:Ei; cbn [rget rbind] in H; [|discriminate].
    destruct (s_type st) eqn:Et; try (eapply IH; eauto; fail).
    apply rbind_ok in H. destruct H as [[e2 ds] [H1 H2]].
    destruct (verifyLoop_mono db parse _ _ _ _ _ _ _ _ _ H2) as [M1 [[t M2] _]].
    destruct (IH _ _ _ _ _ H2 n d Hin) as [Hi|Hi]; [|auto].
    apply in_app_or in Hi. destruct Hi as [Hi|Hi]; auto.
    assert (He2 : e2 = false) by (destruct e2; auto; discriminate M1; auto).
    assert (Hk1 : pr_k (parse i) =? 1 = false).
    { destruct (pr_k (parse i) =? 1); auto. exfalso. destruct em; discriminate M2. }
    apply Nat.eqb_neq in Hk1.
    destruct (pr_k (parse i) <? 2) eqn:Hk; [|injection H1 as _ <-; destruct Hi].
    apply Nat.ltb_lt in Hk. apply rbind_ok in H1. destruct H1 as [[[status ds'] err] [Hv H1]].
    injection H1 as E1 E2. subst ds. apply in_map_iff in Hi. destruct Hi as [d' [E Hd]].
    injection E as <- <-. right. split; [lia|]. exists st, status, ds', err.
    split; [exact Ei|]. split; auto. split; auto. split; auto.
    rewrite He2 in E1. apply orb_false_elim in E1. destruct E1 as [_ E]. destruct status as [|[|status]]; [lia|lia|discriminate].
Qed.

(* "All proofs ... verified" is never printed after "cannot be unified" *)
Lemma verifyProofs_nounify db parse fuel msgs :
  wf_db db -> (forall n st, stmtAt db n st -> s_type st = S_p -> parse_ok db n (parse n)) ->
  verifyProofs fuel db parse = Ok (true, msgs) ->
  forall n s m, ~ In (n, DNoUnify s m) msgs.
Proof.
  intros WF Hp H n s m Hin. unfold verifyProofs in H.
  apply rbind_ok in H. destruct H as [[[e em] msgs1] [H1 H2]]. injection H2 as E1 ->.
  destruct em; [|discriminate]. destruct e; [discriminate|].
  destruct (verifyLoop_msgs _ _ _ _ _ _ _ _ _ H1 _ _ Hin) as [[]|[Hk [st [status [ds [err [Hs [Ht [Hv [Hlt Hd]]]]]]]]]].
  destruct (Hp n st Hs Ht Hk) as [P1 [P2 _]].
  assert (2 <= status); [|lia]. eapply verify_nounify; eauto.
Qed.
