(* NrmParse.v -- the proof parser on the tokens written by nmbrCvtRToVString. *)
From Coq Require Import ZifyBool ZifyNat.
From Verif Require Import Base TokSpec MMSpec VerModel VerSpec TokModel TokProofs ParModel ParSpec CmpSpec CheckPar NrmModel NrmSpec NrmProofs.
Open Scope nat_scope.

Section Parse.
  Variable env : penv.
  Hypothesis WE : wf_env env.
  Hypothesis UE : uniq_env env.
  Let db := e_db env.
  Variable n : nat.
  Variable st : stmtRec.
  Hypothesis HS : stmtAt db n st.
  Hypothesis HT : s_type st = S_p.
  Let hypTab := entries env Z.of_nat (s_optHyps st) ++ entries env Z.of_nat (s_reqHyps st).
  Variable q : list pstep.
  Hypothesis RF : forall m, In (Stm m) q -> refersTo env n st m.
  Hypothesis LB : forall k i, nth_error q k = Some (Loc i) -> i < k.
  Hypothesis LA : forall i, In (Loc i) q -> exists m sm, nth_error q i = Some (Stm m) /\ stmtAt db m sm /\ isAssertion sm.
  Variable nm : nat -> nat.
  Hypothesis NL : forall i, In (Loc i) q -> ~ In (num (nm i)) (allLabels env).
  Hypothesis NI : forall i j, In (Loc i) q -> In (Loc j) q -> nm i = nm j -> i = j.

  Definition toksOf (k : nat) (x : pstep) : list label :=
    match x with
    | Unk => [[chQ]]
    | Loc i => [num (nm i)]
    | Stm m => if decl q k then [num (nm k); [chColon]; e_name env m] else [e_name env m]
    end.
  Fixpoint toks (k : nat) (l : list pstep) : list label :=
    match l with [] => [] | x :: r => toksOf k x ++ toks (S k) r end.
  Definition stepOf (k : nat) (x : pstep) : label * bool :=
    match x with
    | Unk => ([chQ], false)
    | Loc i => (num (nm i), false)
    | Stm m => (e_name env m, decl q k)
    end.
  Fixpoint steps (k : nat) (l : list pstep) : list (label * bool) :=
    match l with [] => [] | x :: r => stepOf k x :: steps (S k) r end.
  Definition locOf (k : nat) (x : pstep) : list (label * Z) :=
    match x with Stm _ => if decl q k then [(num (nm k), zLoc (Z.of_nat k))] else [] | _ => [] end.
  Fixpoint locs (k : nat) (l : list pstep) : list (label * Z) :=
    match l with [] => [] | x :: r => locOf k x ++ locs (S k) r end.

  Lemma keys_labels l j : In (l, j) (e_keys env) -> In l (allLabels env).
  Proof. intros H. apply (we_keys _ WE) in H. destruct H as (m & sm & _ & _ & A & B & E). apply in_allLabels. exists m, sm. split; [exact A|]. split; [now left|exact E]. Qed.
  Lemma hyps_labels l j : In (l, j) hypTab -> In l (allLabels env).
  Proof.
    intros H. apply in_hypTab in H. destruct H as (h & -> & -> & I). destruct (hyp_labelled env WE n st HS HT h I) as (_ & sh & A & B).
    apply in_allLabels. exists h, sh. split; [exact A|]. split; [now right|reflexivity].
  Qed.
  Lemma find_none tab l : (forall j, ~ In (l, j) tab) -> e_find env tab l = None.
  Proof. intros H. destruct (e_find env tab l) as [j|] eqn:E; [|reflexivity]. apply (we_some _ WE) in E. exfalso. eapply H; exact E. Qed.

  Lemma colon_num k s d : In (Loc k) q -> ns_steps s = d :: tl (ns_steps s) ->
    colonTok env n hypTab (num (nm k)) s = Ok (mkNscan (tl (ns_steps s)) true (ns_loc s ++ [(num (nm k), zLoc (Z.of_nat (length (tl (ns_steps s)))))]) (ns_err s)).
  Proof.
    intros I E. unfold colonTok. rewrite E. cbn [tl].
    rewrite (find_none (e_keys env)) by (intros j H; apply (NL k I); eapply keys_labels; exact H).
    rewrite (find_none hypTab) by (intros j H; apply (NL k I); eapply hyps_labels; exact H).
    replace (filter (fun c => negb (labelChar c)) (num (nm k))) with (@nil nat).
    - reflexivity.
    - destruct (num_word (nm k)) as [_ F]. symmetry. induction F as [|c r H F IH]; [reflexivity|]. cbn. rewrite H. exact IH.
  Qed.
  Lemma scan_ok : forall l k prev s, (forall m, In (Stm m) l -> In (Stm m) q) -> ns_lf s = false -> length (ns_steps s) = k ->
    scanToks env n hypTab prev (toks k l) s = Ok (mkNscan (rev (steps k l) ++ ns_steps s) false (ns_loc s ++ locs k l) (ns_err s)).
  Proof.
    induction l as [|x l IH]; intros k prev s IL LF LK; cbn [toks steps locs].
    - cbn. destruct s; cbn in *. subst. now rewrite app_nil_r.
    - assert (IL' : forall m, In (Stm m) l -> In (Stm m) q) by (intros; apply IL; now right).
      destruct x as [|i|m]; cbn [toksOf stepOf locOf app rev].
      + cbn [scanToks]. change (isTok chEq [chQ]) with false. change (isTok chColon [chQ]) with false. cbv iota.
        rewrite IH; cbn [ns_steps ns_lf ns_loc ns_err length]; auto. rewrite LF, <- app_assoc. reflexivity.
      + cbn [scanToks]. rewrite (word_tok _ chEq (num_word _) eq_refl), (word_tok _ chColon (num_word _) eq_refl).
        rewrite IH; cbn [ns_steps ns_lf ns_loc ns_err length]; auto. rewrite LF, <- app_assoc. reflexivity.
      + pose proof (ref_word env UE n st m (RF m (IL m (or_introl eq_refl)))) as LW.
        destruct (decl q k) eqn:D; cbn [app scanToks].
        * apply decl_iff in D. rewrite (word_tok _ chEq (num_word _) eq_refl), (word_tok _ chColon (num_word _) eq_refl).
          change (isTok chEq [chColon]) with false. change (isTok chColon [chColon]) with true. cbv iota.
          rewrite (colon_num k _ (num (nm k), ns_lf s) D) by reflexivity. cbn [rbind ns_steps tl ns_loc ns_err].
          rewrite (word_tok _ chEq LW eq_refl), (word_tok _ chColon LW eq_refl).
          rewrite IH; cbn [ns_steps ns_lf ns_loc ns_err length]; auto. rewrite LK, <- !app_assoc. reflexivity.
        * rewrite (word_tok _ chEq LW eq_refl), (word_tok _ chColon LW eq_refl).
          rewrite IH; cbn [ns_steps ns_lf ns_loc ns_err length]; auto. rewrite LF, <- app_assoc. reflexivity.
  Qed.

  Lemma locs_in : forall l pre a z, q = pre ++ l -> In (a, z) (locs (length pre) l) ->
    exists i, length pre <= i /\ In (Loc i) q /\ a = num (nm i) /\ z = zLoc (Z.of_nat i).
  Proof.
    induction l as [|x l IH]; intros pre a z E I; [destruct I|]. cbn [locs] in I. apply in_app_or in I. destruct I as [I|I].
    - unfold locOf in I. destruct x as [|i|m]; try destruct I. destruct (decl q (length pre)) eqn:D; [|destruct I].
      destruct I as [I|[]]. injection I as <- <-. exists (length pre). apply decl_iff in D. auto.
    - destruct (IH (pre ++ [x]) a z) as (i & A & B); [rewrite <- app_assoc; exact E|rewrite app_length; cbn; replace (length pre + 1) with (S (length pre)) by lia; exact I|].
      exists i. rewrite app_length in A. cbn in A. split; [lia|exact B].
  Qed.
  Lemma in_locs i : In (Loc i) q -> In (num (nm i), zLoc (Z.of_nat i)) (locs 0 q).
  Proof.
    intros I. destruct (LA i I) as (m & sm & A & _).
    assert (G : forall l k j, nth_error l j = Some (Stm m) -> In (Loc (k + j)) q -> In (num (nm (k + j)), zLoc (Z.of_nat (k + j))) (locs k l)).
    { induction l as [|x l IH]; intros k [|j] H J; try discriminate; cbn [locs]; apply in_or_app.
      - left. cbn in H. injection H as ->. rewrite Nat.add_0_r in *. cbn. apply decl_iff in J. rewrite J. now left.
      - right. replace (k + S j) with (S k + j) in * by lia. apply IH; [exact H|exact J]. }
    apply (G q 0 i A I).
  Qed.
  Lemma locs_nodup : forall l pre, q = pre ++ l -> NoDup (map fst (locs (length pre) l)).
  Proof.
    induction l as [|x l IH]; intros pre E; [constructor|]. cbn [locs].
    assert (E' : q = (pre ++ [x]) ++ l) by (rewrite <- app_assoc; exact E).
    assert (LS : length (pre ++ [x]) = S (length pre)) by (rewrite app_length; cbn; lia).
    pose proof (IH (pre ++ [x]) E') as ND. rewrite LS in ND.
    unfold locOf. destruct x as [|i|m]; try exact ND. destruct (decl q (length pre)) eqn:D; [|exact ND].
    cbn. constructor; [|exact ND]. intros I. apply in_map_iff in I. destruct I as ([a z] & EA & I). cbn in EA. subst a. rewrite <- LS in I.
    destruct (locs_in l _ _ _ E' I) as (i & A & B & C & _). apply num_inj in C. apply decl_iff in D.
    apply (NI _ _ D B) in C. lia.
  Qed.
  Lemma nodup_dup l : NoDup (map (@fst label Z) l) -> dupCount l = 0 /\ dupZero l = false.
  Proof.
    induction l as [|[a z] l IH]; intros ND; [split; reflexivity|]. cbn [map] in ND. inversion ND as [|? ? NI' ND']; subst. destruct (IH ND') as [A B].
    cbn [dupCount dupZero]. rewrite A, B.
    assert (X : forall g : label * Z -> bool, existsb (fun y => (if list_eq_dec Nat.eq_dec a (fst y) then true else false) && g y) l = false).
    { intros g. apply Bool.not_true_is_false. intros H. apply existsb_exists in H. destruct H as (y & I & H). destruct (list_eq_dec Nat.eq_dec a (fst y)) as [->|]; [|discriminate]. apply NI'. now apply in_map. }
    split.
    - specialize (X (fun _ => true)).
      replace (existsb (fun y => if list_eq_dec Nat.eq_dec a (fst y) then true else false) l) with false; [reflexivity|].
      symmetry. eapply eq_trans; [|exact X]. clear. induction l as [|y l IH]; [reflexivity|]. cbn [existsb]. rewrite IH, andb_true_r. reflexivity.
    - rewrite orb_false_r. specialize (X (fun y => (z =? zLoc 0)%Z && (snd y =? zLoc 0)%Z)). eapply eq_trans; [|exact X]. clear.
      induction l as [|y l IH]; [reflexivity|]. cbn [existsb]. rewrite IH, andb_assoc. reflexivity.
  Qed.

  Let tab := hypTab ++ locs 0 q.
  Lemma in_tab l j : In (l, j) tab -> In (l, j) hypTab \/ exists i, In (Loc i) q /\ l = num (nm i) /\ j = zLoc (Z.of_nat i).
  Proof. intros H. apply in_app_or in H. destruct H as [H|H]; [now left|]. right. destruct (locs_in q [] _ _ eq_refl H) as (i & _ & B). eauto. Qed.
  Lemma tab_label m sm j : stmtAt db m sm -> labelled sm -> In (e_name env m, j) tab -> In (e_name env m, j) hypTab.
  Proof.
    intros A B H. apply in_tab in H. destruct H as [H|(i & I & E & _)]; [exact H|]. exfalso. apply (NL i I). rewrite <- E. eapply name_label; eassumption.
  Qed.
  Lemma tfind_hyp m sm : stmtAt db m sm -> isHyp sm -> In m (s_reqHyps st) \/ In m (s_optHyps st) ->
    e_find env tab (e_name env m) = Some (Z.of_nat m).
  Proof.
    intros A H I. destruct (e_find env tab (e_name env m)) as [j|] eqn:E.
    - apply (we_some _ WE) in E. apply (tab_label m sm) in E; [|exact A|now right]. apply in_hypTab in E. destruct E as (h & -> & E & IH).
      destruct (hyp_labelled env WE n st HS HT h IH) as (_ & sh & B & K).
      f_equal. f_equal. symmetry. apply (ue_name _ UE m h sm sh); auto; now right.
    - exfalso. apply (we_none _ WE _ _ E (Z.of_nat m)). apply in_or_app. left. now apply hypTab_in.
  Qed.
  Lemma tfind_asrt m sm : stmtAt db m sm -> isAssertion sm -> e_find env tab (e_name env m) = None.
  Proof.
    intros A H. apply find_none. intros j I. apply (tab_label m sm) in I; [|exact A|now left].
    destruct (find_asrt env WE UE n st HS HT m sm A H) as [E _]. exact (we_none _ WE _ _ E _ I).
  Qed.
  Lemma tfind_loc i : In (Loc i) q -> e_find env tab (num (nm i)) = Some (zLoc (Z.of_nat i)).
  Proof.
    intros I. destruct (e_find env tab (num (nm i))) as [j|] eqn:E.
    - apply (we_some _ WE) in E. apply in_tab in E. destruct E as [E|(i' & I' & E & ->)].
      + exfalso. apply (NL i I). eapply hyps_labels; exact E.
      + apply num_inj in E. apply (NI _ _ I I') in E. now subst.
    - exfalso. apply (we_none _ WE _ _ E (zLoc (Z.of_nat i))). apply in_or_app. right. now apply in_locs.
  Qed.

  Definition unkErr (l : list pstep) (e : perr) : perr := if existsb (fun x => match x with Unk => true | _ => false end) l then atLeast 1 e else e.
  Lemma unkErr_unk l e : unkErr l (atLeast 1 e) = atLeast 1 e.
  Proof. unfold unkErr. destruct (existsb _ l); [|reflexivity]. unfold atLeast. cbn [p_flag p_count]. f_equal. lia. Qed.
  Lemma build_ok : forall l pre d d' e, q = pre ++ l -> balanced db l d = Some d' ->
    buildSteps env n tab (mkNbuild (map encStep pre) d e) (steps (length pre) l) = Ok (mkNbuild (map encStep q) d' (unkErr l e)).
  Proof.
    induction l as [|x l IH]; intros pre d d' e E B; cbn [steps].
    - cbn in B. injection B as <-. cbn. rewrite E, app_nil_r. reflexivity.
    - assert (E' : q = (pre ++ [x]) ++ l) by (rewrite <- app_assoc; exact E).
      assert (LS : length (pre ++ [x]) = S (length pre)) by (rewrite app_length; cbn; lia).
      assert (EX : nth_error q (length pre) = Some x) by (rewrite E, nth_error_app2, Nat.sub_diag by lia; reflexivity).
      assert (MP : map encStep (pre ++ [x]) = map encStep pre ++ [encStep x]) by (rewrite map_app; reflexivity).
      cbn [buildSteps]. cbn [balanced] in B. destruct x as [|i|m]; cbn [stepOf].
      + unfold buildStep. change (isTok chQ [chQ]) with true. cbv iota. cbn [b_proof b_cnt b_err rbind].
        specialize (IH (pre ++ [Unk]) (S d) d' (atLeast 1 e) E' B). rewrite LS, MP in IH. cbn [encStep] in IH. rewrite IH, unkErr_unk. reflexivity.
      + assert (IL : In (Loc i) q) by (eapply nth_error_In; exact EX). pose proof (LB _ _ EX) as LT.
        unfold buildStep. rewrite (word_tok _ chQ (num_word _) eq_refl). cbn [b_proof b_cnt b_err]. rewrite (tfind_loc i IL), map_length.
        assert (L1 : (zLoc (Z.of_nat i) <? 0)%Z = true) by (unfold zLoc; lia). rewrite L1.
        assert (L0 : (-1000 - zLoc (Z.of_nat i))%Z = Z.of_nat i) by (unfold zLoc; lia). rewrite L0. cbv zeta.
        assert (L2 : (Z.of_nat i <? 0)%Z = false) by lia. assert (L3 : (Z.of_nat (length pre) <? Z.of_nat i)%Z = false) by lia. rewrite L2, L3. cbn [rbind].
        specialize (IH (pre ++ [Loc i]) (S d) d' e E' B). rewrite LS, MP in IH. cbn [encStep] in IH. rewrite IH. reflexivity.
      + assert (IM : In (Stm m) q) by (eapply nth_error_In; exact EX). pose proof (ref_word env UE n st m (RF m IM)) as LW.
        destruct (RF m IM) as (sm & A & [[AS L]|[HY I]]).
        * pose proof (tfind_asrt m sm A AS) as E1. destruct (find_asrt env WE UE n st HS HT m sm A AS) as [_ E2]. unfold stmtAt in A. fold db in A. rewrite A in B.
          unfold buildStep. rewrite (word_tok _ chQ LW eq_refl). cbn [b_proof b_cnt b_err]. rewrite E1, E2.
          assert (L2 : (Z.of_nat n <=? Z.of_nat m)%Z = false) by lia. rewrite L2, Nat2Z.id. fold db. rewrite A. cbn [rget rbind].
          assert (BB : (length (s_reqHyps sm) <=? d) = true /\ balanced db l (S (d - length (s_reqHyps sm))) = Some d').
          { destruct AS as [AS|AS]; rewrite AS in B; destruct (length (s_reqHyps sm) <=? d) eqn:EL; try discriminate; auto. }
          destruct BB as (LE & BB). assert (LT : (d <? length (s_reqHyps sm)) = false) by lia.
          specialize (IH (pre ++ [Stm m]) _ d' e E' BB). rewrite LS, MP in IH. cbn [encStep] in IH.
          destruct AS as [AS|AS]; rewrite AS, LT; cbn [rbind]; rewrite IH; reflexivity.
        * pose proof (tfind_hyp m sm A HY I) as E1. unfold stmtAt in A. fold db in A. rewrite A in B.
          unfold buildStep. rewrite (word_tok _ chQ LW eq_refl). cbn [b_proof b_cnt b_err]. rewrite E1.
          destruct (hyp_labelled env WE n st HS HT m I) as (P0 & _).
          assert (L1 : (Z.of_nat m <? 0)%Z = false) by lia. assert (L2 : (Z.of_nat m <=? 0)%Z = false) by lia. rewrite L1, L2.
          assert (D : decl q (length pre) = false).
          { apply Bool.not_true_is_false. intros D. apply decl_iff in D. destruct (LA _ D) as (m' & sm' & X & Y & Z).
            rewrite EX in X. injection X as <-. assert (sm' = sm) by (unfold stmtAt in Y; congruence). subst sm'. unfold isAssertion, isHyp in *. destruct HY, Z; congruence. }
          rewrite D. cbn [rbind].
          assert (BB : balanced db l (S d) = Some d') by (destruct HY as [HY|HY]; rewrite HY in B; exact B).
          specialize (IH (pre ++ [Stm m]) _ d' e E' BB). rewrite LS, MP in IH. cbn [encStep] in IH. rewrite IH. reflexivity.
  Qed.

  (* every token begins with a label character or is "?" or ":" *)
  Definition okTok (t : label) : Prop := labelWord t \/ t = [chQ] \/ t = [chColon].
  Lemma toks_ok : forall l k, (forall m, In (Stm m) l -> In (Stm m) q) -> Forall okTok (toks k l).
  Proof.
    induction l as [|x l IH]; intros k IL; cbn [toks]; [constructor|]. apply Forall_app. split; [|apply IH; intros; apply IL; now right].
    destruct x as [|i|m]; cbn [toksOf].
    - constructor; [|constructor]. right. now left.
    - constructor; [|constructor]. left. apply num_word.
    - pose proof (ref_word env UE n st m (RF m (IL m (or_introl eq_refl)))) as LW. destruct (decl q k).
      + constructor; [left; apply num_word|]. constructor; [right; now right|]. constructor; [left; exact LW|constructor].
      + constructor; [left; exact LW|constructor].
  Qed.
  Lemma okTok_eq t : okTok t -> isTok chEq t = false.
  Proof. intros [H|[->| ->]]; try reflexivity. apply word_tok; [exact H|reflexivity]. Qed.
  Lemma explicit_no ts : Forall okTok ts -> isExplicit ts = false.
  Proof.
    induction ts as [|t ts IH]; intros F; [reflexivity|]. inversion F as [|? ? F1 F2]; subst. cbn [isExplicit].
    destruct ts as [|t1 [|t2 ts]]; try reflexivity. rewrite (IH F2). inversion F2 as [|? ? G1 G2]; subst. now rewrite (okTok_eq _ G1).
  Qed.
  Lemma toksOf_ends x k : (forall m, x = Stm m -> In (Stm m) q) -> exists h t, toksOf k x = h :: t /\ isTok chColon h = false /\ isTok chColon (last (toksOf k x) []) = false.
  Proof.
    intros I. destruct x as [|i|m]; cbn [toksOf].
    - exists [chQ], []. repeat split.
    - exists (num (nm i)), []. split; [reflexivity|]. cbn [last]. split; apply (word_tok _ chColon (num_word _) eq_refl).
    - pose proof (ref_word env UE n st m (RF m (I m eq_refl))) as LW. destruct (decl q k).
      + eexists _, _. split; [reflexivity|]. split; [apply (word_tok _ chColon (num_word _) eq_refl)|]. cbn [last]. apply (word_tok _ chColon LW eq_refl).
      + eexists _, _. split; [reflexivity|]. cbn [last]. split; apply (word_tok _ chColon LW eq_refl).
  Qed.
  Lemma toks_last l : l <> [] -> (forall m, In (Stm m) l -> In (Stm m) q) -> forall k, isTok chColon (last (toks k l) []) = false.
  Proof.
    intros NE. induction l as [|x l IH]; [congruence|]. intros IL k. cbn [toks].
    destruct l as [|y l].
    - cbn [toks]. rewrite app_nil_r. destruct (toksOf_ends x k) as (h & t & _ & _ & X); [intros m ->; apply IL; now left|exact X].
    - rewrite <- (IH ltac:(discriminate) ltac:(intros; apply IL; now right) (S k)). cbn [toks].
      destruct (toksOf_ends y (S k)) as (h & t & E & _ & _); [intros m ->; apply IL; right; now left|]. rewrite E.
      assert (G : forall a b : list label, b <> [] -> last (a ++ b) [] = last b []).
      { induction a as [|u a IHa]; intros b NB; [reflexivity|]. cbn [app]. destruct (a ++ b) eqn:EB; [apply app_eq_nil in EB; destruct EB; congruence|]. rewrite <- EB. cbn [last]. rewrite EB, <- EB. apply IHa, NB. }
      rewrite G by discriminate. reflexivity.
  Qed.

  Lemma parse_ok : balanced db q 0 = Some 1 ->
    parseNormal env n (toks 0 q) = Ok (if existsb (fun x => match x with Unk => true | _ => false end) q then 1 else 0, map encStep q, 0).
  Proof.
    intros B. assert (NE : q <> []) by (intros ->; discriminate).
    unfold parseNormal. fold db. unfold stmtAt in HS. rewrite HS. cbn [rget rbind].
    assert (EQ : exists x r, q = x :: r) by (destruct q as [|x r]; [congruence|eauto]). destruct EQ as (x & r & EQ).
    destruct (toksOf_ends x 0) as (h & t & E & X & _); [intros m ->; rewrite EQ; now left|].
    assert (ET : toks 0 q = h :: t ++ toks 1 r) by (rewrite EQ at 1; cbn [toks]; rewrite E; reflexivity).
    pose proof (toks_last q NE (fun m H => H) 0) as LT.
    rewrite ET in LT |- *. cbv zeta. rewrite X.
    lazymatch goal with |- context [isTok chColon ?L] => replace (isTok chColon L) with false by (symmetry; exact LT) end. cbv iota.
    lazymatch goal with |- context [scanToks env n _ [] ?L _] => replace L with (toks 0 q) by (exact ET) end. fold hypTab.
    rewrite (scan_ok q 0 [] (mkNscan [] false [] (mkErr 0 0)) (fun m H => H) eq_refl eq_refl). cbn [rbind ns_steps ns_loc ns_err app].
    destruct (nodup_dup _ (locs_nodup q [] eq_refl)) as [D1 D2]. cbn [length] in D1, D2. rewrite D1, D2. cbn [raiseN].
    rewrite app_nil_r, rev_involutive. fold tab.
    pose proof (build_ok q [] 0 1 (mkErr 0 0) eq_refl B) as BO. cbn [map length] in BO. rewrite BO. cbn [rbind b_proof b_cnt b_err].
    unfold finish. cbn [Nat.eqb]. unfold unkErr. destruct (existsb _ q); reflexivity.
  Qed.
End Parse.
