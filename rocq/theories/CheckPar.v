(* CheckPar.v -- the proof parser on a list of labels. *)
From Verif Require Import Base LabModel StmModel StmSpec TokSpec SrcSpec MMSpec VerModel VerSpec VerProofs TokModel TokProofs ParModel ParSpec
  CmpSpec ReadModel ReadOut ReadSpec ReadWords.
Open Scope nat_scope.

Definition labelWord (t : list nat) : Prop := t <> [] /\ Forall (fun c => labelChar c = true) t.
Lemma labelChar_plain c : labelChar c = true -> graphic c /\ c <> dollar /\ ~ oneCharToken c.
Proof.
  unfold labelChar. rewrite !orb_true_iff, !andb_true_iff, !Nat.leb_le, !Nat.eqb_eq. unfold graphic, dollar, oneCharToken. cbn [In]. lia.
Qed.
Lemma word_tok t c : labelWord t -> labelChar c = false -> isTok c t = false.
Proof.
  intros [N F] C. destruct t as [|x t]; [congruence|]. unfold isTok, firstChar. cbn. apply Nat.eqb_neq. intros ->.
  inversion F; subst. congruence.
Qed.
Lemma word_plain t : labelWord t -> plainText t.
Proof.
  intros [_ F]. induction F as [|c t H F IH]; [constructor|]. apply labelChar_plain in H. destruct H as (A & B & C). now constructor.
Qed.
Lemma math_proof_tokens l ts e : tokenised mathToken tokenEnds l ts e -> Forall labelWord ts -> tokenised proofToken noProofToken l ts e.
Proof.
  induction 1 as [e He|t w s ts e Ht HB HI HT IH]; intros F.
  - constructor. destruct e as [|c e]; [exact I|]. cbn in *. destruct He as [He|[-> He]]; [now left|]. right. split; [reflexivity|].
    destruct e; [exact I|apply He].
  - inversion F as [|? ? F1 F2]; subst. constructor; auto. right. split; [apply F1|]. split; [now apply word_plain|].
    destruct Ht as (_ & _ & TE). destruct (w ++ s) as [|c r]; [exact I|]. cbn in *. destruct TE as [TE|[-> TE]]; [now left|].
    right. right. split; [reflexivity|]. destruct r; [exact I|apply TE].
Qed.

Section Par.
  Variable env : penv.
  Hypothesis WE : wf_env env.
  Hypothesis UE : uniq_env env.
  Let db := e_db env.
  Variable n : nat.
  Variable st : stmtRec.
  Hypothesis HS : stmtAt db n st.
  Hypothesis HT : s_type st = S_p.
  Definition refersTo (m : nat) : Prop := exists sm, stmtAt db m sm /\
    ((isAssertion sm /\ m < n) \/ (isHyp sm /\ (In m (s_reqHyps st) \/ In m (s_optHyps st)))).
  Let hypTab := entries env Z.of_nat (s_optHyps st) ++ entries env Z.of_nat (s_reqHyps st).

  Lemma in_hypTab l j : In (l, j) hypTab -> exists h, j = Z.of_nat h /\ l = e_name env h /\ (In h (s_reqHyps st) \/ In h (s_optHyps st)).
  Proof.
    unfold hypTab, entries. intros H. apply in_app_or in H. destruct H as [H|H]; apply in_map_iff in H; destruct H as (h & E & H); injection E as <- <-; eauto.
  Qed.
  Lemma hypTab_in h : In h (s_reqHyps st) \/ In h (s_optHyps st) -> In (e_name env h, Z.of_nat h) hypTab.
  Proof. unfold hypTab, entries. intros H. apply in_or_app. destruct H as [H|H]; [right|left]; apply in_map_iff; eauto. Qed.
  Lemma hyp_labelled h : In h (s_reqHyps st) \/ In h (s_optHyps st) -> 0 < h /\ exists sh, stmtAt db h sh /\ isHyp sh.
  Proof. exact (we_hyps _ WE n st h HS HT). Qed.

  Lemma ref_word m : refersTo m -> labelWord (e_name env m).
  Proof. intros (sm & A & B). apply (ue_chars _ UE m sm A). destruct B as [[B _]|[B _]]; [now left|now right]. Qed.

  (* looking up a label *)
  Lemma find_hyp m sm : stmtAt db m sm -> isHyp sm -> In m (s_reqHyps st) \/ In m (s_optHyps st) ->
    e_find env hypTab (e_name env m) = Some (Z.of_nat m).
  Proof.
    intros A H I. destruct (e_find env hypTab (e_name env m)) as [j|] eqn:E.
    - apply (we_some _ WE) in E. apply in_hypTab in E. destruct E as (h & -> & E & IH). destruct (hyp_labelled h IH) as (_ & sh & B & K).
      f_equal. f_equal. symmetry. apply (ue_name _ UE m h sm sh); auto; now right.
    - exfalso. exact (we_none _ WE _ _ E _ (hypTab_in m I)).
  Qed.
  Lemma find_asrt m sm : stmtAt db m sm -> isAssertion sm ->
    e_find env hypTab (e_name env m) = None /\ e_find env (e_keys env) (e_name env m) = Some (Z.of_nat m).
  Proof.
    intros A H. split.
    - destruct (e_find env hypTab (e_name env m)) as [j|] eqn:E; [|reflexivity]. exfalso.
      apply (we_some _ WE) in E. apply in_hypTab in E. destruct E as (h & -> & E & IH). destruct (hyp_labelled h IH) as (_ & sh & B & K).
      assert (m = h) by (apply (ue_name _ UE m h sm sh); auto; [now left|now right]). subst h.
      assert (sm = sh) by (unfold stmtAt in *; congruence). subst sh. unfold isAssertion, isHyp in *. destruct H, K; congruence.
    - destruct (e_find env (e_keys env) (e_name env m)) as [j|] eqn:E.
      + apply (we_some _ WE) in E. apply (we_keys _ WE) in E. destruct E as (m' & sm' & _ & -> & B & K & E).
        f_equal. f_equal. symmetry. apply (ue_name _ UE m m' sm sm'); auto; now left.
      + exfalso. exact (we_none _ WE _ _ E _ (ue_keys _ UE m sm A H)).
  Qed.

  Lemma build_labels : forall p pr d d' e, Forall refersTo p -> balanced db (map Stm p) d = Some d' ->
    buildSteps env n hypTab (mkNbuild pr d e) (map (fun m => (e_name env m, false)) p) = Ok (mkNbuild (pr ++ map Z.of_nat p) d' e).
  Proof.
    induction p as [|m p IH]; intros pr d d' e F B; cbn [map] in *.
    - cbn in B. injection B as <-. cbn. now rewrite app_nil_r.
    - inversion F as [|? ? F1 F2]; subst. cbn [buildSteps]. cbn [balanced] in B.
      pose proof (ref_word m F1) as LW. destruct F1 as (sm & A & [[AS L]|[HY I]]).
      + destruct (find_asrt m sm A AS) as [E1 E2]. unfold stmtAt in A. rewrite A in B.
        unfold buildStep. rewrite (word_tok _ chQ LW eq_refl). cbn [b_proof b_cnt b_err]. rewrite E1, E2.
        assert (L2 : (Z.of_nat n <=? Z.of_nat m)%Z = false) by (apply Z.leb_gt; lia). rewrite L2.
        rewrite Nat2Z.id. fold db. rewrite A. cbn [rget rbind].
        assert (BB : exists d1, (length (s_reqHyps sm) <=? d) = true /\ d1 = S (d - length (s_reqHyps sm)) /\ balanced db (map Stm p) d1 = Some d').
        { destruct AS as [AS|AS]; rewrite AS in B; destruct (length (s_reqHyps sm) <=? d) eqn:EL; try discriminate; eauto. }
        destruct BB as (d1 & LE & -> & BB). apply Nat.leb_le in LE.
        assert (LT : (d <? length (s_reqHyps sm)) = false) by (apply Nat.ltb_ge; exact LE).
        destruct AS as [AS|AS]; rewrite AS, LT; cbn [rbind]; rewrite (IH _ _ d' _ F2 BB), <- app_assoc; reflexivity.
      + pose proof (find_hyp m sm A HY I) as E1. unfold stmtAt in A. rewrite A in B.
        unfold buildStep. rewrite (word_tok _ chQ LW eq_refl). cbn [b_proof b_cnt b_err]. rewrite E1.
        destruct (hyp_labelled m I) as (P0 & _).
        assert (L1 : (Z.of_nat m <? 0)%Z = false) by (apply Z.ltb_ge; lia).
        assert (L2 : (Z.of_nat m <=? 0)%Z = false) by (apply Z.leb_gt; lia). rewrite L1, L2. cbn [rbind].
        assert (BB : balanced db (map Stm p) (S d) = Some d') by (destruct HY as [HY|HY]; rewrite HY in B; exact B).
        rewrite (IH _ _ d' _ F2 BB), <- app_assoc. reflexivity.
  Qed.

  Lemma scan_labels ht : forall ts prev s, Forall labelWord ts -> ns_lf s = false ->
    scanToks env n ht prev ts s = Ok (mkNscan (rev (map (fun t => (t, false)) ts) ++ ns_steps s) false (ns_loc s) (ns_err s)).
  Proof.
    induction ts as [|t ts IH]; intros prev s F L; cbn [scanToks map rev].
    - cbn. destruct s; cbn in *. now subst.
    - inversion F as [|? ? F1 F2]; subst. rewrite (word_tok t chEq F1 eq_refl), (word_tok t chColon F1 eq_refl).
      rewrite IH by (auto). cbn [ns_steps ns_loc ns_err ns_lf]. rewrite L, <- app_assoc. reflexivity.
  Qed.
  Lemma last_word ts : ts <> [] -> Forall labelWord ts -> labelWord (last ts []).
  Proof.
    intros N F. rewrite Forall_forall in F. apply F. destruct (exists_last N) as (a & b & ->). rewrite last_last. apply in_or_app. right. now left.
  Qed.
  Lemma not_explicit ts : Forall labelWord ts -> isExplicit ts = false.
  Proof.
    induction ts as [|t ts IH]; intros F; [reflexivity|]. inversion F as [|? ? F1 F2]; subst. cbn [isExplicit].
    destruct ts as [|t1 [|t2 ts]]; try reflexivity. rewrite (IH F2). inversion F2 as [|? ? G1 G2]; subst. now rewrite (word_tok t1 chEq G1 eq_refl).
  Qed.

  Lemma parse_normal p : Forall refersTo p -> balanced db (map Stm p) 0 = Some 1 ->
    parseNormal env n (map (e_name env) p) = Ok (0, map Z.of_nat p, 0).
  Proof.
    intros F B. assert (NE : p <> []) by (intros ->; discriminate).
    assert (FW : Forall labelWord (map (e_name env) p)).
    { apply Forall_forall. intros x Hx. apply in_map_iff in Hx. destruct Hx as (m & <- & Hm). rewrite Forall_forall in F. auto using ref_word. }
    unfold parseNormal. fold db. unfold stmtAt in HS. rewrite HS. cbn [rget rbind].
    destruct (map (e_name env) p) as [|t ts] eqn:EM; [destruct p; [congruence|discriminate]|].
    assert (F1 : labelWord t) by (now inversion FW). rewrite (word_tok t chColon F1 eq_refl).
    rewrite (word_tok _ chColon (last_word (t :: ts) ltac:(discriminate) FW) eq_refl).
    fold hypTab. rewrite scan_labels by auto. cbn [rbind ns_steps ns_loc ns_err dupZero dupCount raiseN].
    rewrite !app_nil_r, rev_involutive, <- EM, map_map.
    rewrite (build_labels p [] 0 1 _ F B). cbn [rbind b_proof b_cnt b_err app]. reflexivity.
  Qed.

  Lemma parse_text p fuel max section rest : Forall refersTo p -> balanced db (map Stm p) 0 = Some 1 ->
    words section (map (e_name env) p) -> stops rest ->
    parseText fuel env n max section rest = Ok (Some (0, map Z.of_nat p, 0)).
  Proof.
    intros F B W SR. assert (NE : p <> []) by (intros ->; discriminate).
    assert (FW : Forall labelWord (map (e_name env) p)).
    { apply Forall_forall. intros x Hx. apply in_map_iff in Hx. destruct Hx as (m & <- & Hm). rewrite Forall_forall in F. auto using ref_word. }
    destruct (words_split section _ rest W SR) as (w & s & E & BL & SI & TK).
    apply (fun H => math_proof_tokens _ _ _ H FW) in TK.
    pose proof (tokenised_len _ _ _ _ _ (fun t s0 (H : proofToken t s0) => ltac:(destruct H as [(c & -> & _)|(H & _)]; [discriminate|exact H])) TK) as LL.
    pose proof (proofTokens_complete s _ rest TK (S (length s)) ltac:(lia)) as PT.
    unfold parseText. rewrite E.
    assert (SN : exists c s', s = c :: s' /\ labelChar c = true).
    { inversion TK as [e He E1 E2|t w' s' ts e Ht HB HI HT' E1 E2]; subst; [exfalso; destruct p; [congruence|discriminate]|].
      rewrite <- E2 in FW. inversion FW as [|? ? [N1 F1] F2]; subst. destruct t as [|c t]; [congruence|]. inversion F1; subst. exists c, (t ++ w' ++ s'). auto. }
    destruct SN as (c & s' & EC & LC).
    rewrite (whiteSpace_blanks w s BL SI). cbn [rbind].
    assert (OP : isTok chOpen s = false).
    { rewrite EC. unfold isTok, firstChar. cbn. apply Nat.eqb_neq. intros ->. discriminate LC. }
    destruct (w ++ s) eqn:EW; [apply app_eq_nil in EW; destruct EW as [_ EW]; congruence|].
    rewrite OP, PT. cbn [rbind].
    assert (NM : map (e_name env) p <> []) by (destruct p; [congruence|discriminate]).
    rewrite (word_tok _ chColon (last_word _ NM FW) eq_refl), (not_explicit _ FW), (parse_normal p F B). reflexivity.
  Qed.
End Par.
