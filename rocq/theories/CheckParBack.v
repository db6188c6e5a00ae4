(* CheckParBack.v -- what an error-free result of the proof parser says about the text. *)
From Verif Require Import Base LabModel StmModel StmSpec TokSpec SrcSpec MMSpec VerModel VerSpec VerProofs TokModel TokProofs ParModel ParSpec
  CmpSpec ReadModel ReadOut ReadSpec ReadWords CheckSpec CheckPar CheckCmp.
Open Scope nat_scope.

Lemma raise_flag s e : p_flag e <= p_flag (raise s e) /\ s <= p_flag (raise s e).
Proof. unfold raise. cbn [p_flag]. lia. Qed.
Lemma atLeast_flag s e : p_flag e <= p_flag (atLeast s e).
Proof. unfold atLeast. cbn [p_flag]. lia. Qed.

Section Normal.
  Variable env : penv.
  Hypothesis WE : wf_env env.
  Hypothesis UE : uniq_env env.
  Let db := e_db env.
  Variable n : nat.
  Variable st : stmtRec.
  Hypothesis HS : stmtAt db n st.
  Hypothesis HT : s_type st = S_p.
  Let hypTab := entries env Z.of_nat (s_optHyps st) ++ entries env Z.of_nat (s_reqHyps st).
  Definition looked (t : label) (z : Z) : Prop :=
    z = zUnk \/ exists m sm, z = Z.of_nat m /\ t = e_name env m /\ stmtAt db m sm /\ (isAssertion sm \/ isHyp sm).

  Lemma find_back l j : e_find env hypTab l = Some j -> exists h, j = Z.of_nat h /\ 0 < h /\ looked l j.
  Proof.
    intros E. apply (we_some _ WE) in E. apply in_hypTab in E. destruct E as (h & -> & -> & I).
    destruct (hyp_labelled env WE n st HS HT h I) as (P0 & sh & A & B). exists h. split; [reflexivity|]. split; [exact P0|]. right. exists h, sh. auto.
  Qed.
  Lemma build_back : forall ts s b, Forall labelWord ts -> buildSteps env n hypTab s (map (fun t => (t, false)) ts) = Ok b ->
    exists zs, b_proof b = b_proof s ++ zs /\ Forall2 looked ts zs.
  Proof.
    induction ts as [|t ts IH]; intros s b F H.
    - cbn in H. apply Ok_inj in H. subst b. exists []. split; [now rewrite app_nil_r|constructor].
    - inversion F as [|? ? F1 F2]; subst. cbn [map buildSteps] in H. apply rbind_ok in H. destruct H as (s1 & H1 & H).
      destruct (IH s1 b F2 H) as (zs & E & FZ).
      assert (Q : exists z, b_proof s1 = b_proof s ++ [z] /\ looked t z).
      { unfold buildStep in H1. rewrite (word_tok _ chQ F1 eq_refl) in H1.
        destruct (e_find env hypTab t) as [j|] eqn:EF.
        - destruct (find_back _ _ EF) as (h & -> & P0 & LK).
          assert (L1 : (Z.of_nat h <? 0)%Z = false) by (apply Z.ltb_ge; lia).
          assert (L2 : (Z.of_nat h <=? 0)%Z = false) by (apply Z.leb_gt; lia). rewrite L1, L2 in H1.
          apply Ok_inj in H1. subst s1. eexists. split; [reflexivity|exact LK].
        - destruct (e_find env (e_keys env) t) as [j|] eqn:EK.
          + apply (we_some _ WE) in EK. apply (we_keys _ WE) in EK. destruct EK as (m & sm & P0 & -> & A & B & EN).
            rewrite Nat2Z.id in H1. unfold stmtAt in A. rewrite A in H1. cbn [rget rbind] in H1.
            assert (LK : looked t (Z.of_nat m)) by (right; exists m, sm; unfold stmtAt; auto).
            destruct B as [B|B]; rewrite B in H1; destruct (b_cnt s <? length (s_reqHyps sm)); apply Ok_inj in H1; subst s1;
              (eexists; split; [reflexivity|]); first [exact LK|now left].
          + apply Ok_inj in H1. subst s1. eexists. split; [reflexivity|]. now left. }
      destruct Q as (z & E1 & LK). exists (z :: zs). split; [rewrite E, E1, <- app_assoc; reflexivity|now constructor].
  Qed.
  Lemma parse_normal_back ts k zs ec : ts <> [] -> Forall labelWord ts -> parseNormal env n ts = Ok (k, zs, ec) -> Forall2 looked ts zs.
  Proof.
    intros NE FW H. unfold parseNormal in H. fold db in H. unfold stmtAt in HS. rewrite HS in H. cbn [rget rbind] in H.
    destruct ts as [|t ts]; [congruence|].
    assert (F1 : labelWord t) by (now inversion FW). rewrite (word_tok t chColon F1 eq_refl) in H.
    rewrite (word_tok _ chColon (last_word (t :: ts) ltac:(discriminate) FW) eq_refl) in H.
    fold hypTab in H. rewrite scan_labels in H by auto. cbn [rbind ns_steps ns_loc ns_err dupZero dupCount raiseN] in H.
    rewrite !app_nil_r, rev_involutive in H. apply rbind_ok in H. destruct H as (b & H1 & H).
    destruct (build_back _ _ _ FW H1) as (zs' & E & FZ). cbn [b_proof app] in E. subst zs'.
    unfold finish in H. destruct (Nat.eqb (b_cnt b) 1); [apply Ok_inj in H; injection H as _ <- _; exact FZ|].
    destruct (b_proof b) eqn:EB; [discriminate|]. rewrite <- EB in *. apply Ok_inj in H. injection H as _ <- _. exact FZ.
  Qed.
  Lemma parse_text_red ts fuel max section rest : Forall labelWord ts -> words section ts -> stops rest -> rest <> [] ->
    parseText fuel env n max section rest = (do o <- parseNormal env n ts; Ok (Some o)).
  Proof.
    intros FW W SR NR.
    destruct (words_split section _ rest W SR) as (w & s & E & BL & SI & TK).
    apply (fun H => math_proof_tokens _ _ _ H FW) in TK.
    pose proof (tokenised_len _ _ _ _ _ (fun t s0 (H : proofToken t s0) => ltac:(destruct H as [(c & -> & _)|(H & _)]; [discriminate|exact H])) TK) as LL.
    pose proof (proofTokens_complete s _ rest TK (S (length s)) ltac:(lia)) as PT.
    unfold parseText. rewrite E. rewrite (whiteSpace_blanks w s BL SI). cbn [rbind].
    assert (OP : isTok chOpen s = false).
    { inversion TK as [e He E1 E2|t w' s' ts' e Ht HB HI HT' E1 E2]; subst.
      - destruct SR as [->|(c & r & -> & _)]; [congruence|]. reflexivity.
      - inversion FW as [|? ? [N1 F1] F2]; subst. destruct t as [|c t]; [congruence|]. inversion F1; subst. unfold isTok, firstChar. cbn. apply Nat.eqb_neq. intros ->. discriminate. }
    destruct (w ++ s) eqn:EW.
    { apply app_eq_nil in EW. destruct EW as [-> ->]. destruct section; [cbn in E; congruence|discriminate]. }
    rewrite OP, PT. cbn [rbind].
    assert (LC : isTok chColon (last ts []) = false).
    { destruct ts as [|t ts]; [reflexivity|]. apply (word_tok _ chColon (last_word (t :: ts) ltac:(discriminate) FW) eq_refl). }
    rewrite LC, (not_explicit _ FW). reflexivity.
  Qed.
  Lemma parse_empty o : parseNormal env n [] = Ok o -> snd (fst o) = [zUnk].
  Proof.
    unfold parseNormal. fold db. unfold stmtAt in HS. rewrite HS. cbn. intros H. apply Ok_inj in H. subst o. reflexivity.
  Qed.
End Normal.

Section Compressed.
  Variable env : penv.
  Hypothesis WE : wf_env env.
  Hypothesis UE : uniq_env env.
  Let db := e_db env.
  Variable n : nat.
  Variable st : stmtRec.
  Hypothesis HS : stmtAt db n st.
  Hypothesis HT : s_type st = S_p.
  Hypothesis HYPDISJ : forall h, In h (s_optHyps st) -> ~ In h (s_reqHyps st).
  Let hypTab := entries env Z.of_nat (s_optHyps st) ++ entries env (fun h => -1000 - Z.of_nat h)%Z (s_reqHyps st).

  Definition labRef (l : label) (m : nat) : Prop := l = e_name env m /\ refersTo env n st m /\ ~ In m (s_reqHyps st).
  Lemma flag0_raise s e x : p_flag (raise (S s) e) <= x -> x = 0 -> False.
  Proof. intros H1 H2. pose proof (proj2 (raise_flag (S s) e)). lia. Qed.
  Lemma code_back l e z e' : labelCode env n hypTab l e = Ok (z, e') -> p_flag e <= p_flag e' /\ (p_flag e' = 0 -> exists m, z = Z.of_nat m /\ labRef l m).
  Proof.
    unfold labelCode. intros H. destruct (e_find env hypTab l) as [j|] eqn:EF.
    - apply (we_some _ WE) in EF. apply in_ctab in EF. destruct EF as (h & -> & [[I ->]|[I ->]]).
      + destruct (hyp_labelled env WE n st HS HT h (or_intror I)) as (P0 & sh & A & B).
        assert (L1 : (Z.of_nat h <? 0)%Z = false) by (apply Z.ltb_ge; lia).
        assert (L2 : (Z.of_nat h <=? 0)%Z = false) by (apply Z.leb_gt; lia). rewrite L1, L2 in H. apply Ok_inj in H. injection H as <- <-.
        split; [lia|]. intros _. exists h. split; [reflexivity|]. split; [reflexivity|].
        split; [exists sh; split; [exact A|]; right; auto|]. exact (HYPDISJ h I).
      + assert (L1 : (-1000 - Z.of_nat h <? 0)%Z = true) by (apply Z.ltb_lt; lia). rewrite L1 in H.
        destruct (_ <=? 0)%Z; [discriminate|]. apply Ok_inj in H. assert (EE : e' = raise 1 e) by congruence. subst e'.
        pose proof (raise_flag 1 e). split; [lia|]. intros; lia.
    - destruct (e_find env (e_keys env) l) as [j|] eqn:EK.
      + apply (we_some _ WE) in EK. apply (we_keys _ WE) in EK. destruct EK as (m & sm & P0 & -> & A & B & EN).
        rewrite Nat2Z.id in H. unfold stmtAt in A. rewrite A in H. cbn [rget rbind] in H.
        assert (H' : z = Z.of_nat m /\ e' = (if (Z.of_nat n <=? Z.of_nat m)%Z then raise 2 e else e)).
        { destruct B as [B|B]; rewrite B in H; apply Ok_inj in H; injection H as <- <-; auto. }
        destruct H' as [-> ->]. destruct (Z.leb_spec (Z.of_nat n) (Z.of_nat m)).
        * pose proof (raise_flag 2 e). split; [lia|]. intros; lia.
        * split; [lia|]. intros _. exists m. split; [reflexivity|]. split; [now symmetry|]. split; [exists sm; unfold stmtAt; split; [exact A|]; left; split; [exact B|lia]|].
          intros I. destruct (hyp_labelled env WE n st HS HT m (or_introl I)) as (_ & sh & C & D).
          assert (sm = sh) by (unfold stmtAt in *; congruence). subst sh. unfold isAssertion, isHyp in *. destruct B, D; congruence.
      + apply Ok_inj in H. assert (EE : e' = raise 2 e) by congruence. subst e'. pose proof (raise_flag 2 e). split; [lia|]. intros; lia.
  Qed.
  Lemma codes_back : forall ls e zs e', labelCodes env n hypTab ls e = Ok (zs, e') -> p_flag e <= p_flag e' /\
    (p_flag e' = 0 -> exists lm, zs = map Z.of_nat lm /\ Forall2 labRef ls lm).
  Proof.
    induction ls as [|l ls IH]; intros e zs e' H; cbn [labelCodes] in H.
    - apply Ok_inj in H. injection H as <- <-. split; [lia|]. intros _. exists []. split; [reflexivity|constructor].
    - apply rbind_ok in H. destruct H as ([z e1] & H1 & H). apply rbind_ok in H. destruct H as ([zs1 e2] & H2 & H). apply Ok_inj in H. injection H as <- <-.
      destruct (code_back _ _ _ _ H1) as [A1 B1]. destruct (IH _ _ _ H2) as [A2 B2]. split; [lia|]. intros F0.
      destruct (B2 F0) as (lm & -> & F2). destruct (B1 ltac:(lia)) as (m & -> & F1). exists (m :: lm). split; [reflexivity|now constructor].
  Qed.

  (* ---- the letters ---- *)
  Variable max : nat.
  Lemma letterStep_flag w s s1 adv : letterStep env max w s = Ok (s1, adv) -> p_flag (c_err s) <= p_flag (c_err s1).
  Proof.
    unfold letterStep. intros H. destruct (_ <? _)%Z; [discriminate|].
    set (oor := (_ <=? _)%Z) in H. set (e1 := if oor then raise 2 (c_err s) else c_err s) in H. assert (L1 : p_flag (c_err s) <= p_flag e1).
    { unfold e1. destruct oor; [apply raise_flag|lia]. }
    apply rbind_ok in H. destruct H as (z & _ & H). destruct (_ <=? _); [discriminate|]. apply rbind_ok in H. destruct H as (lf & _ & H).
    destruct lf as [sm|].
    - destruct (c_cnt s <? _).
      + destruct (_ <=? _); [discriminate|]. apply Ok_inj in H. injection H as <- _. cbn [c_err]. pose proof (raise_flag 3 e1). lia.
      + destruct (_ <=? _); [discriminate|]. apply Ok_inj in H. injection H as <- _. exact L1.
    - destruct (_ <=? _); [discriminate|]. apply Ok_inj in H. injection H as <- _. exact L1.
  Qed.
  Lemma loop_flag bg : forall f l s s', comprLoop f env max bg l s = Ok s' -> p_flag (c_err s) <= p_flag (c_err s').
  Proof.
    induction f as [|f IH]; intros l s s' H; [discriminate|]. cbn [comprLoop] in H. destruct l as [|c r]; [discriminate|].
    destruct (128 <=? c); [discriminate|]. destruct ((65 <=? c) && (c <=? 84)).
    { apply rbind_ok in H. destruct H as ([s1 adv] & H1 & H). apply IH in H. apply letterStep_flag in H1. lia. }
    destruct ((85 <=? c) && (c <=? 89)).
    { apply rbind_ok in H. destruct H as (s1 & H1 & H). apply IH in H. unfold digitStep in H1. destruct (_ <? _)%Z; [discriminate|].
      apply Ok_inj in H1. subst s1. exact H. }
    destruct (c =? 90).
    { apply rbind_ok in H. destruct H as (s1 & H1 & H). apply IH in H. unfold zStep in H1.
      set (e1 := if (c_idx s =? 0)%Z then c_err s else raise 2 (c_err s)) in H1. assert (L1 : p_flag (c_err s) <= p_flag e1).
      { unfold e1. destruct (c_idx s =? 0)%Z; [lia|apply raise_flag]. }
      destruct (_ <=? _); [discriminate|]. destruct (rev (c_proof s)) as [|z pr].
      - apply Ok_inj in H1. subst s1. cbn [c_err] in H. pose proof (raise_flag 2 e1). lia.
      - apply rbind_ok in H1. destruct H1 as (lf & _ & H1). apply Ok_inj in H1. subst s1. cbn [c_err] in H.
        destruct lf; [lia|]. pose proof (raise_flag 2 e1). lia. }
    destruct (isspace c); [now apply IH in H|].
    assert (RL : forall l', comprLoop f env max bg l' (mkCst (c_idx s) (c_map s) (c_proof s) (c_cnt s) (raise 2 (c_err s))) = Ok s' -> p_flag (c_err s) <= p_flag (c_err s')).
    { intros l' Q. apply IH in Q. cbn [c_err] in Q. pose proof (raise_flag 2 (c_err s)). lia. }
    destruct (c =? 36).
    { destruct r as [|d r']; [eauto|]. destruct (d =? 46); [apply Ok_inj in H; subst s'; lia|].
      destruct ((d =? 40) || (d =? 33)); [|eauto]. apply rbind_ok in H. destruct H as (l' & _ & H). now apply IH in H. }
    destruct (c =? 63).
    { apply rbind_ok in H. destruct H as (s1 & H1 & H). apply IH in H. unfold qStep in H1. destruct (_ || _); [discriminate|].
      apply Ok_inj in H1. subst s1. cbn [c_err] in H. pose proof (atLeast_flag 1 (if (c_idx s =? 0)%Z then c_err s else raise 2 (c_err s))).
      pose proof (raise_flag 2 (c_err s)). destruct (c_idx s =? 0)%Z; lia. }
    eauto.
  Qed.

  Variable tail : list nat.
  Hypothesis TL : exists r, tail = dollar :: 46 :: r.
  Variable base : list Z.
  Hypothesis BP : Forall (fun z => 0 <= z)%Z base.
  Definition codesFrom (acc : nat) (x : list nat) (cs : list code) : Prop :=
    acc = 0 /\ codes x cs \/ exists t i r cs', x = t ++ r /\ number acc t i /\ codes r cs' /\ cs = Num i :: cs'.
  Lemma codesFrom_0 x cs : codesFrom 0 x cs -> codes x cs.
  Proof. intros [[_ H]|(t & i & r & cs' & -> & N & H & ->)]; [exact H|now constructor]. Qed.
  Lemma number_s acc t i : number acc t i -> exists j, i = S j.
  Proof. induction 1; [|assumption]. exists (20 * acc + d). lia. Qed.

  Lemma letters_back : forall f tx x s s' acc pre locs, comprLoop f env max false (tx ++ tail) s = Ok s' ->
    p_flag (c_err s') = 0 -> c_idx s' = 0%Z -> lettersOf tx x -> c_idx s = Z.of_nat acc -> c_map s = base ++ locs ->
    Forall (fun z => exists k, z = -1000 - Z.of_nat k)%Z locs -> c_proof s = map encStep pre ->
    exists cs p, codesFrom acc x cs /\ emits env base pre locs cs p /\ c_proof s' = map encStep (pre ++ p).
  Proof.
    induction f as [|f IH]; intros tx x s s' acc pre locs H F0 I0 HL HI HM HLc HP; [discriminate|].
    destruct HL as [|c r x SP HL|body r x CT HL|c r x LT HL].
    - cbn [app] in H. destruct TL as (q & ->). change (Ok s = Ok s') in H. apply Ok_inj in H. subst s'.
      exists [], []. split; [left; split; [lia|constructor]|]. split; [constructor|]. now rewrite app_nil_r.
    - cbn [app comprLoop] in H.
      assert (E1 : (128 <=? c) = false) by (apply Nat.leb_gt; lia).
      assert (E2 : (65 <=? c) = false) by (apply Nat.leb_gt; lia).
      assert (E3 : (85 <=? c) = false) by (apply Nat.leb_gt; lia).
      assert (E4 : (c =? 90) = false) by (apply Nat.eqb_neq; lia).
      assert (E5 : isspace c = true).
      { unfold isspace. apply orb_true_iff. destruct SP as [SP|SP]; [right|left; now apply Nat.eqb_eq].
        apply andb_true_iff. rewrite !Nat.leb_le. lia. }
      rewrite E1, E2, E3, E4, E5 in H. exact (IH r x s s' acc pre locs H F0 I0 HL HI HM HLc HP).
    - destruct (letters_next env max tail TL r x s HL) as (w & r' & E & B & I & _ & Q).
      assert (BB : TokSpec.blanks ((dollar :: 40 :: body ++ [dollar; 41]) ++ w) (r' ++ tail)) by (constructor; [now constructor|exact B]).
      pose proof (whiteSpace_blanks _ _ BB I) as WS.
      assert (EE : (dollar :: 40 :: body ++ dollar :: 41 :: r) ++ tail = ((dollar :: 40 :: body ++ [dollar; 41]) ++ w) ++ r' ++ tail).
      { rewrite E. cbn. rewrite <- !app_assoc. cbn. rewrite <- !app_assoc. reflexivity. }
      assert (H' : (do l2 <- whiteSpace ((dollar :: 40 :: body ++ dollar :: 41 :: r) ++ tail); comprLoop f env max false l2 s) = Ok s') by exact H.
      rewrite EE, WS in H'. cbn [rbind] in H'.
      assert (HL' : lettersOf r' x).
      { destruct Q as [[-> ->]|(c & r2 & x' & -> & -> & L & HL2)]; [constructor|now constructor]. }
      exact (IH r' x s s' acc pre locs H' F0 I0 HL' HI HM HLc HP).
    - cbn [app comprLoop] in H.
      assert (E1 : (128 <=? c) = false) by (apply Nat.leb_gt; lia). rewrite E1 in H.
      destruct (Nat.leb_spec c 84) as [L84|L84].
      { (* A..T *)
        assert (E2 : (65 <=? c) = true) by (apply Nat.leb_le; lia). rewrite E2 in H. cbn [andb] in H.
        apply rbind_ok in H. destruct H as ([s1 adv] & H1 & H). pose proof (loop_flag _ _ _ _ _ H) as FL.
        unfold letterStep in H1. set (d := c - 65) in *. replace (c_idx s * 20 + Z.of_nat d)%Z with (Z.of_nat (20 * acc + d)) in H1 by (rewrite HI; lia).
        destruct (_ <? _)%Z; [discriminate|].
        destruct (Z.leb_spec (Z.of_nat (length (c_map s))) (Z.of_nat (20 * acc + d))) as [OO|OO].
        { exfalso. assert (2 <= p_flag (c_err s1)); [|lia]. pose proof (raise_flag 2 (c_err s)).
          apply rbind_ok in H1. destruct H1 as (z & _ & H1). destruct (_ <=? _); [discriminate|]. apply rbind_ok in H1. destruct H1 as (lf & _ & H1).
          pose proof (raise_flag 3 (raise 2 (c_err s))).
          destruct lf as [sm|]; [destruct (c_cnt s <? _)|]; (destruct (_ <=? _); [discriminate|]); apply Ok_inj in H1; injection H1 as <- _; cbn [c_err]; lia. }
        rewrite Nat2Z.id in H1. apply rbind_ok in H1. destruct H1 as (z & HZ & H1). destruct (_ <=? _); [discriminate|].
        apply rbind_ok in H1. destruct H1 as (lf & _ & H1).
        assert (HZ' : nth_error (base ++ locs) (20 * acc + d) = Some z).
        { rewrite <- HM. unfold rget in HZ. destruct (nth_error (c_map s) (20 * acc + d)); [apply Ok_inj in HZ; congruence|discriminate]. }
        assert (EZ : exists y, z = encStep y).
        { apply nth_error_In in HZ'. apply in_app_or in HZ'. destruct HZ' as [I|I].
          - rewrite Forall_forall in BP. specialize (BP z I). exists (Stm (Z.to_nat z)). cbn. lia.
          - rewrite Forall_forall in HLc. destruct (HLc z I) as (k & ->). exists (Loc k). reflexivity. }
        destruct EZ as (y & ->).
        assert (Q : adv = true /\ exists cnt', s1 = mkCst 0 (c_map s) (c_proof s ++ [encStep y]) cnt' (c_err s)).
        { destruct lf as [sm|]; [destruct (c_cnt s <? _)|].
          - exfalso. destruct (_ <=? _); [discriminate|]. apply Ok_inj in H1. injection H1 as <- _. cbn [c_err] in FL. pose proof (raise_flag 3 (c_err s)). lia.
          - destruct (_ <=? _); [discriminate|]. apply Ok_inj in H1. injection H1 as <- <-. eauto.
          - destruct (_ <=? _); [discriminate|]. apply Ok_inj in H1. injection H1 as <- <-. eauto. }
        destruct Q as (-> & cnt' & ->).
        destruct (IH r x _ s' 0 (pre ++ [y]) locs H F0 I0 HL eq_refl HM HLc) as (cs & p & CF & EM & EP).
        { cbn [c_proof]. rewrite HP, map_app. reflexivity. }
        exists (Num (S (20 * acc + d)) :: cs), (y :: p). split; [|split].
        - right. exists [c], (S (20 * acc + d)), x, cs. split; [reflexivity|]. split; [|split; [now apply codesFrom_0|reflexivity]].
          replace c with (65 + d) by (unfold d; lia). replace (S (20 * acc + d)) with (20 * acc + d + 1) by lia. constructor. unfold d. lia.
        - econstructor; [exact HZ'|exact EM].
        - rewrite EP, <- app_assoc. reflexivity. }
      rewrite andb_false_r in H.
      destruct (Nat.leb_spec c 89) as [L89|L89].
      { (* U..Y *)
        assert (E2 : (85 <=? c) = true) by (apply Nat.leb_le; lia). rewrite E2 in H. cbn [andb] in H.
        apply rbind_ok in H. destruct H as (s1 & H1 & H). unfold digitStep in H1. destruct (_ <? _)%Z; [discriminate|]. apply Ok_inj in H1. set (d := c - 85) in *.
        destruct (IH r x s1 s' (5 * acc + d + 1) pre locs H F0 I0 HL) as (cs & p & CF & EM & EP); try exact HLc; try (rewrite <- H1; cbn [c_map c_proof]; assumption).
        { rewrite <- H1. cbn [c_idx]. destruct (Z.eqb_spec (c_idx s) 0); lia. }
        exists cs, p. split; [|auto]. destruct CF as [[Q _]|(t & i & r' & cs' & -> & N & HC & ->)]; [lia|].
        right. exists (c :: t), i, r', cs'. split; [reflexivity|]. split; [|auto]. replace c with (85 + d) by (unfold d; lia). constructor; [unfold d; lia|exact N]. }
      rewrite andb_false_r in H. assert (c = 90) by lia. subst c. cbn [Nat.eqb] in H.
      apply rbind_ok in H. destruct H as (s1 & H1 & H). pose proof (loop_flag _ _ _ _ _ H) as FL. unfold zStep in H1.
      set (e1 := if (c_idx s =? 0)%Z then c_err s else raise 2 (c_err s)) in H1.
      destruct (_ <=? _); [discriminate|]. destruct (rev (c_proof s)) as [|z pr] eqn:ER.
      { exfalso. apply Ok_inj in H1. subst s1. cbn [c_err] in FL. pose proof (raise_flag 2 e1). lia. }
      apply rbind_ok in H1. destruct H1 as (lf & HLf & H1). apply Ok_inj in H1.
      destruct lf as [sm|]; [|exfalso; subst s1; cbn [c_err] in FL; pose proof (raise_flag 2 e1); lia].
      assert (EI : c_idx s = 0%Z /\ e1 = c_err s).
      { unfold e1 in *. destruct (Z.eqb_spec (c_idx s) 0); [auto|]. exfalso. subst s1. cbn [c_err] in FL. pose proof (raise_flag 2 (c_err s)). lia. }
      destruct EI as [EI EE]. rewrite EE in H1. assert (acc = 0) by lia. subst acc.
      assert (EP : exists pre' y, pre = pre' ++ [y]).
      { destruct pre as [|y0 pre0] using rev_ind; [rewrite HP in ER; discriminate|]. eauto. }
      destruct EP as (pre' & y & ->). rewrite HP, map_app, rev_app_distr in ER. cbn [map rev app] in ER. injection ER as EY _.
      assert (AS : asrtStep env y).
      { rewrite <- EY in HLf. unfold isLeaf in HLf. destruct y as [|k|m].
        - cbn in HLf. discriminate.
        - cbn [encStep] in HLf. assert (Q : (zLoc (Z.of_nat k) <? 0)%Z = true) by (apply Z.ltb_lt; unfold zLoc; lia). rewrite Q in HLf. discriminate.
        - cbn [encStep] in HLf. assert (Q : (Z.of_nat m <? 0)%Z = false) by (apply Z.ltb_ge; lia). rewrite Q, Nat2Z.id in HLf.
          apply rbind_ok in HLf. destruct HLf as (sm' & HSM & HLf). exists m, sm'. split; [reflexivity|]. split.
          + unfold rget in HSM. unfold stmtAt. destruct (nth_error (db_stmts (e_db env)) m); [apply Ok_inj in HSM; congruence|discriminate].
          + unfold isAssertion. destruct (s_type sm'); auto; discriminate. }
      assert (LZ : (Z.of_nat (length (c_proof s)) - 1)%Z = Z.of_nat (length pre')) by (rewrite HP, map_length, app_length; cbn; lia).
      rewrite LZ in H1.
      destruct (IH r x s1 s' 0 (pre' ++ [y]) (locs ++ [(-1000 - Z.of_nat (length pre'))%Z]) H F0 I0 HL) as (cs & p & CF & EM & EP).
      { rewrite <- H1. reflexivity. }
      { rewrite <- H1. cbn [c_map]. rewrite HM, <- app_assoc. reflexivity. }
      { apply Forall_app. split; [exact HLc|]. constructor; [eauto|constructor]. }
      { rewrite <- H1. exact HP. }
      exists (Mark :: cs), p. split; [|split; [now constructor|exact EP]]. left. split; [reflexivity|]. constructor. now apply codesFrom_0.
  Qed.
End Compressed.

Section Text.
  Variable env : penv.
  Hypothesis WE : wf_env env.
  Hypothesis UE : uniq_env env.
  Let db := e_db env.
  Variable n : nat.
  Variable st : stmtRec.
  Hypothesis HS : stmtAt db n st.
  Hypothesis HT : s_type st = S_p.
  Hypothesis HYPDISJ : forall h, In h (s_optHyps st) -> ~ In h (s_reqHyps st).
  Lemma parse_compressed_back w a b ls x max rest fuel zs ec :
    let section := w ++ 40 :: a ++ 41 :: b in
    words w [] -> words a ls -> Forall labelWord ls -> lettersOf b x ->
    ~ pairIn 85 86 section \/ pairIn 85 85 b ->
    parseText fuel env n max section (dollar :: 46 :: rest) = Ok (Some (0, zs, ec)) ->
    exists lm cs p, Forall2 (labRef env n st) ls lm /\ codes x cs /\
      emits env (map Z.of_nat (s_reqHyps st ++ lm)) [] [] cs p /\ zs = map encStep p.
  Proof.
    intros section WW WA FW HL OB H. set (tail := dollar :: 46 :: rest) in *.
    unfold parseText in H.
    assert (EF : section ++ tail = w ++ 40 :: a ++ 41 :: b ++ tail).
    { unfold section. rewrite <- app_assoc. cbn [app]. rewrite <- app_assoc. reflexivity. }
    rewrite EF in H. clear EF. destruct (w ++ 40 :: a ++ 41 :: b ++ tail) as [|c0 l0] eqn:E0; [destruct w; discriminate|]. rewrite <- E0 in H. clear c0 l0 E0.
    assert (SI : startsInk (40 :: a ++ 41 :: b ++ tail)).
    { right. exists 40, (a ++ 41 :: b ++ tail). split; [reflexivity|]. split; [unfold graphic; lia|]. unfold dollar. lia. }
    rewrite (whiteSpace_blanks w _ (words_blanks w _ WW) SI) in H. cbn [rbind] in H.
    change (isTok chOpen (40 :: a ++ 41 :: b ++ tail)) with true in H. cbn [tl] in H.
    assert (LT : labelToks (41 :: b ++ tail) (a ++ 41 :: b ++ tail) ls).
    { apply words_labels; auto; [apply ink_close|]. right. left. unfold oneCharToken. cbn. tauto. }
    pose proof (words_len _ _ WA) as WL.
    destruct (labelList_toks _ _ _ LT (S (length (40 :: a ++ 41 :: b ++ tail)))) as (pl & q & pp & E1 & E2 & E3 & E4).
    { cbn [length]. rewrite app_length. lia. }
    rewrite E1 in H. cbn [rbind] in H. rewrite E2 in H.
    assert (ET : firstn (length (last (map snd pl) (b ++ tail)) - length tail) (last (map snd pl) (b ++ tail)) = pp ++ b).
    { rewrite E4, app_assoc, app_length. replace (length (pp ++ b) + length tail - length tail) with (length (pp ++ b)) by lia.
      rewrite firstn_app, firstn_all, Nat.sub_diag. cbn [firstn]. apply app_nil_r. }
    assert (BG : bggy (pp ++ b) = false).
    { unfold bggy. apply andb_false_iff. destruct OB as [OB|OB].
      - left. destruct (hasPair2 85 86 (pp ++ b)) eqn:EH; [|reflexivity]. exfalso. apply OB. apply hasPair_iff in EH.
        unfold section. rewrite E4 in E3.
        assert (EE : a ++ [41] ++ b = q ++ pp ++ b).
        { rewrite !app_assoc in E3. rewrite <- app_assoc in E3. cbn [app] in E3.
          apply (app_inv_tail tail). rewrite <- !app_assoc. cbn [app]. rewrite <- !app_assoc in E3. exact E3. }
        apply pair_app. change (40 :: a ++ 41 :: b) with ([40] ++ a ++ [41] ++ b). rewrite EE. apply pair_app, pair_app. exact EH.
      - right. apply negb_false_iff. apply hasPair_iff. now apply pair_app. }
    rewrite ET in H. clear ET. apply rbind_ok in H. destruct H as (out & H & HO). apply Ok_inj in HO. injection HO as ->.
    unfold parseCompressed in H. fold db in H. pose proof HS as HS'. unfold stmtAt in HS'. rewrite HS' in H. cbn [rget rbind] in H. rewrite BG in H.
    apply rbind_ok in H. destruct H as ([codes0 e2] & HC & H). destruct (_ <? _); [discriminate|].
    apply rbind_ok in H. destruct H as (s & HR & H).
    pose proof (loop_flag env max _ _ _ _ _ HR) as LF. cbn [c_err] in LF.
    set (e3 := if (c_idx s =? 0)%Z then c_err s else raise 2 (c_err s)) in H.
    assert (FIN : forall pf cnt e k z c, finish pf cnt e = Ok (k, z, c) -> z = pf /\ p_flag e <= k).
    { intros pf cnt e k z c Q. unfold finish in Q. destruct (cnt =? 1); [apply Ok_inj in Q; injection Q as <- <- _; auto|].
      destruct pf as [|z0 pf]; [discriminate|]. apply Ok_inj in Q. assert (EQ1 : z = z0 :: pf) by congruence. assert (EQ2 : k = p_flag (raise 3 e)) by congruence. subst. split; [reflexivity|exact (proj1 (raise_flag 3 e))]. }
    assert (FL : zs = c_proof s /\ p_flag e3 = 0).
    { destruct (c_proof s) as [|z0 l0].
      - destruct (_ || _); [discriminate|]. apply FIN in H. destruct H as [_ H]. pose proof (raise_flag 1 e3). lia.
      - destruct (_ <=? _); [discriminate|]. apply FIN in H. destruct H as [-> H]. split; [reflexivity|lia]. }
    destruct FL as [EZ F3].
    assert (Q : c_idx s = 0%Z /\ p_flag (c_err s) = 0).
    { unfold e3 in F3. destruct (Z.eqb_spec (c_idx s) 0); [auto|]. pose proof (raise_flag 2 (c_err s)). lia. }
    destruct Q as [I0 F0].
    destruct (codes_back env WE n st HS HT HYPDISJ _ _ _ _ HC) as [_ HC']. destruct (HC' ltac:(lia)) as (lm & -> & FLm).
    rewrite <- map_app in HR.
    destruct (letters_back env max tail (ex_intro _ rest eq_refl) (map Z.of_nat (s_reqHyps st ++ lm))) with (f := fuel) (tx := b) (x := x)
      (s := mkCst 0 (map Z.of_nat (s_reqHyps st ++ lm)) [] 0 e2) (s' := s) (acc := 0) (pre := @nil pstep) (locs := @nil Z) as (cs & p & CF & EM & EP); auto.
    { apply Forall_forall. intros z Hz. apply in_map_iff in Hz. destruct Hz as (m & <- & _). lia. }
    { cbn [c_map]. now rewrite app_nil_r. }
    exists lm, cs, p. split; [exact FLm|]. split; [now apply codesFrom_0|]. split; [exact EM|]. rewrite EZ, EP. reflexivity.
  Qed.
End Text.
