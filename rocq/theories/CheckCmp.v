(* CheckCmp.v -- the proof parser on a compressed proof. *)
From Verif Require Import Base LabModel StmModel StmSpec TokSpec SrcSpec MMSpec VerModel VerSpec VerProofs TokModel TokProofs ParModel ParSpec
  CmpSpec ReadModel ReadOut ReadSpec ReadWords CheckSpec CheckPar.
Open Scope nat_scope.

Lemma words_blanks w rest : words w [] -> TokSpec.blanks w rest.
Proof.
  intros W. remember [] as xs eqn:E. induction W as [|c r xs G W IH|body r xs C W IH|t r xs N T TE W IH]; [constructor| | |discriminate].
  - change (c :: r) with ([c] ++ r). constructor; [now constructor|auto].
  - replace (dollar :: 40 :: body ++ dollar :: 41 :: r) with ((dollar :: 40 :: body ++ [dollar; 41]) ++ r)
      by (cbn; now rewrite <- app_assoc).
    constructor; [now constructor|auto].
Qed.

(* the label list *)
Inductive labelToks (X : list nat) : list nat -> list name -> Prop :=
| lt_end w : TokSpec.blanks w X -> labelToks X (w ++ X) []
| lt_tok w t s ts : TokSpec.blanks w (t ++ s) -> labelWord t -> plainEnds s -> labelToks X s ts -> labelToks X (w ++ t ++ s) (t :: ts).

Lemma words_labels a ls X : words a ls -> Forall labelWord ls -> startsInk X -> plainEnds X -> labelToks X (a ++ X) ls.
Proof.
  intros W F SX EX. revert F. induction W as [|c r xs G W IH|body r xs C W IH|t r xs N T TE W IH]; intros F.
  - apply (lt_end X []). constructor.
  - specialize (IH F). change ((c :: r) ++ X) with (c :: r ++ X). inversion IH as [w HB E|w t s ts HB HW HE HT E]; subst.
    + change (c :: w ++ X) with ((c :: w) ++ X). constructor. change (c :: w) with ([c] ++ w). constructor; [now constructor|exact HB].
    + change (c :: w ++ t ++ s) with ((c :: w) ++ t ++ s). constructor; auto. change (c :: w) with ([c] ++ w). constructor; [now constructor|exact HB].
  - specialize (IH F).
    replace ((dollar :: 40 :: body ++ dollar :: 41 :: r) ++ X) with ((dollar :: 40 :: body ++ [dollar; 41]) ++ (r ++ X))
      by (cbn; now rewrite <- !app_assoc).
    inversion IH as [w HB E|w t s ts HB HW HE HT E]; subst.
    + rewrite app_assoc. constructor. constructor; [now constructor|exact HB].
    + rewrite app_assoc. constructor; auto. constructor; [now constructor|exact HB].
  - inversion F as [|? ? F1 F2]; subst. rewrite <- app_assoc. apply (lt_tok X [] t (r ++ X)); auto; [constructor|].
    destruct r as [|c r]; [exact EX|]. cbn in *. destruct TE as [TE|[-> TE]]; [now left|]. right. right. split; [reflexivity|].
    destruct r as [|d r]; [exfalso; eapply words_dollar; eauto|]. apply TE.
Qed.

Lemma word_len t s : labelWord t -> plainEnds s -> proofTokenLen (t ++ s) = length t.
Proof.
  intros LW PE. assert (PT : proofToken t s) by (right; split; [apply LW|]; split; [now apply word_plain|exact PE]).
  exact (proofToken_len _ t s eq_refl PT).
Qed.

Lemma ink_close b : startsInk (41 :: b).
Proof. right. exists 41, b. split; [reflexivity|]. split; [unfold graphic; lia|]. unfold dollar. lia. Qed.
Lemma ink_word t s : labelWord t -> startsInk (t ++ s).
Proof.
  intros [N F]. destruct t as [|c t]; [congruence|]. inversion F as [|? ? F1 F2]; subst. apply labelChar_plain in F1. destruct F1 as (G & D & _).
  right. exists c, (t ++ s). split; [reflexivity|]. split; [exact G|]. congruence.
Qed.
Lemma labelList_toks b l ls : labelToks (41 :: b) l ls -> forall f, length ls < f ->
  exists pl q p, labelList f l = Ok (pl, true, b) /\ map fst pl = ls /\ l = q ++ last (map snd pl) b /\ last (map snd pl) b = p ++ b.
Proof.
  induction 1 as [w HB|w t s ts HB HW HE HT IH]; intros f L.
  - destruct f as [|f]; [cbn in L; lia|]. cbn [labelList]. rewrite (whiteSpace_blanks w _ HB (ink_close b)). cbn [rbind].
    exists [], (w ++ [41]), []. split; [reflexivity|]. split; [reflexivity|]. cbn [map last]. split; [now rewrite <- app_assoc|reflexivity].
  - destruct f as [|f]; [lia|]. cbn [length] in L. destruct (IH f ltac:(lia)) as (pl & q & p & E1 & E2 & E3 & E4).
    cbn [labelList]. rewrite (whiteSpace_blanks w _ HB (ink_word t s HW)). cbn [rbind].
    pose proof (word_len t s HW HE) as WL. assert (LP : length t <> 0) by (destruct HW as [HW _]; destruct t; [congruence|cbn; lia]).
    destruct (proofTokenLen (t ++ s)) as [|k] eqn:EK; [lia|]. rewrite WL.
    assert (CT : isTok chClose (t ++ s) = false).
    { destruct HW as [N F]. destruct t as [|c t]; [congruence|]. unfold isTok, firstChar. cbn. apply Nat.eqb_neq. intros ->. inversion F; subst. discriminate. }
    rewrite CT, skipn_app, skipn_all, Nat.sub_diag. cbn [skipn app]. rewrite E1. cbn [rbind].
    rewrite firstn_app, firstn_all, Nat.sub_diag. cbn [firstn]. rewrite app_nil_r.
    destruct pl as [|x pl].
    + cbn [map last] in *. subst ts. exists [(t, t ++ s)], w, (t ++ q). split; [reflexivity|]. split; [reflexivity|].
      cbn [map last]. split; [reflexivity|]. cbn [fst snd]. rewrite E3 at 1. now rewrite app_assoc.
    + exists ((t, t ++ s) :: x :: pl), (w ++ t ++ q), p. split; [reflexivity|]. split; [cbn [map fst]; now rewrite <- E2|].
      change (last (map snd ((t, t ++ s) :: x :: pl)) b) with (last (map snd (x :: pl)) b). rewrite <- E4. split; [|reflexivity].
      rewrite <- !app_assoc. do 2 f_equal. exact E3.
Qed.

Section Cmp.
  Variable env : penv.
  Hypothesis WE : wf_env env.
  Hypothesis UE : uniq_env env.
  Let db := e_db env.
  Variable n : nat.
  Variable st : stmtRec.
  Hypothesis HS : stmtAt db n st.
  Hypothesis HT : s_type st = S_p.
  Let hypTab := entries env Z.of_nat (s_optHyps st) ++ entries env (fun h => -1000 - Z.of_nat h)%Z (s_reqHyps st).

  Lemma in_ctab l j : In (l, j) hypTab -> exists h, l = e_name env h /\
    (In h (s_optHyps st) /\ j = Z.of_nat h \/ In h (s_reqHyps st) /\ j = (-1000 - Z.of_nat h)%Z).
  Proof.
    unfold hypTab, entries. intros H. apply in_app_or in H. destruct H as [H|H]; apply in_map_iff in H; destruct H as (h & E & H); injection E as <- <-; exists h; auto.
  Qed.
  Lemma code_of m e : refersTo env n st m -> ~ In m (s_reqHyps st) -> labelCode env n hypTab (e_name env m) e = Ok (Z.of_nat m, e).
  Proof.
    intros (sm & A & B) NR. unfold labelCode. destruct B as [[AS L]|[HY I]].
    - destruct (e_find env hypTab (e_name env m)) as [j|] eqn:E.
      { exfalso. apply (we_some _ WE) in E. apply in_ctab in E. destruct E as (h & E & K).
        destruct (hyp_labelled env WE n st HS HT h ltac:(tauto)) as (_ & sh & C & D).
        assert (m = h) by (apply (ue_name _ UE m h sm sh); auto; [now left|now right]). subst h.
        assert (sm = sh) by (unfold stmtAt in *; congruence). subst sh. unfold isAssertion, isHyp in *. destruct AS, D; congruence. }
      destruct (e_find env (e_keys env) (e_name env m)) as [j|] eqn:E2.
      2:{ exfalso. exact (we_none _ WE _ _ E2 _ (ue_keys _ UE m sm A AS)). }
      apply (we_some _ WE) in E2. apply (we_keys _ WE) in E2. destruct E2 as (m' & sm' & _ & -> & C & K & E2).
      assert (m = m') by (apply (ue_name _ UE m m' sm sm'); auto; now left). subst m'.
      rewrite Nat2Z.id. fold db. unfold stmtAt in A. fold db in A. rewrite A. cbn [rget rbind].
      assert (L2 : (Z.of_nat n <=? Z.of_nat m)%Z = false) by (apply Z.leb_gt; lia).
      destruct AS as [AS|AS]; rewrite AS, L2; reflexivity.
    - destruct I as [I|I]; [contradiction|].
      assert (IT : In (e_name env m, Z.of_nat m) hypTab).
      { unfold hypTab, entries. apply in_or_app. left. apply in_map_iff. eauto. }
      destruct (e_find env hypTab (e_name env m)) as [j|] eqn:E; [|exfalso; exact (we_none _ WE _ _ E _ IT)].
      apply (we_some _ WE) in E. apply in_ctab in E. destruct E as (h & E & K).
      destruct (hyp_labelled env WE n st HS HT h ltac:(tauto)) as (P0 & sh & C & D).
      assert (m = h) by (apply (ue_name _ UE m h sm sh); auto; now right). subst h.
      destruct K as [[_ ->]|[K _]]; [|contradiction].
      assert (L1 : (Z.of_nat m <? 0)%Z = false) by (apply Z.ltb_ge; lia).
      assert (L2 : (Z.of_nat m <=? 0)%Z = false) by (apply Z.leb_gt; lia). rewrite L1, L2. reflexivity.
  Qed.
  Lemma codes_of e : forall lm, Forall (refersTo env n st) lm -> (forall m, In m lm -> ~ In m (s_reqHyps st)) ->
    labelCodes env n hypTab (map (e_name env) lm) e = Ok (map Z.of_nat lm, e).
  Proof.
    induction lm as [|m lm IH]; intros F NR; [reflexivity|]. inversion F as [|? ? F1 F2]; subst. cbn [map labelCodes].
    rewrite (code_of m e F1) by (apply NR; now left). cbn [rbind]. rewrite IH by (auto; intros; apply NR; now right). reflexivity.
  Qed.

  (* ---- the letters ---- *)
  Variable max : nat.
  Variable tail : list nat.
  Hypothesis TL : exists r, tail = dollar :: 46 :: r.
  Definition cruns (l : list nat) (s : cst) (l' : list nat) (s' : cst) : Prop :=
    exists k, k + length l' <= length l /\ forall f, comprLoop (k + f) env max false l s = comprLoop f env max false l' s'.
  Lemma cruns_refl l s : cruns l s l s. Proof. exists 0. split; [lia|reflexivity]. Qed.
  Lemma cruns_trans l1 s1 l2 s2 l3 s3 : cruns l1 s1 l2 s2 -> cruns l2 s2 l3 s3 -> cruns l1 s1 l3 s3.
  Proof.
    intros (k1 & L1 & H1) (k2 & L2 & H2). exists (k1 + k2). split; [lia|]. intros f. rewrite <- Nat.add_assoc, H1. apply H2.
  Qed.
  Lemma cruns_one c l s s' : (forall f, comprLoop (S f) env max false (c :: l) s = comprLoop f env max false l s') -> cruns (c :: l) s l s'.
  Proof. intros H. exists 1. split; [cbn; lia|]. exact H. Qed.

  Lemma tail_ink : startsInk tail.
  Proof. destruct TL as (r & ->). right. exists dollar, (46 :: r). split; [reflexivity|]. split; [exact graphic_dollar|]. intros _. right. exists 46, r. split; [reflexivity|lia]. Qed.
  Lemma upper_ink c r : 65 <= c <= 90 -> startsInk (c :: r).
  Proof. intros L. right. exists c, r. split; [reflexivity|]. split; [unfold graphic; lia|]. unfold dollar. lia. Qed.
  Lemma letters_next tx x s : lettersOf tx x ->
    exists w r, tx = w ++ r /\ TokSpec.blanks w (r ++ tail) /\ startsInk (r ++ tail) /\ cruns (tx ++ tail) s (r ++ tail) s /\
      (x = [] /\ r = [] \/ exists c r' x', r = c :: r' /\ x = c :: x' /\ 65 <= c <= 90 /\ lettersOf r' x').
  Proof.
    induction 1 as [|c r x SP H IH|body r x CT H IH|c r x LT H IH].
    - exists [], []. split; [reflexivity|]. split; [constructor|]. split; [exact tail_ink|]. split; [apply cruns_refl|]. now left.
    - destruct IH as (w & r' & E & B & I & K & Q). exists (c :: w), r'. split; [cbn; now rewrite E|].
      split; [change (c :: w) with ([c] ++ w); constructor; [constructor; unfold graphic; lia|exact B]|]. split; [exact I|]. split; [|exact Q].
      eapply cruns_trans; [|exact K]. cbn [app]. apply cruns_one. intros f. cbn [comprLoop].
      assert (E1 : (128 <=? c) = false) by (apply Nat.leb_gt; lia).
      assert (E2 : (65 <=? c) = false) by (apply Nat.leb_gt; lia).
      assert (E3 : (85 <=? c) = false) by (apply Nat.leb_gt; lia).
      assert (E4 : (c =? 90) = false) by (apply Nat.eqb_neq; lia).
      assert (E5 : isspace c = true).
      { unfold isspace. apply orb_true_iff. destruct SP as [SP|SP]; [right|left; now apply Nat.eqb_eq].
        apply andb_true_iff. rewrite !Nat.leb_le. lia. }
      rewrite E1, E2, E3, E4, E5. reflexivity.
    - destruct IH as (w & r' & E & B & I & K & Q). exists ((dollar :: 40 :: body ++ [dollar; 41]) ++ w), r'.
      assert (EE : (dollar :: 40 :: body ++ dollar :: 41 :: r) = ((dollar :: 40 :: body ++ [dollar; 41]) ++ w) ++ r').
      { rewrite E. cbn. rewrite <- !app_assoc. reflexivity. }
      assert (BB : TokSpec.blanks ((dollar :: 40 :: body ++ [dollar; 41]) ++ w) (r' ++ tail)) by (constructor; [now constructor|exact B]).
      split; [exact EE|]. split; [exact BB|]. split; [exact I|]. split; [|exact Q].
      rewrite EE, <- app_assoc. pose proof (whiteSpace_blanks _ _ BB I) as WS. exists 1. split.
      { rewrite !app_length. cbn. lia. }
      intros f. set (L := ((dollar :: 40 :: body ++ [dollar; 41]) ++ w) ++ r' ++ tail) in *.
      assert (EL : L = dollar :: 40 :: ((body ++ [dollar; 41]) ++ w) ++ r' ++ tail) by reflexivity.
      rewrite EL at 1. cbn [Nat.add]. 
      assert (UF : forall l', comprLoop (S f) env max false (dollar :: 40 :: l') s = (do l2 <- whiteSpace (dollar :: 40 :: l'); comprLoop f env max false l2 s)) by reflexivity.
      rewrite UF, <- EL, WS. reflexivity.
    - exists [], (c :: r). split; [reflexivity|]. split; [constructor|]. split; [cbn [app]; now apply upper_ink|]. split; [apply cruns_refl|]. right. exists c, r, x. auto.
  Qed.
  Lemma letter_next tx c x s : lettersOf tx (c :: x) -> exists tx', lettersOf tx' x /\ 65 <= c <= 90 /\ cruns (tx ++ tail) s (c :: tx' ++ tail) s.
  Proof.
    intros H. destruct (letters_next tx _ s H) as (w & r & _ & _ & _ & K & [[Q _]|(c' & r' & x' & -> & Q & L & H')]); [discriminate|].
    injection Q as <- <-. exists r'. auto.
  Qed.
  Lemma letters_end tx s : lettersOf tx [] -> cruns (tx ++ tail) s tail s.
  Proof.
    intros H. destruct (letters_next tx _ s H) as (w & r & _ & _ & _ & K & [[_ ->]|(c' & r' & x' & -> & Q & L & H')]); [exact K|discriminate].
  Qed.

  Lemma number_pos acc t i : number acc t i -> acc <= i.
  Proof. induction 1; lia. Qed.
  (* digits, then the letter: the table entry i - 1 *)
  Lemma number_run acc t i : number acc t i -> forall x tx s z, lettersOf tx (t ++ x) -> c_idx s = Z.of_nat acc ->
    (Z.of_nat i <= maxLong)%Z -> nth_error (c_map s) (i - 1) = Some z -> length (c_proof s) < max -> c_cnt s < max ->
    forall cnt', (isLeaf env z = Ok None /\ cnt' = S (c_cnt s) \/
       exists sm, isLeaf env z = Ok (Some sm) /\ length (s_reqHyps sm) <= c_cnt s /\ cnt' = S (c_cnt s - length (s_reqHyps sm))) ->
    exists tx', lettersOf tx' x /\ cruns (tx ++ tail) s (tx' ++ tail) (mkCst 0 (c_map s) (c_proof s ++ [z]) cnt' (c_err s)).
  Proof.
    induction 1 as [acc d LD|acc d r i LD NU IH]; intros x tx s z HL HI LI HZ LP LC cnt' HC; cbn [app] in HL;
      destruct (letter_next _ _ _ s HL) as (tx1 & HL1 & LT & C1).
    - exists tx1. split; [exact HL1|]. eapply cruns_trans; [exact C1|]. apply cruns_one. intros f.
      set (c := 65 + d) in *. cbn [comprLoop].
      assert (E1 : (128 <=? c) = false) by (apply Nat.leb_gt; unfold c; lia).
      assert (E2 : (65 <=? c) = true) by (apply Nat.leb_le; unfold c; lia).
      assert (E3 : (c <=? 84) = true) by (apply Nat.leb_le; unfold c; lia).
      rewrite E1, E2, E3. cbn [andb]. replace (c - 65) with d by (unfold c; lia).
      unfold letterStep. replace (c_idx s * 20 + Z.of_nat d)%Z with (Z.of_nat (20 * acc + d + 1 - 1)) by (rewrite HI; lia).
      destruct (Z.ltb_spec maxLong (Z.of_nat (20 * acc + d + 1 - 1))); [lia|].
      assert (LM : 20 * acc + d + 1 - 1 < length (c_map s)) by (apply nth_error_Some; congruence).
      destruct (Z.leb_spec (Z.of_nat (length (c_map s))) (Z.of_nat (20 * acc + d + 1 - 1))); [lia|].
      rewrite Nat2Z.id, HZ. cbn [rget rbind].
      destruct (Nat.leb_spec max (length (c_proof s))); [lia|].
      destruct HC as [(-> & ->)|(sm & -> & LH & ->)]; cbn [rbind].
      + destruct (Nat.leb_spec max (c_cnt s)); [lia|]. reflexivity.
      + destruct (Nat.ltb_spec (c_cnt s) (length (s_reqHyps sm))); [lia|].
        destruct (Nat.leb_spec max (c_cnt s - length (s_reqHyps sm))); [lia|]. reflexivity.
    - pose proof (number_pos _ _ _ NU) as NP.
      destruct (IH x tx1 (mkCst (Z.of_nat (5 * acc + d + 1)) (c_map s) (c_proof s) (c_cnt s) (c_err s)) z HL1 eq_refl LI HZ LP LC cnt' HC) as (tx' & HL' & C2).
      exists tx'. split; [exact HL'|]. eapply cruns_trans; [exact C1|]. eapply cruns_trans; [|exact C2].
      apply cruns_one. intros f. set (c := 85 + d) in *. cbn [comprLoop].
      assert (E1 : (128 <=? c) = false) by (apply Nat.leb_gt; unfold c; lia).
      assert (E2 : (c <=? 84) = false) by (apply Nat.leb_gt; unfold c; lia).
      assert (E3 : (85 <=? c) = true) by (apply Nat.leb_le; unfold c; lia).
      assert (E4 : (c <=? 89) = true) by (apply Nat.leb_le; unfold c; lia).
      rewrite E1, E2, E3, E4, andb_false_r. cbn [andb]. replace (c - 85) with d by (unfold c; lia). unfold digitStep.
      destruct (Z.ltb_spec maxLong (c_idx s * 5 + Z.of_nat d + 1)); [lia|]. cbn [rbind].
      replace (if (c_idx s =? 0)%Z then (Z.of_nat d + 1)%Z else (c_idx s * 5 + Z.of_nat d + 1 - 0)%Z) with (Z.of_nat (5 * acc + d + 1)); [reflexivity|].
      destruct (Z.eqb_spec (c_idx s) 0); lia.
  Qed.
  Lemma mark_run x tx s pre z sm : lettersOf tx (90 :: x) -> c_idx s = 0%Z -> length (c_map s) < max -> c_proof s = pre ++ [z] -> isLeaf env z = Ok (Some sm) ->
    exists tx', lettersOf tx' x /\ cruns (tx ++ tail) s (tx' ++ tail) (mkCst 0 (c_map s ++ [(-1000 - Z.of_nat (length pre))%Z]) (c_proof s) (c_cnt s) (c_err s)).
  Proof.
    intros HL HI LM HP LF. destruct (letter_next _ _ _ s HL) as (tx1 & HL1 & LT & C1). exists tx1. split; [exact HL1|].
    eapply cruns_trans; [exact C1|]. apply cruns_one. intros f.
    change (comprLoop (S f) env max false (90 :: tx1 ++ tail) s) with (do s' <- zStep env max s; comprLoop f env max false (tx1 ++ tail) s').
    unfold zStep. rewrite HI. cbn [Z.eqb]. destruct (Nat.leb_spec max (length (c_map s))); [lia|].
    replace (rev (c_proof s)) with (z :: rev pre) by (rewrite HP, rev_app_distr; reflexivity). rewrite LF. cbn [rbind].
    replace (Z.of_nat (length (c_proof s)) - 1)%Z with (Z.of_nat (length pre)); [reflexivity|]. rewrite HP, app_length. cbn. lia.
  Qed.

  (* what the codes say about the proof: len steps so far, locs the references saved *)
  Definition asrtStep (x : pstep) : Prop := exists m sm, x = Stm m /\ stmtAt db m sm /\ isAssertion sm.
  Inductive emits (base : list Z) : list pstep -> list Z -> list code -> list pstep -> Prop :=
  | em_nil pre locs : emits base pre locs [] []
  | em_num pre locs i x cs p : nth_error (base ++ locs) i = Some (encStep x) -> emits base (pre ++ [x]) locs cs p ->
      emits base pre locs (Num (S i) :: cs) (x :: p)
  | em_mark pre x locs cs p : asrtStep x ->
      emits base (pre ++ [x]) (locs ++ [(-1000 - Z.of_nat (length pre))%Z]) cs p -> emits base (pre ++ [x]) locs (Mark :: cs) p.

  Lemma leaf_step x cnt c1 : x <> Unk -> balanced db [x] cnt = Some c1 ->
    isLeaf env (encStep x) = Ok None /\ c1 = S cnt \/
    exists sm, isLeaf env (encStep x) = Ok (Some sm) /\ length (s_reqHyps sm) <= cnt /\ c1 = S (cnt - length (s_reqHyps sm)).
  Proof.
    intros NU B. unfold isLeaf. destruct x as [|k|m]; [congruence| |].
    - left. cbn [encStep]. assert (E : (zLoc (Z.of_nat k) <? 0)%Z = true) by (apply Z.ltb_lt; unfold zLoc; lia). rewrite E.
      cbn in B. injection B as <-. auto.
    - cbn [encStep]. assert (E : (Z.of_nat m <? 0)%Z = false) by (apply Z.ltb_ge; lia). rewrite E, Nat2Z.id. cbn [balanced] in B. fold db.
      destruct (nth_error (db_stmts db) m) as [sm|]; [|discriminate]. cbn [rget rbind].
      destruct (s_type sm) eqn:ES; try discriminate.
      3,4: injection B as <-; now left.
      all: destruct (Nat.leb_spec (length (s_reqHyps sm)) cnt); [|discriminate]; injection B as <-; right; eauto.
  Qed.
  Lemma bal_cons x p d d' : balanced db (x :: p) d = Some d' -> exists d1, balanced db [x] d = Some d1 /\ balanced db p d1 = Some d'.
  Proof.
    destruct x as [|k|m]; cbn [balanced]; [eauto|eauto|]. destruct (nth_error (db_stmts db) m) as [sm|]; [|discriminate].
    destruct (s_type sm); try discriminate; eauto; destruct (length (s_reqHyps sm) <=? d); try discriminate; eauto.
  Qed.
  Lemma bal_one x d d1 : balanced db [x] d = Some d1 -> d1 <= S d.
  Proof.
    destruct x as [|k|m]; cbn [balanced]; [intros [= <-]; lia|intros [= <-]; lia|]. destruct (nth_error (db_stmts db) m) as [sm|]; [|discriminate].
    destruct (s_type sm); try discriminate; try (intros [= <-]; lia); destruct (length (s_reqHyps sm) <=? d); intros [= <-]; lia.
  Qed.

  Fixpoint marks (cs : list code) : nat := match cs with [] => 0 | Mark :: r => S (marks r) | _ :: r => marks r end.
  Lemma codes_run base : forall pre locs cs p, emits base pre locs cs p -> forall x tx cnt d' e,
    codes x cs -> lettersOf tx x -> Forall (fun y => y <> Unk) p -> balanced db p cnt = Some d' ->
    length pre + length p <= max -> cnt <= length pre -> length (base ++ locs) + marks cs <= max ->
    (Z.of_nat (length (base ++ locs) + marks cs) <= maxLong)%Z ->
    exists map', cruns (tx ++ tail) (mkCst 0 (base ++ locs) (map encStep pre) cnt e) tail (mkCst 0 map' (map encStep (pre ++ p)) d' e).
  Proof.
    induction 1 as [pre locs|pre locs i x cs p HN EM IH|pre x locs cs p AS EM IH]; intros y tx cnt d' e HC HL NU B L1 L2 L3 ML.
    - inversion HC; subst. cbn in B. injection B as <-. exists (base ++ locs). rewrite app_nil_r. now apply letters_end.
    - inversion HC as [|t i' r cs' NM HC'|]; subst. inversion NU as [|? ? NU1 NU2]; subst.
      destruct (bal_cons _ _ _ _ B) as (d1 & B1 & B2). cbn [length] in L1.
      assert (LI : S i <= length (base ++ locs)) by (apply nth_error_Some; congruence).
      destruct (number_run 0 t (S i) NM r tx (mkCst 0 (base ++ locs) (map encStep pre) cnt e) (encStep x) HL eq_refl ltac:(lia)) with (cnt' := d1) as (tx' & HL' & C1);
        cbn [c_map c_proof c_cnt c_err].
      { cbn [Nat.sub]. rewrite Nat.sub_0_r. exact HN. }
      { rewrite map_length. lia. }
      { lia. }
      { now apply leaf_step. }
      cbn [c_map c_proof c_cnt c_err] in C1.
      destruct (IH r tx' d1 d' e HC' HL' NU2 B2) as (map' & C2).
      { rewrite app_length. cbn. lia. }
      { rewrite app_length. cbn. pose proof (bal_one _ _ _ B1). lia. }
      { cbn [marks] in L3. exact L3. }
      { exact ML. }
      exists map'. eapply cruns_trans; [exact C1|]. rewrite map_app in C2. cbn [map] in C2. rewrite <- app_assoc in C2. exact C2.
    - inversion HC as [| |r cs' HC']; subst. destruct AS as (m & sm & -> & HM & IA). cbn [marks] in L3.
      destruct (mark_run r tx (mkCst 0 (base ++ locs) (map encStep (pre ++ [Stm m])) cnt e) (map encStep pre) (Z.of_nat m) sm HL eq_refl) as (tx' & HL' & C1);
        cbn [c_map c_proof c_cnt c_err].
      { lia. }
      { rewrite map_app. reflexivity. }
      { unfold isLeaf. assert (E : (Z.of_nat m <? 0)%Z = false) by (apply Z.ltb_ge; lia). rewrite E, Nat2Z.id. unfold stmtAt in HM. fold db. rewrite HM. cbn [rget rbind].
        destruct IA as [IA|IA]; rewrite IA; reflexivity. }
      cbn [c_map c_proof c_cnt c_err] in C1. rewrite map_length in C1. rewrite <- app_assoc in C1.
      destruct (IH r tx' cnt d' e HC' HL' NU B) as (map' & C2); auto.
      { rewrite app_assoc, app_length. cbn [length]. lia. }
      { rewrite app_assoc, app_length. cbn [length]. cbn [marks] in ML. lia. }
      exists map'. eapply cruns_trans; [exact C1|exact C2].
  Qed.

  Lemma number_ne acc t i : number acc t i -> 0 < length t.
  Proof. destruct 1; cbn; lia. Qed.
  Lemma emits_len base pre locs cs p : emits base pre locs cs p -> forall x, codes x cs -> length p + marks cs <= length x.
  Proof.
    induction 1 as [pre locs|pre locs i x cs p HN EM IH|pre x locs cs p AS EM IH]; intros y HC; inversion HC as [|t i' r cs' NM HC'|r cs' HC']; subst; cbn [length marks].
    - lia.
    - specialize (IH _ HC'). apply number_ne in NM. rewrite app_length. lia.
    - specialize (IH _ HC'). lia.
  Qed.
  Lemma letters_len tx x : lettersOf tx x -> length x <= length tx.
  Proof. induction 1; cbn [length]; rewrite ?app_length; cbn [length]; lia. Qed.
End Cmp.
Lemma words_len a ls : words a ls -> length ls <= length a.
Proof.
  induction 1 as [|c r xs G W IH|body r xs C W IH|t r xs N T TE W IH]; cbn [length]; rewrite ?app_length; cbn [length]; try lia.
  destruct t; [congruence|]. cbn [length]. lia.
Qed.
Lemma hasPair_iff a b l : hasPair2 a b l = true <-> pairIn a b l.
Proof.
  split.
  - induction l as [|x l IH]; [discriminate|]. destruct l as [|y l]; [discriminate|]. cbn [hasPair2]. intros H. apply orb_true_iff in H. destruct H as [H|H].
    + apply andb_true_iff in H. rewrite !Nat.eqb_eq in H. destruct H as [-> ->]. exists [], l. reflexivity.
    + destruct (IH H) as (p & q & E). exists (x :: p), q. now rewrite E.
  - intros (p & q & ->). induction p as [|x p IH].
    + cbn. now rewrite !Nat.eqb_refl.
    + destruct p as [|y p]; cbn [app] in *.
      * change (hasPair2 a b (x :: a :: b :: q)) with (((x =? a) && (a =? b)) || hasPair2 a b (a :: b :: q)). rewrite IH. apply orb_true_r.
      * change (hasPair2 a b (x :: y :: p ++ a :: b :: q)) with (((x =? a) && (y =? b)) || hasPair2 a b (y :: p ++ a :: b :: q)). rewrite IH. apply orb_true_r.
Qed.
Lemma pair_app a b p l : pairIn a b l -> pairIn a b (p ++ l).
Proof. intros (x & y & ->). exists (p ++ x), y. now rewrite <- app_assoc. Qed.

Section Text.
  Variable env : penv.
  Hypothesis WE : wf_env env.
  Hypothesis UE : uniq_env env.
  Let db := e_db env.
  Variable n : nat.
  Variable st : stmtRec.
  Hypothesis HS : stmtAt db n st.
  Hypothesis HT : s_type st = S_p.
  Lemma parse_compressed w a b lm x cs p max rest :
    let section := w ++ 40 :: a ++ 41 :: b in
    words w [] -> words a (map (e_name env) lm) -> lettersOf b x -> codes x cs ->
    Forall (refersTo env n st) lm -> (forall m, In m lm -> ~ In m (s_reqHyps st)) ->
    emits env (map Z.of_nat (s_reqHyps st ++ lm)) [] [] cs p -> Forall (fun y => y <> Unk) p -> balanced db p 0 = Some 1 ->
    ~ pairIn 85 86 section \/ pairIn 85 85 b ->
    length section + length (s_reqHyps st) <= max -> (Z.of_nat (length section + length (s_reqHyps st)) <= maxLong)%Z ->
    forall fuel, length section < fuel ->
    parseText fuel env n max section (dollar :: 46 :: rest) = Ok (Some (0, map encStep p, 0)).
  Proof.
    intros section WW WA HL HC RF NR EM NU BA OB LM ML fuel HF. set (tail := dollar :: 46 :: rest).
    assert (FW : Forall labelWord (map (e_name env) lm)).
    { apply Forall_forall. intros y Hy. apply in_map_iff in Hy. destruct Hy as (m & <- & Hm). rewrite Forall_forall in RF.
      exact (ref_word env UE n st m (RF m Hm)). }
    unfold parseText.
    assert (EF : section ++ tail = w ++ 40 :: a ++ 41 :: b ++ tail).
    { unfold section. rewrite <- app_assoc. cbn [app]. rewrite <- app_assoc. reflexivity. }
    rewrite EF. clear EF. destruct (w ++ 40 :: a ++ 41 :: b ++ tail) as [|c0 l0] eqn:E0; [destruct w; discriminate|]. rewrite <- E0. clear c0 l0 E0.
    assert (SI : startsInk (40 :: a ++ 41 :: b ++ tail)).
    { right. exists 40, (a ++ 41 :: b ++ tail). split; [reflexivity|]. split; [unfold graphic; lia|]. unfold dollar. lia. }
    rewrite (whiteSpace_blanks w _ (words_blanks w _ WW) SI). cbn [rbind].
    change (isTok chOpen (40 :: a ++ 41 :: b ++ tail)) with true. cbn [tl].
    assert (LT : labelToks (41 :: b ++ tail) (a ++ 41 :: b ++ tail) (map (e_name env) lm)).
    { apply words_labels; auto; [apply ink_close|]. right. left. unfold oneCharToken. cbn. tauto. }
    pose proof (words_len _ _ WA) as WL.
    destruct (labelList_toks _ _ _ LT (S (length (40 :: a ++ 41 :: b ++ tail)))) as (pl & q & pp & E1 & E2 & E3 & E4).
    { cbn [length]. rewrite app_length. lia. }
    rewrite E1. cbn [rbind]. rewrite E2.
    assert (ET : firstn (length (last (map snd pl) (b ++ tail)) - length tail) (last (map snd pl) (b ++ tail)) = pp ++ b).
    { rewrite E4, app_assoc, app_length. replace (length (pp ++ b) + length tail - length tail) with (length (pp ++ b)) by lia.
      rewrite firstn_app, firstn_all, Nat.sub_diag. cbn [firstn]. apply app_nil_r. }
    assert (BG : bggy (pp ++ b) = false).
    { unfold bggy. apply andb_false_iff. destruct OB as [OB|OB].
      - left. destruct (hasPair2 85 86 (pp ++ b)) eqn:EH; [|reflexivity]. exfalso. apply OB. apply hasPair_iff in EH.
        unfold section. rewrite E4 in E3.
        assert (EE : a ++ [41] ++ b = q ++ pp ++ b).
        { rewrite !app_assoc in E3. rewrite <- app_assoc in E3. cbn [app] in E3.
          apply (app_inv_tail tail). rewrite <- !app_assoc. cbn [app]. rewrite <- !app_assoc in E3. exact E3. }
        apply pair_app. change (40 :: a ++ 41 :: b) with ([40] ++ a ++ [41] ++ b). rewrite EE. apply pair_app, pair_app. exact EH.
      - right. apply negb_false_iff. apply hasPair_iff. now apply pair_app. }
    fold tail. rewrite ET. clear ET.
    unfold parseCompressed. fold db. unfold stmtAt in HS. rewrite HS. cbn [rget rbind]. rewrite BG.
    rewrite (codes_of env WE UE n st HS HT (mkErr 0 0) lm RF NR). cbn [rbind]. rewrite <- map_app.
    assert (LS : length section = length w + S (length a + S (length b))) by (unfold section; rewrite app_length; cbn [length]; rewrite app_length; reflexivity).
    rewrite map_length in WL. pose proof (letters_len _ _ HL) as LB. pose proof (emits_len _ _ _ _ _ _ EM _ HC) as LE.
    assert (LB0 : length (map Z.of_nat (s_reqHyps st ++ lm)) = length (s_reqHyps st) + length lm) by (rewrite map_length, app_length; reflexivity).
    destruct (Nat.ltb_spec max (length (map Z.of_nat (s_reqHyps st ++ lm)))); [lia|].
    destruct (codes_run env max tail (ex_intro _ rest eq_refl) _ _ _ _ _ EM x b 0 1 (mkErr 0 0) HC HL NU BA) as (map' & k & LK & CR); auto; rewrite ?app_nil_r; try (cbn [length]; lia).
    cbn [map app] in CR. rewrite app_nil_r in CR.
    rewrite app_length in LK.
    replace fuel with (k + S (fuel - k - 1)) by lia. rewrite CR.
    change (comprLoop (S (fuel - k - 1)) env max false tail (mkCst 0 map' (map encStep p) 1 (mkErr 0 0))) with (Ok (mkCst 0 map' (map encStep p) 1 (mkErr 0 0))).
    cbn [rbind c_idx c_proof c_cnt c_err Z.eqb].
    destruct p as [|y p]; [discriminate|]. cbn [map].
    destruct (Nat.leb_spec max (length (encStep y :: map encStep p))) as [HX|HX]; [cbn [length] in HX, LE; rewrite map_length in HX; lia|].
    reflexivity.
  Qed.
End Text.
