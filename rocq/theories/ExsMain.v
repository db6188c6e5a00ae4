(* ExsMain.v -- proofs about ExpModel: a proof in /EXPLICIT format read without an error is a
   good proof *)
From Coq Require Import ZifyBool ZifyNat Permutation.
From Verif Require Import Base MMSpec VerModel VerSpec VerProofs TokModel ParModel ParSpec ParProofs ParText SqModel SqSpec SqProofs SqAttr PfaProofs PfaMore CmpSpec ExpModel ExpSpec ExpProofs ExpMove ExpBuild ExpMain ExsBuild.
Open Scope nat_scope.

(* ---------- the scan ---------- *)
Definition headEq (toks : list label) : bool := match toks with t :: _ => isTok chEq t | [] => true end.
Record xinv (prev : label) (toks : list label) (s : xscan) : Prop := {
  xv_lf : isTok chColon prev = false -> isTok chEq prev = false -> headEq toks = false -> ns_lf (xs_n s) = false;
  xv_idx : length (xs_idx s) = length (ns_steps (xs_n s));
  xv_loc : forall l z, In (l, z) (ns_loc (xs_n s)) -> exists i, z = zLoc (Z.of_nat i) /\
      ((i < length (ns_steps (xs_n s)) /\ exists t, nth_error (rev (ns_steps (xs_n s))) i = Some (t, true)) \/
       (i = length (ns_steps (xs_n s)) /\ ns_lf (xs_n s) = true)) }.
Lemma beforeEq_head r : beforeEq r = true -> headEq r = true.
Proof. unfold beforeEq, headEq. destruct r as [|t [|u r]]; auto. discriminate. Qed.
Lemma scanX_ok env n hypTab : forall toks prev i s s', scanX env n hypTab prev i toks s = Ok s' ->
  p_flag (ns_err (xs_n s)) <= p_flag (ns_err (xs_n s')) /\ (eOk (ns_err (xs_n s)) -> eOk (ns_err (xs_n s'))) /\
  (xinv prev toks s -> p_flag (ns_err (xs_n s')) <= 1 -> exists prev', xinv prev' [] s').
Proof.
  induction toks as [|t toks IH]; intros prev i s s' H; cbn [scanX] in H; [apply Ok_inj in H; subst s'; split; [lia|]; split; eauto|].
  destruct (beforeEq toks || isTok chEq t) eqn:BE.
  { destruct (IH _ _ _ _ H) as [H1 [H2 H3]]. split; [exact H1|]. split; [exact H2|]. intros I B. apply H3; auto. constructor; [|apply (xv_idx _ _ _ I)|apply (xv_loc _ _ _ I)].
    intros E1 E2 E3. apply orb_true_iff in BE. destruct BE as [BE|BE]; [apply beforeEq_head in BE|]; congruence. }
  apply orb_false_iff in BE. destruct BE as [_ TE]. destruct (isTok chColon t) eqn:TC.
  - apply rbind_ok in H. destruct H as [q [Hc H]]. destruct (IH _ _ _ _ H) as [H1 [H2 H3]]. cbn [xs_n] in *. destruct (colonTok_flag _ _ _ _ _ _ Hc) as [L1 [L2 L3]]. split; [lia|]. split; [auto|].
    intros I B. apply H3; [|exact B]. destruct (L3 ltac:(lia)) as [P1 P2].
    assert (SI : SInv prev (xs_n s)) by (constructor; [intros; apply (xv_lf _ _ _ I); auto|apply (xv_loc _ _ _ I)]).
    destruct (colonTok_inv _ _ _ _ _ _ Hc SI ltac:(lia)) as [J1 J2]. constructor; cbn [xs_n xs_idx]; [congruence| |exact J2].
    unfold colonTok in Hc. pose proof (xv_idx _ _ _ I) as XI. destruct (ns_steps (xs_n s)) as [|x l]; [discriminate Hc|]. destruct (xs_idx s) as [|k ks]; [discriminate XI|]. cbn [tl length] in *. destruct (e_find env hypTab prev); apply Ok_inj in Hc; subst q; cbn [ns_steps]; lia.
  - cbn zeta in H. destruct (IH _ _ _ _ H) as [H1 [H2 H3]]. cbn [xs_n ns_err] in *. split; [exact H1|]. split; [exact H2|]. intros I B. apply H3; [|exact B]. constructor; cbn [xs_n xs_idx ns_lf ns_steps ns_loc length]; auto; [rewrite (xv_idx _ _ _ I); reflexivity|].
    intros l z Hin. destruct (xv_loc _ _ _ I l z Hin) as [k [E [[Hi [t0 Ht]]|[Hi Hl]]]]; exists k; split; auto; left.
    + split; [lia|]. exists t0. cbn [rev]. rewrite nth_error_app1 by (rewrite rev_length; lia). exact Ht.
    + split; [lia|]. exists t. cbn [rev]. rewrite nth_error_app2 by (rewrite rev_length; lia). rewrite rev_length, Hi, Nat.sub_diag. cbn [nth_error]. rewrite Hl. reflexivity.
Qed.
Lemma targetsX_ok : forall toks i idx ts e ts' e', targetsX i toks idx ts e = (ts', e') ->
  p_flag e <= p_flag e' /\ (eOk e -> eOk e') /\ (p_flag e' <= 1 -> length ts' = length ts + length idx).
Proof.
  induction toks as [|t r IH]; intros i idx ts e ts' e' H; cbn [targetsX] in H.
  - injection H as <- <-. destruct idx as [|k idx]; [split; [lia|]; split; [auto|]; cbn [length]; lia|]. split; [cbn; lia|]. split; [intros; apply eOk_raise; discriminate|]. cbn [raise p_flag]. lia.
  - destruct (beforeEq r); [|apply (IH _ _ _ _ _ _ H)]. destruct idx as [|k idx].
    + injection H as <- <-. split; [cbn; lia|]. split; [intros; apply eOk_raise; discriminate|]. cbn [raise p_flag]. lia.
    + destruct (IH _ _ _ _ _ _ H) as [H1 [H2 H3]]. rewrite app_length in H3. cbn [length] in *. destruct (k =? i + 2); [split; [exact H1|]; split; [exact H2|]; intros B; rewrite (H3 B); lia|].
      split; [cbn [raise p_flag] in H1; lia|]. split; [intros _; apply H2; apply eOk_raise; discriminate|]. intros B. rewrite (H3 B). lia.
Qed.

(* ---------- more fuel ---------- *)
Lemma move_more db : forall fuel p q, moveSubs fuel db p = Ok q -> forall d, moveSubs (fuel + d) db p = Ok q.
Proof.
  induction fuel as [|fuel IH]; intros p q H d; [discriminate H|]. cbn [moveSubs Nat.add] in *. destruct (firstForward 0 p) as [[s k]|]; [|exact H]. apply rbind_ok in H. destruct H as [p' [H1 H]]. rewrite H1. cbn [rbind]. auto.
Qed.

(* ---------- what is left ---------- *)
Section Good.
  Variables (env : penv) (n : nat) (st : stmtRec).
  Notation db := (e_db env).
  Variables (hist : list tree) (T : tree) (L : list item) (q : list Z).
  Hypothesis MV : movable db hist T L.
  Hypothesis CQ : concs L q.
  Hypothesis FF : firstForward 0 q = None.
  Hypothesis IT : itemsOk env n st L.

  Definition dec (z : Z) : pstep := match decStep z with Some x => x | None => Unk end.
  Lemma dec_loc i : dec (zLoc (Z.of_nat i)) = Loc i.
  Proof. unfold dec, decStep, zLoc, zUnk. replace (-1000 - Z.of_nat i =? -63)%Z with false by lia. replace (-1000 - Z.of_nat i <=? -1000)%Z with true by lia. do 1 f_equal. lia. Qed.
  Lemma dec_stm m : 0 < m -> dec (Z.of_nat m) = Stm m.
  Proof. intros P. unfold dec, decStep, zUnk. replace (Z.of_nat m =? -63)%Z with false by lia. replace (Z.of_nat m <=? -1000)%Z with false by lia. replace (0 <? Z.of_nat m)%Z with true by lia. rewrite Nat2Z.id. reflexivity. Qed.
  Lemma ref_item z o : In (z, o) L -> isRef z = true -> exists z', In (z', refOf z) L /\ stepUsed env n z'.
  Proof. intros I R. destruct (IT z o I) as [[_ X]|X]; [exact X|]. rewrite (used_ref env n st z) in R by tauto. discriminate R. Qed.
  Lemma item_used z o : In (z, o) L -> isRef z = false -> stepUsed env n z \/ hypUsed env st z.
  Proof. intros I R. destruct (IT z o I) as [[X _]|X]; [congruence|exact X]. Qed.

  Lemma good_enc : q = map encStep (map dec q).
  Proof.
    rewrite map_map. apply (nth_ext _ _ 0%Z (encStep (dec 0%Z))); [rewrite map_length; reflexivity|]. intros i LI. rewrite (map_nth (fun x => encStep (dec x))).
    destruct (nth_error q i) as [c|] eqn:NQ; [|apply nth_error_None in NQ; lia]. rewrite (nth_error_nth q i 0%Z NQ).
    destruct (f2_nth _ _ _ CQ _ _ NQ) as [[z o] [NL W]]. unfold written in W. cbn [fst] in W. destruct (isRef z) eqn:RZ.
    - destruct W as [p [_ ->]]. rewrite dec_loc. reflexivity.
    - subst c. destruct (item_used z o (nth_error_In _ _ NL) RZ) as [[->|(m & sm & -> & M & _)]|(h & sh & -> & M & _)]; [reflexivity| |]; rewrite dec_stm by lia; reflexivity.
  Qed.
  Lemma good_bal : forall s R s', arun db hist s R s' -> (forall x, In x R -> In x L) -> forall c, Forall2 (written L) R c -> balanced db (map dec c) (length s) = Some (length s').
  Proof.
    induction 1 as [s|z o v s r s' RZ N Q IH|z o kids s r s' RZ AR N Q IH]; intros SB c C; inversion C as [|x c0 l c' W C']; subst; [reflexivity| |]; unfold written in W; cbn [fst] in W; rewrite RZ in W; cbn [map].
    - destruct W as [p [_ ->]]. rewrite dec_loc. cbn [balanced]. apply (IH (fun x I => SB x (or_intror I)) _ C').
    - subst c0. specialize (IH (fun x I => SB x (or_intror I)) _ C'). cbn [length] in IH. rewrite app_length, rev_length.
      destruct (item_used z o (SB _ (or_introl eq_refl)) RZ) as [[->|(m & sm & -> & M & SM & AS)]|(h & sh & -> & M & SH & KH & _)].
      + cbn in AR. injection AR as AR. rewrite <- AR. exact IH.
      + rewrite dec_stm by lia. cbn [balanced]. unfold stmtAt in SM. unfold arity in AR. replace (Z.of_nat m <? 0)%Z with false in AR by lia. rewrite Nat2Z.id, SM in AR. rewrite SM.
        assert (NH : length (s_reqHyps sm) = length kids) by (destruct AS as [E|E]; rewrite E in AR; injection AR as AR; exact AR). destruct AS as [-> | ->]; rewrite NH; replace (length kids <=? length kids + length s) with true by lia; replace (length kids + length s - length kids) with (length s) by lia; exact IH.
      + rewrite dec_stm by lia. cbn [balanced]. unfold stmtAt in SH. unfold arity in AR. replace (Z.of_nat h <? 0)%Z with false in AR by lia. rewrite Nat2Z.id, SH in AR. rewrite SH.
        assert (NH : 0 = length kids) by (destruct KH as [E|E]; rewrite E in AR; injection AR as AR; exact AR). destruct KH as [-> | ->]; rewrite <- NH; exact IH.
  Qed.
  Lemma good_loc k i : nth_error (map dec q) k = Some (Loc i) -> i < k /\ (nth_error (map dec q) i = Some Unk \/ exists m sm, nth_error (map dec q) i = Some (Stm m) /\ stmtAt db m sm /\ isAssertion sm).
  Proof.
    intros N. rewrite nth_error_map in N. destruct (nth_error q k) as [c|] eqn:NQ; [|discriminate N]. cbn in N. injection N as N. destruct (f2_nth _ _ _ CQ _ _ NQ) as [[z o] [NL W]]. unfold written in W. cbn [fst] in W. destruct (isRef z) eqn:RZ.
    2:{ exfalso. subst c. destruct (item_used z o (nth_error_In _ _ NL) RZ) as [[->|(m & sm & -> & M & _)]|(h & sh & -> & M & _)]; [discriminate N| |]; rewrite dec_stm in N by lia; discriminate N. }
    destruct W as [p [NP ->]]. rewrite dec_loc in N. injection N as ->. destruct (ref_zLoc i) as [R1 R2]. pose proof (ff_none _ _ FF k _ NQ R1) as LE. rewrite R2 in LE. cbn [Nat.add] in LE.
    destruct (ref_item z o (nth_error_In _ _ NL) RZ) as [z' [I' U]]. rewrite nth_error_map in NP. destruct (nth_error L i) as [[z1 o1]|] eqn:NI; [|discriminate NP]. cbn in NP. injection NP as ->.
    assert (z1 = z') by (apply (snd_inj L z1 z' (refOf z) (mv_dist _ _ _ _ MV)); [exact (nth_error_In _ _ NI)|exact I']). subst z1.
    assert (NE : i <> k). { intros ->. rewrite NL in NI. injection NI as <- _. rewrite (used_ref env n st z) in RZ by tauto. discriminate RZ. }
    split; [lia|]. destruct (f2_nth' _ _ _ CQ _ _ NI) as [c [NC W]]. unfold written in W. cbn [fst] in W. rewrite (used_ref env n st z') in W by tauto. subst c. rewrite nth_error_map, NC. cbn [option_map].
    destruct U as [->|(m & sm & -> & M & SM & AS)]; [left; reflexivity|right]. exists m, sm. rewrite dec_stm by lia. auto.
  Qed.
  Lemma good_ref m : In (Stm m) (map dec q) -> exists sm, stmtAt db m sm /\ ((isAssertion sm /\ m < n) \/ (isHyp sm /\ (In m (s_reqHyps st) \/ In m (s_optHyps st)))).
  Proof.
    intros I. apply in_map_iff in I. destruct I as [c [E I]]. destruct (In_nth_error _ _ I) as [k NQ]. destruct (f2_nth _ _ _ CQ _ _ NQ) as [[z o] [NL W]]. unfold written in W. cbn [fst] in W. destruct (isRef z) eqn:RZ.
    - destruct W as [p [_ ->]]. rewrite dec_loc in E. discriminate E.
    - subst c. destruct (item_used z o (nth_error_In _ _ NL) RZ) as [[->|(m' & sm & -> & M & SM & AS)]|(h & sh & -> & M & SH & KH & IH)]; [discriminate E| |]; rewrite dec_stm in E by lia; injection E as ->; [exists sm|exists sh]; split; auto. left. split; [exact AS|lia].
  Qed.
  Lemma good_all : goodProof db n st (map dec q).
  Proof.
    constructor; [split|exact good_loc|exact good_ref].
    - exact (good_bal _ _ _ (mv_run _ _ _ _ MV) (fun x I => I) q CQ).
    - intros k i N. apply (good_loc k i N).
  Qed.
  Lemma good_unk : In Unk (map dec q) -> In zUnk (map fst L).
  Proof.
    intros I. apply in_map_iff in I. destruct I as [c [E I]]. destruct (In_nth_error _ _ I) as [k NQ]. destruct (f2_nth _ _ _ CQ _ _ NQ) as [[z o] [NL W]]. unfold written in W. cbn [fst] in W. destruct (isRef z) eqn:RZ.
    - destruct W as [p [_ ->]]. rewrite dec_loc in E. discriminate E.
    - subst c. destruct (item_used z o (nth_error_In _ _ NL) RZ) as [[->|(m' & sm & -> & M & SM & AS)]|(h & sh & -> & M & SH & KH & IH)].
      + apply in_map_iff. exists (zUnk, o). split; [reflexivity|exact (nth_error_In _ _ NL)].
      + rewrite dec_stm in E by lia. discriminate E.
      + rewrite dec_stm in E by lia. discriminate E.
  Qed.
End Good.

Theorem parseExplicit_good fuel env n st toks k zs ec : wf_env env -> hypLabels env -> stmtAt (e_db env) n st -> s_type st = S_p ->
  parseExplicit fuel env n toks = Ok (k, zs, ec) -> k <= 1 ->
  exists proof, zs = map encStep proof /\ goodProof (e_db env) n st proof /\ (In Unk proof -> k = 1) /\ (k = 0 -> ec = 0).
Proof.
  intros WE HL HS HT H LK. unfold parseExplicit in H. pose proof HS as HS'. unfold stmtAt in HS'. rewrite HS' in H. cbn [rget rbind] in H.
  set (p2 := match toks with [] => (toks, mkErr 0 0) | t :: r => if isTok chColon t then ([chQ] :: r, raise 2 (mkErr 0 0)) else (toks, mkErr 0 0) end) in H.
  assert (O2 : eOk (snd p2)). { unfold p2. destruct toks as [|t r]; [intros _; reflexivity|]. destruct (isTok chColon t); [apply eOk_raise; discriminate|intros _; reflexivity]. }
  destruct p2 as [toks2 e2]. cbn [snd] in O2.
  set (p3 := if isTok chColon (last toks2 []) then (dropLast toks2, raise 2 e2) else (toks2, e2)) in H.
  assert (O3 : eOk (snd p3)) by (unfold p3; destruct (isTok chColon (last toks2 [])); [apply eOk_raise; discriminate|exact O2]).
  destruct p3 as [toks3 e3]. cbn [snd] in O3.
  apply rbind_ok in H. destruct H as [s [Hs H]]. destruct (targetsX 0 toks3 (rev (xs_idx s)) [] (ns_err (xs_n s))) as [targets e4] eqn:ET. destruct (dupZero (ns_loc (xs_n s))); [discriminate H|].
  apply rbind_ok in H. destruct H as [b [Hb H]]. apply rbind_ok in H. destruct H as [o [Ho H]]. apply rbind_ok in H. destruct H as [p1 [Hp1 H]]. apply rbind_ok in H. destruct H as [p2 [Hp2 H]]. apply Ok_inj in H. injection H as E1 E2 E3.
  destruct o as [[k1 zs1] ec1]. cbn [fst snd] in *. subst k1 p2 ec1.
  destruct (finish_ok _ _ _ _ _ _ Ho LK) as [LS [EK [_ EE]]].
  destruct (scanX_ok env n _ _ _ _ _ _ Hs) as [S1 [S2 S3]]. cbn [xs_n ns_err] in S1, S2. destruct (targetsX_ok _ _ _ _ _ _ _ ET) as [T1 [T2 T3]].
  set (e5 := raiseN (dupCount (ns_loc (xs_n s))) 2 e4) in *. assert (L5 : p_flag e4 <= p_flag e5) by apply raiseN_le.
  destruct (buildsX_flag _ _ _ _ _ _ _ Hb) as [B1 B2]. cbn [xb_err] in B1, B2. 
  destruct S3 as [prev' [X1 X2 X3]].
  { constructor; cbn [xs_n xs_idx ns_lf ns_steps ns_loc]; auto. intros l z []. } { lia. }
  assert (LT : length targets = length (rev (ns_steps (xs_n s)))) by (rewrite T3 by lia; cbn [length]; rewrite !rev_length; lia).
  assert (LO : forall l z, In (l, z) (ns_loc (xs_n s)) -> exists i, z = zLoc (Z.of_nat i) /\ (i < length (rev (ns_steps (xs_n s))) -> exists t, nth_error (rev (ns_steps (xs_n s))) i = Some (t, true))).
  { intros l z I. destruct (X3 l z I) as [i [E [[_ Hi]|[Hi _]]]]; exists i; split; auto. rewrite rev_length. lia. }
  destruct (build_steps env n st WE HL HS HT (ns_loc (xs_n s)) (rev (ns_steps (xs_n s))) targets LO LT (rev (ns_steps (xs_n s))) [] [] [] e5 b eq_refl eq_refl) as [hist [S [EB [V1 V2 V3 V4 V5 V6 V7]]]].
  { constructor; cbn [flat map length seq]; auto; [exact I|intros z o []|intros z o []|intros z o t []|intros []]. } { exact Hb. } { lia. }
  rewrite EB in LS, Hp1. cbn [bst xb_stk xb_old xb_proof] in LS, Hp1. rewrite poss_len in LS. destruct S as [|[P [g T]] [|x S]]; try discriminate LS.
  destruct (fix_refs hist (flat [(P, (g, T))]) V3 V4) as [q [Q1 Q2]]. rewrite Hp1 in Q1. apply Ok_inj in Q1. subst q.
  assert (MV : movable (e_db env) hist T (flat [(P, (g, T))])). { constructor; [apply (Permutation_NoDup (Permutation_sym V3)); apply seq_NoDup|exact V4|]. cbn [flat app]. cbn [segsOk] in V2. destruct V2 as [_ [V2 _]]. apply V2. }
  set (L0 := flat [(P, (g, T))]) in *. set (bb := Datatypes.S (list_max (map (fun v => length (rpn v)) hist))).
  destruct (move_loop (e_db env) hist T (length L0) bb L0 p1 0 MV Q2) as [K [L' [q' [G1 [G2 [G3 [G4 G5]]]]]]].
  { intros i z o LI. lia. } { lia. }
  { intros z o v _ _ N. unfold bb. assert (X : length (rpn v) <= list_max (map (fun v => length (rpn v)) hist)); [|lia].
    pose proof (proj1 (list_max_le (map (fun v => length (rpn v)) hist) _) (le_n _)) as X. rewrite Forall_forall in X. apply X. apply in_map_iff. exists v. split; [reflexivity|exact (nth_error_In _ _ N)]. }
  assert (ZQ : zs = q'). { pose proof (move_more _ _ _ _ Hp2 K) as M1. rewrite (G1 (fuel + K)) in M1 by lia. apply Ok_inj in M1. auto. } subst q'.
  assert (IT : itemsOk env n st L'). { intros z o I. destruct (V5 z o (Permutation_in _ (Permutation_sym G5) I)) as [[R [z' [I' U]]]|U]; [left; split; [exact R|]; exists z'; split; [exact (Permutation_in _ G5 I')|exact U]|right; exact U]. }
  exists (map dec zs). split; [exact (good_enc env n st L' zs G3 IT)|]. split; [exact (good_all env n st hist T L' zs G2 G3 G4 IT)|]. split.
  - intros I. apply (good_unk env n st L' zs G3 IT) in I. apply (Permutation_in _ (Permutation_map fst (Permutation_sym G5))) in I. specialize (V7 I). lia.
  - intros Z0. rewrite EE. apply B2; [unfold e5; apply eOk_raiseN; [discriminate|]; auto|]. lia.
Qed.

Theorem parseProofText_good fuel env n st max section rest k zs ec : wf_env env -> hypLabels env -> stmtAt (e_db env) n st -> s_type st = S_p ->
  parseProofText fuel env n max section rest = Ok (k, zs, ec) -> k <= 1 ->
  exists proof, zs = map encStep proof /\ goodProof (e_db env) n st proof /\ (In Unk proof -> k = 1) /\ (k = 0 -> ec = 0).
Proof.
  intros WE HL HS HT H LK. unfold parseProofText in H. apply rbind_ok in H. destruct H as [o [Ho H]]. destruct o as [p|].
  - apply Ok_inj in H. subst p. exact (parseText_good _ _ _ _ _ _ _ _ _ _ WE HS HT Ho LK).
  - apply rbind_ok in H. destruct H as [l [_ H]]. apply rbind_ok in H. destruct H as [x [_ H]]. exact (parseExplicit_good _ _ _ _ _ _ _ _ WE HL HS HT H LK).
Qed.
