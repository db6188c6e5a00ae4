(* ExsBuild.v -- proofs about ExpModel: what building a proof in /EXPLICIT format without an
   error leaves *)
From Coq Require Import ZifyBool ZifyNat Permutation.
From Verif Require Import Base MMSpec VerModel VerSpec VerProofs TokModel ParModel ParSpec ParProofs SqModel SqSpec SqProofs SqAttr PfaProofs PfaMore CmpSpec ExpModel ExpSpec ExpProofs ExpMove ExpBuild ExpMain.
Open Scope nat_scope.

(* ---------- more trees ---------- *)
Definition ext (h h' : list tree) : Prop := forall i v, nth_error h i = Some v -> nth_error h' i = Some v.
Lemma ext_snoc h v : ext h (h ++ [v]).
Proof. intros i x N. rewrite nth_error_app1; [exact N|]. apply nth_error_Some. congruence. Qed.
Lemma arun_ext db h h' : ext h h' -> forall s L s', arun db h s L s' -> arun db h' s L s'.
Proof. intros X s L s' H. induction H; [constructor|eapply ar_ref; eauto|eapply ar_node; eauto]. Qed.
Lemma segs_ext db h h' tg : ext h h' -> forall S, segsOk db h tg S -> segsOk db h' tg S.
Proof. intros X. induction S as [|[P [g t]] S IH]; intros H; [exact I|]. cbn [segsOk] in *. destruct H as [H1 [H2 [H3 H4]]]. split; [exact H1|]. split; [intros s; apply (arun_ext db h h' X); apply H2|]. auto. Qed.
Lemma refs_ext h h' : ext h h' -> forall L, refsOk h L -> refsOk h' L.
Proof. intros X L H z o I R. destruct (H z o I R) as [z' [v [A [B [C D]]]]]. exists z', v. auto. Qed.

(* ---------- the subproofs found by their targets ---------- *)
Section Kids.
  Variables (db : dbase) (hist : list tree) (targets : list label).
  Lemma find_inv W hs E name y : Forall2 (segAt db targets W) hs E -> findSeg targets name (map segOf (combine hs E)) = Ok (Some y) -> exists x, In x E /\ fst (snd x) = name.
  Proof.
    induction 1 as [|h x hs E (A & B & u & _ & _ & _ & _ & TG) F IH]; intros H; [discriminate H|]. cbn [combine map findSeg] in H. unfold segOf at 1 in H. cbn [fst snd] in H. rewrite TG in H. cbn [rget rbind] in H.
    destruct (list_eq_dec Nat.eq_dec name (fst (snd x))) as [->|]; [exists x; split; [left; reflexivity|reflexivity]|]. destruct (IH H) as [x' [I X]]. exists x'. split; [right; exact I|exact X].
  Qed.
  Lemma match_inv env W hs E : Forall2 (segAt db targets W) hs E -> forall hyps y, matchHyps env targets (map segOf (combine hs E)) hyps = Ok (Some y) ->
    exists kids, Forall2 (fun h t => In (e_name env h, t) (map snd E)) hyps kids.
  Proof.
    intros F. induction hyps as [|h hyps IH]; intros y H; [exists []; constructor|]. cbn [matchHyps] in H. apply rbind_ok in H. destruct H as [o [H1 H]]. destruct o as [[a b]|]; [|discriminate H].
    apply rbind_ok in H. destruct H as [o [H2 H]]. destruct o as [[a' b']|]; [|discriminate H]. destruct (IH _ H2) as [kids K]. destruct (find_inv _ _ _ _ _ F H1) as [[P [g t]] [I X]]. cbn [fst snd] in X. subst g.
    exists (t :: kids). constructor; [|exact K]. apply (in_map snd) in I. exact I.
  Qed.
  Lemma rearrange_kids env hyps E S0 j step x : db = e_db env -> segsOk db hist targets (E ++ S0) -> length E = length hyps ->
    rearrange env targets hyps (map fst (flat (E ++ S0)) ++ [j]) (map snd (flat (E ++ S0)) ++ [step]) (firstn (length hyps) (poss (E ++ S0))) = Ok (Some x) ->
    exists kids, Forall2 (fun h t => In (e_name env h, t) (map snd (rev E))) hyps kids.
  Proof.
    intros ED SO LE H. set (W := flat (E ++ S0) ++ [(j, step)]).
    assert (EW1 : map fst (flat (E ++ S0)) ++ [j] = map fst W) by (unfold W; rewrite map_app; reflexivity). assert (EW2 : map snd (flat (E ++ S0)) ++ [step] = map snd W) by (unfold W; rewrite map_app; reflexivity). rewrite EW1, EW2 in H.
    pose proof (seg_pos db hist targets E S0 [(j, step)] SO) as SP. fold W in SP. rewrite LE in SP. apply f2_rev in SP. unfold rearrange in H. rewrite <- ED in H. apply rbind_ok in H. destruct H as [c [_ H]]. rewrite (hyp_segs db targets W _ _ SP) in H. cbn [rbind] in H.
    destruct (negb _); [discriminate H|]. apply rbind_ok in H. destruct H as [m [H1 H]]. destruct m as [[a b]|]; [|discriminate H]. exact (match_inv env W _ _ SP hyps _ H1).
  Qed.
End Kids.

(* ---------- errors ---------- *)
Lemma buildX_flag env n tab tg s x s' : buildX env n tab tg s x = Ok s' -> p_flag (xb_err s) <= p_flag (xb_err s') /\ (eOk (xb_err s) -> eOk (xb_err s')).
Proof.
  destruct x as [t lf]. unfold buildX. destruct (isTok chQ t).
  { intros H. apply Ok_inj in H. subst s'. cbn [xb_err]. split; [cbn; lia|apply eOk_atLeast]. }
  destruct (e_find env tab t) as [j|].
  { destruct (j <? 0)%Z; cbn zeta.
    - destruct (-1000 - j <? 0)%Z; [discriminate|]. intros H. apply Ok_inj in H. subst s'. cbn [xb_err]. destruct (Z.of_nat (length (xb_proof s)) <? -1000 - j)%Z; destruct lf; split; auto; try (cbn; lia); intros; apply eOk_raise; discriminate.
    - destruct (j <=? 0)%Z; [discriminate|]. intros H. apply Ok_inj in H. subst s'. cbn [xb_err]. destruct lf; split; auto; try (cbn; lia); intros; apply eOk_raise; discriminate. }
  destruct (e_find env (e_keys env) t) as [j|].
  2:{ intros H. apply Ok_inj in H. subst s'. cbn [xb_err]. split; [cbn; lia|intros; apply eOk_raise; discriminate]. }
  intros H. apply rbind_ok in H. destruct H as [sj [_ H]].
  assert (G : (let e1 := if (Z.of_nat n <=? j)%Z then raise 2 (xb_err s) else xb_err s in p_flag (xb_err s) <= p_flag e1 /\ (eOk (xb_err s) -> eOk e1))) by (cbn zeta; destruct (Z.of_nat n <=? j)%Z; split; auto; [cbn; lia|intros; apply eOk_raise; discriminate]).
  cbn zeta in G. destruct G as [G1 G2].
  destruct (s_type sj); try discriminate H; cbn zeta in H; (destruct (length (xb_stk s) <? length (s_reqHyps sj)); [apply Ok_inj in H; subst s'; cbn [xb_err]; split; [cbn; lia|intros; apply eOk_raise; discriminate]|]);
    apply rbind_ok in H; destruct H as [[[w o]|] [_ H]]; apply Ok_inj in H; subst s'; cbn [xb_err]; split; auto; try (cbn; lia); intros; apply eOk_raise; discriminate.
Qed.
Lemma buildsX_flag env n tab tg : forall l s s', buildsX env n tab tg s l = Ok s' -> p_flag (xb_err s) <= p_flag (xb_err s') /\ (eOk (xb_err s) -> eOk (xb_err s')).
Proof.
  induction l as [|x l IH]; intros s s' H; cbn [buildsX] in H; [apply Ok_inj in H; subst; auto|]. apply rbind_ok in H. destruct H as [s1 [H1 H]]. destruct (buildX_flag _ _ _ _ _ _ _ H1) as [A B]. destruct (IH _ _ H) as [C D]. split; [lia|auto].
Qed.

(* ---------- building ---------- *)
Section Sound.
  Variables (env : penv) (n : nat) (st : stmtRec).
  Hypothesis WE : wf_env env.
  Hypothesis HL : hypLabels env.
  Hypothesis HS : stmtAt (e_db env) n st.
  Hypothesis HT : s_type st = S_p.
  Notation db := (e_db env).
  Variables (loc : list (label * Z)) (all : list (label * bool)) (targets : list label).
  Hypothesis Hloc : forall l z, In (l, z) loc -> exists i, z = zLoc (Z.of_nat i) /\ (i < length all -> exists t, nth_error all i = Some (t, true)).
  Hypothesis Htg : length targets = length all.
  Let hypTab := entries env Z.of_nat (s_optHyps st) ++ entries env Z.of_nat (s_reqHyps st).
  Let tab := hypTab ++ loc.

  Definition stepUsed (z : Z) : Prop := z = zUnk \/ exists m sm, z = Z.of_nat m /\ 0 < m < n /\ stmtAt db m sm /\ isAssertion sm.
  Definition hypUsed (z : Z) : Prop := exists h sh, z = Z.of_nat h /\ 0 < h /\ stmtAt db h sh /\ isHyp sh /\ (In h (s_reqHyps st) \/ In h (s_optHyps st)).
  Definition itemsOk (L : list item) : Prop := forall z o, In (z, o) L ->
    (isRef z = true /\ exists z', In (z', refOf z) L /\ stepUsed z') \/ stepUsed z \/ hypUsed z.
  Lemma used_ref z : stepUsed z \/ hypUsed z -> isRef z = false.
  Proof. clear. unfold stepUsed, hypUsed, isRef, zUnk. intros [[->|(m & sm & -> & _)]|(h & sh & -> & _)]; [reflexivity|lia|lia]. Qed.
  Record binv (hist : list tree) (S : list seg) (e : perr) : Prop := {
    bv_len : length hist = length (flat S);
    bv_segs : segsOk db hist targets S;
    bv_perm : Permutation (map snd (flat S)) (seq 0 (length (flat S)));
    bv_refs : refsOk hist (flat S);
    bv_items : itemsOk (flat S);
    bv_lf : forall z o t, In (z, o) (flat S) -> nth_error all o = Some (t, true) -> stepUsed z;
    bv_unk : In zUnk (map fst (flat S)) -> 1 <= p_flag e }.

  Lemma items_add L L' : itemsOk L -> (forall x, In x L -> In x L') -> forall z o, In (z, o) L ->
    (isRef z = true /\ exists z', In (z', refOf z) L' /\ stepUsed z') \/ stepUsed z \/ hypUsed z.
  Proof. intros H SB z o I. destruct (H z o I) as [[R [z' [I' U]]]|H']; [left|right; exact H']. split; [exact R|]. exists z'. auto. Qed.

  Lemma push_ok hist S e z v g lf t e' : binv hist S e -> nth_error all (length (flat S)) = Some (t, lf) -> nth_error targets (length (flat S)) = Some g ->
    (isRef z = true /\ lf = false /\ (exists z', In (z', refOf z) (flat S) /\ stepUsed z') /\ nth_error hist (refOf z) = Some v \/
     v = Node z [] /\ arity db z = Some 0 /\ (stepUsed z \/ hypUsed z /\ lf = false)) ->
    p_flag e <= p_flag e' -> (z = zUnk -> 1 <= p_flag e') ->
    binv (hist ++ [v]) (([(z, length (flat S))], (g, v)) :: S) e'.
  Proof.
    intros [B1 B2 B3 B4 B5 B6 B7] NA NG ZK LE UK. assert (NV : nth_error (hist ++ [v]) (length (flat S)) = Some v) by (rewrite <- B1; apply nth_mid). constructor.
    - cbn [flat]. rewrite !app_length. cbn [length]. lia.
    - cbn [segsOk]. split; [discriminate|]. split; [|split; [|exact (segs_ext _ _ _ _ (ext_snoc hist v) _ B2)]].
      + intros s. destruct ZK as [[R _]|[-> [AR U]]]; [apply (ar_ref _ _ z _ v); auto; constructor|]. apply (ar_node _ _ z _ []); auto; [apply used_ref; tauto|constructor].
      + rewrite app_length. cbn [length]. rewrite Nat.add_1_r. cbn [Nat.sub]. rewrite Nat.sub_0_r. exact NG.
    - cbn [flat]. apply perm_step; auto.
    - cbn [flat]. intros z1 o1 I R. apply in_app_iff in I. destruct I as [I|[I|[]]].
      + destruct (B4 z1 o1 I R) as [z' [w [I' [R' [N1 N2]]]]]. exists z', w. split; [apply in_app_iff; left; exact I'|]. split; [exact R'|]. split; apply (ext_snoc hist v); assumption.
      + injection I as <- <-. destruct ZK as [(_ & _ & (z' & I' & U) & N)|(_ & _ & U)]; [|rewrite used_ref in R by tauto; discriminate R].
        exists z', v. split; [apply in_app_iff; left; exact I'|]. split; [apply used_ref; auto|]. split; [exact NV|]. apply (ext_snoc hist v). exact N.
    - cbn [flat]. intros z1 o1 I. apply in_app_iff in I. destruct I as [I|[I|[]]].
      + exact (items_add (flat S) _ B5 (fun x IX => proj2 (in_app_iff _ _ _) (or_introl IX)) z1 o1 I).
      + injection I as <- <-. destruct ZK as [(R & _ & (z' & I' & U) & _)|(_ & _ & U)]; [left; split; [exact R|]; exists z'; split; [apply in_app_iff; left; exact I'|exact U]|right; tauto].
    - cbn [flat]. intros z1 o1 t1 I N. apply in_app_iff in I. destruct I as [I|[I|[]]]; [exact (B6 _ _ _ I N)|]. injection I as <- <-. rewrite NA in N. injection N as _ ->. destruct ZK as [(_ & X & _)|(_ & _ & [U|[_ X]])]; [discriminate X|exact U|discriminate X].
    - cbn [flat]. rewrite map_app. intros I. apply in_app_iff in I. destruct I as [I|[I|[]]]; [specialize (B7 I); lia|]. cbn [fst] in I. auto.
  Qed.

  Lemma build_step hist S e x b' : binv hist S e -> nth_error all (length (flat S)) = Some x -> buildX env n tab targets (bst S e) x = Ok b' -> p_flag (xb_err b') <= 1 ->
    exists v S', b' = bst S' (xb_err b') /\ binv (hist ++ [v]) S' (xb_err b') /\ length (flat S') = length (flat S) + 1.
  Proof.
    intros IV NA H FL. pose proof (buildX_flag _ _ _ _ _ _ _ H) as [MF _]. destruct x as [t lf].
    assert (NG : exists g, nth_error targets (length (flat S)) = Some g). { destruct (nth_error targets (length (flat S))) as [g|] eqn:E; [eauto|]. apply nth_error_None in E. assert (length (flat S) < length all) by (apply nth_error_Some; congruence). lia. }
    destruct NG as [g NG].
    assert (PUSH : forall z v e', mkXb (map fst (flat S) ++ [z]) (map snd (flat S) ++ [length (map fst (flat S))]) (length (map fst (flat S)) :: poss S) e' = b' ->
      (isRef z = true /\ lf = false /\ (exists z', In (z', refOf z) (flat S) /\ stepUsed z') /\ nth_error hist (refOf z) = Some v \/ v = Node z [] /\ arity db z = Some 0 /\ (stepUsed z \/ hypUsed z /\ lf = false)) ->
      (z = zUnk -> 1 <= p_flag e') -> exists v S', b' = bst S' (xb_err b') /\ binv (hist ++ [v]) S' (xb_err b') /\ length (flat S') = length (flat S) + 1).
    { intros z v e' E C U. subst b'. exists v, (([(z, length (flat S))], (g, v)) :: S). cbn [xb_err] in *. split; [|split; [|cbn [flat]; rewrite app_length; reflexivity]].
      - rewrite map_length. exact (bst_push S z (mkE [] g []) v e').
      - eapply push_ok; eauto. }
    unfold buildX in H. cbn [bst xb_proof xb_old xb_stk xb_err] in H, MF. destruct (isTok chQ t) eqn:TQ.
    { apply Ok_inj in H. apply (PUSH zUnk (Node zUnk []) _ H); [right; split; [reflexivity|]; split; [reflexivity|left; left; reflexivity]|intros _; cbn; lia]. }
    destruct (e_find env tab t) as [j|] eqn:ET.
    { apply (we_some _ WE) in ET. destruct (j <? 0)%Z eqn:JN; cbn zeta in H.
      - destruct (-1000 - j <? 0)%Z eqn:JB; [discriminate H|]. apply Ok_inj in H.
        unfold tab in ET. apply in_app_iff in ET. destruct ET as [ET|ET]; [destruct (hypTab_In env WE n st HS HT _ _ ET) as (h & -> & _); lia|].
        destruct (Hloc _ _ ET) as [i [-> Hi]]. destruct (ref_zLoc i) as [R1 R2].
        rewrite map_length in *. destruct (Z.of_nat (length (flat S)) <? -1000 - zLoc (Z.of_nat i))%Z eqn:LI.
        { exfalso. subst b'. cbn [xb_err] in FL. destruct lf; cbn [raise p_flag] in FL; lia. }
        destruct lf eqn:LF; [exfalso; subst b'; cbn [xb_err raise p_flag] in FL; lia|].
        assert (ILT : i < length (flat S)).
        { assert (i <= length (flat S)) by (unfold zLoc in LI; lia). destruct (Nat.eq_dec i (length (flat S))) as [->|]; [|lia]. exfalso. assert (LT : length (flat S) < length all) by (apply nth_error_Some; congruence). destruct (Hi LT) as [t' X]. congruence. }
        assert (IA : length (flat S) < length all) by (apply nth_error_Some; congruence). destruct (Hi ltac:(lia)) as [t' NT].
        destruct (nth_error hist i) as [v|] eqn:NH; [|apply nth_error_None in NH; rewrite (bv_len _ _ _ IV) in NH; lia].
        assert (IS : In i (map snd (flat S))) by (apply (Permutation_in _ (Permutation_sym (bv_perm _ _ _ IV))); apply in_seq; lia). apply in_map_iff in IS. destruct IS as [[z' o] [EO IS]]. cbn [snd] in EO. subst o.
        apply (PUSH (zLoc (Z.of_nat i)) v _ H).
        + left. split; [exact R1|]. split; [reflexivity|]. rewrite R2. split; [|exact NH]. exists z'. split; [exact IS|exact (bv_lf _ _ _ IV _ _ _ IS NT)].
        + intros X. unfold zLoc, zUnk in X. lia.
      - destruct (j <=? 0)%Z eqn:JZ; [discriminate H|]. apply Ok_inj in H. destruct lf eqn:LF; [exfalso; subst b'; cbn [xb_err raise p_flag] in FL; lia|].
        unfold tab in ET. apply in_app_iff in ET. destruct ET as [ET|ET]; [|destruct (Hloc _ _ ET) as [i [-> _]]; unfold zLoc in JN; lia].
        destruct (hypTab_In env WE n st HS HT _ _ ET) as (h & -> & H0 & IH & sh & B & K).
        apply (PUSH (Z.of_nat h) (Node (Z.of_nat h) []) _ H).
        + right. split; [reflexivity|]. split; [|right; split; [|reflexivity]; exists h, sh; auto 10]. unfold arity. rewrite JN, Nat2Z.id. unfold stmtAt in B. rewrite B. destruct K as [-> | ->]; reflexivity.
        + intros X. unfold zUnk in X. lia. }
    destruct (e_find env (e_keys env) t) as [j|] eqn:EK.
    2:{ exfalso. apply Ok_inj in H. subst b'. cbn [xb_err raise p_flag] in FL. lia. }
    apply (we_some _ WE) in EK. apply (we_keys _ WE) in EK. destruct EK as (m & sj & M0 & -> & SA & AS & EN). apply rbind_ok in H. destruct H as [s1 [H1 H]]. rewrite Nat2Z.id in H1. pose proof SA as SA'. unfold stmtAt in SA. rewrite SA in H1. cbn [rget] in H1. apply Ok_inj in H1. subst s1.
    set (nh := length (s_reqHyps sj)) in *.
    assert (H' : (let e1 := if (Z.of_nat n <=? Z.of_nat m)%Z then raise 2 e else e in
        if length (poss S) <? nh then Ok (mkXb (map fst (flat S) ++ [zUnk]) (map snd (flat S) ++ [length (map fst (flat S))]) (length (map fst (flat S)) :: poss S) (raise 3 e1))
        else do r <- rearrange env targets (s_reqHyps sj) (map fst (flat S) ++ [Z.of_nat m]) (map snd (flat S) ++ [length (map fst (flat S))]) (firstn nh (poss S));
          match r with
          | None => Ok (mkXb (map fst (flat S) ++ [Z.of_nat m]) (map snd (flat S) ++ [length (map fst (flat S))]) (length (map fst (flat S)) :: skipn nh (poss S)) (raise 2 e1))
          | Some (wrk', old') => Ok (mkXb wrk' old' (length (map fst (flat S)) :: skipn nh (poss S)) e1)
          end) = Ok b') by (destruct AS as [AS|AS]; rewrite AS in H; exact H).
    clear H. cbn zeta in H'. destruct (Z.of_nat n <=? Z.of_nat m)%Z eqn:NM.
    { exfalso. destruct (length (poss S) <? nh); [apply Ok_inj in H'; subst b'; cbn [xb_err raise p_flag] in FL; lia|]. apply rbind_ok in H'. destruct H' as [[[w o]|] [_ H']]; apply Ok_inj in H'; subst b'; cbn [xb_err raise p_flag] in FL; lia. }
    destruct (length (poss S) <? nh) eqn:LS; [exfalso; apply Ok_inj in H'; subst b'; cbn [xb_err raise p_flag] in FL; lia|].
    apply rbind_ok in H'. destruct H' as [[[w o]|] [HR H']]; [|exfalso; apply Ok_inj in H'; subst b'; cbn [xb_err raise p_flag] in FL; lia].
    rewrite poss_len in LS. rewrite map_length in *. set (E := firstn nh S). set (S0 := skipn nh S). assert (ES : S = E ++ S0) by (symmetry; apply firstn_skipn). assert (LEE : length E = nh) by (unfold E; rewrite firstn_length; lia).
    destruct IV as [B1 B2 B3 B4 B5 B6 B7].
    assert (HR' := HR). rewrite ES in HR' at 1 2 4. assert (SO : segsOk db hist targets (E ++ S0)) by (rewrite <- ES; exact B2).
    destruct (rearrange_kids db hist targets env (s_reqHyps sj) E S0 (Z.of_nat m) (length (flat S)) _ eq_refl SO LEE HR') as [kids F].
    set (v := Node (Z.of_nat m) kids). set (hist' := hist ++ [v]). assert (NV : nth_error hist' (length (flat S)) = Some v) by (unfold hist'; rewrite <- B1; apply nth_mid).
    assert (AR : arity db (Z.of_nat m) = Some nh) by (unfold arity; replace (Z.of_nat m <? 0)%Z with false by lia; rewrite Nat2Z.id, SA; destruct AS as [-> | ->]; reflexivity).
    assert (RJ : isRef (Z.of_nat m) = false) by (unfold isRef; lia).
    assert (US : stepUsed (Z.of_nat m)) by (right; exists m, sj; repeat split; auto; lia).
    destruct (rearrange_ok db hist' targets env (s_reqHyps sj) kids E S0 (Z.of_nat m) (length (flat S)) eq_refl) as [P [G1 [G2 [G3 G4]]]].
    { exact (segs_ext _ _ _ _ (ext_snoc hist v) _ SO). } { exact LEE. } { exact (HL m sj SA' AS). } { exact AR. } { rewrite <- ES. reflexivity. } { exact RJ. } { exact NV. } { exact F. }
    rewrite <- ES in G1, G2. fold nh in G1. rewrite HR in G1. apply Ok_inj in G1. injection G1 as -> ->. apply Ok_inj in H'.
    assert (LP : length (flat S0 ++ P) = length (flat S) + 1) by (rewrite <- (Permutation_length G2), app_length; reflexivity).
    exists v, ((P, (g, v)) :: S0). subst b'. cbn [xb_err] in *. split; [|split; [|exact LP]].
    - unfold bst. cbn [flat poss]. rewrite LP, ES, <- LEE, poss_app, <- ES. do 2 f_equal. lia.
    - assert (INP : forall y, In y (flat S) -> In y (flat S0 ++ P)) by (intros y I; apply (Permutation_in _ G2); apply in_app_iff; left; exact I).
      assert (INQ : forall y, In y (flat S0 ++ P) -> In y (flat S) \/ y = (Z.of_nat m, length (flat S))) by (intros y I; apply (Permutation_in _ (Permutation_sym G2)) in I; apply in_app_iff in I; destruct I as [I|[I|[]]]; auto).
      constructor.
      + fold hist'. unfold hist'. rewrite app_length. cbn [flat length]. lia.
      + cbn [segsOk]. split; [exact G4|]. split; [exact G3|]. split; [|exact (segsOk_app _ _ _ _ _ (segs_ext _ _ _ _ (ext_snoc hist v) _ SO))]. rewrite LP. replace (length (flat S) + 1 - 1) with (length (flat S)) by lia. exact NG.
      + cbn [flat]. apply (Permutation_trans (Permutation_map snd (Permutation_sym G2))). rewrite <- (Permutation_length G2). apply perm_step; auto.
      + cbn [flat]. intros z1 o1 I R. destruct (INQ _ I) as [I1|I1]; [|injection I1 as -> ->; congruence]. destruct (refs_ext _ _ (ext_snoc hist v) _ B4 z1 o1 I1 R) as [z' [w [J1 J2]]]. exists z', w. split; [exact (INP _ J1)|exact J2].
      + cbn [flat]. intros z1 o1 I. destruct (INQ _ I) as [I1|I1]; [exact (items_add (flat S) _ B5 INP z1 o1 I1)|]. injection I1 as -> ->. right. left. exact US.
      + cbn [flat]. intros z1 o1 t1 I N. destruct (INQ _ I) as [I1|I1]; [exact (B6 _ _ _ I1 N)|]. injection I1 as -> ->. exact US.
      + cbn [flat]. intros I. apply in_map_iff in I. destruct I as [[z1 o1] [EZ I]]. cbn [fst] in EZ. subst z1. destruct (INQ _ I) as [I1|I1]; [|injection I1 as X _; unfold zUnk in X; lia]. apply B7. apply in_map_iff. exists (zUnk, o1). auto.
  Qed.

  Lemma build_steps : forall l D hist S e b, all = D ++ l -> length D = length (flat S) -> binv hist S e -> buildsX env n tab targets (bst S e) l = Ok b -> p_flag (xb_err b) <= 1 ->
    exists hist' S', b = bst S' (xb_err b) /\ binv hist' S' (xb_err b).
  Proof.
    induction l as [|x l IH]; intros D hist S e b EA LD IV H FL; cbn [buildsX] in H; [apply Ok_inj in H; subst b; exists hist, S; auto|].
    apply rbind_ok in H. destruct H as [b1 [H1 H]]. pose proof (buildsX_flag _ _ _ _ _ _ _ H) as [MF _].
    assert (NA : nth_error all (length (flat S)) = Some x) by (rewrite EA, <- LD; apply nth_mid).
    destruct (build_step hist S e x b1 IV NA H1 ltac:(lia)) as [v [S' [E1 [IV' LF]]]].
    rewrite E1 in H. apply (IH (D ++ [x]) (hist ++ [v]) S' (xb_err b1) b); auto; [rewrite <- app_assoc; exact EA|rewrite app_length; cbn [length]; lia].
  Qed.
End Sound.
