(* ExpMain.v -- proofs about ExpModel: a proof in /EXPLICIT format is read as the proof it is *)
From Coq Require Import ZifyBool ZifyNat Permutation.
From Verif Require Import Base MMSpec VerModel VerSpec VerProofs TokModel ParModel ParSpec SqModel SqSpec SqProofs SqAttr PfaProofs PfaMore CmpSpec ExpModel ExpSpec ExpProofs ExpMove ExpBuild CheckPar.
Open Scope nat_scope.

Definition tokName (t : label) : Prop := labelWord t \/ t = [chQ].
Lemma name_tok t c : tokName t -> labelChar c = false -> c <> chQ -> isTok c t = false.
Proof. intros [W| ->] C N; [exact (word_tok t c W C)|]. cbn [isTok firstChar nth_error]. unfold isTok, firstChar. cbn [nth_error]. apply Nat.eqb_neq. congruence. Qed.

(* ---------- the scan ---------- *)
Fixpoint esteps (l : list estep) : list (label * bool) := match l with [] => [] | s :: r => (x_name s, match x_locals s with [] => false | _ => true end) :: esteps r end.
Fixpoint elocs (k : nat) (l : list estep) : list (label * Z) := match l with [] => [] | s :: r => map (fun a => (a, zLoc (Z.of_nat k))) (x_locals s) ++ elocs (S k) r end.
Fixpoint eidx (i : nat) (l : list estep) : list nat := match l with [] => [] | s :: r => (i + 2 * length (x_locals s) + 2) :: eidx (i + 2 * length (x_locals s) + 3) r end.
Definition locToks (al : list label) : list label := flat_map (fun a => [a; [chColon]]) al.
Lemma beforeEq_colon r : beforeEq ([chColon] :: r) = false.
Proof. unfold beforeEq. destruct r; reflexivity. Qed.
Lemma beforeEq_word t r : labelWord t -> beforeEq (t :: r) = false.
Proof. intros W. unfold beforeEq. destruct r; [reflexivity|]. exact (word_tok t chEq W eq_refl). Qed.
Lemma beforeEq_name t r : tokName t -> beforeEq (t :: r) = false.
Proof. intros W. unfold beforeEq. destruct r; [reflexivity|]. exact (name_tok t chEq W eq_refl ltac:(discriminate)). Qed.
Lemma beforeEq_step s l : Forall labelWord (x_locals s) -> labelWord (x_target s) -> beforeEq (etoks (s :: l)) = false.
Proof. intros W T. unfold etoks. cbn [flat_map]. destruct (x_locals s) as [|a al]; cbn [flat_map app]; [exact (beforeEq_word _ _ T)|]. inversion W; subst. apply beforeEq_word. assumption. Qed.
Lemma beforeEq_locs al s rest : Forall labelWord al -> labelWord (x_target s) -> beforeEq (locToks al ++ x_target s :: rest) = false.
Proof. intros W T. destruct al as [|a al]; cbn [locToks flat_map app]; [exact (beforeEq_word _ _ T)|]. inversion W; subst. apply beforeEq_word. assumption. Qed.
Record stepOk (s : estep) : Prop := { so_loc : Forall labelWord (x_locals s); so_tgt : labelWord (x_target s); so_name : tokName (x_name s) }.

Section Scan.
  Variables (env : penv) (n : nat) (hypTab : list (label * Z)).
  Definition freeLabel (a : label) : Prop := e_find env hypTab a = None /\ forall j, e_find env (e_keys env) a = Some j -> (Z.of_nat n < j)%Z.
  Lemma filter_word a : labelWord a -> filter (fun c => negb (labelChar c)) a = [].
  Proof. intros [_ F]. induction F as [|c a H F IH]; [reflexivity|]. cbn [filter]. rewrite H. exact IH. Qed.
  Lemma scan_locals s rest : labelWord (x_target s) -> forall al prev i q idx, Forall labelWord al -> Forall freeLabel al ->
    scanX env n hypTab prev i (locToks al ++ x_target s :: rest) (mkXs q idx)
    = scanX env n hypTab (match al with [] => prev | _ => [chColon] end) (i + 2 * length al) (x_target s :: rest)
        (mkXs (mkNscan (ns_steps q) (match al with [] => ns_lf q | _ => true end) (ns_loc q ++ map (fun a => (a, zLoc (Z.of_nat (length (ns_steps q))))) al) (ns_err q)) idx).
  Proof.
    intros WT. induction al as [|a al IH]; intros prev i q idx W FR; [cbn [locToks flat_map app length map]; rewrite app_nil_r, Nat.add_0_r; destruct q; reflexivity|].
    inversion W as [|? ? W1 W2]; subst. inversion FR as [|? ? F1 F2]; subst. destruct F1 as [F1 F3]. cbn [locToks flat_map app]. fold (locToks al).
    match goal with |- _ = ?r => set (RHS := r) end. cbn [scanX]. 
    rewrite beforeEq_colon, (word_tok a chEq W1 eq_refl), (word_tok a chColon W1 eq_refl). cbn [orb xs_n xs_idx]. rewrite (beforeEq_locs al s rest W2 WT). change (isTok chEq [chColon]) with false. change (isTok chColon [chColon]) with true. cbn [orb].
    unfold colonTok. cbn [ns_steps ns_err ns_loc]. rewrite (filter_word a W1). cbn [length raiseN]. rewrite F1.
    replace (match e_find env (e_keys env) a with Some j => if (j <=? Z.of_nat n)%Z then raise 2 (ns_err q) else ns_err q | None => ns_err q end) with (ns_err q) by (destruct (e_find env (e_keys env) a) as [j|]; [specialize (F3 j eq_refl); replace (j <=? Z.of_nat n)%Z with false by lia|]; reflexivity).
    cbn [rbind tl]. rewrite IH by assumption. unfold RHS. cbn [ns_steps ns_lf ns_loc ns_err map length]. rewrite <- app_assoc. cbn [app]. replace (S (S i) + 2 * length al) with (i + 2 * S (length al)) by lia. destruct al; reflexivity.
  Qed.
  Lemma scan_steps : forall l prev i q idx, Forall stepOk l -> Forall (fun s => Forall freeLabel (x_locals s)) l -> ns_lf q = false ->
    scanX env n hypTab prev i (etoks l) (mkXs q idx)
    = Ok (mkXs (mkNscan (rev (esteps l) ++ ns_steps q) false (ns_loc q ++ elocs (length (ns_steps q)) l) (ns_err q)) (rev (eidx i l) ++ idx)).
  Proof.
    induction l as [|s l IH]; intros prev i q idx SO FR LF; [cbn [etoks flat_map scanX esteps elocs eidx rev app]; rewrite app_nil_r; destruct q; cbn in *; subst; reflexivity|].
    inversion SO as [|? ? [O1 O2 O3] SO']; subst. inversion FR as [|? ? F1 F2]; subst. unfold etoks. cbn [flat_map]. fold (etoks l). rewrite <- app_assoc. cbn [app]. fold (locToks (x_locals s)). rewrite (scan_locals s _ O2 _ _ _ _ _ O1 F1).
    cbn [scanX]. unfold beforeEq at 1. change (isTok chEq [chEq]) with true. cbn [orb]. rewrite !(beforeEq_name (x_name s) _ O3). cbn [orb].
    assert (B3 : beforeEq (etoks l) = false) by (destruct l as [|s' l']; [reflexivity|]; inversion SO' as [|? ? [P1 P2 P3] ?]; subst; apply beforeEq_step; assumption).
    rewrite B3, (name_tok (x_name s) chEq O3 eq_refl ltac:(discriminate)), (name_tok (x_name s) chColon O3 eq_refl ltac:(discriminate)). cbn [orb xs_n xs_idx ns_steps ns_lf ns_loc ns_err]. rewrite IH by auto. cbn [ns_steps ns_lf ns_loc ns_err esteps elocs eidx rev length].
    rewrite <- !app_assoc. cbn [app].
    match goal with |- context [eidx (S (S (S ?x))) l] => replace (S (S (S x))) with (x + 3) by lia; replace (S (S x)) with (x + 2) by lia end.
    destruct (x_locals s) as [|a al]; [rewrite LF|]; reflexivity.
  Qed.
End Scan.

Lemma targets_locals s rest : labelWord (x_target s) -> forall al i idx ts e, Forall labelWord al -> targetsX i (locToks al ++ x_target s :: rest) idx ts e = targetsX (i + 2 * length al) (x_target s :: rest) idx ts e.
Proof.
  intros WT. induction al as [|a al IH]; intros i idx ts e W; [cbn [locToks flat_map app length]; rewrite Nat.add_0_r; reflexivity|]. inversion W as [|? ? W1 W2]; subst. cbn [locToks flat_map app]. fold (locToks al). match goal with |- _ = ?r => set (RHS := r) end. cbn [targetsX].
   rewrite beforeEq_colon, (beforeEq_locs al s rest W2 WT), IH by exact W2. unfold RHS. cbn [length]. match goal with |- targetsX ?x _ _ _ _ = targetsX ?y _ _ _ _ => assert (Q : x = y) by (unfold label in *; lia); rewrite Q end. reflexivity.
Qed.
Lemma targets_steps : forall l i ts e, Forall stepOk l -> targetsX i (etoks l) (eidx i l) ts e = (ts ++ map x_target l, e).
Proof.
  induction l as [|s l IH]; intros i ts e SO; [cbn [etoks flat_map targetsX eidx map]; rewrite app_nil_r; reflexivity|]. inversion SO as [|? ? [O1 O2 O3] SO']; subst. unfold etoks. cbn [flat_map]. fold (etoks l). rewrite <- app_assoc. cbn [app]. fold (locToks (x_locals s)).
  rewrite (targets_locals s _ O2 _ _ _ _ _ O1). cbn [targetsX eidx]. unfold beforeEq at 1. change (isTok chEq [chEq]) with true. cbn [orb]. rewrite !(beforeEq_name (x_name s) _ O3).
  assert (B3 : beforeEq (etoks l) = false) by (destruct l as [|s' l']; [reflexivity|]; inversion SO' as [|? ? [P1 P2 P3] ?]; subst; apply beforeEq_step; assumption). rewrite B3, Nat.eqb_refl.
  match goal with |- context [targetsX (S (S (S ?x))) _ _ _ _] => replace (S (S (S x))) with (x + 3) by lia end.
  match goal with |- targetsX ?x _ (eidx ?y l) _ _ = _ => change x with y end. rewrite IH by exact SO'. rewrite <- app_assoc. reflexivity.
Qed.

Lemma in_elocs : forall l k a z, In (a, z) (elocs k l) -> exists i s, nth_error l i = Some s /\ In a (x_locals s) /\ z = zLoc (Z.of_nat (k + i)).
Proof.
  induction l as [|s l IH]; intros k a z I; [destruct I|]. cbn [elocs] in I. apply in_app_iff in I. destruct I as [I|I].
  - apply in_map_iff in I. destruct I as [a' [E I]]. injection E as -> <-. exists 0, s. rewrite Nat.add_0_r. auto.
  - destruct (IH _ _ _ I) as [i [s' [N [A E]]]]. exists (S i), s'. split; [exact N|]. split; [exact A|]. rewrite E. do 2 f_equal. lia.
Qed.
Lemma elocs_in : forall l k i s a, nth_error l i = Some s -> In a (x_locals s) -> In (a, zLoc (Z.of_nat (k + i))) (elocs k l).
Proof.
  induction l as [|s0 l IH]; intros k i s a N I; [destruct i; discriminate N|]. cbn [elocs]. apply in_app_iff. destruct i as [|i]; cbn [nth_error] in N.
  - injection N as ->. left. apply in_map_iff. exists a. rewrite Nat.add_0_r. auto.
  - right. replace (k + S i) with (S k + i) by lia. apply (IH _ _ _ _ N I).
Qed.
Lemma elocs_names : forall l k, map fst (elocs k l) = flat_map x_locals l.
Proof. induction l as [|s l IH]; intros k; [reflexivity|]. cbn [elocs flat_map]. rewrite map_app, map_map, IH. cbn [fst]. rewrite map_id. reflexivity. Qed.
Lemma no_dups (l : list (label * Z)) : NoDup (map fst l) -> dupZero l = false /\ dupCount l = 0.
Proof.
  induction l as [|[a z] l IH]; intros ND; [auto|]. cbn [map fst] in ND. inversion ND as [|? ? N1 N2]; subst. destruct (IH N2) as [I1 I2]. cbn [dupZero dupCount]. rewrite I1, I2. split.
  - apply orb_false_iff. split; [|reflexivity]. apply not_true_is_false. intros E. apply existsb_exists in E. destruct E as [y [I E]]. destruct (list_eq_dec Nat.eq_dec a (fst y)) as [->|]; [|discriminate E]. apply N1. apply in_map. exact I.
  - match goal with |- context [existsb ?f l] => assert (X : existsb f l = false) end; [|rewrite X; reflexivity].
    apply not_true_is_false. intros E. apply existsb_exists in E. destruct E as [y [I E]]. destruct (list_eq_dec Nat.eq_dec a (fst y)) as [->|]; [|discriminate E]. apply N1. apply in_map. exact I.
Qed.
Lemma key_uniq {A B} (l : list (A * B)) a x y : NoDup (map fst l) -> In (a, x) l -> In (a, y) l -> x = y.
Proof.
  induction l as [|[b z] l IH]; intros ND I J; [destruct I|]. cbn [map fst] in ND. inversion ND as [|? ? N1 N2]; subst. destruct I as [I|I]; destruct J as [J|J].
  - congruence.
  - injection I as -> ->. destruct N1. exact (in_map fst _ _ J).
  - injection J as -> ->. destruct N1. exact (in_map fst _ _ I).
  - exact (IH N2 I J).
Qed.

(* ---------- the steps ---------- *)
Section Main.
  Variables (env : penv) (n : nat) (st : stmtRec) (l0 : list estep).
  Hypothesis WE : wf_env env.
  Hypothesis UE : uniq_env env.
  Hypothesis HL : hypLabels env.
  Hypothesis HS : stmtAt (e_db env) n st.
  Hypothesis HT : s_type st = S_p.
  Hypothesis LK : localsOk env n st l0.
  Notation db := (e_db env).
  Let hypTab := entries env Z.of_nat (s_optHyps st) ++ entries env Z.of_nat (s_reqHyps st).
  Let locs := elocs 0 l0.
  Let tab := hypTab ++ locs.
  Let targets := map x_target l0.

  Lemma locs_nodup : NoDup (map fst locs).
  Proof. unfold locs. rewrite elocs_names. exact (lk_dist _ _ _ _ LK). Qed.
  Lemma tab_hyp h : In h (s_reqHyps st) \/ In h (s_optHyps st) -> e_find env tab (e_name env h) = Some (Z.of_nat h).
  Proof.
    intros I. destruct (hyp_labelled env WE n st HS HT h I) as [_ [sh [B K]]]. destruct (e_find env tab (e_name env h)) as [j|] eqn:E.
    - apply (we_some _ WE) in E. unfold tab in E. apply in_app_iff in E. destruct E as [E|E].
      + apply (in_hypTab env st) in E. destruct E as (h' & -> & E & IH). destruct (hyp_labelled env WE n st HS HT h' IH) as [_ [sh' [B' K']]]. do 2 f_equal. symmetry. apply (ue_name _ UE h h' sh sh'); auto; now right.
      + exfalso. apply in_elocs in E. destruct E as [i [s [N [A _]]]]. exact (lk_hyp _ _ _ _ LK s _ h (nth_error_In _ _ N) A I eq_refl).
    - exfalso. apply (we_none _ WE _ _ E (Z.of_nat h)). unfold tab. apply in_app_iff. left. exact (hypTab_in env st h I).
  Qed.
  Lemma tab_asrt j sj : stmtAt db j sj -> isAssertion sj -> j < n -> e_find env tab (e_name env j) = None.
  Proof.
    intros A S LT. destruct (e_find env tab (e_name env j)) as [z|] eqn:E; [exfalso|reflexivity]. apply (we_some _ WE) in E. unfold tab in E. apply in_app_iff in E. destruct E as [E|E].
    - destruct (find_asrt env WE UE n st HS HT j sj A S) as [X _]. exact (we_none _ WE _ _ X _ E).
    - apply in_elocs in E. destruct E as [i [s [N [I _]]]]. exact (lk_asrt _ _ _ _ LK s _ j sj (nth_error_In _ _ N) I A S ltac:(lia) eq_refl).
  Qed.
  Lemma tab_loc a r : In (a, zLoc (Z.of_nat r)) locs -> e_find env tab a = Some (zLoc (Z.of_nat r)).
  Proof.
    intros I. destruct (e_find env tab a) as [j|] eqn:E.
    - apply (we_some _ WE) in E. unfold tab in E. apply in_app_iff in E. destruct E as [E|E].
      + exfalso. apply (in_hypTab env st) in E. destruct E as (h & -> & E & IH). apply in_elocs in I. destruct I as [i [s [N [A _]]]]. exact (lk_hyp _ _ _ _ LK s _ h (nth_error_In _ _ N) A IH E).
      + f_equal. exact (key_uniq locs a _ _ locs_nodup E I).
    - exfalso. apply (we_none _ WE _ _ E (zLoc (Z.of_nat r))). unfold tab. apply in_app_iff. right. exact I.
  Qed.
  Lemma free_local s a : In s l0 -> In a (x_locals s) -> freeLabel env n hypTab a.
  Proof.
    intros I A. split.
    - destruct (e_find env hypTab a) as [z|] eqn:E; [exfalso|reflexivity]. apply (we_some _ WE) in E. apply (in_hypTab env st) in E. destruct E as (h & -> & E & IH). exact (lk_hyp _ _ _ _ LK s _ h I A IH E).
    - intros j E. apply (we_some _ WE) in E. apply (we_keys _ WE) in E. destruct E as (m & sm & _ & -> & B & K & E). destruct (Nat.lt_ge_cases n m) as [Q|Q]; [lia|]. exfalso. exact (lk_asrt _ _ _ _ LK s a m sm I A B K ltac:(lia) (eq_sym E)).
  Qed.

  (* the specification with the trees of the steps *)
  Inductive meansH : list (label * tree) -> list (label * tree) -> list estep -> list tree -> list (label * tree) -> Prop :=
  | mh_nil loc stk : meansH loc stk [] [] stk
  | mh_cons loc stk s t rest l H res : stepMeans env n st loc stk s t rest -> meansH (map (fun a => (a, t)) (x_locals s) ++ loc) ((x_target s, t) :: rest) l H res ->
      meansH loc stk (s :: l) (t :: H) res.
  Lemma means_H loc stk l res : means env n st loc stk l res -> exists H, meansH loc stk l H res.
  Proof. induction 1 as [loc stk|loc stk s t rest l res M1 M2 [H IH]]; [exists []; constructor|exists (t :: H); econstructor; eauto]. Qed.

  Variable hist : list tree.
  Record inv (loc stk : list (label * tree)) (S : list seg) : Prop := {
    iv_spec : stk = map snd S;
    iv_segs : segsOk db hist targets S;
    iv_perm : Permutation (map snd (flat S)) (seq 0 (length (flat S)));
    iv_refs : refsOk hist (flat S);
    iv_loc : forall a t, In (a, t) loc -> exists r z', In (a, zLoc (Z.of_nat r)) locs /\ In (z', r) (flat S) /\ isRef z' = false /\ nth_error hist r = Some t }.
  Lemma perm_step S x : Permutation (map snd (flat S)) (seq 0 (length (flat S))) -> snd x = length (flat S) -> Permutation (map snd (flat S ++ [x])) (seq 0 (length (flat S ++ [x]))).
  Proof. intros P E. rewrite map_app, app_length. cbn [map length]. rewrite E. rewrite Nat.add_1_r, seq_S. cbn [Nat.add]. apply Permutation_app_tail. exact P. Qed.

  (* a step without hypotheses *)
  Lemma push_inv loc stk S s z t : inv loc stk S -> nth_error hist (length (flat S)) = Some t -> nth_error l0 (length (flat S)) = Some s ->
    (isRef z = true -> x_locals s = [] /\ exists z', In (z', refOf z) (flat S) /\ isRef z' = false /\ nth_error hist (refOf z) = Some t) ->
    (isRef z = false -> arity db z = Some 0 /\ t = Node z []) ->
    inv (map (fun a => (a, t)) (x_locals s) ++ loc) ((x_target s, t) :: stk) (([(z, length (flat S))], (x_target s, t)) :: S).
  Proof.
    intros [V1 V2 V3 V4 V5] HH HN R1 R2. constructor.
    - cbn [map snd]. congruence.
    - cbn [segsOk]. split; [discriminate|]. split; [|split; [|exact V2]].
      + intros s'. destruct (isRef z) eqn:RZ; [apply (ar_ref db hist z _ t); auto; constructor|]. destruct (R2 eq_refl) as [A1 ->]. apply (ar_node db hist z _ []); auto. constructor.
      + rewrite app_length. cbn [length]. rewrite Nat.add_1_r. cbn [Nat.sub]. rewrite Nat.sub_0_r. unfold targets. rewrite nth_error_map, HN. reflexivity.
    - cbn [flat]. apply perm_step; auto.
    - intros z1 o1 I RZ. cbn [flat] in I. apply in_app_iff in I. destruct I as [I|[I|[]]].
      + destruct (V4 z1 o1 I RZ) as [z' [v [I1 I2]]]. exists z', v. split; [cbn [flat]; apply in_app_iff; left; exact I1|exact I2].
      + injection I as -> <-. destruct (R1 RZ) as [_ [z' [I1 [I2 I3]]]]. exists z', t. split; [cbn [flat]; apply in_app_iff; left; exact I1|auto].
    - intros a t' I. apply in_app_iff in I. destruct I as [I|I].
      + apply in_map_iff in I. destruct I as [a' [E I]]. injection E as -> ->. destruct (isRef z) eqn:RZ; [destruct (R1 eq_refl) as [X _]; rewrite X in I; destruct I|]. exists (length (flat S)), z. split; [|split; [cbn [flat]; apply in_app_iff; right; left; reflexivity|auto]].
        exact (elocs_in l0 0 _ s a HN I).
      + destruct (V5 a t' I) as [r [z' [I1 [I2 I3]]]]. exists r, z'. split; [exact I1|]. split; [cbn [flat]; apply in_app_iff; left; exact I2|exact I3].
  Qed.

  Definition bst (S : list seg) (e : perr) : xbuild := mkXb (map fst (flat S)) (map snd (flat S)) (poss S) e.
  Definition bump (s : estep) (e : perr) : perr := if isTok chQ (x_name s) then atLeast 1 e else e.
  Lemma bst_push S z s t e : mkXb (map fst (flat S) ++ [z]) (map snd (flat S) ++ [length (flat S)]) (length (flat S) :: poss S) e = bst (([(z, length (flat S))], (x_target s, t)) :: S) e.
  Proof. unfold bst. cbn [flat poss]. rewrite !map_app, app_length. cbn [map fst snd length]. rewrite Nat.add_1_r. cbn [Nat.sub]. rewrite Nat.sub_0_r. reflexivity. Qed.
  Lemma ref_loc z : isRef z = true -> z = zLoc (Z.of_nat (refOf z)).
  Proof. unfold isRef, refOf, zLoc. intros R. rewrite Z2Nat.id by lia. lia. Qed.

  Lemma build_one loc stk S s t rest e : inv loc stk S -> nth_error hist (length (flat S)) = Some t -> nth_error l0 (length (flat S)) = Some s -> stepMeans env n st loc stk s t rest ->
    exists S', buildX env n tab targets (bst S e) (x_name s, match x_locals s with [] => false | _ => true end) = Ok (bst S' (bump s e)) /\
      inv (map (fun a => (a, t)) (x_locals s) ++ loc) ((x_target s, t) :: rest) S' /\ length (flat S') = length (flat S) + 1.
  Proof.
    intros IV HH HN M. pose proof IV as [V1 V2 V3 V4 V5]. inversion M as [NM| h IH NM NL| t' IL NL| j sj ents rest' kids SA AS LT NM EK LE F]; subst.
    - exists (([(zUnk, length (flat S))], (x_target s, Node zUnk [])) :: S). split; [|split; [apply push_inv; auto; intros X; try discriminate X; split; reflexivity|cbn [flat]; rewrite app_length; reflexivity]].
      rewrite <- bst_push. unfold buildX, bst. cbn [xb_proof xb_old xb_stk xb_err]. unfold bump. rewrite NM, map_length. change (isTok chQ [chQ]) with true. reflexivity.
    - destruct (hyp_labelled env WE n st HS HT h IH) as [P0 [sh [B K]]]. assert (LW : labelWord (e_name env h)) by (apply (ue_chars _ UE h sh B); now right).
      exists (([(Z.of_nat h, length (flat S))], (x_target s, Node (Z.of_nat h) [])) :: S). split; [|split; [apply push_inv; auto|cbn [flat]; rewrite app_length; reflexivity]].
      + rewrite <- bst_push. unfold buildX, bst, bump. cbn [xb_proof xb_old xb_stk xb_err]. rewrite NM, NL, (word_tok _ chQ LW eq_refl), (tab_hyp h IH), map_length. replace (Z.of_nat h <? 0)%Z with false by lia. replace (Z.of_nat h <=? 0)%Z with false by lia. reflexivity.
      + intros X. unfold isRef in X. lia.
      + intros _. split; [|reflexivity]. unfold arity. replace (Z.of_nat h <? 0)%Z with false by lia. rewrite Nat2Z.id. unfold stmtAt in B. rewrite B. destruct K as [-> | ->]; reflexivity.
    - destruct (V5 _ _ IL) as [r [z' [I1 [I2 [I3 I4]]]]]. assert (I1' := I1). apply in_elocs in I1'. destruct I1' as [i [s' [N' [A' _]]]]. assert (LW : labelWord (x_name s)) by (apply (lk_word _ _ _ _ LK s' _ (nth_error_In _ _ N') A')).
      assert (LR : r < length (flat S)). { apply (in_map snd) in I2. apply (Permutation_in _ V3) in I2. apply in_seq in I2. cbn [snd] in I2. lia. }
      destruct (ref_zLoc r) as [R1 R2].
      exists (([(zLoc (Z.of_nat r), length (flat S))], (x_target s, t)) :: S). split; [|split; [apply push_inv; auto|cbn [flat]; rewrite app_length; reflexivity]].
      + rewrite <- bst_push. unfold buildX, bst, bump. cbn [xb_proof xb_old xb_stk xb_err]. rewrite NL, (word_tok _ chQ LW eq_refl), (tab_loc _ r I1), map_length. replace (zLoc (Z.of_nat r) <? 0)%Z with true by (unfold zLoc; lia).
        cbn zeta. replace (-1000 - zLoc (Z.of_nat r))%Z with (Z.of_nat r) by (unfold zLoc; lia). replace (Z.of_nat r <? 0)%Z with false by lia. replace (Z.of_nat (length (flat S)) <? Z.of_nat r)%Z with false by lia. reflexivity.
      + intros _. split; [exact NL|]. rewrite R2. eauto.
      + congruence.
    - assert (LW : labelWord (e_name env j)) by (apply (ue_chars _ UE j sj SA); now left). destruct (find_asrt env WE UE n st HS HT j sj SA AS) as [_ E2]. pose proof (tab_asrt j sj SA AS LT) as E1. unfold stmtAt in SA.
      set (nh := length (s_reqHyps sj)) in *. set (E := firstn nh S). set (S0 := skipn nh S). assert (ES : S = E ++ S0) by (symmetry; apply firstn_skipn).
      assert (ME : map snd E = rev ents /\ map snd S0 = rest).
      { assert (X : map snd S = rev ents ++ rest) by congruence. unfold E, S0. rewrite <- firstn_map, <- skipn_map, X. rewrite <- LE, <- (rev_length ents), firstn_app, firstn_all, skipn_app, skipn_all, Nat.sub_diag. cbn [firstn skipn app]. rewrite app_nil_r. auto. }
      destruct ME as [ME1 ME2]. assert (LEE : length E = nh) by (rewrite <- (map_length snd), ME1, rev_length; exact LE).
      assert (AR : arity db (Z.of_nat j) = Some nh) by (unfold arity; replace (Z.of_nat j <? 0)%Z with false by lia; rewrite Nat2Z.id, SA; destruct AS as [-> | ->]; reflexivity).
      assert (RJ : isRef (Z.of_nat j) = false) by (unfold isRef; lia).
      destruct (rearrange_ok db hist targets env (s_reqHyps sj) kids E S0 (Z.of_nat j) (length (flat S)) eq_refl) as [P [G1 [G2 [G3 G4]]]].
      { rewrite <- ES. exact V2. } { exact LEE. } { exact (HL j sj SA AS). } { exact AR. } { rewrite <- ES. reflexivity. } { exact RJ. } { exact HH. } { rewrite map_rev, ME1, rev_involutive. exact F. }
      rewrite <- ES in G1, G2. fold nh in G1.
      assert (LP : length (flat S0 ++ P) = length (flat S) + 1) by (rewrite <- (Permutation_length G2), app_length; reflexivity).
      exists ((P, (x_target s, Node (Z.of_nat j) kids)) :: S0). split; [|split; [|exact LP]].
      + unfold buildX, bst, bump. cbn [xb_proof xb_old xb_stk xb_err]. rewrite NM, (word_tok _ chQ LW eq_refl), E1, E2, Nat2Z.id, SA. cbn [rget rbind]. rewrite map_length. fold nh. replace (Z.of_nat n <=? Z.of_nat j)%Z with false by lia.
        replace (length (poss S) <? nh) with false by (rewrite poss_len, ES, app_length; lia). rewrite G1. cbn [rbind].
        assert (EP : poss ((P, (x_target s, Node (Z.of_nat j) kids)) :: S0) = length (flat S) :: skipn nh (poss S)) by (cbn [poss]; rewrite LP; f_equal; [lia|]; rewrite ES, <- LEE, poss_app; reflexivity).
        rewrite EP. destruct AS as [-> | ->]; reflexivity.
      + constructor.
        * cbn [map snd]. rewrite ME2. reflexivity.
        * cbn [segsOk]. split; [exact G4|]. split; [exact G3|]. split; [|rewrite ES in V2; exact (segsOk_app db hist targets _ _ V2)]. rewrite LP. replace (length (flat S) + 1 - 1) with (length (flat S)) by lia. unfold targets. rewrite nth_error_map, HN. reflexivity.
        * cbn [flat]. apply (Permutation_trans (Permutation_map snd (Permutation_sym G2))). rewrite <- (Permutation_length G2). apply perm_step; auto.
        * cbn [flat]. intros z1 o1 I RZ. apply (Permutation_in _ (Permutation_sym G2)) in I. apply in_app_iff in I. destruct I as [I|[I|[]]]; [|injection I as <- <-; congruence].
          destruct (V4 z1 o1 I RZ) as [z' [v [I1 I2]]]. exists z', v. split; [apply (Permutation_in _ G2); apply in_app_iff; left; exact I1|exact I2].
        * cbn [flat]. intros a t' I. apply in_app_iff in I. destruct I as [I|I].
          -- apply in_map_iff in I. destruct I as [a' [EA I]]. injection EA as -> <-. exists (length (flat S)), (Z.of_nat j). split; [exact (elocs_in l0 0 _ s a HN I)|]. split; [apply (Permutation_in _ G2); apply in_app_iff; right; left; reflexivity|auto].
          -- destruct (V5 a t' I) as [r [z' [I1 [I2 I3]]]]. exists r, z'. split; [exact I1|]. split; [apply (Permutation_in _ G2); apply in_app_iff; left; exact I2|exact I3].
  Qed.

  Lemma build_all : forall l loc stk H res, meansH loc stk l H res -> forall S e D HD, l0 = D ++ l -> hist = HD ++ H -> length D = length (flat S) -> length HD = length (flat S) -> inv loc stk S ->
    exists S' loc', buildsX env n tab targets (bst S e) (esteps l) = Ok (bst S' (fold_left (fun e s => bump s e) l e)) /\ inv loc' res S'.
  Proof.
    intros l loc stk H res M. induction M as [loc stk|loc stk s t rest l H res M1 M2 IH]; intros S e D HD E1 E2 L1 L2 IV; [exists S, loc; split; [reflexivity|exact IV]|].
    destruct (build_one loc stk S s t rest e IV) as [S1 [B1 [IV1 L3]]].
    { rewrite E2, <- L2. apply nth_mid. } { rewrite E1, <- L1. apply nth_mid. } { exact M1. }
    destruct (IH S1 (bump s e) (D ++ [s]) (HD ++ [t])) as [S' [loc' [B2 IV2]]].
    { rewrite <- app_assoc. exact E1. } { rewrite <- app_assoc. exact E2. } { rewrite app_length. cbn [length]. lia. } { rewrite app_length. cbn [length]. lia. } { exact IV1. }
    exists S', loc'. split; [|exact IV2]. cbn [esteps buildsX fold_left]. rewrite B1. cbn [rbind]. exact B2.
  Qed.

  (* references follow their steps *)
  Lemma index_of k : forall l m p, NoDup l -> nth_error l p = Some k -> indexOf k l m = Some (m + p).
  Proof.
    induction l as [|x l IH]; intros m p ND N; [destruct p; discriminate N|]. inversion ND as [|? ? N1 N2]; subst. cbn [indexOf]. destruct p as [|p]; cbn [nth_error] in N; [injection N as ->; rewrite Nat.eqb_refl, Nat.add_0_r; reflexivity|].
    destruct (x =? k) eqn:E; [apply Nat.eqb_eq in E; subst x; destruct N1; exact (nth_error_In _ _ N)|]. rewrite (IH (S m) p N2 N). f_equal. lia.
  Qed.
  Lemma fix_refs L : Permutation (map snd L) (seq 0 (length L)) -> refsOk hist L -> exists q, mapRes (fixRef (map snd L)) (map fst L) = Ok q /\ concs L q.
  Proof.
    intros P RO. assert (ND : NoDup (map snd L)) by (apply (Permutation_NoDup (Permutation_sym P)); apply seq_NoDup).
    destruct (map_res_ok (fixRef (map snd L)) (fun z c => written L (z, 0) c) (map fst L)) as [q [Q1 Q2]].
    - intros z I. apply in_map_iff in I. destruct I as [[z0 o] [EZ I]]. cbn [fst] in EZ. subst z0. unfold fixRef, written. cbn [fst]. fold (isRef z). destruct (isRef z) eqn:RZ; [|eauto].
      destruct (RO z o I RZ) as [z' [v [I' _]]]. apply (in_map snd) in I'. cbn [snd] in I'. cbn zeta. assert (LT : refOf z < length (map snd L)) by (rewrite map_length; apply (Permutation_in _ P) in I'; apply in_seq in I'; lia).
      destruct (nth_error (map snd L) (refOf z)) as [x|] eqn:NX; [|apply nth_error_None in NX; lia]. destruct (x =? refOf z) eqn:EX.
      + apply Nat.eqb_eq in EX. subst x. exists z. split; [reflexivity|]. exists (refOf z). split; [exact NX|exact (ref_loc z RZ)].
      + destruct (In_nth_error _ _ I') as [p NP]. rewrite (index_of _ _ 0 p ND NP). cbn [Nat.add]. eexists. split; [reflexivity|]. exists p. auto.
    - exists q. split; [exact Q1|]. unfold concs. revert Q2. generalize L at 2 4. intros L1. revert q Q1. clear. intros q _. revert q. induction L1 as [|[z o] L1 IH]; intros q F; inversion F; subst; constructor; [assumption|apply IH; assumption].
  Qed.

  Lemma bump_count l : forall e, p_count (fold_left (fun e s => bump s e) l e) = p_count e.
  Proof. induction l as [|s l IH]; intros e; [reflexivity|]. cbn [fold_left]. rewrite IH. unfold bump. destruct (isTok chQ (x_name s)); reflexivity. Qed.
  Lemma bump_flag l : forall e, p_flag (fold_left (fun e s => bump s e) l e) = Nat.max (if existsb (fun s => isTok chQ (x_name s)) l then 1 else 0) (p_flag e).
  Proof. induction l as [|s l IH]; intros e; [reflexivity|]. cbn [fold_left existsb]. rewrite IH. unfold bump. destruct (isTok chQ (x_name s)); cbn [orb atLeast p_flag]; [destruct (existsb _ l); lia|lia]. Qed.

  Lemma build_total T target : meansH [] [] l0 hist [(target, T)] -> forall e, exists b q, buildsX env n tab targets (mkXb [] [] [] e) (esteps l0) = Ok b /\ length (xb_stk b) = 1 /\
    xb_err b = fold_left (fun e s => bump s e) l0 e /\ mapRes (fixRef (xb_old b)) (xb_proof b) = Ok q /\ exists K q', (forall fuel, K <= fuel -> moveSubs fuel db q = Ok q') /\ denotes db q' T.
  Proof.
    intros M e. assert (I0 : inv [] [] []) by (constructor; [reflexivity|exact I|constructor|intros z o []|intros a t []]).
    destruct (build_all l0 [] [] hist _ M [] e [] [] eq_refl eq_refl eq_refl eq_refl I0) as [S' [loc' [B [V1 V2 V3 V4 V5]]]]. destruct S' as [|[P [g t]] [|x S']]; try discriminate V1. cbn [map snd] in V1. injection V1 as <- <-.
    destruct (fix_refs (flat [(P, (target, T))]) V3 V4) as [q [Q1 Q2]]. exists (bst [(P, (target, T))] (fold_left (fun e s => bump s e) l0 e)), q. split; [exact B|]. split; [reflexivity|]. split; [reflexivity|]. split; [exact Q1|].
    apply (move_den db hist T (flat [(P, (target, T))]) q); [|exact Q2]. constructor; [apply (Permutation_NoDup (Permutation_sym V3)); apply seq_NoDup|exact V4|]. cbn [flat app]. cbn [segsOk] in V2. destruct V2 as [_ [V2 _]]. apply V2.
  Qed.
End Main.

Section Top.
  Variables (env : penv) (n : nat) (st : stmtRec).
  Lemma means_names loc stk l res : wf_env env -> uniq_env env -> stmtAt (e_db env) n st -> s_type st = S_p -> means env n st loc stk l res -> forall W : label -> Prop, (forall a t, In (a, t) loc -> labelWord a) -> (forall s a, In s l -> In a (x_locals s) -> labelWord a) ->
    Forall (fun s => tokName (x_name s)) l.
  Proof.
    intros WE UE HS HT M W. induction M as [loc stk|loc stk s t rest l res M1 M2 IH]; intros WL WA; [constructor|]. constructor.
    - inversion M1 as [NM| h I NM NL| t' I NL| j sj ents rest' kids SA AS LT NM EK LE F]; subst; [right; exact NM|left; rewrite NM|left; exact (WL _ _ I)|left; rewrite NM; exact (ue_chars _ UE j sj SA (or_introl AS))].
      destruct (hyp_labelled env WE n st HS HT h I) as [_ [sh [B K]]]. exact (ue_chars _ UE h sh B (or_intror K)).
    - apply IH; [|intros s' a I A; exact (WA s' a (or_intror I) A)]. intros a t' I. apply in_app_iff in I. destruct I as [I|I]; [apply in_map_iff in I; destruct I as [a' [E I]]; injection E as -> _; exact (WA s a (or_introl eq_refl) I)|exact (WL _ _ I)].
  Qed.

  Theorem explicit_ok l T : wf_env env -> uniq_env env -> hypLabels env -> stmtAt (e_db env) n st -> s_type st = S_p -> localsOk env n st l -> explicitProof env n st l T ->
    exists K q flag, (forall fuel, K <= fuel -> parseExplicit fuel env n (etoks l) = Ok (flag, q, 0)) /\ denotes (e_db env) q T /\ (flag = 1 /\ hasUnknown l \/ flag = 0 /\ ~ hasUnknown l).
  Proof.
    intros WE UE HL HS HT LK [target M]. pose proof (means_names _ _ _ _ WE UE HS HT M (fun _ => True) ltac:(intros a t []) (fun s a I A => lk_word _ _ _ _ LK s a I A)) as NM.
    assert (SO : Forall stepOk l). { rewrite Forall_forall in *. intros s I. constructor; [apply Forall_forall; intros a A; exact (lk_word _ _ _ _ LK s a I A)|exact (lk_target _ _ _ _ LK s I)|exact (NM s I)]. }
    destruct (means_H _ _ _ _ _ _ _ M) as [H MH].
    set (hypTab := entries env Z.of_nat (s_optHyps st) ++ entries env Z.of_nat (s_reqHyps st)).
    assert (FR : Forall (fun s => Forall (freeLabel env n hypTab) (x_locals s)) l) by (apply Forall_forall; intros s I; apply Forall_forall; intros a A; exact (free_local env n st l WE LK s a I A)).
    destruct (build_total env n st l WE UE HL HS HT LK H T target MH (mkErr 0 0)) as [b [q [B1 [B2 [B3 [B4 [K [q' [B5 B6]]]]]]]]].
    exists K, q', (if existsb (fun s => isTok chQ (x_name s)) l then 1 else 0). split; [|split; [exact B6|]].
    - intros fuel LE. unfold parseExplicit. unfold stmtAt in HS. rewrite HS. cbn [rget rbind]. destruct l as [|s l]; [inversion M; discriminate|].
      assert (ET : exists t r, etoks (s :: l) = t :: r /\ isTok chColon t = false).
      { inversion SO as [|? ? [O1 O2 O3] SO']; subst. unfold etoks. cbn [flat_map]. destruct (x_locals s) as [|a al]; cbn [flat_map app]; eexists; eexists; (split; [reflexivity|]); apply word_tok; try reflexivity; [exact O2|inversion O1; assumption]. }
      destruct ET as [t [r [ET1 ET2]]].
      assert (EL : isTok chColon (last (etoks (s :: l)) []) = false).
      { destruct (exists_last (l := s :: l) ltac:(discriminate)) as [l' [s' E']]. rewrite E' in *. assert (EE : exists r', etoks (l' ++ [s']) = r' ++ [x_name s']).
        { exists (etoks l' ++ flat_map (fun a : label => [a; [chColon]]) (x_locals s') ++ [x_target s'; [chEq]]). unfold etoks. rewrite flat_map_app. cbn [flat_map]. rewrite app_nil_r, <- !app_assoc. reflexivity. }
        destruct EE as [r' EE]. rewrite EE, last_last.
        apply name_tok; [|reflexivity|discriminate]. apply Forall_app in NM. destruct NM as [_ NM]. inversion NM; assumption. }
      rewrite ET1 in EL |- *. rewrite ET2, EL. rewrite <- ET1. fold hypTab. rewrite (scan_steps env n hypTab (s :: l)) by auto. cbn [rbind xs_n xs_idx ns_steps ns_loc ns_err]. rewrite !app_nil_r, !rev_involutive. cbn [length app]. rewrite (targets_steps (s :: l)) by exact SO. cbn [app].
      destruct (no_dups (elocs 0 (s :: l))) as [D1 D2]; [rewrite elocs_names; exact (lk_dist _ _ _ _ LK)|]. rewrite D1, D2. cbn [raiseN]. fold hypTab in B1. rewrite B1. cbn [rbind]. unfold ParModel.finish. rewrite B2. cbn [Nat.eqb rbind fst snd]. rewrite B4. cbn [rbind]. rewrite (B5 fuel LE). cbn [rbind]. rewrite B3, bump_count, bump_flag. cbn [p_count p_flag]. rewrite Nat.max_0_r. reflexivity.
    - destruct (existsb (fun s => isTok chQ (x_name s)) l) eqn:EX.
      + left. split; [reflexivity|]. apply existsb_exists in EX. destruct EX as [s [I X]]. exists s. split; [exact I|]. rewrite Forall_forall in NM. destruct (NM s I) as [W|W]; [|exact W]. rewrite (word_tok _ chQ W eq_refl) in X. discriminate X.
      + right. split; [reflexivity|]. intros [s [I X]]. apply not_true_iff_false in EX. apply EX. apply existsb_exists. exists s. split; [exact I|]. rewrite X. reflexivity.
  Qed.
End Top.
