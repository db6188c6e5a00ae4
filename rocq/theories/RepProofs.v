(* RepProofs.v -- proofs about RepModel: one pass of the search *)
From Coq Require Import ZifyBool ZifyNat Permutation Relation_Operators.
From Verif Require Import Base.
From Verif Require Import UniModel UniSpec UniSub UniCore UniStep UniRun UniProofs UniFilter UniMatch UniAll UniFin UniTwice HenModel HenProofs HenMore.
From Verif Require Import MMSpec VerModel VerSpec ParModel SqModel SqSpec SqProofs SqAttr PfaModel PfaSpec PfaProofs FltModel FltSpec FltProofs FltMain RepModel.
Open Scope nat_scope.

Lemma get_some {A} (l : list A) i x : nth_error l i = Some x -> get l i = Ok x.
Proof. unfold get. intros ->. reflexivity. Qed.
Lemma nth_lt {A} (l : list A) i x : nth_error l i = Some x -> i < length l.
Proof. intros H. apply nth_error_Some. congruence. Qed.
Lemma nth_is {A} (l : list A) i : i < length l -> exists x, nth_error l i = Some x.
Proof. intros H. destruct (nth_error l i) eqn:E; [eauto|]. apply nth_error_None in E. lia. Qed.

Section Search.
  Variable C : rctx.
  Variable T : option tree.
  Notation E := (c_E C).
  Notation db := (f_db E).
  Notation e := (f_u E).
  Notation mt := (u_mt e).
  Notation on := (f_on E).
  Notation n := (length (c_hyps C)).
  Notation nE := (c_nE C).
  Hypothesis FO : fltOk E T.

  (* expressions, perhaps with unknowns *)
  Definition expr (t : list nat) : Prop := (exists c r, t = c :: r /\ c <= mt) /\ ~ In mt t.
  Definition ground (t : list nat) : Prop := forall x, In x t -> x <= mt.
  Definition fixing (f : UniSpec.subst) : Prop := (forall t, t <= mt -> f t = [t]) /\ forall t, In mt (f t) -> t = mt.
  (* a step of the proof in progress, or a hypothesis of the statement *)
  Definition old (u : tree) : Prop := (exists h, ownHyp E h /\ u = Node (Z.of_nat h) []) \/ exists t k path, T = Some t /\ nodeAt t k path u.
  Definition result (pr : list Z) (t : list nat) : Prop := exists u, pr = rpn u /\ (~ In zUnk pr -> proves E T u t /\ ground t) /\ old u.

  Hypothesis CAND : forall ts, ts < c_lim C -> exists t b pr, cand C ts = Ok t /\ mayUse C ts = Ok b /\ proofAt C ts = Ok pr /\ expr t /\ (b = true -> result pr t).
  Hypothesis MLEN : length (c_map C) = n.
  Hypothesis MNOD : NoDup (c_map C).
  Hypothesis MRNG : forall i k, nth_error (c_map C) i = Some k -> k < n.
  Hypothesis NELE : nE <= n.
  Hypothesis SCH : forall k, k < n -> exists sch, nth_error (c_schemes C) k = Some sch /\ expr sch.
  Hypothesis TYPE : forall i k, nth_error (c_map C) i = Some k -> exists h sh, nth_error (c_hyps C) k = Some h /\ stmtOf db h = Ok sh /\
    (i < nE -> s_type sh = S_e) /\ (nE <= i -> s_type sh = S_f).

  Lemma expr_app f l : fixing f -> expr l -> expr (app_subst f l).
  Proof.
    intros [F1 F2] [[c [r [-> L]]] N]. split.
    - exists c, (app_subst f r). split; [|exact L]. unfold app_subst. cbn [flat_map]. rewrite F1 by exact L. reflexivity.
    - intros I. unfold app_subst in I. apply in_flat_map in I. destruct I as [x [I J]]. apply F2 in J. subst x. exact (N I).
  Qed.
  Lemma ground_app f l : (forall t, t <= mt -> f t = [t]) -> ground l -> app_subst f l = l.
  Proof.
    intros F. induction l as [|t l IH]; intros G; [reflexivity|]. unfold app_subst in *. cbn [flat_map]. rewrite F by (apply G; left; reflexivity). cbn [app]. f_equal. apply IH. intros x I. apply G. right. exact I.
  Qed.
  Lemma ok_two X t : expr X -> expr t -> okInput e X t.
  Proof.
    intros [[c [r [-> L]]] N] [[c' [r' [-> L']]] N']. constructor; try discriminate.
    - rewrite (fo_mt E T FO). apply (fo_con E T FO).
    - rewrite !(proj1 (count_occ_not_In _ _ _)) by assumption. reflexivity.
    - apply (fo_min E T FO).
    - right. intros x [H|H]; injection H as <-; assumption.
  Qed.
  Definition gives_by (h : hst) (f : UniSpec.subst) : Prop := forall l, exists b, makeSubst e (h_s h) l = Ok (app_subst f l, b).
  Lemma answer_fix X t h : expr X -> expr t -> answer e X t (h_s h) -> exists f, fixing f /\ app_subst f X = app_subst f t /\ gives_by h f.
  Proof.
    intros HX Ht A. destruct (answer_spec e X t (ok_two X t HX Ht) (h_s h) A) as [f [U M]]. exists f. split; [|split; [|exact M]].
    - split; [exact (un_fixed _ _ _ _ _ _ U)|exact (un_sep _ _ _ _ _ _ U)].
    - rewrite (un_A _ _ _ _ _ _ U), (un_B _ _ _ _ _ _ U). reflexivity.
  Qed.
  Lemma goal_of X : expr X -> hasDummy C X = false -> goal E X.
  Proof.
    intros [[c [r [-> L]]] N] H. split; [discriminate|]. intros t I. rewrite <- (fo_mt E T FO).
    assert (t <> mt) by (intros ->; exact (N I)). assert (t <= mt); [|lia].
    destruct (mt <? t) eqn:X; [|lia]. exfalso. assert (hasDummy C (c :: r) = true); [|congruence]. apply existsb_exists. exists t. auto.
  Qed.
  Lemma goal_ground X : goal E X -> ground X.
  Proof. intros G x I. rewrite (fo_mt E T FO). apply G in I. lia. Qed.

  (* ---------- the scan ---------- *)
  Definition passes (X : list nat) (dv : bool) (ts : nat) (t : list nat) : Prop :=
    ts < c_lim C /\ cand C ts = Ok t /\ mayUse C ts = Ok true /\ (dv = true \/ t = X) /\ hdDiffer e t X = Ok false.
  Lemma seen_ok t : forall k i, i + k <= c_lim C -> exists b, seenIn C k i t = Ok b.
  Proof.
    induction k as [|k IH]; intros i L; [exists false; reflexivity|]. cbn [seenIn]. destruct (CAND i ltac:(lia)) as [x [_ [_ [-> _]]]]. cbn [rbind].
    destruct (nmbrEqb t x); [eauto|]. apply IH. lia.
  Qed.
  Definition trialPost (X : list nat) (dv : bool) (ts fl : nat) (sv : option hst) (r : option (nat * hst) * (nat * option hst * nat)) : Prop :=
    match fst r with
    | None => fst (fst (snd r)) = 1
    | Some (ts', h') => exists t' tc', snd r = (2, Some h', tc') /\ passes X dv ts' t' /\ answer e X t' (h_s h') /\ ts <= ts' /\
        (fl = 2 -> ts < ts' \/ (ts' = ts /\ forall h, sv = Some h -> clos_trans _ (nxt e X t') (UDone (h_s h')) (UDone (h_s h))))
    end.
  Lemma trial_ok X dv : expr X -> forall k ts fl sv tc, ts + k = c_lim C ->
    (fl = 1 \/ (fl = 2 /\ exists h t, sv = Some h /\ passes X dv ts t /\ answer e X t (h_s h))) ->
    exists r K, trialPost X dv ts fl sv r /\ forall fuel, K <= fuel -> trialLoop fuel C X dv k ts fl sv tc = Ok r.
  Proof.
    intros HX. induction k as [|k IH]; intros ts fl sv tc L S.
    - exists (None, (fl, sv, tc)), 0. split; [|reflexivity]. cbn. destruct S as [S|[_ [h [t [_ [[P _] _]]]]]]; [exact S|lia].
    - destruct (CAND ts ltac:(lia)) as [t [b [pr [C1 [C2 [_ [C3 _]]]]]]].
      (* going on with flag 1 *)
      assert (GO : forall fl' sv' tc', fl' = 1 -> exists r K, trialPost X dv ts fl sv r /\ forall fuel, K <= fuel -> trialLoop fuel C X dv k (Datatypes.S ts) fl' sv' tc' = Ok r).
      { intros fl' sv' tc' F. destruct (IH (Datatypes.S ts) fl' sv' tc' ltac:(lia) (or_introl F)) as [r [K [P R]]]. exists r, K. split; [|exact R].
        unfold trialPost in *. destruct (fst r) as [[ts' h']|]; [|exact P]. destruct P as [t' [tc2 [P1 [P2 [P3 [P4 P5]]]]]]. exists t', tc2. split; [exact P1|]. split; [exact P2|]. split; [exact P3|].
        split; [lia|]. intros _. left. lia. }
      destruct S as [->|[-> [h [t1 [-> [[P1 [P2 [P3 [P4 P5]]]] A]]]]]].
      + assert (STOP : forall c, (forall fuel, trialLoop fuel C X dv (Datatypes.S k) ts 1 sv tc = if (c : bool) then trialLoop fuel C X dv k (Datatypes.S ts) 1 sv tc else trialLoop fuel C X dv (Datatypes.S k) ts 1 sv tc) -> c = true ->
          exists r K, trialPost X dv ts 1 sv r /\ forall fuel, K <= fuel -> trialLoop fuel C X dv (Datatypes.S k) ts 1 sv tc = Ok r).
        { intros c H Ec. destruct (GO 1 sv tc eq_refl) as [r [K [P R]]]. exists r, K. split; [exact P|]. intros fuel Lf. rewrite H, Ec. exact (R fuel Lf). }
        destruct b; [|apply (STOP true); [|reflexivity]; intros fuel; cbn [trialLoop]; rewrite C1; cbn [rbind]; rewrite C2; reflexivity].
        destruct (negb dv && negb (nmbrEqb t X)) eqn:Q1; [apply (STOP true); [|reflexivity]; intros fuel; cbn [trialLoop]; rewrite C1; cbn [rbind]; rewrite C2; cbn [rbind negb]; rewrite Q1; reflexivity|].
        assert (exists b, hdDiffer e t X = Ok b) as [b HD] by (destruct HX as [[c [r [-> _]]] _], C3 as [[c' [r' [-> _]]] _]; eexists; reflexivity).
        destruct b; [apply (STOP true); [|reflexivity]; intros fuel; cbn [trialLoop]; rewrite C1; cbn [rbind]; rewrite C2; cbn [rbind negb]; rewrite Q1, HD; reflexivity|].
        clear STOP. destruct (first_ends e X t (ok_two X t HX C3) on 1) as [[a tc1] [K1 [G R1]]]. unfold goodH in G. cbn [fst] in G.
        assert (PS : passes X dv ts t).
        { split; [lia|]. split; [exact C1|]. split; [exact C2|]. split; [|exact HD]. destruct dv; [left; reflexivity|right]. destruct (nmbrEqb t X) eqn:N; [apply nmbrEqb_eq, N|discriminate Q1]. }
        destruct a as [| |h'].
        * destruct (GO 1 None tc1 eq_refl) as [r [K [P R]]]. exists r, (K + K1). split; [exact P|]. intros fuel Lf. cbn [trialLoop]. rewrite C1. cbn [rbind]. rewrite C2. cbn [rbind negb]. rewrite Q1, HD. cbn [rbind Nat.eqb orb negb].
          rewrite R1 by lia. cbn [rbind fst snd]. rewrite andb_false_r. apply R. lia.
        * destruct (GO 1 None 1 eq_refl) as [r [K [P R]]]. exists r, (K + K1). split; [exact P|]. intros fuel Lf. cbn [trialLoop]. rewrite C1. cbn [rbind]. rewrite C2. cbn [rbind negb]. rewrite Q1, HD. cbn [rbind Nat.eqb orb negb].
          rewrite R1 by lia. cbn [rbind fst snd]. rewrite andb_false_r. apply R. lia.
        * destruct (seen_ok t ts 0 ltac:(lia)) as [sb SB]. destruct sb.
          -- destruct (GO 1 None tc1 eq_refl) as [r [K [P R]]]. exists r, (K + K1). split; [exact P|]. intros fuel Lf. cbn [trialLoop]. rewrite C1. cbn [rbind]. rewrite C2. cbn [rbind negb]. rewrite Q1, HD. cbn [rbind Nat.eqb orb negb].
             rewrite R1 by lia. cbn [rbind fst snd]. rewrite SB. cbn [rbind]. apply R. lia.
          -- exists (Some (ts, h'), (2, Some h', tc1)), K1. split.
             ++ exists t, tc1. split; [reflexivity|]. split; [exact PS|]. split; [exact G|]. split; [lia|]. discriminate.
             ++ intros fuel Lf. cbn [trialLoop]. rewrite C1. cbn [rbind]. rewrite C2. cbn [rbind negb]. rewrite Q1, HD. cbn [rbind Nat.eqb orb negb]. rewrite R1 by lia. cbn [rbind fst snd]. rewrite SB. reflexivity.
      + assert (t1 = t) by congruence. subst t1. assert (b = true) by congruence. subst b.
        assert (Q1 : negb dv && negb (nmbrEqb t X) = false) by (destruct P4 as [->| ->]; [reflexivity|]; rewrite (proj2 (nmbrEqb_eq X X) eq_refl); apply andb_false_r).
        destruct (next_endsH e X t (ok_two X t HX C3) on h 1 A) as [[a tc1] [K1 [[G G2] R1]]]. unfold goodH in G. cbn [fst] in G, G2.
        assert (STEP : forall fuel, K1 <= fuel -> trialLoop fuel C X dv (Datatypes.S k) ts 2 (Some h) tc =
          match a with
          | HYes h' => Ok (Some (ts, h'), (2, Some h', tc1))
          | HNo => if negb dv then Ok (None, (1, None, tc1)) else trialLoop fuel C X dv k (Datatypes.S ts) 1 None tc1
          | HTimeout => if negb dv then Ok (None, (1, None, 1)) else trialLoop fuel C X dv k (Datatypes.S ts) 1 None 1
          end).
        { intros fuel Lf. cbn [trialLoop]. rewrite C1. cbn [rbind]. rewrite C2. cbn [rbind negb]. rewrite Q1, P5. cbn [rbind Nat.eqb orb negb]. rewrite R1 by lia. cbn [rbind fst snd]. rewrite andb_true_r. destruct a; reflexivity. }
        destruct a as [| |h'].
        * destruct dv.
          -- destruct (GO 1 None tc1 eq_refl) as [r [K [P R]]]. exists r, (K + K1). split; [exact P|]. intros fuel Lf. rewrite STEP by lia. apply R. lia.
          -- exists (None, (1, None, tc1)), K1. split; [reflexivity|]. intros fuel Lf. rewrite STEP by lia. reflexivity.
        * destruct dv.
          -- destruct (GO 1 None 1 eq_refl) as [r [K [P R]]]. exists r, (K + K1). split; [exact P|]. intros fuel Lf. rewrite STEP by lia. apply R. lia.
          -- exists (None, (1, None, 1)), K1. split; [reflexivity|]. intros fuel Lf. rewrite STEP by lia. reflexivity.
        * exists (Some (ts, h'), (2, Some h', tc1)), K1. split; [|intros fuel Lf; rewrite STEP by lia; reflexivity].
          exists t, tc1. split; [reflexivity|]. split; [split; auto|]. split; [exact G|]. split; [lia|]. intros _. right. split; [reflexivity|]. intros h2 Y. injection Y as <-. exact G2.
  Qed.

  (* ---------- the state ---------- *)
  Record lens (s : rst) : Prop := {
    l_sub : length (t_sub s) = n; l_sv : length (t_sv s) = n; l_fl : length (t_fl s) = n; l_step : length (t_step s) = n;
    l_prf : length (t_prf s) = n; l_hf : length (t_hf s) = n; l_tl : length (t_tl s) = n }.
  (* nothing has changed at the positions below p *)
  Definition agree (p : nat) (s s' : rst) : Prop := forall i k, i < p -> nth_error (c_map C) i = Some k ->
    nth_error (t_hf s') i = nth_error (t_hf s) i /\ nth_error (t_tl s') i = nth_error (t_tl s) i /\ nth_error (t_fl s') k = nth_error (t_fl s) k /\
    nth_error (t_sv s') k = nth_error (t_sv s) k /\ nth_error (t_step s') k = nth_error (t_step s) k /\ nth_error (t_prf s') k = nth_error (t_prf s) k.
  Lemma agree_refl p s : agree p s s. Proof. intros i k _ _. repeat split; reflexivity. Qed.
  Lemma agree_trans p a b c : agree p a b -> agree p b c -> agree p a c.
  Proof. intros H1 H2 i k L M. destruct (H1 i k L M) as [A1 [A2 [A3 [A4 [A5 A6]]]]]. destruct (H2 i k L M) as [B1 [B2 [B3 [B4 [B5 B6]]]]]. repeat split; congruence. Qed.
  Lemma agree_le p q a b : q <= p -> agree p a b -> agree q a b.
  Proof. intros L H i k Li M. apply H; [lia|exact M]. Qed.
  Lemma agree_sym p a b : agree p a b -> agree p b a.
  Proof. intros H i k L M. destruct (H i k L M) as [A1 [A2 [A3 [A4 [A5 A6]]]]]. repeat split; congruence. Qed.
  Lemma map_at i : i < n -> exists k, nth_error (c_map C) i = Some k /\ k < n.
  Proof. intros L. destruct (nth_is (c_map C) i ltac:(lia)) as [k M]. exists k. split; [exact M|exact (MRNG i k M)]. Qed.
  Lemma map_inj i j k : nth_error (c_map C) i = Some k -> nth_error (c_map C) j = Some k -> i = j.
  Proof. intros A B. apply (proj1 (NoDup_nth_error (c_map C)) MNOD); [exact (nth_lt _ _ _ A)|congruence]. Qed.
  Lemma chain_agree s s' : forall ps x, (forall i, In i ps -> nth_error (t_hf s') i = nth_error (t_hf s) i /\ forall k, nth_error (c_map C) i = Some k -> nth_error (t_sv s') k = nth_error (t_sv s) k) ->
    chain C s' x ps = chain C s x ps.
  Proof.
    induction ps as [|i ps IH]; intros x H; [reflexivity|]. cbn [chain]. destruct (H i (or_introl eq_refl)) as [A B]. unfold get. rewrite A.
    destruct (nth_error (t_hf s) i) as [[|]|]; [| |reflexivity]; cbn [rget rbind]; [apply IH; intros j I; apply H; right; exact I|].
    destruct (nth_error (c_map C) i) as [k|]; [|reflexivity]. cbn [rget rbind]. rewrite (B k eq_refl). destruct (nth_error (t_sv s) k) as [[h|]|]; try reflexivity. cbn [rget rbind].
    destruct (makeSubst e (h_s h) (fst x)); [|reflexivity..]. cbn [rbind]. apply IH. intros j I. apply H. right. exact I.
  Qed.
  Lemma chain_app s : forall ps qs x, chain C s x (ps ++ qs) = do y <- chain C s x ps; chain C s y qs.
  Proof.
    induction ps as [|i ps IH]; intros qs x; [reflexivity|]. cbn [app chain]. destruct (get (t_hf s) i) as [[|]| | |]; try reflexivity; cbn [rbind]; [apply IH|].
    destruct (get (c_map C) i) as [k| | |]; try reflexivity; cbn [rbind]. destruct (get (t_sv s) k) as [[h|]| | |]; try reflexivity; cbn [rbind].
    destruct (makeSubst e (h_s h) (fst x)); [|reflexivity..]. cbn [rbind]. apply IH.
  Qed.

  Section Main.
    Variable main : hst.
    Variable f0 : UniSpec.subst.
    Hypothesis F0 : fixing f0.
    Hypothesis M0 : gives_by main f0.
    Hypothesis GROUND : c_search C = true -> forall k sch, nth_error (c_schemes C) k = Some sch -> ground (app_subst f0 sch).

    Definition view (s : rst) (i : nat) : res (list nat * bool) :=
      do k <- get (c_map C) i; do sch <- get (c_schemes C) k; do x0 <- makeSubst e (h_s main) sch; chain C s x0 (seq 0 (Nat.min i nE)).
    Lemma view_agree p s s' i : agree p s s' -> i <= p -> i <= n -> view s' i = view s i.
    Proof.
      intros H L Ln. unfold view. destruct (get (c_map C) i) as [k| | |]; try reflexivity. cbn [rbind]. destruct (get (c_schemes C) k) as [sch| | |]; try reflexivity. cbn [rbind].
      destruct (makeSubst e (h_s main) sch) as [x0| | |]; try reflexivity. cbn [rbind]. apply chain_agree. intros j I. apply in_seq in I. destruct (map_at j ltac:(lia)) as [k' [M _]].
      destruct (H j k' ltac:(lia) M) as [A [_ [_ [B _]]]]. split; [exact A|]. intros k2 M2. rewrite M in M2. injection M2 as <-. exact B.
    Qed.
    (* position i has been dealt with *)
    Definition found2 (s : rst) (i k : nat) (X : list nat) (dv : bool) (ts : nat) (h : hst) : Prop :=
      nth_error (t_fl s) k = Some 2 /\ nth_error (t_hf s) i = Some false /\ nth_error (t_sv s) k = Some (Some h) /\ nth_error (t_step s) k = Some ts /\
      exists t pr, passes X dv ts t /\ answer e X t (h_s h) /\ nth_error (t_prf s) k = Some pr /\ proofAt C ts = Ok pr.
    Definition found3 (s : rst) (i k : nat) (X : list nat) : Prop :=
      nth_error (t_fl s) k = Some 3 /\ nth_error (t_hf s) i = Some true /\ goal E X /\ exists pr, nth_error (t_prf s) k = Some pr /\ FltMain.found E T pr X /\ (c_search C = true \/ c_nE C <= i).
    Definition Pos (s : rst) (i : nat) : Prop := exists k X dv, nth_error (c_map C) i = Some k /\ view s i = Ok (X, dv) /\ expr X /\ nth_error (t_tl s) i = Some (Some false) /\
      ((exists ts h, found2 s i k X dv ts h) \/ found3 s i k X).
    Lemma pos_agree p s s' i : agree p s s' -> i < p -> i < n -> Pos s i -> Pos s' i.
    Proof.
      intros H L Ln [k [X [dv [M [V [HX [TL K]]]]]]]. destruct (H i k L M) as [A1 [A2 [A3 [A4 [A5 A6]]]]]. exists k, X, dv. split; [exact M|]. split; [rewrite (view_agree p s s' i H) by lia; exact V|]. split; [exact HX|].
      split; [congruence|]. destruct K as [[ts [h [K1 [K2 [K3 [K4 [t [pr [K5 [K6 [K7 K8]]]]]]]]]]]|[K1 [K2 [K3 [pr [K4 K5]]]]]].
      - left. exists ts, h. split; [congruence|]. split; [congruence|]. split; [congruence|]. split; [congruence|]. exists t, pr. split; [exact K5|]. split; [exact K6|]. split; [congruence|exact K8].
      - right. split; [congruence|]. split; [congruence|]. split; [exact K3|]. exists pr. split; [congruence|exact K5].
    Qed.
    Record Good (p : nat) (s : rst) : Prop := {
      g_len : lens s;
      g_pos : forall i, i < p -> Pos s i;
      g_new : forall i k, p <= i -> nth_error (c_map C) i = Some k -> nth_error (t_fl s) k = Some 1 }.

    (* the substitutions made so far are one substitution *)
    Lemma pos_cand s i : i < n -> Pos s i -> nth_error (t_hf s) i = Some true \/ (nth_error (t_hf s) i = Some false /\ exists k h f, nth_error (c_map C) i = Some k /\ nth_error (t_sv s) k = Some (Some h) /\ fixing f /\ gives_by h f).
    Proof.
      intros L [k [X [dv [M [V [HX [TL K]]]]]]]. destruct K as [[ts [h [K1 [K2 [K3 [K4 [t [pr [K5 [K6 [K7 K8]]]]]]]]]]]|[K1 [K2 _]]]; [right|left; exact K2].
      split; [exact K2|]. destruct (CAND ts (proj1 K5)) as [t' [b [pr' [C1 [_ [_ [C2 _]]]]]]]. destruct K5 as [_ [C1' _]]. rewrite C1 in C1'. injection C1' as ->.
      destruct (answer_fix X t h HX C2 K6) as [f [F [_ G]]]. exists k, h, f. auto.
    Qed.
    Definition comp (f g : UniSpec.subst) : UniSpec.subst := fun t => app_subst g (f t).
    Lemma app_comp f g l : app_subst (comp f g) l = app_subst g (app_subst f l).
    Proof. unfold app_subst, comp. induction l as [|t l IH]; [reflexivity|]. cbn [flat_map]. rewrite flat_map_app, IH. reflexivity. Qed.
    Lemma comp_fixing f g : fixing f -> fixing g -> fixing (comp f g).
    Proof.
      intros [A1 A2] [B1 B2]. split.
      - intros t L. unfold comp. rewrite A1 by exact L. unfold app_subst. cbn [flat_map]. rewrite B1 by exact L. reflexivity.
      - intros t I. unfold comp, app_subst in I. apply in_flat_map in I. destruct I as [x [I J]]. apply B2 in J. subst x. exact (A2 t I).
    Qed.
    Lemma id_fixing : fixing (fun t => [t]).
    Proof. split; [reflexivity|]. intros t [I|[]]. auto. Qed.
    Lemma chain_seq s : forall k a, a + k <= n -> (forall i, a <= i < a + k -> Pos s i) -> exists f, fixing f /\ forall x, exists b, chain C s x (seq a k) = Ok (app_subst f (fst x), b).
    Proof.
      induction k as [|k IH]; intros a L H.
      - exists (fun t => [t]). split; [exact id_fixing|]. intros [x b]. exists b. cbn [seq chain fst]. f_equal. f_equal. unfold app_subst. induction x as [|t x IHx]; [reflexivity|]. cbn [flat_map app]. f_equal. exact IHx.
      - destruct (IH (S a) ltac:(lia) (fun i Li => H i ltac:(lia))) as [g [G1 G2]]. cbn [seq chain].
        destruct (pos_cand s a ltac:(lia) (H a ltac:(lia))) as [K|[K [k' [h [f [M [K2 [F G]]]]]]]].
        + exists g. split; [exact G1|]. intros x. rewrite (get_some _ _ _ K). cbn [rbind]. apply G2.
        + exists (comp f g). split; [exact (comp_fixing f g F G1)|]. intros x. rewrite (get_some _ _ _ K). cbn [rbind]. rewrite (get_some _ _ _ M). cbn [rbind]. rewrite (get_some _ _ _ K2). cbn [rbind].
          destruct (G (fst x)) as [b ->]. cbn [rbind]. destruct (G2 (app_subst f (fst x), b)) as [b2 ->]. exists b2. cbn [fst]. rewrite app_comp. reflexivity.
    Qed.
    Lemma view_ok s p : p < n -> (forall i, i < p -> Pos s i) -> exists k sch X dv, nth_error (c_map C) p = Some k /\ k < n /\ nth_error (c_schemes C) k = Some sch /\ view s p = Ok (X, dv) /\ expr X /\ (c_search C = true -> ground X).
    Proof.
      intros L H. destruct (map_at p L) as [k [M Lk]]. destruct (SCH k Lk) as [sch [S1 S2]]. destruct (M0 sch) as [b0 MS].
      destruct (chain_seq s (Nat.min p nE) 0 ltac:(lia) (fun i Li => H i ltac:(lia))) as [g [G1 G2]]. destruct (G2 (app_subst f0 sch, b0)) as [b CH]. cbn [fst] in CH.
      exists k, sch, (app_subst g (app_subst f0 sch)), b. split; [exact M|]. split; [exact Lk|]. split; [exact S1|]. split.
      - unfold view. rewrite (get_some _ _ _ M). cbn [rbind]. rewrite (get_some _ _ _ S1). cbn [rbind]. rewrite MS. exact CH.
      - split; [apply expr_app; [exact G1|]; apply expr_app; assumption|]. intros SE. pose proof (GROUND SE k sch S1) as GR. rewrite (ground_app g _ (proj1 G1) GR). exact GR.
    Qed.

    (* ---------- one pass ---------- *)
    Definition afterPrep (s : rst) (p k : nat) (X : list nat) : rst :=
      mkT (put (t_sub s) k X) (t_sv s) (t_fl s) (t_step s) (t_prf s) (put (t_hf s) p false) (put (t_tl s) p (Some false)) (t_tc s).
    Lemma prepare_ok s p k X dv : lens s -> nth_error (c_map C) p = Some k -> view s p = Ok (X, dv) -> prepare C main p s = Ok ((X, dv), k, afterPrep s p k X).
    Proof.
      intros HL M V. pose proof (MRNG p k M) as Lk. assert (Lp : p < n) by (rewrite <- MLEN; exact (nth_lt _ _ _ M)). destruct (TYPE p k M) as [h [sh [T1 [T2 [T3 T4]]]]].
      unfold view in V. rewrite (get_some _ _ _ M) in V. cbn [rbind] in V. unfold prepare. rewrite (get_some _ _ _ M). cbn [rbind].
      destruct (get (c_schemes C) k) as [sch| | |]; try discriminate V. cbn [rbind] in *. destruct (makeSubst e (h_s main) sch) as [x0| | |]; try discriminate V. cbn [rbind] in *.
      rewrite set_ok by (rewrite (l_hf s HL); exact Lp). cbn [rbind]. rewrite set_ok by (rewrite (l_tl s HL); exact Lp). cbn [rbind].
      rewrite (chain_agree s) by (intros i I; apply in_seq in I; cbn [t_hf t_sv]; split; [apply put_other; lia|reflexivity]). rewrite V. cbn [rbind t_sub fst].
      rewrite set_ok by (rewrite (l_sub s HL); exact Lk). cbn [rbind]. rewrite (get_some _ _ _ T1). cbn [rbind]. rewrite T2. cbn [rbind]. unfold isE.
      destruct (p <? nE) eqn:Q; [rewrite T3 by lia; reflexivity|rewrite T4 by lia; reflexivity].
    Qed.
    Definition afterStore (s : rst) (k : nat) (fl : nat) (sv : option hst) (tc : nat) (o : option (nat * list Z)) : rst :=
      mkT (t_sub s) (put (t_sv s) k sv) (put (t_fl s) k fl) (match o with Some q => put (t_step s) k (fst q) | None => t_step s end)
        (match o with Some q => put (t_prf s) k (snd q) | None => t_prf s end) (t_hf s) (t_tl s) tc.
    Lemma back_one tl p : nth_error tl p = Some (Some false) -> back tl (S p) = Ok (S p).
    Proof. intros H. cbn [back]. rewrite (get_some _ _ _ H). reflexivity. Qed.
    Lemma later_none fuel s : forall k a, (forall i, a <= i < a + k -> nth_error (t_tl s) i = Some (Some false)) -> later fuel C s (seq a k) = Ok (true, s).
    Proof.
      induction k as [|k IH]; intros a H; [reflexivity|]. cbn [seq later]. rewrite (get_some _ _ _ (H a ltac:(lia))). cbn [rbind]. apply IH. intros i L. apply H. lia.
    Qed.
    (* where the pass starts *)
    Inductive entry (s : rst) (p k : nat) (X : list nat) (dv : bool) : nat -> nat -> bool -> Prop :=
    | en_new : nth_error (t_fl s) k = Some 1 -> entry s p k X dv 1 0 false
    | en_again ts h : found2 s p k X dv ts h -> entry s p k X dv 2 ts (nE <=? p)
    | en_out : nth_error (t_fl s) k = Some 3 -> entry s p k X dv 3 (c_lim C) true.
    (* what has been gained *)
    Definition gain (s s' : rst) (p k : nat) (X : list nat) (dv : bool) (fl : nat) : Prop :=
      match fl with
      | 1 => True
      | 2 => found3 s' p k X \/ exists ts h ts' h', found2 s p k X dv ts h /\ found2 s' p k X dv ts' h' /\
               (ts < ts' \/ (ts' = ts /\ exists t, cand C ts = Ok t /\ clos_trans _ (nxt e X t) (UDone (h_s h')) (UDone (h_s h))))
      | _ => False
      end.
    Definition stepPost (p k : nat) (X : list nat) (dv : bool) (fl : nat) (s : rst) (o : rout) : Prop :=
      match o with
      | RNext q s' => (q = S p /\ Good (S p) s' /\ agree p s s' /\ view s' p = Ok (X, dv) /\ gain s s' p k X dv fl) \/ (p = S q /\ Good p s' /\ agree p s s')
      | RNoMatch s' => p = 0 /\ Good 0 s'
      end.
    Lemma step_ok p s k X dv fl ts reF : p < n -> lens s -> (forall i, i < p -> Pos s i) -> (forall i k, p < i -> nth_error (c_map C) i = Some k -> nth_error (t_fl s) k = Some 1) ->
      nth_error (c_map C) p = Some k -> view s p = Ok (X, dv) -> expr X -> (c_search C = true -> ground X) -> entry s p k X dv fl ts reF ->
      exists o K, stepPost p k X dv fl s o /\ forall fuel, K <= fuel -> hypStep fuel C main p s = Ok o.
    Proof.
      intros Lp HL HP HN M V HX HG EN. pose proof (MRNG p k M) as Lk. set (s0 := afterPrep s p k X).
      pose proof (prepare_ok s p k X dv HL M V) as PR. fold s0 in PR.
      assert (OTH : forall i j, i <> p -> nth_error (c_map C) i = Some j -> k <> j) by (intros i j N MI ->; apply N; exact (map_inj i p j MI M)).
      (* the start *)
      set (fl1 := if fl =? 2 then 2 else 1).
      assert (ST : startAt C p k s0 = Ok (ts, reF, fl1)).
      { unfold startAt, s0, afterPrep. cbn [t_fl t_step]. destruct EN as [H|ts h H|H].
        - rewrite (get_some _ _ _ H). reflexivity.
        - destruct H as [H1 [_ [_ [H4 _]]]]. rewrite (get_some _ _ _ H1). cbn [rbind Nat.eqb]. rewrite (get_some _ _ _ H4). reflexivity.
        - rewrite (get_some _ _ _ H). reflexivity. }
      destruct (nth_is (t_sv s) k ltac:(rewrite (l_sv s HL); exact Lk)) as [sv SV].
      assert (TLM : ts <= c_lim C) by (destruct EN as [|ts h [_ [_ [_ [_ [t [pr [[Q _] _]]]]]]]|]; lia).
      assert (TR : exists r K, trialPost X dv ts fl1 sv r /\ forall fuel, K <= fuel -> trialLoop fuel C X dv (c_lim C - ts) ts fl1 sv (t_tc s0) = Ok r).
      { apply trial_ok; [exact HX|lia|]. destruct EN as [H|ts h H|H]; [left; reflexivity|right|left; reflexivity]. split; [reflexivity|]. destruct H as [_ [_ [H3 [_ [t [pr [H5 [H6 _]]]]]]]]. exists h, t. split; [congruence|]. auto. }
      destruct TR as [[o [[fl' sv'] tc']] [K1 [TP R1]]]. unfold trialPost in TP. cbn [fst snd] in TP.
      (* what is common to all ends *)
      assert (LEN : forall sub sv fl st pr hf tl tc, length sub = n -> length sv = n -> length fl = n -> length st = n -> length pr = n -> length hf = n -> length tl = n -> lens (mkT sub sv fl st pr hf tl tc)) by (intros; constructor; assumption).
      pose proof (l_sub s HL) as L1. pose proof (l_sv s HL) as L2. pose proof (l_fl s HL) as L3. pose proof (l_step s HL) as L4. pose proof (l_prf s HL) as L5. pose proof (l_hf s HL) as L6. pose proof (l_tl s HL) as L7.
      destruct o as [[ts' h']|].
      { (* a step was found *)
        destruct TP as [t' [tc2 [TQ [TP [TA [TL TG]]]]]]. injection TQ as -> -> ->. destruct (CAND ts' (proj1 TP)) as [t1 [b [pr [C1 [C2 [C3 [C4 C5]]]]]]].
        set (s1 := afterStore s0 k 2 (Some h') tc2 (Some (ts', pr))).
        assert (SE : store C k (Some (ts', h'), (2, Some h', tc2)) s0 = Ok (true, s1)).
        { unfold store, s0, afterPrep. cbn [t_fl t_sv t_step t_prf t_sub t_hf t_tl t_tc]. rewrite set_ok by lia. cbn [rbind]. rewrite set_ok by lia. cbn [rbind]. rewrite set_ok by lia. cbn [rbind]. rewrite C3. cbn [rbind]. rewrite set_ok by lia. reflexivity. }
        assert (AG : agree p s s1).
        { intros i j Li MI. pose proof (OTH i j ltac:(lia) MI) as NK. unfold s1, s0, afterStore, afterPrep. cbn [t_fl t_sv t_step t_prf t_sub t_hf t_tl t_tc fst snd]. rewrite !put_other by (lia || congruence). repeat split; reflexivity. }
        assert (F2 : found2 s1 p k X dv ts' h').
        { unfold found2, s1, s0, afterStore, afterPrep. cbn [t_fl t_sv t_step t_prf t_sub t_hf t_tl t_tc fst snd]. rewrite !put_same by (rewrite ?put_len; lia). repeat (split; [reflexivity|]). exists t', pr. auto. }
        assert (VW : view s1 p = Ok (X, dv)) by (rewrite (view_agree p s s1 p AG) by lia; exact V).
        assert (GD : Good (S p) s1).
        { constructor.
          - apply LEN; unfold s0, afterPrep; cbn [t_fl t_sv t_step t_prf t_sub t_hf t_tl t_tc fst snd]; rewrite ?put_len; lia.
          - intros i Li. destruct (Nat.eq_dec i p) as [->|N]; [|apply (pos_agree p s s1 i AG); [lia|lia|apply HP; lia]].
            exists k, X, dv. split; [exact M|]. split; [exact VW|]. split; [exact HX|]. split; [|left; exists ts', h'; exact F2].
            unfold s1, s0, afterStore, afterPrep. cbn [t_tl]. apply put_same. lia.
          - intros i j Li MI. pose proof (OTH i j ltac:(lia) MI) as NK. unfold s1, s0, afterStore, afterPrep. cbn [t_fl]. rewrite put_other by congruence. apply (HN i j); [lia|exact MI]. }
        exists (RNext (S p) s1), K1. split.
        - left. split; [reflexivity|]. split; [exact GD|]. split; [exact AG|]. split; [exact VW|]. unfold gain. destruct EN as [H|ts h H|H].
          + exact I.
          + right. exists ts, h, ts', h'. split; [exact H|]. split; [exact F2|]. destruct (TG eq_refl) as [Y|[-> Y]]; [left; exact Y|right]. split; [reflexivity|]. exists t'. split; [apply TP|]. apply Y.
            destruct H as [_ [_ [H3 _]]]. congruence.
          + destruct TP as [Y _]. lia.
        - intros fuel Lf. unfold hypStep. rewrite PR. cbn [rbind]. rewrite ST. cbn [rbind]. unfold s0 at 1, afterPrep. cbn [t_sv]. rewrite (get_some _ _ _ SV). cbn [rbind fst snd]. rewrite R1 by lia. cbn [rbind]. rewrite SE. cbn [rbind fst snd].
          destruct (S p =? nE) eqn:Q; cbn [andb rbind]; [|reflexivity]. rewrite later_none; [reflexivity|]. intros i Li. destruct (Nat.eq_dec i p) as [->|N].
          + unfold s1, s0, afterStore, afterPrep. cbn [t_tl]. apply put_same. lia.
          + destruct (g_pos _ _ GD i ltac:(lia)) as [? [? [? [_ [_ [_ [Y _]]]]]]]. exact Y. }
      (* no step was found *)
      subst fl'. set (s1 := afterStore s0 k 1 sv' tc' None).
      assert (SE : store C k (None, (1, sv', tc')) s0 = Ok (false, s1)).
      { unfold store, s0, afterPrep. cbn [t_fl t_sv t_step t_prf t_sub t_hf t_tl t_tc]. rewrite set_ok by lia. cbn [rbind]. rewrite set_ok by lia. reflexivity. }
      assert (AG : agree p s s1).
      { intros i j Li MI. pose proof (OTH i j ltac:(lia) MI) as NK. unfold s1, s0, afterStore, afterPrep. cbn [t_fl t_sv t_step t_prf t_sub t_hf t_tl t_tc fst snd]. rewrite !put_other by (lia || congruence). repeat split; reflexivity. }
      assert (GD : Good p s1).
      { constructor.
        - apply LEN; unfold s0, afterPrep; cbn [t_fl t_sv t_step t_prf t_sub t_hf t_tl t_tc fst snd]; rewrite ?put_len; lia.
        - intros i Li. apply (pos_agree p s s1 i AG); [lia|lia|apply HP; lia].
        - intros i j Li MI. unfold s1, s0, afterStore, afterPrep. cbn [t_fl]. destruct (Nat.eq_dec i p) as [->|N]; [rewrite M in MI; injection MI as <-; apply put_same; lia|].
          pose proof (OTH i j N MI) as NK. rewrite put_other by congruence. apply (HN i j); [lia|exact MI]. }
      assert (FAIL : forall K2, (forall fuel, K2 <= fuel -> noStep fuel C p k reF X s1 = Ok (false, s1)) -> exists o K, stepPost p k X dv fl s o /\ forall fuel, K <= fuel -> hypStep fuel C main p s = Ok o).
      { intros K2 R2. assert (RUN : forall fuel, K1 + K2 <= fuel -> hypStep fuel C main p s = do p' <- back (t_tl s1) p; match p' with O => Ok (RNoMatch s1) | S p'' => Ok (RNext p'' s1) end).
        { intros fuel Lf. unfold hypStep. rewrite PR. cbn [rbind]. rewrite ST. cbn [rbind]. unfold s0 at 1, afterPrep. cbn [t_sv]. rewrite (get_some _ _ _ SV). cbn [rbind fst snd]. rewrite R1 by lia. cbn [rbind]. rewrite SE. cbn [rbind fst snd].
          rewrite R2 by lia. reflexivity. }
        destruct p as [|q].
        - exists (RNoMatch s1), (K1 + K2). split; [split; [reflexivity|exact GD]|]. intros fuel Lf. rewrite RUN by lia. reflexivity.
        - exists (RNext q s1), (K1 + K2). split; [right; auto|]. intros fuel Lf. rewrite RUN by lia. destruct (g_pos _ _ GD q ltac:(lia)) as [? [? [? [_ [_ [_ [Y _]]]]]]]. rewrite back_one by exact Y. reflexivity. }
      destruct ((negb (p <? nE) || c_search C) && negb reF) eqn:Q1; [|apply (FAIL 0); intros fuel _; unfold noStep; rewrite Q1; reflexivity].
      destruct (hasDummy C X) eqn:Q2.
      { destruct (p <? nE) eqn:Q3; [|apply (FAIL 0); intros fuel _; unfold noStep; rewrite Q3, Q2; cbn [negb orb]; destruct (negb reF); reflexivity].
        exfalso. destruct (c_search C) eqn:SE2; [|discriminate Q1]. apply existsb_exists in Q2. destruct Q2 as [x [I J]]. pose proof (HG eq_refl x I). lia. }
      pose proof (goal_of X HX Q2) as GX. destruct (float_ok E T FO X GX) as [[pr msgs] [K2 [[P1 _] R2]]]. cbn [fst] in P1.
      destruct pr as [|z pr]; [apply (FAIL K2); intros fuel Lf; unfold noStep; rewrite Q1, Q2, R2 by lia; reflexivity|].
      specialize (P1 ltac:(discriminate)). set (prf := z :: pr) in *.
      set (s2 := mkT (t_sub s1) (t_sv s1) (put (t_fl s1) k 3) (t_step s1) (put (t_prf s1) k prf) (put (t_hf s1) p true) (t_tl s1) (t_tc s1)).
      assert (NS : forall fuel, K2 <= fuel -> noStep fuel C p k reF X s1 = Ok (true, s2)).
      { intros fuel Lf. unfold noStep. rewrite Q1, Q2, R2 by lia. cbn [rbind fst]. unfold s2, prf. cbv beta iota. unfold s1, s0, afterStore, afterPrep. cbn [t_fl t_sv t_step t_prf t_sub t_hf t_tl t_tc]. rewrite !set_ok by (rewrite ?put_len; lia). reflexivity. }
      assert (AG2 : agree p s s2).
      { apply (agree_trans p s s1 s2 AG). intros i j Li MI. pose proof (OTH i j ltac:(lia) MI) as NK. unfold s2. cbn [t_fl t_sv t_step t_prf t_sub t_hf t_tl t_tc]. rewrite !put_other by (lia || congruence). repeat split; reflexivity. }
      assert (F3 : found3 s2 p k X).
      { unfold found3, s2, s1, s0, afterStore, afterPrep. cbn [t_fl t_sv t_step t_prf t_sub t_hf t_tl t_tc]. rewrite !put_same by (rewrite ?put_len; lia). split; [reflexivity|]. split; [reflexivity|]. split; [exact GX|]. exists prf. split; [reflexivity|]. split; [exact P1|]. apply andb_prop in Q1. destruct Q1 as [Q1 _]. destruct (c_search C); [left; reflexivity|right; lia]. }
      assert (VW : view s2 p = Ok (X, dv)) by (rewrite (view_agree p s s2 p AG2) by lia; exact V).
      assert (TLP : nth_error (t_tl s2) p = Some (Some false)) by (unfold s2, s1, s0, afterStore, afterPrep; cbn [t_tl]; apply put_same; lia).
      assert (GD2 : Good (S p) s2).
      { constructor.
        - apply LEN; unfold s1, s0, afterStore, afterPrep; cbn [t_fl t_sv t_step t_prf t_sub t_hf t_tl t_tc fst snd]; rewrite ?put_len; lia.
        - intros i Li. destruct (Nat.eq_dec i p) as [->|N]; [|apply (pos_agree p s s2 i AG2); [lia|lia|apply HP; lia]].
          exists k, X, dv. split; [exact M|]. split; [exact VW|]. split; [exact HX|]. split; [exact TLP|right; exact F3].
        - intros i j Li MI. pose proof (OTH i j ltac:(lia) MI) as NK. unfold s2. cbn [t_fl]. rewrite put_other by congruence. apply (g_new _ _ GD i j); [lia|exact MI]. }
      exists (RNext (S p) s2), (K1 + K2). split.
      - left. split; [reflexivity|]. split; [exact GD2|]. split; [exact AG2|]. split; [exact VW|]. unfold gain. destruct EN as [H|ts h H|H]; [exact I|left; exact F3|].
        rewrite andb_false_r in Q1. discriminate Q1.
      - intros fuel Lf. unfold hypStep. rewrite PR. cbn [rbind]. rewrite ST. cbn [rbind]. unfold s0 at 1, afterPrep. cbn [t_sv]. rewrite (get_some _ _ _ SV). cbn [rbind fst snd]. rewrite R1 by lia. cbn [rbind]. rewrite SE. cbn [rbind fst snd].
        rewrite NS by lia. cbn [rbind fst snd]. destruct (S p =? nE) eqn:Q; cbn [andb rbind]; [|reflexivity]. rewrite later_none; [reflexivity|]. intros i Li.
        destruct (Nat.eq_dec i p) as [->|N]; [exact TLP|]. destruct (g_pos _ _ GD2 i ltac:(lia)) as [? [? [? [_ [_ [_ [Y _]]]]]]]. exact Y.
    Qed.

    (* ---------- the loop over the hypotheses ends ---------- *)
    Definition Fin (p : nat) (s : rst) : Prop := exists (r : bool * rst) K, (if fst r then Good n (snd r) else Good 0 (snd r)) /\ forall m fuel, K <= m -> K <= fuel -> hypsLoop m fuel C main p s = Ok r.
    Definition Reach (p : nat) (s : rst) (Ex : nat -> rst -> Prop) : Prop :=
      Fin p s \/ exists p' s' k K, Ex p' s' /\ forall m fuel, K <= fuel -> hypsLoop (k + m) fuel C main p s = hypsLoop m fuel C main p' s'.
    Lemma loop_S m fuel p s : p < n -> hypsLoop (S m) fuel C main p s = do o <- hypStep fuel C main p s; match o with RNext p' s' => hypsLoop m fuel C main p' s' | RNoMatch s' => Ok (false, s') end.
    Proof. intros L. cbn [hypsLoop]. replace (p =? n) with false by lia. reflexivity. Qed.
    Lemma reach_step p s p1 s1 K Ex : p < n -> (forall fuel, K <= fuel -> hypStep fuel C main p s = Ok (RNext p1 s1)) -> Reach p1 s1 Ex -> Reach p s Ex.
    Proof.
      intros L H [[r [K1 [A B]]]|[p' [s' [k [K1 [A B]]]]]].
      - left. exists r, (S (K + K1)). split; [exact A|]. intros m fuel L1 L2. destruct m; [lia|]. rewrite loop_S, H by lia. cbn [rbind]. apply B; lia.
      - right. exists p', s', (S k), (K + K1). split; [exact A|]. intros m fuel L1. cbn [Nat.add]. rewrite loop_S, H by lia. cbn [rbind]. apply B. lia.
    Qed.
    Lemma reach_stop p s s1 K Ex : p < n -> (forall fuel, K <= fuel -> hypStep fuel C main p s = Ok (RNoMatch s1)) -> Good 0 s1 -> Reach p s Ex.
    Proof.
      intros L H G. left. exists (false, s1), (S K). split; [exact G|]. intros m fuel L1 L2. destruct m; [lia|]. rewrite loop_S, H by lia. reflexivity.
    Qed.
    Lemma reach_here p s (Ex : nat -> rst -> Prop) : Ex p s -> Reach p s Ex.
    Proof. intros H. right. exists p, s, 0, 0. split; [exact H|]. reflexivity. Qed.
    Lemma reach_trans p s (E1 E2 : nat -> rst -> Prop) : Reach p s E1 -> (forall p' s', E1 p' s' -> Reach p' s' E2) -> Reach p s E2.
    Proof.
      intros [H|[p' [s' [k [K [A B]]]]]] H2; [left; exact H|]. destruct (H2 p' s' A) as [[r [K1 [A1 B1]]]|[p2 [s2 [k2 [K2 [A2 B2]]]]]].
      - left. exists r, (k + K + K1). split; [exact A1|]. intros m fuel L1 L2. replace m with (k + (m - k)) by lia. rewrite B by lia. apply B1; lia.
      - right. exists p2, s2, (k + k2), (K + K2). split; [exact A2|]. intros m fuel L. rewrite <- Nat.add_assoc, B by lia. apply B2. lia.
    Qed.
    Definition exitAt (p : nat) (s : rst) (p' : nat) (s' : rst) : Prop := p = S p' /\ Good p s' /\ agree p s s'.
    Lemma exit_agree p a b p' s' : agree p a b -> exitAt p b p' s' -> exitAt p a p' s'.
    Proof. intros A [H1 [H2 H3]]. split; [exact H1|]. split; [exact H2|]. exact (agree_trans p a b s' A H3). Qed.
    Lemma reach_weak p s (E1 E2 : nat -> rst -> Prop) : Reach p s E1 -> (forall p' s', E1 p' s' -> E2 p' s') -> Reach p s E2.
    Proof. intros H K. apply (reach_trans p s E1 E2 H). intros p' s' X. apply reach_here, K, X. Qed.
    Lemma found2_agree p s s' i k X dv ts h : agree p s s' -> i < p -> nth_error (c_map C) i = Some k -> found2 s i k X dv ts h -> found2 s' i k X dv ts h.
    Proof.
      intros A L M [K1 [K2 [K3 [K4 [t [pr [K5 [K6 [K7 K8]]]]]]]]]. destruct (A i k L M) as [A1 [A2 [A3 [A4 [A5 A6]]]]].
      split; [congruence|]. split; [congruence|]. split; [congruence|]. split; [congruence|]. exists t, pr. split; [exact K5|]. split; [exact K6|]. split; [congruence|exact K8].
    Qed.
    Section At.
      Variable p : nat.
      Hypothesis Lp : p < n.
      Hypothesis FWD : forall s, Good (S p) s -> Reach (S p) s (exitAt (S p) s).
      Variables (k : nat) (X : list nat) (dv : bool).
      Hypothesis M : nth_error (c_map C) p = Some k.
      Hypothesis HX : expr X.
      Hypothesis HG : c_search C = true -> ground X.
      (* a pass, from a good state *)
      Lemma pass s fl ts reF : Good (S p) s -> view s p = Ok (X, dv) -> entry s p k X dv fl ts reF ->
        exists o K, stepPost p k X dv fl s o /\ forall fuel, K <= fuel -> hypStep fuel C main p s = Ok o.
      Proof.
        intros G V EN. apply (step_ok p s k X dv fl ts reF Lp (g_len _ _ G)); try assumption.
        - intros i Li. apply (g_pos _ _ G). lia.
        - intros i j Li MI. apply (g_new _ _ G i j); [lia|exact MI].
      Qed.
      Lemma again3 s : Good (S p) s -> view s p = Ok (X, dv) -> found3 s p k X -> Reach (S p) s (exitAt p s).
      Proof.
        intros G V F. apply (reach_trans _ _ _ _ (FWD s G)). intros p' s' [EP [G' A]]. injection EP as <-.
        assert (V' : view s' p = Ok (X, dv)) by (rewrite (view_agree (S p) s s' p A) by lia; exact V).
        assert (F3 : nth_error (t_fl s') k = Some 3) by (destruct (A p k ltac:(lia) M) as [_ [_ [B _]]]; rewrite B; apply F).
        destruct (pass s' _ _ _ G' V' (en_out _ _ _ _ _ F3)) as [o [K [P R]]]. destruct o as [q s1|s1].
        - destruct P as [[_ [_ [_ [_ []]]]]|[-> [P1 P2]]]. apply (reach_step _ _ q s1 K); [exact Lp|exact R|]. apply reach_here. split; [reflexivity|]. split; [exact P1|]. apply (agree_trans _ s s'); [exact (agree_le _ _ _ _ (Nat.le_succ_diag_r _) A)|exact P2].
        - destruct P as [-> P]. exact (reach_stop _ _ s1 K _ Lp R P).
      Qed.
      Lemma again2 : forall d ts h s, c_lim C - ts = d -> Good (S p) s -> view s p = Ok (X, dv) -> found2 s p k X dv ts h -> Reach (S p) s (exitAt p s).
      Proof.
        induction d as [d IHd] using lt_wf_ind. intros ts h s Ed G V F. pose proof F as FF. destruct F as [_ [_ [_ [_ [t [pr [PS [AN _]]]]]]]].
        assert (Ht : expr t). { destruct PS as [L [C1 _]]. destruct (CAND ts L) as [t' [b [pr' [C1' [_ [_ [C2 _]]]]]]]. congruence. }
        pose proof (answer_acc e X t (ok_two X t HX Ht) (h_s h) AN) as AC. remember (UDone (h_s h)) as o eqn:Eo. revert h s G V FF AN Eo. clear pr.
        induction AC as [o _ IHo]. intros h s G V FF AN ->.
        apply (reach_trans _ _ _ _ (FWD s G)). intros p' s' [EP [G' A]]. injection EP as <-.
        assert (V' : view s' p = Ok (X, dv)) by (rewrite (view_agree (S p) s s' p A) by lia; exact V).
        pose proof (found2_agree (S p) s s' p k X dv ts h A ltac:(lia) M FF) as F2.
        destruct (pass s' _ _ _ G' V' (en_again _ _ _ _ _ _ _ F2)) as [o [K [P R]]].
        assert (AP : agree p s s') by exact (agree_le _ _ _ _ (Nat.le_succ_diag_r _) A).
        destruct o as [q s1|s1].
        - destruct P as [[-> [P1 [P2 [P3 P4]]]]|[-> [P1 P2]]].
          + apply (reach_step _ _ _ _ K _ Lp R). pose proof (agree_trans _ _ _ _ AP P2) as A1.
            apply (reach_weak _ _ (exitAt p s1)); [|intros p2 s2; apply exit_agree, A1]. destruct P4 as [P4|[ts0 [h0 [ts1 [h1 [B1 [B2 B3]]]]]]]; [exact (again3 s1 P1 P3 P4)|].
            assert (ts0 = ts /\ h0 = h) as [-> ->].
            { destruct B1 as [_ [_ [Y1 [Y2 _]]]], F2 as [_ [_ [Z1 [Z2 _]]]]. split; congruence. }
            assert (L1 : ts1 < c_lim C) by (destruct B2 as [_ [_ [_ [_ [t2 [pr2 [Y _]]]]]]]; apply Y).
            destruct B3 as [B3|[-> [t2 [B3 B4]]]]; [apply (IHd (c_lim C - ts1) ltac:(lia) ts1 h1 s1 eq_refl P1 P3 B2)|].
            destruct PS as [PS1 [PS2 PS3]]. rewrite PS2 in B3. injection B3 as <-.
            apply (IHo _ B4 h1 s1 P1 P3 B2); [|reflexivity]. destruct B2 as [_ [_ [_ [_ [t2 [pr2 [Y1 [Y2 _]]]]]]]]. destruct Y1 as [_ [Y1 _]]. rewrite PS2 in Y1. injection Y1 as <-. exact Y2.
          + apply (reach_step _ _ q s1 K); [exact Lp|exact R|]. apply reach_here. split; [reflexivity|]. split; [exact P1|]. exact (agree_trans _ s s' s1 AP P2).
        - destruct P as [-> P]. exact (reach_stop _ _ s1 K _ Lp R P).
      Qed.
    End At.
    Lemma fwd : forall d p, n - p = d -> p <= n -> forall s, Good p s -> Reach p s (exitAt p s).
    Proof.
      induction d as [|d IH]; intros p Ed Lp s G.
      - assert (p = n) by lia. subst p. left. exists (true, s), 0. split; [exact G|]. intros m fuel _ _. destruct m; cbn [hypsLoop]; rewrite Nat.eqb_refl; reflexivity.
      - assert (L : p < n) by lia. destruct (view_ok s p L (g_pos _ _ G)) as [k [sch [X [dv [M [Lk [_ [V [HX HG]]]]]]]]].
        assert (FL : nth_error (t_fl s) k = Some 1) by exact (g_new _ _ G p k (le_n p) M).
        destruct (step_ok p s k X dv 1 0 false L (g_len _ _ G) (g_pos _ _ G) (fun i j Li => g_new _ _ G i j ltac:(lia)) M V HX HG (en_new _ _ _ _ _ FL)) as [o [K [P R]]].
        destruct o as [q s1|s1].
        + destruct P as [[-> [P1 [P2 [P3 _]]]]|[-> [P1 P2]]].
          * apply (reach_step _ _ _ _ K _ L R). apply (reach_weak _ _ (exitAt p s1)); [|intros p2 s2; apply exit_agree, P2].
            assert (FW : forall s', Good (S p) s' -> Reach (S p) s' (exitAt (S p) s')) by (intros s'; apply IH; lia).
            destruct (g_pos _ _ P1 p ltac:(lia)) as [k' [X' [dv' [M' [V' [_ [_ Q]]]]]]]. rewrite M in M'. injection M' as <-. rewrite P3 in V'. apply Ok_inj in V'. injection V' as <- <-.
            destruct Q as [[ts [h Q]]|Q]; [exact (again2 p L FW k X dv M HX HG _ ts h s1 eq_refl P1 P3 Q)|exact (again3 p L FW k X dv M HX HG s1 P1 P3 Q)].
          * apply (reach_step _ _ q s1 K _ L R). apply reach_here. split; [reflexivity|]. split; assumption.
        + destruct P as [-> P]. exact (reach_stop _ _ s1 K _ L R P).
    Qed.
    Lemma hyps_end s : Good 0 s -> Fin 0 s.
    Proof. intros G. destruct (fwd n 0 ltac:(lia) ltac:(lia) s G) as [H|[p' [s' [k [K [[H _] _]]]]]]; [exact H|discriminate H]. Qed.
  End Main.
End Search.
