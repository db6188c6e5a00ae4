(* RepMain.v -- proofs about RepModel: the search meets its specification *)
From Coq Require Import ZifyBool ZifyNat Permutation Relation_Operators.
From Verif Require Import Base.
From Verif Require Import UniModel UniSpec UniSub UniCore UniStep UniRun UniProofs UniFilter UniMatch UniAll UniFin UniTwice HenModel HenProofs HenMore.
From Verif Require Import MMSpec VerModel VerSpec ParModel SqModel SqSpec SqProofs SqAttr PfaModel PfaSpec PfaProofs PfaMore FltModel FltSpec FltProofs FltMain RepModel RepSpec RepProofs.
Open Scope nat_scope.

(* ---------- the order of the hypotheses ---------- *)
Lemma put_perm_swap {A} (l : list A) i j x y : nth_error l i = Some x -> nth_error l j = Some y -> Permutation (put (put l i y) j x) l.
Proof.
  revert i j x y. induction l as [|a l IH]; intros i j x y Hi Hj; [destruct i; discriminate Hi|]. destruct i as [|i], j as [|j]; cbn [nth_error put] in *.
  - injection Hi as <-. injection Hj as <-. reflexivity.
  - injection Hi as <-. clear IH. revert j Hj. induction l as [|b l IHl]; intros j Hj; [destruct j; discriminate Hj|]. destruct j as [|j]; cbn [nth_error put] in *; [injection Hj as <-; apply perm_swap|].
    apply perm_trans with (b :: y :: put l j a); [apply perm_swap|]. apply perm_trans with (b :: a :: l); [apply perm_skip, IHl, Hj|apply perm_swap].
  - injection Hj as <-. clear IH. revert i Hi. induction l as [|b l IHl]; intros i Hi; [destruct i; discriminate Hi|]. destruct i as [|i]; cbn [nth_error put] in *; [injection Hi as <-; apply perm_swap|].
    apply perm_trans with (b :: x :: put l i a); [apply perm_swap|]. apply perm_trans with (b :: a :: l); [apply perm_skip, IHl, Hi|apply perm_swap].
  - apply perm_skip. exact (IH i j x y Hi Hj).
Qed.
Lemma swap_ok l i j : i < length l -> j < length l -> exists l', swapAt l i j = Ok l' /\ Permutation l' l /\ nth_error l' i = nth_error l j /\ nth_error l' j = nth_error l i /\
  forall q, q <> i -> q <> j -> nth_error l' q = nth_error l q.
Proof.
  intros Li Lj. destruct (nth_is l i Li) as [x Hx]. destruct (nth_is l j Lj) as [y Hy]. unfold swapAt. rewrite (get_some _ _ _ Hx), (get_some _ _ _ Hy). cbn [rbind]. rewrite set_ok by exact Li. cbn [rbind].
  rewrite set_ok by (rewrite put_len; exact Lj). eexists. split; [reflexivity|]. split; [exact (put_perm_swap l i j x y Hx Hy)|]. rewrite Hx, Hy. split; [|split].
  - destruct (Nat.eq_dec i j) as [->|N]; [rewrite put_same by (rewrite put_len; exact Lj); congruence|]. rewrite put_other by auto. apply put_same, Li.
  - apply put_same. rewrite put_len. exact Lj.
  - intros q N1 N2. rewrite !put_other by auto. reflexivity.
Qed.
Section Order.
  Variable db : dbase.
  Variable hyps : list nat.
  Hypothesis HY : forall h, In h hyps -> exists sh, stmtOf db h = Ok sh.
  Definition isEssAt (sm : list nat) (i : nat) (b : bool) : Prop := exists j h sh, nth_error sm i = Some j /\ nth_error hyps j = Some h /\ stmtOf db h = Ok sh /\ isE (s_type sh) = b.
  Lemma ess_nth sm sm' i j b : nth_error sm' i = nth_error sm j -> isEssAt sm j b -> isEssAt sm' i b.
  Proof. intros E [q [h [sh [A B]]]]. exists q, h, sh. split; [congruence|exact B]. Qed.
  Notation n := (length hyps).
  Lemma perm_at sm i : Permutation sm (seq 0 n) -> i < n -> exists j h sh, nth_error sm i = Some j /\ nth_error hyps j = Some h /\ stmtOf db h = Ok sh.
  Proof.
    intros P L. destruct (nth_is sm i) as [j J]; [rewrite (Permutation_length P), seq_length; exact L|].
    assert (LJ : j < n) by (apply nth_error_In in J; apply (Permutation_in _ P), in_seq in J; lia). destruct (nth_is hyps j ltac:(lia)) as [h H]. destruct (HY h (nth_error_In _ _ H)) as [sh S]. exists j, h, sh. auto.
  Qed.
  Lemma moveE_ok : forall k hyp m sm, hyp + k = n -> m <= hyp -> Permutation sm (seq 0 n) -> (forall i, i < m -> isEssAt sm i true) -> (forall i, m <= i < hyp -> isEssAt sm i false) ->
    exists m' sm', moveE db hyps k hyp m sm = Ok (m', sm') /\ m' <= n /\ Permutation sm' (seq 0 n) /\ (forall i, i < m' -> isEssAt sm' i true) /\ (forall i, m' <= i < n -> isEssAt sm' i false).
  Proof.
    induction k as [|k IH]; intros hyp m sm L1 L2 P A B.
    - exists m, sm. split; [reflexivity|]. split; [lia|]. split; [exact P|]. split; [exact A|]. intros i Li. apply B. lia.
    - destruct (perm_at sm hyp P ltac:(lia)) as [j [h [sh [J [H S]]]]]. cbn [moveE]. rewrite (get_some _ _ _ J). cbn [rbind]. rewrite (get_some _ _ _ H). cbn [rbind]. rewrite S. cbn [rbind].
      assert (LS : length sm = n) by (rewrite (Permutation_length P), seq_length; reflexivity).
      destruct (isE (s_type sh)) eqn:T.
      + destruct (swap_ok sm hyp m ltac:(lia) ltac:(lia)) as [sm' [W [PW [W1 [W2 W3]]]]]. rewrite W. cbn [rbind]. apply IH; [lia|lia|exact (Permutation_trans PW P)| |].
        * intros i Li. destruct (Nat.eq_dec i m) as [->|N]; [apply (ess_nth sm sm' m hyp true W2); exists j, h, sh; auto|]. apply (ess_nth sm sm' i i true); [apply W3; lia|apply A; lia].
        * intros i Li. destruct (Nat.eq_dec i hyp) as [->|N]; [apply (ess_nth sm sm' hyp m false W1), B; lia|]. apply (ess_nth sm sm' i i false); [apply W3; lia|apply B; lia].
      + apply IH; [lia|lia|exact P|exact A|]. intros i Li. destruct (Nat.eq_dec i hyp) as [->|N]; [exists j, h, sh; auto|]. apply B. lia.
  Qed.
  Variable schemes : list (list nat).
  Hypothesis SL : length schemes = n.
  Variable m : nat.
  Hypothesis Lm : m <= n.
  Definition ordered (sm : list nat) : Prop := Permutation sm (seq 0 n) /\ (forall i, i < m -> isEssAt sm i true) /\ (forall i, m <= i < n -> isEssAt sm i false).
  Lemma sortIn_ok : forall k hyp i sm, hyp < m -> i + k <= m -> ordered sm -> exists sm', sortIn schemes k hyp i sm = Ok sm' /\ ordered sm'.
  Proof.
    induction k as [|k IH]; intros hyp i sm L1 L2 O; [exists sm; split; [reflexivity|exact O]|]. pose proof O as [P [A B]].
    assert (LS : length sm = n) by (rewrite (Permutation_length P), seq_length; reflexivity).
    assert (IN : forall q j, nth_error sm q = Some j -> j < length schemes) by (intros q j J; apply nth_error_In in J; apply (Permutation_in _ P), in_seq in J; lia).
    cbn [sortIn]. destruct (nth_is sm i ltac:(lia)) as [a Ha]. destruct (nth_is sm hyp ltac:(lia)) as [b Hb]. rewrite (get_some _ _ _ Ha), (get_some _ _ _ Hb). cbn [rbind].
    destruct (nth_is schemes a (IN _ _ Ha)) as [x Hx]. destruct (nth_is schemes b (IN _ _ Hb)) as [y Hy]. rewrite (get_some _ _ _ Hx), (get_some _ _ _ Hy). cbn [rbind].
    destruct (length y <? length x); [|apply IH; [lia|lia|exact O]]. destruct (swap_ok sm hyp i ltac:(lia) ltac:(lia)) as [sm' [W [PW [W1 [W2 W3]]]]]. rewrite W. cbn [rbind]. apply IH; [lia|lia|].
    split; [exact (Permutation_trans PW P)|]. split.
    - intros q Lq. destruct (Nat.eq_dec q hyp) as [->|N1]; [apply (ess_nth sm sm' hyp i true W1), A; lia|]. destruct (Nat.eq_dec q i) as [->|N2]; [apply (ess_nth sm sm' i hyp true W2), A; lia|].
      apply (ess_nth sm sm' q q true); [apply W3; assumption|apply A, Lq].
    - intros q Lq. apply (ess_nth sm sm' q q false); [apply W3; lia|apply B, Lq].
  Qed.
  Lemma sortE_ok : forall k hyp sm, hyp + k = m -> ordered sm -> exists sm', sortE schemes k m hyp sm = Ok sm' /\ ordered sm'.
  Proof.
    induction k as [|k IH]; intros hyp sm L O; [exists sm; split; [reflexivity|exact O]|]. cbn [sortE]. destruct (sortIn_ok (m - S hyp) hyp (S hyp) sm ltac:(lia) ltac:(lia) O) as [sm' [-> O']]. cbn [rbind]. apply IH; [lia|exact O'].
  Qed.
End Order.

Section Rep.
  Variables (E : fenv) (T : tree) (repl : nat) (st : stmtRec) (step : nat) (m : list nat) (sub search : bool).
  Hypothesis RO : repOk E T repl st step m sub search.
  Notation db := (f_db E).
  Notation iv := (db_isvar (f_db E)).
  Notation e := (f_u E).
  Notation mt := (u_mt (f_u E)).
  Let FO := ro_flt _ _ _ _ _ _ _ _ RO.
  Let WD := fo_wf E (Some T) FO.
  Let US := ro_use _ _ _ _ _ _ _ _ RO.
  Let HS := us_stmt _ _ _ US.
  Let HA := us_type _ _ _ US.
  Let GM := ro_goal _ _ _ _ _ _ _ _ RO.
  Notation hyps := (s_reqHyps st).
  Notation scheme := (map (dum E st) (s_math st)).
  Notation schemes := (map (fun h => map (dum E st) (hypMath E h)) (s_reqHyps st)).
  Lemma MTs : mt = db_sep db. Proof. exact (fo_mt E (Some T) FO). Qed.

  Lemma gm_le X : goal E X -> forall x, In x X -> x <= mt.
  Proof. intros H x I. rewrite MTs. apply Nat.lt_le_incl, (proj2 H x I). Qed.

  Lemma pip_facts : wfTree db T /\ f_pf E = rpn T /\ length (f_tg E) = length (f_pf E).
  Proof. exact (fo_pip E (Some T) FO). Qed.
  Lemma step_lt : step < length (rpn T).
  Proof. destruct pip_facts as [_ [P Q]]. rewrite <- P, <- Q. exact (nth_lt _ _ _ (ro_target _ _ _ _ _ _ _ _ RO)). Qed.
  Lemma pipOf_ok : pipOk db (pipOf E) T.
  Proof.
    destruct pip_facts as [P1 [P2 P3]]. constructor; cbn [pipOf pf tg sr us]; rewrite ?map_length; try assumption; try reflexivity.
    - exact (ro_norefs _ _ _ _ _ _ _ _ RO).
    - intros k H. apply map_nth_error with (f := fun _ => [] : list Z) in H. exact H.
  Qed.
  Lemma hyp_stmt h : In h hyps -> exists sh, stmtAt db h sh /\ isHyp sh /\ hypMath E h = s_math sh /\ stmtOf db h = Ok sh.
  Proof.
    intros I. destruct (wf_hyps db WD repl st h HS HA I) as [sh [K1 K2]]. exists sh. split; [exact K1|]. split; [exact K2|]. unfold hypMath, stmtOf. unfold stmtAt in K1. rewrite K1. split; reflexivity.
  Qed.
  Lemma expr_dum l : (exists c r, l = c :: r /\ iv c = false) -> varsOk E st l -> (exists c r, map (dum E st) l = c :: r /\ c <= mt) /\ ~ In mt (map (dum E st) l).
  Proof.
    intros [c [r [-> V]]] H. split.
    - exists c, (map (dum E st) r). cbn [map]. rewrite dum_low by exact V. split; [reflexivity|]. rewrite MTs. pose proof (proj2 (H c (or_introl eq_refl))). lia.
    - intros I. apply in_map_iff in I. destruct I as [u [X I]]. destruct (H u I) as [K1 K2]. destruct (iv u) eqn:Q.
      + destruct (dum_var E st u Q (K1 eq_refl)) as [i [Y _]]. unfold base in Y. lia.
      + rewrite dum_low in X by exact Q. rewrite MTs in X. lia.
  Qed.
  (* the part of the context that has been computed *)
  Record ctxOk (C : rctx) : Prop := {
    x_E : c_E C = E; x_repl : c_repl C = repl; x_hyps : c_hyps C = hyps; x_schemes : c_schemes C = schemes; x_scheme : c_scheme C = scheme; x_m : c_m C = m; x_search : c_search C = search;
    x_map : Permutation (c_map C) (seq 0 (length hyps));
    x_nE : c_nE C <= length hyps;
    x_ess : forall i, i < c_nE C -> isEssAt db hyps (c_map C) i true;
    x_flt : forall i, c_nE C <= i < length hyps -> isEssAt db hyps (c_map C) i false;
    x_own : forall h, In h (c_own C) -> ownHyp E h;
    x_scan : forall k, k < c_hi C - c_lo C -> exists path u b t, nodeAt T (c_lo C + k) path u /\ nth_error (f_tg E) (c_lo C + k) = Some t /\
      (match c_indep C with None => Ok true | Some l => get l (c_lo C + k) end) = Ok b /\ (sub = false -> b = true -> ~ In zUnk (rpn u)) /\ (b = true -> ~ In zUnk (rpn u) -> forall x, In x t -> x <= mt) }.
  Lemma context_ok : exists C, context E repl step sub search = Ok C /\ ctxOk C.
  Proof.
    destruct pip_facts as [P1 [P2 P3]]. pose proof step_lt as SL.
    assert (STO : stmtOf db repl = Ok st) by (unfold stmtOf; unfold stmtAt in HS; rewrite HS; reflexivity).
    unfold context. rewrite STO. cbn [rbind].
    replace ((f_override E =? 0) && f_disc E repl) with false.
    2:{ symmetry. destruct (f_override E =? 0) eqn:Q; [|reflexivity]. apply (us_disc _ _ _ US). lia. }
    rewrite (get_some _ _ _ (ro_target _ _ _ _ _ _ _ _ RO)). cbn [rbind].
    destruct (nodeAt_total T step SL) as [path0 [u0 N0]].
    assert (SN : subproofLen db (f_pf E) step = Ok (sz u0)) by (rewrite P2; exact (subLen_node db T step path0 u0 P1 N0)).
    destruct (node_split T step path0 u0 N0) as [a0 [b0 [EA LA]]]. pose proof (sz_pos u0) as SP.
    set (b := if sub then (step + 1 - sz u0, step) else (0, length (f_pf E) - 1)).
    assert (RB : (if sub then do n <- subproofLen db (f_pf E) step; Ok (step + 1 - n, step) else Ok (0, length (f_pf E) - 1)) = Ok b) by (unfold b; destruct sub; [rewrite SN; reflexivity|reflexivity]).
    rewrite RB. cbn [rbind]. replace (isAP (s_type st)) with true by (destruct HA as [->| ->]; reflexivity). cbn [negb].
    rewrite (dummies_ok E st (s_math st) (math_ok E (Some T) FO repl st HS HA)). cbn [rbind].
    rewrite (schemes_ok E (Some T) FO repl st HS HA hyps (fun h I => I)). cbn [rbind].
    assert (HY : forall h, In h hyps -> exists sh, stmtOf db h = Ok sh) by (intros h I; destruct (hyp_stmt h I) as [sh [_ [_ [_ Y]]]]; eauto).
    destruct (moveE_ok db hyps HY (length hyps) 0 0 (seq 0 (length hyps)) ltac:(lia) ltac:(lia) (Permutation_refl _) (fun i L => ltac:(lia)) (fun i L => ltac:(lia))) as [nE [sm0 [-> [Ln [PM [A B]]]]]]. cbn [rbind fst snd].
    destruct (sortE_ok db hyps HY schemes (map_length _ _) nE Ln nE 0 sm0 ltac:(lia) (conj PM (conj A B))) as [sm [-> [PS [A' B']]]]. cbn [rbind].
    assert (exists ind, (if sub then Ok None else do l <- getIndepKnownSteps db (Z.of_nat mt) (pipOf E) step; Ok (Some l)) = Ok ind /\
      forall k, k < snd b - fst b -> exists path u b' t, nodeAt T (fst b + k) path u /\ nth_error (f_tg E) (fst b + k) = Some t /\
      (match ind with None => Ok true | Some l => get l (fst b + k) end) = Ok b' /\ (sub = false -> b' = true -> ~ In zUnk (rpn u)) /\ (b' = true -> ~ In zUnk (rpn u) -> forall x, In x t -> x <= mt)) as [ind [-> IND]].
    { unfold b. assert (SB : sub = true \/ sub = false) by (destruct sub; auto). destruct SB as [SB|SB]; rewrite SB; cbn [fst snd].
      - exists None. split; [reflexivity|]. intros k Lk. destruct (nodeAt_total T (step + 1 - sz u0 + k) ltac:(lia)) as [path [u N]].
        destruct (nth_is (f_tg E) (step + 1 - sz u0 + k)) as [t Ht]; [rewrite P3, P2; lia|]. exists path, u, true, t. split; [exact N|]. split; [exact Ht|]. split; [reflexivity|]. split; [discriminate|].
        intros _ NU x I. rewrite MTs. apply Nat.lt_le_incl. apply (ro_known _ _ _ _ _ _ _ _ RO SB _ path u t N); [|exact NU|exact Ht|exact I]. exists path0, u0. split; [exact N0|]. lia.
      - destruct (indep_ok db (Z.of_nat mt) (pipOf E) T step pipOf_ok (ro_codes _ _ _ _ _ _ _ _ RO) SL) as [fl [F1 [F2 F3]]].
        { intros t I. cbn [pipOf tg] in I. apply in_map_iff in I. destruct I as [t0 [<- I]]. destruct (ro_exprs _ _ _ _ _ _ _ _ RO t0 I) as [[c [r [-> _]]] _]. discriminate. }
        exists (Some fl). rewrite F1. split; [reflexivity|]. intros k Lk. rewrite P2 in Lk. rewrite Nat.add_0_l. destruct (nodeAt_total T k ltac:(lia)) as [path [u N]].
        destruct (nth_is (f_tg E) k) as [t Ht]; [rewrite P3, P2; lia|]. destruct (nth_is fl k ltac:(lia)) as [b' Hb]. exists path, u, b', t. split; [exact N|]. split; [exact Ht|]. split; [exact (get_some _ _ _ Hb)|].
        assert (Q : b' = true -> ~ In zUnk (rpn u) /\ forall x, In x t -> x <= mt).
        { intros ->. apply (F3 k path u N) in Hb. destruct Hb as [_ [H1 [_ H2]]]. split; [exact H1|]. intros x I. specialize (H2 (Z.of_nat x)). cbn [pipOf tg] in H2.
          rewrite (nth_indep _ _ (map Z.of_nat [])) in H2 by (rewrite map_length, P3, P2; lia). rewrite map_nth in H2. rewrite (nth_error_nth _ _ _ Ht) in H2. specialize (H2 (in_map _ _ _ I)). lia. }
        split; [intros _ Y; apply Q, Y|intros Y _; apply Q, Y]. }
    cbn [rbind]. destruct (fo_n E (Some T) FO) as [stn HN]. assert (SN2 : stmtOf db (f_n E) = Ok stn) by (unfold stmtOf; unfold stmtAt in HN; rewrite HN; reflexivity). rewrite SN2. cbn [rbind].
    eexists. split; [reflexivity|]. constructor; cbn; try reflexivity; try assumption.
    intros h I. exists stn. auto.
  Qed.

  (* without searching, the proofs of the $e hypotheses are steps of the proof in progress
     or hypotheses of the statement *)
  Definition oldTree (u : tree) : Prop := (exists h, ownHyp E h /\ u = Node (Z.of_nat h) []) \/ exists t k path, Some T = Some t /\ nodeAt t k path u.
  Definition oldAt (k : nat) (u : tree) : Prop := search = false -> forall h sh, nth_error hyps k = Some h -> stmtAt db h sh -> s_type sh = S_e -> oldTree u.
  Definition oldKids (u : tree) : Prop := exists kids, u = Node (Z.of_nat repl) kids /\ length kids = length hyps /\ forall k kid, nth_error kids k = Some kid -> oldAt k kid.
  (* ---------- the candidates ---------- *)
  Section Ctx.
  Variable C : rctx.
  Hypothesis HC : ctxOk C.
  Lemma FOC : fltOk (c_E C) (Some T). Proof. rewrite (x_E C HC). exact FO. Qed.
  Lemma exprC t : (exists c r, t = c :: r /\ c <= mt) /\ ~ In mt t -> expr C t.
  Proof. unfold expr. rewrite (x_E C HC). auto. Qed.
  Lemma cand_ok ts : ts < c_lim C -> exists t b pr, cand C ts = Ok t /\ mayUse C ts = Ok b /\ proofAt C ts = Ok pr /\ expr C t /\ (b = true -> result C (Some T) pr t) /\ (sub = false -> b = true -> ~ In zUnk pr).
  Proof.
    intros L. destruct pip_facts as [P1 [P2 P3]]. unfold cand, mayUse, proofAt, result, ground. rewrite (x_E C HC). destruct (ts <? length (c_own C)) eqn:Q.
    - destruct (nth_is (c_own C) ts ltac:(lia)) as [h Hh]. rewrite (get_some _ _ _ Hh). cbn [rbind]. pose proof (x_own C HC h (nth_error_In _ _ Hh)) as OH. destruct (fo_hyps E (Some T) FO h OH) as [sh [S1 S2]].
      assert (SO : stmtOf db h = Ok sh) by (unfold stmtOf; unfold stmtAt in S1; rewrite S1; reflexivity). rewrite SO. cbn [rbind].
      assert (GR : forall x, In x (s_math sh) -> x < mt) by (intros x I; rewrite MTs; apply (fo_tok E (Some T) FO h sh x S1 (or_introl S2) I)).
      assert (NU : ~ In zUnk [Z.of_nat h]) by (intros [X|[]]; unfold zUnk in X; lia).
      exists (s_math sh), true, [Z.of_nat h]. repeat (split; [reflexivity|]). split; [|split; [|intros _ _; exact NU]].
      + apply exprC. destruct (wf_head db WD h sh S1 (or_introl S2)) as [c [r [X V]]]. split; [exists c, r; split; [exact X|]; apply Nat.lt_le_incl, GR; rewrite X; left; reflexivity|]. intros I. apply GR in I. lia.
      + intros _. exists (Node (Z.of_nat h) []). split; [reflexivity|]. split; [|left; exists h; rewrite (x_E C HC); auto]. intros _. split; [apply pr_hyp; assumption|]. intros x I. apply GR in I. lia.
    - unfold c_lim in L. set (k := ts - length (c_own C)). unfold stepOf. fold k. destruct (x_scan C HC k ltac:(lia)) as [path [u [b [t [N [Ht [Hb [NU GT]]]]]]]]. set (i := c_lo C + k) in *.
      rewrite (get_some _ _ _ Ht), Hb. assert (SN : subproofLen db (f_pf E) i = Ok (sz u)) by (rewrite P2; exact (subLen_node db T i path u P1 N)). rewrite SN. cbn [rbind].
      destruct (node_split T i path u N) as [a [b' [EA LA]]].
      assert (SL : firstn (sz u) (skipn (i + 1 - sz u) (f_pf E)) = rpn u).
      { rewrite P2, EA. replace (i + 1 - sz u) with (length a) by lia. rewrite skipn_app, skipn_all, Nat.sub_diag, skipn_O. cbn [app]. rewrite firstn_app, firstn_all, Nat.sub_diag, firstn_O, app_nil_r. reflexivity. }
      rewrite SL. exists t, b, (rpn u). repeat (split; [reflexivity|]). split; [|split].
      + apply exprC. destruct (ro_exprs _ _ _ _ _ _ _ _ RO t (nth_error_In _ _ Ht)) as [[c [r [-> X]]] Y]. rewrite MTs. split; [exists c, r; split; [reflexivity|lia]|exact Y].
      + intros B. exists u. split; [reflexivity|]. split; [|right; exists T, i, path; auto]. intros K. split; [|exact (GT B K)]. exact (pr_known E (Some T) T i path u t eq_refl N K Ht).
      + intros S B. exact (NU S B).
  Qed.
  Lemma CANDC : forall ts, ts < c_lim C -> exists t b pr, cand C ts = Ok t /\ mayUse C ts = Ok b /\ proofAt C ts = Ok pr /\ expr C t /\ (b = true -> result C (Some T) pr t).
  Proof. intros ts L. destruct (cand_ok ts L) as [t [b [pr [A [B [D [F [G _]]]]]]]]. exists t, b, pr. auto. Qed.
  Lemma MLENC : length (c_map C) = length (c_hyps C).
  Proof. rewrite (x_hyps C HC), (Permutation_length (x_map C HC)), seq_length. reflexivity. Qed.
  Lemma MNODC : NoDup (c_map C).
  Proof. apply (Permutation_NoDup (Permutation_sym (x_map C HC))), seq_NoDup. Qed.
  Lemma MRNGC : forall i k, nth_error (c_map C) i = Some k -> k < length (c_hyps C).
  Proof. intros i k M. apply nth_error_In in M. apply (Permutation_in _ (x_map C HC)), in_seq in M. rewrite (x_hyps C HC). lia. Qed.
  Lemma NELEC : c_nE C <= length (c_hyps C). Proof. rewrite (x_hyps C HC). exact (x_nE C HC). Qed.
  Lemma sch_at k h : nth_error hyps k = Some h -> nth_error (c_schemes C) k = Some (map (dum E st) (hypMath E h)).
  Proof. intros H. rewrite (x_schemes C HC). exact (map_nth_error _ _ _ H). Qed.
  Lemma SCHC : forall k, k < length (c_hyps C) -> exists sch, nth_error (c_schemes C) k = Some sch /\ expr C sch.
  Proof.
    intros k L. rewrite (x_hyps C HC) in L. destruct (nth_is hyps k L) as [h H]. exists (map (dum E st) (hypMath E h)). split; [exact (sch_at k h H)|]. destruct (hyp_stmt h (nth_error_In _ _ H)) as [sh [S1 [S2 [-> _]]]].
    apply exprC, expr_dum; [exact (wf_head db WD h sh S1 (or_introl S2))|exact (hyp_ok E (Some T) FO repl st HS HA h sh (nth_error_In _ _ H) S1)].
  Qed.
  Lemma TYPEC : forall i k, nth_error (c_map C) i = Some k -> exists h sh, nth_error (c_hyps C) k = Some h /\ stmtOf (f_db (c_E C)) h = Ok sh /\
    (i < c_nE C -> s_type sh = S_e) /\ (c_nE C <= i -> s_type sh = S_f).
  Proof.
    intros i k M. rewrite (x_hyps C HC), (x_E C HC). assert (L : i < length hyps) by (rewrite <- (x_hyps C HC), <- MLENC; exact (nth_lt _ _ _ M)).
    destruct (Nat.lt_ge_cases i (c_nE C)) as [Q|Q].
    - destruct (x_ess C HC i Q) as [j [h [sh [A [B [D F]]]]]]. rewrite M in A. injection A as <-. exists h, sh. split; [exact B|]. split; [exact D|]. split; [|lia]. intros _. destruct (s_type sh); try discriminate F; reflexivity.
    - destruct (x_flt C HC i (conj Q L)) as [j [h [sh [A [B [D F]]]]]]. rewrite M in A. injection A as <-. exists h, sh. split; [exact B|]. split; [exact D|]. split; [lia|]. intros _.
      destruct (hyp_stmt h (nth_error_In _ _ B)) as [sh' [_ [K [_ S']]]]. rewrite D in S'. apply Ok_inj in S'. subst sh'. destruct K as [K|K]; [rewrite K in F; discriminate F|exact K].
  Qed.

  (* ---------- under one answer ---------- *)
  Section Ans.
    Variable main : hst.
    Variable f0 : UniSpec.subst.
    Hypothesis F0 : fixing C f0.
    Hypothesis M0 : gives_by C main f0.
    Hypothesis E0 : app_subst f0 scheme = m.
    Lemma dum_flat f l : (forall t, t <= mt -> f t = [t]) -> varsOk E st l -> app_subst f (map (dum E st) l) = MMSpec.subst iv (fun v => f (dum E st v)) l.
    Proof.
      intros F VO. unfold MMSpec.subst, app_subst. induction l as [|t l IH]; [reflexivity|]. cbn [map flat_map]. rewrite IH by (intros u I; apply VO; right; exact I). f_equal.
      destruct (iv t) eqn:V; [reflexivity|]. rewrite dum_low by exact V. apply F. rewrite MTs. pose proof (proj2 (VO t (or_introl eq_refl))). lia.
    Qed.
    Lemma dum_val f l x : (forall t, t <= mt -> f t = [t]) -> varsOk E st l -> In x (app_subst f (map (dum E st) l)) -> x <= mt \/ exists v, In v l /\ iv v = true /\ In v (s_reqVars st) /\ In x (f (dum E st v)).
    Proof.
      intros FX VO I. unfold app_subst in I. apply in_flat_map in I. destruct I as [y [I J]]. apply in_map_iff in I. destruct I as [v [<- I]]. destruct (VO v I) as [K1 K2]. destruct (iv v) eqn:V.
      - right. exists v. auto.
      - left. rewrite dum_low in J by exact V. rewrite FX in J by (rewrite MTs; lia). destruct J as [<-|[]]. rewrite MTs. lia.
    Qed.
    Lemma fix0 : forall t, t <= mt -> f0 t = [t]. Proof. pose proof (proj1 F0) as H. rewrite (x_E C HC) in H. exact H. Qed.
    Lemma GROUNDC : c_search C = true -> forall k sch, nth_error (c_schemes C) k = Some sch -> ground C (app_subst f0 sch).
    Proof.
      intros SE k sch S x I. rewrite (x_E C HC). rewrite (x_schemes C HC), nth_error_map in S. destruct (nth_error hyps k) as [h|] eqn:H; [|discriminate S]. cbn [option_map] in S. injection S as <-.
      destruct (hyp_stmt h (nth_error_In _ _ H)) as [sh [S1 [S2 [MM _]]]]. rewrite MM in I.
      destruct (dum_val f0 (s_math sh) x fix0 (hyp_ok E (Some T) FO repl st HS HA h sh (nth_error_In _ _ H) S1) I) as [L|[v [_ [_ [V J]]]]]; [exact L|].
      rewrite (x_search C HC) in SE. pose proof (ro_search _ _ _ _ _ _ _ _ RO SE v V) as VM. apply (gm_le m GM). rewrite <- E0. unfold app_subst. apply in_flat_map. exists (dum E st v). split; [apply in_map, VM|exact J].
    Qed.
    (* without searching, the $e hypotheses get their proofs from the proof in progress *)
    Lemma kids_of {A} (P : tree -> A -> Prop) (R : nat -> tree -> Prop) (K : Prop) : forall (prfs : list (list Z)) gs b, length prfs = length gs ->
      (forall k pr g, nth_error prfs k = Some pr -> nth_error gs k = Some g -> exists u, pr = rpn u /\ (K -> P u g) /\ R (b + k) u) -> exists kids, map rpn kids = prfs /\ (K -> Forall2 P kids gs) /\ forall k u, nth_error kids k = Some u -> R (b + k) u.
    Proof.
      induction prfs as [|pr prfs IH]; intros gs b L H; destruct gs as [|g gs]; try discriminate L; [exists []; split; [reflexivity|split; [constructor|intros [|k] u X; discriminate X]]|].
      destruct (H 0 pr g eq_refl eq_refl) as [u [-> [Pu Ru]]]. destruct (IH gs (S b) ltac:(cbn in L; lia)) as [kids [<- [F Q]]]; [intros k pr' g' X Y; destruct (H (S k) pr' g' X Y) as [u' [Z1 [Z2 Z3]]]; exists u'; replace (b + S k) with (S b + k) in Z3 by lia; auto|]. exists (u :: kids). split; [reflexivity|]. split; [intros KK; constructor; auto|]. intros [|k] w X; [injection X as <-; exact Ru|]. replace (b + S k) with (S b + k) by lia. exact (Q k w X).
    Qed.
    Notation GoodC := (Good C (Some T) main).
    Notation PosC := (Pos C (Some T) main).
    Lemma finish s : GoodC (length (c_hyps C)) s -> exists u, build C s = Ok (rpn u) /\ (~ In zUnk (rpn u) -> proves E (Some T) u m) /\ (sub = false -> ~ In zUnk (rpn u)) /\ oldKids u.
    Proof.
      intros G. pose proof (g_len _ _ _ _ _ G) as LN. pose proof (g_pos _ _ _ _ _ G) as GP. pose proof NELEC as NEL. pose proof (x_E C HC) as XE. pose proof (x_hyps C HC) as XH.
      destruct (chain_seq C (Some T) FOC CANDC MLENC MRNGC NELEC SCHC TYPEC main f0 GROUNDC s (c_nE C) 0 ltac:(lia) (fun i Li => GP i ltac:(lia))) as [F [FF CH]].
      set (H := comp f0 F). assert (FH : fixing C H) by (apply comp_fixing; assumption). assert (FXH : forall t, t <= mt -> H t = [t]) by (pose proof (proj1 FH) as Y; rewrite XE in Y; exact Y).
      assert (FXF : forall t, t <= mt -> F t = [t]) by (pose proof (proj1 FF) as Y; rewrite XE in Y; exact Y).
      assert (GA : forall f l, (forall t, t <= mt -> f t = [t]) -> (forall x, In x l -> x <= mt) -> app_subst f l = l).
      { intros f l Y Z. apply (ground_app C); unfold ground; rewrite XE; assumption. }
      assert (HM : app_subst H scheme = m) by (unfold H; rewrite app_comp, E0; apply GA; [exact FXF|exact (gm_le m GM)]).
      set (ALLK := forall k pr, nth_error (t_prf s) k = Some pr -> ~ In zUnk pr).
      set (goalOf := fun k X => exists pr u, nth_error (t_prf s) k = Some pr /\ pr = rpn u /\ (sub = false -> ~ In zUnk pr) /\ (ALLK -> proves E (Some T) u X) /\ oldAt k u).
      (* no unknown steps in finished proofs *)
      assert (PNU : forall t X, proves E (Some T) t X -> ~ In zUnk (rpn t)).
      { fix REC 3. intros t X P. destruct P as [h sh OH SH|t0 k path u ex ET N NU TG|sn st' kids es sg U KS UN].
        - cbn [rpn flat_map app]. intros [Y|[]]. unfold zUnk in Y. lia.
        - exact NU.
        - cbn [rpn]. intros I. apply in_app_iff in I. destruct I as [I|[Y|[]]]; [|unfold zUnk in Y; lia]. revert I. clear UN. induction KS as [|kid ex kids es PK KS IH]; [intros []|]. cbn [flat_map]. intros I. apply in_app_iff in I. destruct I as [I|I]; [exact (REC kid ex PK I)|exact (IH I)]. }
      assert (FND : forall pr X, FltMain.found (c_E C) (Some T) pr X -> exists u, pr = rpn u /\ ~ In zUnk pr /\ proves E (Some T) u X).
      { intros pr X [u [-> P]]. rewrite XE in P. exists u. split; [reflexivity|]. split; [exact (PNU u X P)|exact P]. }
      (* what a position gives *)
      assert (POS : forall i k, nth_error (c_map C) i = Some k -> exists h X dv, nth_error hyps k = Some h /\ view C main s i = Ok (X, dv) /\
        (found3 C (Some T) s i k X \/ exists ts hh t, found2 C s i k X dv ts hh /\ expr C X /\ expr C t /\ answer (f_u (c_E C)) X t (h_s hh) /\ nth_error (t_hf s) i = Some false /\ nth_error (t_sv s) k = Some (Some hh) /\ goalOf k t /\ (ALLK -> forall x, In x t -> x <= mt))).
      { intros i k M. assert (Li : i < length (c_hyps C)) by (rewrite <- MLENC; exact (nth_lt _ _ _ M)). destruct (GP i Li) as [k' [X [dv [M' [V [HX [_ Q]]]]]]]. rewrite M in M'. injection M' as <-.
        destruct (nth_is hyps k) as [h Hh]; [rewrite <- XH; exact (MRNGC i k M)|]. exists h, X, dv. split; [exact Hh|]. split; [exact V|]. destruct Q as [[ts [hh Q]]|Q]; [right|left; exact Q].
        pose proof Q as [_ [Q2 [Q3 [_ [t [pr [PS [AN [PR PA]]]]]]]]]. destruct (cand_ok ts (proj1 PS)) as [t' [b [pr' [C1 [C2 [C3 [C4 [C5 C6]]]]]]]]. destruct PS as [_ [C1' [C2' _]]]. rewrite C1 in C1'. apply Ok_inj in C1'. subst t'. rewrite C2 in C2'. apply Ok_inj in C2'. subst b. rewrite PA in C3. apply Ok_inj in C3. subst pr'.
        destruct (C5 eq_refl) as [u [-> [U OLD]]]. rewrite XE in U. unfold ground in U. unfold old in OLD. rewrite XE in U, OLD. exists ts, hh, t. split; [exact Q|]. split; [exact HX|]. split; [exact C4|]. split; [exact AN|]. split; [exact Q2|]. split; [exact Q3|]. split.
        - exists (rpn u), u. split; [exact PR|]. split; [reflexivity|]. split; [auto|]. split; [intros A; apply U, (A k), PR|]. intros _ hh0 sh0 _ _ _. exact OLD.
        - intros A. apply U, (A k), PR. }
      assert (VIEW : forall i k h X dv, nth_error (c_map C) i = Some k -> nth_error hyps k = Some h -> view C main s i = Ok (X, dv) -> exists b0, chain C s (app_subst f0 (map (dum E st) (hypMath E h)), b0) (seq 0 (Nat.min i (c_nE C))) = Ok (X, dv)).
      { intros i k h X dv M Hh V. unfold view in V. rewrite (get_some _ _ _ M) in V. cbn [rbind] in V. rewrite (get_some _ _ _ (sch_at k h Hh)) in V. cbn [rbind] in V. destruct (M0 (map (dum E st) (hypMath E h))) as [b0 MS]. rewrite MS in V. exists b0. exact V. }
      (* the $e hypotheses *)
      assert (CE : forall i k h, i < c_nE C -> nth_error (c_map C) i = Some k -> nth_error hyps k = Some h ->
        goalOf k (app_subst H (map (dum E st) (hypMath E h))) /\ (ALLK -> forall x, In x (app_subst H (map (dum E st) (hypMath E h))) -> x <= mt)).
      { intros i k h Li M Hh. destruct (POS i k M) as [h' [X [dv [Hh' [V Q]]]]]. rewrite Hh in Hh'. injection Hh' as <-. destruct (VIEW i k h X dv M Hh V) as [b0 VC]. replace (Nat.min i (c_nE C)) with i in VC by lia.
        set (x0 := (app_subst f0 (map (dum E st) (hypMath E h)), b0)) in *. destruct (CH x0) as [b1 C1]. cbn [fst x0] in C1. unfold H. rewrite app_comp.
        replace (c_nE C) with (i + S (c_nE C - S i)) in C1 by lia. rewrite seq_app, chain_app in C1. fold x0 in C1. rewrite VC in C1. cbn [rbind Nat.add seq chain] in C1.
        destruct (chain_seq C (Some T) FOC CANDC MLENC MRNGC NELEC SCHC TYPEC main f0 GROUNDC s (c_nE C - S i) (S i) ltac:(lia) (fun j Lj => GP j ltac:(lia))) as [g [Fg Cg]].
        assert (FXg : forall t, t <= mt -> g t = [t]) by (pose proof (proj1 Fg) as Y; rewrite XE in Y; exact Y).
        destruct Q as [[_ [Q2 [Q3 [pr [Q4 [Q5 Q6]]]]]]|[ts [hh [t [Q [HX [Ht [AN [Q2 [Q3 [Q4 Q5]]]]]]]]]]].
        - rewrite (get_some _ _ _ Q2) in C1. cbn [rbind] in C1. destruct (Cg (X, dv)) as [b2 C2]. rewrite C2 in C1. apply Ok_inj in C1. injection C1 as C1 _. cbn [fst] in C1.
          assert (GX : forall x, In x X -> x <= mt) by (rewrite XE in Q3; exact (gm_le X Q3)). rewrite (GA g X FXg GX) in C1. rewrite <- C1. split; [|intros _; exact GX].
          destruct (FND pr X Q5) as [u [-> [U1 U2]]]. exists (rpn u), u. repeat (split; [auto|]). intros SE. rewrite (x_search C HC), SE in Q6. destruct Q6 as [Q6|Q6]; [discriminate Q6|lia].
        - rewrite (get_some _ _ _ Q2) in C1. cbn [rbind] in C1. rewrite (get_some _ _ _ M) in C1. cbn [rbind] in C1. rewrite (get_some _ _ _ Q3) in C1. cbn [rbind] in C1.
          destruct (answer_fix C (Some T) FOC X t hh HX Ht AN) as [ff [Ff [EQ GB]]]. destruct (GB X) as [b3 MS]. cbn [fst] in C1. rewrite MS in C1. cbn [rbind] in C1. destruct (Cg (app_subst ff X, b3)) as [b2 C2]. rewrite C2 in C1. apply Ok_inj in C1. injection C1 as C1 _. cbn [fst] in C1.
          assert (KN : ALLK -> app_subst F (app_subst f0 (map (dum E st) (hypMath E h))) = t).
          { intros A. rewrite <- C1, EQ. pose proof (Q5 A) as GT. rewrite (GA ff t) by (try exact GT; pose proof (proj1 Ff) as Y; rewrite XE in Y; exact Y). apply GA; assumption. }
          split; [|intros A; rewrite (KN A); exact (Q5 A)]. destruct Q4 as [pr [u [U1 [U2 [U3 [U4 U5]]]]]]. exists pr, u. split; [exact U1|]. split; [exact U2|]. split; [exact U3|]. split; [|exact U5]. intros A. rewrite (KN A). exact (U4 A). }
      (* the position of a hypothesis *)
      assert (WHERE : forall k, k < length hyps -> exists i, nth_error (c_map C) i = Some k).
      { intros k Lk. apply In_nth_error. apply (Permutation_in _ (Permutation_sym (x_map C HC))), in_seq. lia. }
      assert (CA : forall k h, nth_error hyps k = Some h -> goalOf k (app_subst H (map (dum E st) (hypMath E h)))).
      { intros k h Hh. destruct (WHERE k (nth_lt _ _ _ Hh)) as [i M]. destruct (Nat.lt_ge_cases i (c_nE C)) as [Li|Li]; [exact (proj1 (CE i k h Li M Hh))|].
        destruct (POS i k M) as [h' [X [dv [Hh' [V Q]]]]]. rewrite Hh in Hh'. injection Hh' as <-. destruct (VIEW i k h X dv M Hh V) as [b0 VC]. replace (Nat.min i (c_nE C)) with (c_nE C) in VC by lia.
        destruct (CH (app_subst f0 (map (dum E st) (hypMath E h)), b0)) as [b1 C1]. rewrite C1 in VC. apply Ok_inj in VC. injection VC as VC _. cbn [fst] in VC. rewrite <- app_comp in VC. fold H in VC. rewrite VC.
        destruct Q as [[_ [_ [_ [pr [Q4 [Q5 Q6]]]]]]|[ts [hh [t [Q [HX [Ht [AN [_ [_ [Q4 Q5]]]]]]]]]]].
        - destruct (FND pr X Q5) as [u [-> [U1 U2]]]. exists (rpn u), u. repeat (split; [auto|]). intros _ h2 sh2 Hh2 Sh2 TE. exfalso. destruct (TYPEC i k M) as [h3 [sh3 [Y1 [Y2 [_ Y3]]]]]. specialize (Y3 Li). rewrite XH, Hh2 in Y1. injection Y1 as <-. rewrite XE in Y2.
          unfold stmtOf in Y2. unfold stmtAt in Sh2. rewrite Sh2 in Y2. cbn [rget] in Y2. apply Ok_inj in Y2. subst sh3. congruence.
        - destruct Q4 as [pr [u [U1 [U2 [U3 [U4 U5]]]]]]. exists pr, u. split; [exact U1|]. split; [exact U2|]. split; [exact U3|]. split; [|exact U5]. intros A.
          assert (XT : X = t); [|rewrite XT; exact (U4 A)]. destruct (answer_fix C (Some T) FOC X t hh HX Ht AN) as [ff [Ff [EQ _]]].
          assert (FXf : forall t, t <= mt -> ff t = [t]) by (pose proof (proj1 Ff) as Y; rewrite XE in Y; exact Y).
          rewrite (GA ff t FXf (Q5 A)) in EQ. rewrite <- EQ. symmetry. apply GA; [exact FXf|]. intros x I. rewrite <- VC in I.
          destruct (hyp_stmt h (nth_error_In _ _ Hh)) as [sh [S1 [S2 [MM _]]]]. rewrite MM in I.
          destruct (dum_val H (s_math sh) x FXH (hyp_ok E (Some T) FO repl st HS HA h sh (nth_error_In _ _ Hh) S1) I) as [L|[v [_ [_ [VR J]]]]]; [exact L|].
          destruct (ro_vars _ _ _ _ _ _ _ _ RO v VR) as [VM|[he [she [I1 [I2 [I3 I4]]]]]].
          + apply (gm_le m GM). rewrite <- HM. unfold app_subst. apply in_flat_map. exists (dum E st v). split; [apply in_map, VM|exact J].
          + apply In_nth_error in I1. destruct I1 as [ke I1]. destruct (WHERE ke (nth_lt _ _ _ I1)) as [ie Me].
            assert (Lie : ie < c_nE C).
            { destruct (Nat.lt_ge_cases ie (c_nE C)) as [Y|Y]; [exact Y|]. exfalso. destruct (TYPEC ie ke Me) as [h2 [sh2 [Y1 [Y2 [_ Y3]]]]]. specialize (Y3 Y). rewrite XH, I1 in Y1. injection Y1 as <-. rewrite XE in Y2.
              unfold stmtOf in Y2. unfold stmtAt in I2. rewrite I2 in Y2. cbn [rget] in Y2. apply Ok_inj in Y2. subst sh2. congruence. }
            apply (proj2 (CE ie ke he Lie Me I1) A). unfold app_subst. apply in_flat_map. exists (dum E st v). split; [|exact J]. apply in_map. destruct (hyp_stmt he (nth_error_In _ _ I1)) as [she' [S1' [_ [MM' _]]]]. rewrite MM'. unfold stmtAt in *. congruence. }
      set (sg := fun v => H (dum E st v)).
      assert (SG : forall l, varsOk E st l -> app_subst H (map (dum E st) l) = MMSpec.subst iv sg l) by (intros l VO; exact (dum_flat H l FXH VO)).
      set (gs := map (fun h => MMSpec.subst iv sg (hypMath E h)) hyps).
      assert (HK : forall h, In h hyps -> app_subst H (map (dum E st) (hypMath E h)) = MMSpec.subst iv sg (hypMath E h)).
      { intros h I. destruct (hyp_stmt h I) as [sh [S1 [_ [MM _]]]]. rewrite MM. apply SG. exact (hyp_ok E (Some T) FO repl st HS HA h sh I S1). }
      destruct (kids_of (proves E (Some T)) oldAt ALLK (t_prf s) gs 0) as [kids [KM [KP KO]]].
      { unfold gs. rewrite map_length, (l_prf _ _ LN), XH. reflexivity. }
      { intros k pr g Hp Hg. unfold gs in Hg. rewrite nth_error_map in Hg. destruct (nth_error hyps k) as [h|] eqn:Hh; [|discriminate Hg]. cbn [option_map] in Hg. injection Hg as <-.
        destruct (CA k h Hh) as [pr' [u [U1 [U2 [_ [U4 U5]]]]]]. rewrite Hp in U1. injection U1 as <-. exists u. split; [exact U2|]. split; [|exact U5]. rewrite <- (HK h (nth_error_In _ _ Hh)). exact U4. }
      assert (CC : concat (t_prf s) = flat_map rpn kids) by (rewrite <- KM, flat_map_concat_map; reflexivity).
      exists (Node (Z.of_nat repl) kids). split; [|split; [|split]].
      - unfold build. replace (existsb _ (t_prf s)) with false; [cbn [rpn]; rewrite CC, (x_repl C HC); reflexivity|]. symmetry. apply Bool.not_true_is_false. intros X. apply existsb_exists in X. destruct X as [pr [I X]]. rewrite <- KM in I. apply in_map_iff in I. destruct I as [u [<- _]]. pose proof (sz_pos u). lia.
      - intros NU. rewrite <- HM, (SG (s_math st) (math_ok E (Some T) FO repl st HS HA)). apply pr_use with (es := gs); [exact US| |].
        + apply KP. intros k pr Hp I. apply NU. cbn [rpn]. apply in_app_iff. left. rewrite <- CC. apply in_concat. exists pr. split; [exact (nth_error_In _ _ Hp)|exact I].
        + unfold gs, VerSpec.unifier. assert (X : forall l, (forall h, In h l -> In h hyps) -> Forall2 (fun h ex => exists sh, stmtAt db h sh /\ MMSpec.subst iv sg (s_math sh) = ex) l (map (fun h => MMSpec.subst iv sg (hypMath E h)) l)); [|apply X; auto].
          induction l as [|h l IH]; intros SB; [constructor|]. constructor; [|apply IH; intros h' I; apply SB; right; exact I]. destruct (hyp_stmt h (SB h (or_introl eq_refl))) as [sh [S1 [_ [MM _]]]]. exists sh. split; [exact S1|]. rewrite MM. reflexivity.
      - intros SB I. cbn [rpn] in I. apply in_app_iff in I. destruct I as [I|[I|[]]]; [|unfold zUnk in I; lia]. rewrite <- CC in I. apply in_concat in I. destruct I as [pr [I J]]. apply In_nth_error in I. destruct I as [k Hk].
        destruct (nth_is hyps k) as [h Hh]; [rewrite <- XH, <- (l_prf _ _ LN); exact (nth_lt _ _ _ Hk)|]. destruct (CA k h Hh) as [pr' [u [U1 [_ [U3 _]]]]]. rewrite Hk in U1. injection U1 as <-. exact (U3 SB J).
      - exists kids. split; [reflexivity|]. split; [|exact KO]. rewrite <- (map_length rpn kids), KM, (l_prf _ _ LN), XH. reflexivity.
    Qed.
  End Ans.

  (* ---------- all answers ---------- *)
  Lemma exprS : expr C scheme.
  Proof. apply exprC, expr_dum; [exact (wf_head db WD repl st HS (or_intror HA))|exact (math_ok E (Some T) FO repl st HS HA)]. Qed.
  Lemma exprM : expr C m.
  Proof.
    apply exprC. destruct (ro_exprs _ _ _ _ _ _ _ _ RO m (nth_error_In _ _ (ro_target _ _ _ _ _ _ _ _ RO))) as [[c [r [Hm X]]] Y]. rewrite MTs. split; [exists c, r; split; [exact Hm|lia]|exact Y].
  Qed.
  Lemma OKI : okInput e scheme m.
  Proof. pose proof (ok_two C (Some T) FOC scheme m exprS exprM) as H. rewrite (x_E C HC) in H. exact H. Qed.
  Definition goodRes (p : list Z) : Prop := p = [] \/ exists u, p = rpn u /\ (~ In zUnk p -> proves E (Some T) u m) /\ (sub = false -> ~ In zUnk p) /\ oldKids u.
  Lemma good_tc main main' s tc : Good C (Some T) main 0 s -> Good C (Some T) main' 0 (mkT (t_sub s) (t_sv s) (t_fl s) (t_step s) (t_prf s) (t_hf s) (t_tl s) tc).
  Proof.
    intros [[A1 A2 A3 A4 A5 A6 A7] _ B]. constructor; [constructor; assumption|intros i L; lia|exact B].
  Qed.
  Lemma answers_ok h s : answer e scheme m (h_s h) -> Good C (Some T) h 0 s -> exists p K, goodRes p /\ forall n fuel, K <= n -> K <= fuel -> mainLoop n fuel C (HYes h) s = Ok p.
  Proof.
    intros AN0. pose proof (answer_acc e scheme m OKI (h_s h) AN0) as AC. remember (UDone (h_s h)) as o eqn:Eo. revert h s AN0 Eo. induction AC as [o _ IH]. intros h s AN -> G.
    assert (AN' : answer (f_u (c_E C)) scheme m (h_s h)) by (rewrite (x_E C HC); exact AN).
    destruct (answer_fix C (Some T) FOC scheme m h exprS exprM AN') as [f0 [F0 [EQ M0]]].
    assert (E0 : app_subst f0 scheme = m) by (rewrite EQ; apply (ground_app C); [exact (proj1 F0)|unfold ground; rewrite (x_E C HC); exact (gm_le m GM)]).
    destruct (hyps_end C (Some T) FOC CANDC MLENC MNODC MRNGC NELEC SCHC TYPEC h f0 F0 M0 (GROUNDC f0 F0 E0) s G) as [[b s1] [K [P R]]]. cbn [fst snd] in P. destruct b.
    - destruct (finish h f0 F0 M0 E0 s1 P) as [u [B1 [B2 [B3 B4]]]]. exists (rpn u), (S K). split; [right; exists u; auto|]. intros n fuel L1 L2. destruct n; [lia|]. cbn [mainLoop]. rewrite (R fuel fuel) by lia. cbn [rbind fst snd]. exact B1.
    - destruct (next_endsH e scheme m OKI (f_on E) h (t_tc s1) AN) as [[r tc'] [k2 [[G1 G2] R2]]]. unfold goodH in G1. cbn [fst] in G1, G2.
      set (s2 := mkT (t_sub s1) (t_sv s1) (t_fl s1) (t_step s1) (t_prf s1) (t_hf s1) (t_tl s1) tc').
      assert (STEP : forall n fuel, K <= fuel -> k2 <= fuel -> mainLoop (S n) fuel C (HYes h) s = mainLoop n fuel C r s2).
      { intros n fuel L1 L2. cbn [mainLoop]. rewrite (R fuel fuel) by lia. cbn [rbind fst snd]. rewrite (x_E C HC), (x_scheme C HC), (x_m C HC), (R2 fuel) by lia. reflexivity. }
      destruct r as [| |h2].
      + exists [], (S (S (K + k2))). split; [left; reflexivity|]. intros n fuel L1 L2. destruct n; [lia|]. rewrite STEP by lia. destruct n; [lia|reflexivity].
      + exists [], (S (S (K + k2))). split; [left; reflexivity|]. intros n fuel L1 L2. destruct n; [lia|]. rewrite STEP by lia. destruct n; [lia|reflexivity].
      + destruct (IH _ G2 h2 s2 G1 eq_refl (good_tc h h2 s1 tc' P)) as [p [k3 [Q1 R3]]]. exists p, (S (K + k2 + k3)). split; [exact Q1|]. intros n fuel L1 L2. destruct n; [lia|]. rewrite STEP by lia. apply R3; lia.
  Qed.
  Lemma init_good h tc : Good C (Some T) h 0 (initSt C tc).
  Proof.
    constructor; [constructor; cbn [initSt t_sub t_sv t_fl t_step t_prf t_hf t_tl]; apply repeat_length|intros i L; lia|]. intros i k _ M. cbn [initSt t_fl]. pose proof (MRNGC i k M) as L. revert L. generalize (length (c_hyps C)). clear.
    intros n. revert k. induction n as [|n IH]; intros k L; [lia|]. destruct k as [|k]; [reflexivity|]. cbn [repeat nth_error]. apply IH. lia.
  Qed.
  End Ctx.
  Lemma rep_ok : exists p K, (p = [] \/ exists u, p = rpn u /\ (~ In zUnk p -> proves E (Some T) u m) /\ (sub = false -> ~ In zUnk p) /\ oldKids u) /\ forall fuel, K <= fuel -> replaceStatement fuel E repl step sub search = Ok p.
  Proof.
    destruct context_ok as [C [CO HC]]. destruct (first_ends e scheme m (OKI C HC) (f_on E) 1) as [[r tc] [k1 [G1 R1]]]. unfold goodH in G1. cbn [fst] in G1.
    assert (STEP : forall fuel, k1 <= fuel -> replaceStatement fuel E repl step sub search = mainLoop fuel fuel C r (initSt C tc)).
    { intros fuel L. unfold replaceStatement. rewrite CO. cbn [rbind]. rewrite (x_scheme C HC), (x_m C HC), (R1 fuel L). reflexivity. }
    destruct r as [| |h].
    - exists [], (S k1). split; [left; reflexivity|]. intros fuel L. rewrite STEP by lia. destruct fuel; [lia|reflexivity].
    - exists [], (S k1). split; [left; reflexivity|]. intros fuel L. rewrite STEP by lia. destruct fuel; [lia|reflexivity].
    - destruct (answers_ok C HC h (initSt C tc) G1 (init_good C HC h tc)) as [p [K [P R]]]. exists p, (k1 + K). split; [exact P|]. intros fuel L. rewrite STEP by lia. apply R; lia.
  Qed.
End Rep.

(* ---------- every statement in turn ---------- *)
Section By.
  Variables (E : fenv) (T : tree) (step : nat) (m : list nat) (search : bool).
  Hypothesis FO : fltOk E (Some T).
  Hypothesis TG : nth_error (f_tg E) step = Some m.
  Hypothesis GM : goal E m.
  Hypothesis REP : forall i st, usable E i st -> repOk E T i st step m false search.
  Notation db := (f_db E).
  Lemma usable_of i st : 1 <= i < f_n E -> stmtAt db i st -> isAssertion st -> avoided E i st = false -> usable E i st.
  Proof.
    intros LS HS HA AV. unfold avoided in AV. apply orb_false_iff in AV. destruct AV as [AV A3]. apply orb_false_iff in AV. destruct AV as [A1 A2]. constructor; [exact HS|exact LS|exact HA| | |].
    - intros X. rewrite X in A1. exact A1.
    - intros X Y. rewrite X in A2. lia.
    - intros X. rewrite X in A3. destruct (s_reqDisj st); [reflexivity|discriminate A3].
  Qed.
  Lemma by_ok : forall k i, 1 <= i -> i + k <= f_n E -> exists p K, (p = [] \/ exists u, p = rpn u /\ proves E (Some T) u m /\ ~ In zUnk p) /\ forall fuel, K <= fuel -> byRepl k fuel E step search m i = Ok p.
  Proof.
    induction k as [|k IH]; intros i L1 L2; [exists [], 0; split; [left; reflexivity|reflexivity]|].
    destruct (fo_n E (Some T) FO) as [stn HN]. assert (exists st, stmtAt db i st) as [st HS].
    { unfold stmtAt in *. destruct (nth_error (db_stmts db) i) as [st|] eqn:X; [eauto|]. apply nth_error_None in X. pose proof (proj1 (nth_error_Some (db_stmts db) (f_n E)) ltac:(congruence)). lia. }
    assert (NE : isAssertion st -> s_math st <> []) by (intros A X; destruct (wf_head db (fo_wf E (Some T) FO) i st HS (or_intror A)) as [c [r [Y _]]]; congruence).
    destruct (filter_ok db st m (proj1 GM) NE) as [b [FB FA]].
    assert (STO : stmtOf db i = Ok st) by (unfold stmtOf; unfold stmtAt in HS; rewrite HS; reflexivity).
    destruct (IH (S i) ltac:(lia) ltac:(lia)) as [p [K [P R]]].
    destruct (negb b || avoided E i st) eqn:SK.
    - exists p, K. split; [exact P|]. intros fuel L. cbn [byRepl]. rewrite STO. cbn [rbind]. rewrite FB. cbn [rbind]. rewrite SK. exact (R fuel L).
    - apply orb_false_iff in SK. destruct SK as [B AV]. destruct b; [|discriminate B]. pose proof (usable_of i st ltac:(lia) HS (FA eq_refl) AV) as US.
      destruct (rep_ok E T i st step m false search (REP i st US)) as [q [K2 [Q R2]]].
      assert (STEP : forall fuel, K2 <= fuel -> byRepl (S k) fuel E step search m i = match q with [] => byRepl k fuel E step search m (S i) | _ => Ok q end).
      { intros fuel L. cbn [byRepl]. rewrite STO. cbn [rbind]. rewrite FB. cbn [rbind negb orb]. rewrite AV, (R2 fuel L). reflexivity. }
      destruct q as [|z q].
      + exists p, (K + K2). split; [exact P|]. intros fuel L. rewrite STEP by lia. apply R. lia.
      + exists (z :: q), K2. split; [|intros fuel L; rewrite STEP by lia; reflexivity]. right. destruct Q as [Q|[u [Q1 [Q2 [Q3 _]]]]]; [discriminate Q|]. exists u. split; [exact Q1|]. split; [apply Q2, Q3; reflexivity|apply Q3; reflexivity].
  Qed.
  Lemma byRep_ok : exists p K, (p = [] \/ exists u, p = rpn u /\ proves E (Some T) u m /\ ~ In zUnk p) /\ forall fuel, K <= fuel -> proveByReplacement fuel E step search = Ok p.
  Proof.
    destruct (Nat.le_gt_cases 1 (f_n E)) as [L|L].
    - destruct (by_ok (f_n E - 1) 1 ltac:(lia) ltac:(lia)) as [p [K [P R]]]. exists p, K. split; [exact P|]. intros fuel Lf. unfold proveByReplacement. rewrite (get_some _ _ _ TG). exact (R fuel Lf).
    - exists [], 0. split; [left; reflexivity|]. intros fuel _. unfold proveByReplacement. rewrite (get_some _ _ _ TG). replace (f_n E - 1) with 0 by lia. reflexivity.
  Qed.
End By.
