(* RepProps.v -- C62: proving a step from a given statement (REPLACE, IMPROVE, MINIMIZE_WITH) *)
From Coq Require Import ZifyBool ZifyNat.
From Verif Require Import Base MMSpec VerModel VerSpec VerProofs VerExample ParModel SqModel SqSpec SqAttr SqValid PfaProps PfaValid UniSpec UniModel FltModel FltSpec FltProofs FltMain FltVal FltProps RepModel RepSpec RepMain.
Open Scope nat_scope.

(* the answer of the search; [] is no proof *)
Definition replaces (E : fenv) (repl step : nat) (sub search : bool) (p : list Z) : Prop := exists K, forall fuel, K <= fuel -> replaceStatement fuel E repl step sub search = Ok p.
Definition replacesBy (E : fenv) (step : nat) (search : bool) (p : list Z) : Prop := exists K, forall fuel, K <= fuel -> proveByReplacement fuel E step search = Ok p.

(* The search ends, without bug() and without reading outside an array.  (Partial: with
   search = true only for statements whose $e hypotheses have no variables of their own.) *)
Theorem C62_ends_partial : forall E T repl st step m sub search, repOk E T repl st step m sub search -> exists p, replaces E repl step sub search p.
Proof. intros E T repl st step m sub search RO. destruct (rep_ok E T repl st step m sub search RO) as [p [K [_ R]]]. exists p, K. exact R. Qed.
Print Assumptions C62_ends_partial.

Lemma same_repl E repl step sub search p q K : replaces E repl step sub search p -> (forall fuel, K <= fuel -> replaceStatement fuel E repl step sub search = Ok q) -> p = q.
Proof. intros [K1 H] R. specialize (H (K1 + K) ltac:(lia)). rewrite (R (K1 + K)) in H by lia. apply Ok_inj in H. auto. Qed.
Lemma same_by E step search p q K : replacesBy E step search p -> (forall fuel, K <= fuel -> proveByReplacement fuel E step search = Ok q) -> p = q.
Proof. intros [K1 H] R. specialize (H (K1 + K) ltac:(lia)). rewrite (R (K1 + K)) in H by lia. apply Ok_inj in H. auto. Qed.

(* What is found ends in the given statement, and proves the target of the step from the
   hypotheses in force, usable statements and finished parts of the proof in progress.  If
   only the proof of the step itself was searched it may have unproved steps, which the
   caller has to look for; otherwise it is complete. *)
Theorem C62_sound_partial : forall E T repl st step m sub search p, repOk E T repl st step m sub search -> replaces E repl step sub search p -> p <> [] ->
  exists t, p = rpn t /\ (~ In zUnk p -> proves E (Some T) t m) /\ (sub = false -> ~ In zUnk p).
Proof.
  intros E T repl st step m sub search p RO A NE. destruct (rep_ok E T repl st step m sub search RO) as [q [K [Q R]]]. pose proof (same_repl _ _ _ _ _ _ _ _ A R) as X. subst q.
  destruct Q as [Q|[u [Q1 [Q2 [Q3 _]]]]]; [destruct (NE Q)|exists u; auto].
Qed.
Print Assumptions C62_sound_partial.

(* When hypotheses may not be proved anew, the proof found for every $e hypothesis of the
   statement is a part of the proof in progress, or a hypothesis in force. *)
Theorem C62_reuses_partial : forall E T repl st step m sub p, repOk E T repl st step m sub false -> replaces E repl step sub false p -> p <> [] ->
  exists kids, p = rpn (Node (Z.of_nat repl) kids) /\ length kids = length (s_reqHyps st) /\
    forall i u h sh, nth_error kids i = Some u -> nth_error (s_reqHyps st) i = Some h -> stmtAt (f_db E) h sh -> s_type sh = S_e ->
      (exists k path, nodeAt T k path u) \/ exists o, ownHyp E o /\ u = Node (Z.of_nat o) [].
Proof.
  intros E T repl st step m sub p RO A NE. destruct (rep_ok E T repl st step m sub false RO) as [q [K [Q R]]]. pose proof (same_repl _ _ _ _ _ _ _ _ A R) as X. subst q.
  destruct Q as [Q|[u [Q1 [_ [_ [kids [-> [L O]]]]]]]]; [destruct (NE Q)|]. exists kids. split; [exact Q1|]. split; [exact L|]. intros i u h sh H1 H2 H3 H4.
  destruct (O i u H1 eq_refl h sh H2 H3 H4) as [H|[t [k [path [H N]]]]]; [right; exact H|left]. injection H as <-. exists k, path. exact N.
Qed.
Print Assumptions C62_reuses_partial.

(* A complete answer is accepted by the rules of the language, when statements with $d
   requirements were excluded and the finished parts of the proof in progress are right. *)
Theorem C62_valid_partial : forall E T repl st step stn m sub search p, repOk E T repl st step m sub search -> stmtAt (f_db E) (f_n E) stn ->
  (forall z, In z (f_pf E) -> (0 <= z)%Z \/ z = zUnk) ->
  (forall s st, usable E s st -> floated (f_db E) st) ->
  (forall k path u e, nodeAt T k path u -> ~ In zUnk (rpn u) -> nth_error (f_tg E) k = Some e -> tval (f_db E) stn u e) ->
  f_noDist E = true ->
  replaces E repl step sub search p -> p <> [] -> ~ In zUnk p ->
  exists q vals, p = map encStep q /\ rpnRun (f_db E) stn [] [] q vals [m].
Proof.
  intros E T repl st step stn m sub search p RO HN CO FL KN ND A NE NU. destruct (C62_sound_partial E T repl st step m sub search p RO A NE) as [t [-> [P _]]].
  refine (proves_run E (Some T) stn (ro_flt _ _ _ _ _ _ _ _ RO) CO FL _ ND t m (P NU)). intros t0 k path u e X. injection X as <-. exact (KN k path u e).
Qed.
Print Assumptions C62_valid_partial.

(* The same for the search over all earlier statements. *)
Theorem C62_all_partial : forall E T step m search, fltOk E (Some T) -> nth_error (f_tg E) step = Some m -> goal E m ->
  (forall i st, usable E i st -> repOk E T i st step m false search) ->
  exists p, replacesBy E step search p /\ (p <> [] -> exists t, p = rpn t /\ proves E (Some T) t m /\ ~ In zUnk p).
Proof.
  intros E T step m search FO TG GM REP. destruct (byRep_ok E T step m search FO TG GM REP) as [p [K [P R]]]. exists p. split; [exists K; exact R|]. intros NE. destruct P as [P|P]; [destruct (NE P)|exact P].
Qed.
Print Assumptions C62_all_partial.

(* With search = true and a $e hypothesis with a variable of its own, the answer may be
   wrong: the part of the search state left by one way of matching the assertion is used
   with the next one. *)
Section Wrong.
  Let iv t := (11 <=? t) && (t <=? 15).
  Let f v := mkStmt S_f [1; v] [] [] [] [] [].
  Let wc c := mkStmt S_a [1; c] [] [] [] [] [].
  Let ax l := mkStmt S_a (2 :: l) [] [] [] [] [].
  Let he l := mkStmt S_e (2 :: l) [] [] [] [] [].
  Definition exR_stmts : list stmtRec := [mkStmt S_other [] [] [] [] [] []; f 11; f 12; f 13; f 14; f 15;
    wc 3; wc 4; wc 5; wc 6; wc 7; wc 8; wc 9; mkStmt S_a [1; 11; 12] [1; 2] [] [11; 12] [] [];
    ax [7; 3; 8; 3; 9]; ax [6; 5];
    he [13; 11; 15]; he [14; 12]; mkStmt S_a [2; 11; 12] [1; 2; 3; 4; 5; 16; 17] [] [11; 12; 13; 14; 15] [] [];   (* 18 *)
    he [3; 4; 5]; he [7; 3; 8; 3; 9]; he [6; 5]; mkStmt S_a [2; 5] [19; 20; 21] [] [] [] [];                  (* 22 *)
    mkStmt S_p [2; 5] [] [] [] [] []].                                                                        (* 23 *)
  Definition exR_db : dbase := mkDb iv 20 exR_stmts.
End Wrong.
Definition exR_U : uenv := mkUenv 20 1 1000 (fun t => (t <=? 20) && negb ((11 <=? t) && (t <=? 15))) (fun t => [48 + t])
  (map s_math (filter (fun st => match s_type st with S_a => true | _ => false end) exR_stmts)).
Definition exR_E : fenv := mkF exR_db exR_U 23 1 true 0 (fun _ => false) true 0 0 0 1000 true 0 [zUnk; 14; 15; 22]%Z [[2; 3; 4; 5]; [2; 7; 3; 8; 3; 9]; [2; 6; 5]; [2; 5]].
Definition exR_T : tree := Node 22 [Node zUnk []; Node 14 []; Node 15 []].
Definition exR_p : list Z := [6; 7; 13; 8; 10; 6; 11; 13; 13; 9; 12; 14; 15; 18]%Z.
Definition exR_18 : stmtRec := mkStmt S_a [2; 11; 12] [1; 2; 3; 4; 5; 16; 17] [] [11; 12; 13; 14; 15] [] [].
Definition exR_23 : stmtRec := mkStmt S_p [2; 5] [] [] [] [] [].

(* ---------- deciding the hypotheses on databases ---------- *)
Lemma all_stmts db (pb : stmtRec -> bool) : forallb pb (db_stmts db) = true -> forall n st, stmtAt db n st -> pb st = true.
Proof. intros H n st S. rewrite forallb_forall in H. exact (H st (nth_error_In _ _ S)). Qed.
Definition tokB (db : dbase) (st : stmtRec) : bool := forallb (fun t => t <? db_sep db) (s_math st).
Definition essB (db : dbase) (v h : nat) : bool := match nth_error (db_stmts db) h with Some sh => isE (s_type sh) && memb v (s_math sh) | None => false end.
Definition varB (db : dbase) (st : stmtRec) : bool := negb (assB st) || forallb (fun v => memb v (s_math st) || existsb (essB db v) (s_reqHyps st)) (s_reqVars st).
Lemma varB_ok db : forallb (varB db) (db_stmts db) = true -> forall n st, stmtAt db n st -> isAssertion st -> forall v, In v (s_reqVars st) ->
  In v (s_math st) \/ exists h sh, In h (s_reqHyps st) /\ stmtAt db h sh /\ s_type sh = S_e /\ In v (s_math sh).
Proof.
  intros H n st S A v I. pose proof (all_stmts db _ H n st S) as B. unfold varB in B. replace (assB st) with true in B by (unfold assB; destruct A as [-> | ->]; reflexivity). cbn [negb orb] in B. rewrite forallb_forall in B. specialize (B v I).
  apply orb_true_iff in B. destruct B as [B|B]; [left; apply memb_in, B|right]. apply existsb_exists in B. destruct B as [h [I1 B]]. unfold essB in B. destruct (nth_error (db_stmts db) h) as [sh|] eqn:Q; [|discriminate B].
  apply andb_true_iff in B. destruct B as [B1 B2]. exists h, sh. split; [exact I1|]. split; [exact Q|]. split; [destruct (s_type sh); try discriminate B1; reflexivity|apply memb_in, B2].
Qed.
Lemma exR_flt : fltOk exR_E (Some exR_T).
Proof.
  constructor.
  - apply wf_dbB_ok. vm_compute. reflexivity.
  - reflexivity.
  - intros t. cbn [exR_E f_u f_db u_con exR_U exR_db db_sep]. lia.
  - cbn. lia.
  - intros n st t S _ I. assert (B : forallb (tokB exR_db) exR_stmts = true) by (vm_compute; reflexivity). pose proof (all_stmts exR_db _ B n st S) as X. unfold tokB in X. rewrite forallb_forall in X. specialize (X t I). cbn [exR_E f_db]. lia.
  - intros n st S A NE v I. destruct (varB_ok exR_db ltac:(vm_compute; reflexivity) n st S A v I) as [X|[h [sh [X1 [X2 [X3 _]]]]]]; [exact X|]. destruct NE. exists h, sh. auto.
  - eexists. reflexivity.
  - intros h [stn [S K]]. injection S as <-. destruct K as [[]|[]].
  - cbn. lia.
  - split; [|split; reflexivity]. repeat (constructor; try reflexivity).
Qed.
Lemma exR_use : usable exR_E 18 exR_18.
Proof. constructor; try (intros; reflexivity); [cbn; lia|left; reflexivity|]. cbn. lia. Qed.
(* everything C62_sound_partial asks for, but the condition for search = true *)
Lemma exR_ok : repOk exR_E exR_T 18 exR_18 0 [2; 3; 4; 5] false false.
Proof.
  constructor.
  - exact exR_flt.
  - intros z I. cbn in I. repeat (destruct I as [<-|I]; [reflexivity|]). destruct I.
  - intros z I. cbn in I. repeat (destruct I as [<-|I]; [first [left; lia|right; left; reflexivity]|]). destruct I.
  - reflexivity.
  - split; [discriminate|]. intros t I. cbn in I |- *. lia.
  - intros t I. cbn in I. repeat (destruct I as [<-|I]; [split; [eexists; eexists; split; [reflexivity|cbn; lia]|cbn; lia]|]). destruct I.
  - exact exR_use.
  - intros v I. exact (varB_ok exR_db ltac:(vm_compute; reflexivity) 18 exR_18 eq_refl (or_introl eq_refl) v I).
  - discriminate.
  - discriminate.
Qed.
Lemma exR_floated : forall s st, usable exR_E s st -> floated exR_db st.
Proof.
  intros s st U t I. pose proof (us_stmt _ _ _ U) as S. pose proof (us_type _ _ _ U) as A. clear U.
  set (fb := fun st => negb (assB st) || forallb (fun v => existsb (fun h => match nth_error exR_stmts h with Some sh => match s_type sh, s_math sh with S_f, [c; w] => (w =? v) && negb (db_isvar exR_db c) | _, _ => false end | None => false end) (s_reqHyps st)) (s_reqVars st)).
  assert (B : forallb fb exR_stmts = true) by (vm_compute; reflexivity). pose proof (all_stmts exR_db fb B s st S) as X. unfold fb in X. replace (assB st) with true in X by (unfold assB; destruct A as [-> | ->]; reflexivity). cbn [negb orb] in X.
  rewrite forallb_forall in X. specialize (X t I). apply existsb_exists in X. destruct X as [h [I1 X]]. destruct (nth_error exR_stmts h) as [sh|] eqn:Q; [|discriminate X].
  destruct (s_type sh); try discriminate X. destruct (s_math sh) as [|c [|w [|]]] eqn:M; try discriminate X. apply andb_true_iff in X. destruct X as [X1 X2]. exists h, sh, c. split; [exact I1|]. split; [exact Q|]. split; [rewrite M; f_equal; f_equal; lia|]. destruct (db_isvar exR_db c); [discriminate X2|reflexivity].
Qed.
Lemma exR_known : forall k path u e, nodeAt exR_T k path u -> ~ In zUnk (rpn u) -> nth_error (f_tg exR_E) k = Some e -> tval exR_db exR_23 u e.
Proof.
  assert (AX : forall n st, nth_error exR_stmts n = Some st -> isAssertion st -> s_reqHyps st = [] -> s_reqVars st = [] -> s_reqDisj st = [] -> MMSpec.subst (db_isvar exR_db) (fun _ => []) (s_math st) = s_math st -> tval exR_db exR_23 (Node (Z.of_nat n) []) (s_math st)).
  { intros n st S A H V D EQ. rewrite <- EQ. apply (tval_assert exR_db (fo_wf _ _ exR_flt) exR_23 (Z.of_nat n) st [] []); [lia|rewrite Nat2Z.id; exact S|exact A| |constructor| |].
    - intros t I. rewrite V in I. destruct I.
    - unfold VerSpec.unifier. rewrite H. constructor.
    - intros x y I. rewrite D in I. destruct I. }
  intros k path u e N NU TG. pose proof (nodeAt_bound _ _ _ _ N) as L. cbn in L.
  destruct k as [|[|[|[|k]]]]; [| | | |lia].
  - destruct (nodeAt_unique _ _ _ _ N _ _ (na_kid 22 [Node zUnk []; Node 14 []; Node 15 []] 0 _ _ _ _ eq_refl (na_root (Node zUnk [])))) as [_ ->]. destruct NU. left. reflexivity.
  - destruct (nodeAt_unique _ _ _ _ N _ _ (na_kid 22 [Node zUnk []; Node 14 []; Node 15 []] 1 _ _ _ _ eq_refl (na_root (Node 14 [])))) as [_ ->]. injection TG as <-. apply (AX 14 _ eq_refl); try reflexivity. left. reflexivity.
  - destruct (nodeAt_unique _ _ _ _ N _ _ (na_kid 22 [Node zUnk []; Node 14 []; Node 15 []] 2 _ _ _ _ eq_refl (na_root (Node 15 [])))) as [_ ->]. injection TG as <-. apply (AX 15 _ eq_refl); try reflexivity. left. reflexivity.
  - destruct (nodeAt_unique _ _ _ _ N _ _ (na_root exR_T)) as [_ ->]. destruct NU. left. reflexivity.
Qed.
Lemma enc_stm : forall l q, map Z.of_nat l = map encStep q -> q = map Stm l.
Proof.
  induction l as [|n l IH]; intros q H; destruct q as [|x q]; try discriminate H; [reflexivity|]. cbn [map] in H. injection H as H1 H2. cbn [map]. f_equal; [|apply IH, H2].
  destruct x as [|i|k]; cbn [encStep] in H1; [unfold zUnk in H1; lia|unfold zLoc in H1; lia|f_equal; lia].
Qed.
Lemma exR_wrong : ~ exists t, exR_p = rpn t /\ proves exR_E (Some exR_T) t [2; 3; 4; 5].
Proof.
  intros [t [EP P]]. destruct (proves_run exR_E (Some exR_T) exR_23 exR_flt) with (t := t) (e := [2; 3; 4; 5]) as [q [vals [EQ R]]]; [| | |reflexivity|exact P|].
  - intros z I. cbn in I. repeat (destruct I as [<-|I]; [first [left; lia|right; reflexivity]|]). destruct I.
  - exact exR_floated.
  - intros t0 k path u e X. injection X as <-. exact (exR_known k path u e).
  - rewrite <- EP in EQ. apply (enc_stm [6; 7; 13; 8; 10; 6; 11; 13; 13; 9; 12; 14; 15; 18]) in EQ. subst q.
    set (q := map Stm [6; 7; 13; 8; 10; 6; 11; 13; 13; 9; 12; 14; 15; 18] ++ [Stm 14; Stm 15; Stm 22]).
    assert (V : validProof exR_db exR_23 q).
    { exists (((vals ++ [[2; 7; 3; 8; 3; 9]]) ++ [[2; 6; 5]]) ++ [[2; 5]]). apply (rpnRun_app exR_db exR_23 _ _ _ _ _ _ _ _ R).
      assert (AX : forall n st es vals rest, nth_error exR_stmts n = Some st -> isAssertion st -> s_reqVars st = [] -> s_reqDisj st = [] -> MMSpec.subst (db_isvar exR_db) (fun _ => []) (s_math st) = s_math st -> VerSpec.unifier exR_db st es (fun _ => []) ->
        rpnStep exR_db exR_23 vals (rev es ++ rest) (Stm n) (s_math st) (s_math st :: rest)).
      { intros n st es vals0 rest S A V D EQ U. rewrite <- EQ. apply rs_assert with (es := es); [exact S|exact A|reflexivity|exact U|intros sg' _ t0 I; rewrite V in I; destruct I|intros x y I; rewrite D in I; destruct I]. }
      eapply rr_cons; [apply (AX 14 _ [] vals [[2; 3; 4; 5]] eq_refl); [left; reflexivity|reflexivity|reflexivity|reflexivity|constructor]|].
      eapply rr_cons; [apply (AX 15 _ [] _ _ eq_refl); [left; reflexivity|reflexivity|reflexivity|reflexivity|constructor]|].
      eapply rr_cons; [apply (AX 22 _ [[2; 3; 4; 5]; [2; 7; 3; 8; 3; 9]; [2; 6; 5]] _ [] eq_refl); [left; reflexivity|reflexivity|reflexivity|reflexivity|]|apply rr_nil].
      repeat (constructor; [eexists; split; reflexivity|]). constructor. }
    destruct (valid_accepted exR_db 23 exR_23 q 0 (fo_wf _ _ exR_flt) eq_refl eq_refl ltac:(lia) V) as [F H].
    destruct (H (300 + F) ltac:(lia)) as [err X]. revert X. generalize F. clear. intros F X. vm_compute in X. discriminate X.
Qed.
Theorem C62_replace_refuted : exists E T repl st step m p, repOk E T repl st step m false false /\ f_noDist E = true /\ replaces E repl step false true p /\ p <> [] /\ ~ In zUnk p /\
  ~ exists t, p = rpn t /\ proves E (Some T) t m.
Proof.
  exists exR_E, exR_T, 18, exR_18, 0, [2; 3; 4; 5], exR_p. split; [exact exR_ok|]. split; [reflexivity|]. split; [|split; [discriminate|split; [|exact exR_wrong]]].
  - exists 200. intros fuel L. replace fuel with (200 + (fuel - 200)) by lia. generalize (fuel - 200). intros n. vm_compute. reflexivity.
  - intros I. cbn in I. unfold zUnk in I. lia.
Qed.
Print Assumptions C62_replace_refuted.

(* ---------- examples ---------- *)
Definition ex62_T : tree := Node 10 [Node zUnk []].
Definition ex62_E := exFD 0 [zUnk; 10]%Z [[6; 3; 5; 3]; [6; 3; 5; 3]].
Definition ex62_S := exFE 2 [zUnk; 10]%Z [[6; 3; 5; 3]; [6; 3; 5; 3]].
Definition ex62_U : tree := Node 10 [Node 8 [Node 3 []]].
Definition ex62_M := exFD 0 [3; 8; 10]%Z [[7; 3]; [6; 3; 5; 3]; [6; 3; 5; 3]].
Lemma ex62_vars : forall i st, stmtAt ex51_db i st -> isAssertion st -> forall v, In v (s_reqVars st) -> In v (s_math st).
Proof.
  intros i st S A v I. assert (B : forallb (fun st => negb (assB st) || forallb (fun v => memb v (s_math st)) (s_reqVars st)) ex51_stmts = true) by (vm_compute; reflexivity).
  pose proof (all_stmts ex51_db _ B i st S) as X. cbn beta in X. replace (assB st) with true in X by (unfold assB; destruct A as [-> | ->]; reflexivity). cbn [negb orb] in X. rewrite forallb_forall in X. apply memb_in, X, I.
Qed.
Lemma ex62_ok disc maxE pf tg T i st step sub search m : pf = rpn T -> length tg = length pf -> wfTree ex51_db T -> (forallb (fun z => (0 <=? z)%Z || (z =? zUnk)%Z) pf = true) ->
  forallb (fun t => negb (length t =? 0) && forallb (fun x => x <? 20) t) tg = true -> nth_error tg step = Some m -> usable (exFG disc maxE pf tg) i st -> repOk (exFG disc maxE pf tg) T i st step m sub search.
Proof.
  intros HP HL WT HC HT HM US. assert (GT : forall t, In t tg -> t <> [] /\ forall x, In x t -> x < 20).
  { intros t I. rewrite forallb_forall in HT. specialize (HT t I). apply andb_true_iff in HT. destruct HT as [H1 H2]. rewrite forallb_forall in H2. split; [intros ->; discriminate H1|]. intros x J. specialize (H2 x J). lia. }
  rewrite forallb_forall in HC. constructor.
  - apply exF_ok. auto.
  - intros z I. rewrite <- HP in I. specialize (HC z I). unfold isRef, zUnk in *. lia.
  - intros z I. rewrite <- HP in I. specialize (HC z I). unfold zUnk in *. lia.
  - exact HM.
  - split; [apply GT, (nth_error_In _ _ HM)|]. intros t I. exact (proj2 (GT m (nth_error_In _ _ HM)) t I).
  - intros t I. destruct (GT t I) as [G1 G2]. destruct t as [|c r]; [destruct (G1 eq_refl)|]. split; [exists c, r; split; [reflexivity|]; apply G2; left; reflexivity|]. intros J. apply G2 in J. cbn in J. lia.
  - exact US.
  - intros v I. left. exact (ex62_vars i st (us_stmt _ _ _ US) (us_type _ _ _ US) v I).
  - intros _. exact (ex62_vars i st (us_stmt _ _ _ US) (us_type _ _ _ US)).
  - intros _ k path u t _ _ _ Ht x I. exact (proj2 (GT t (nth_error_In _ _ Ht)) x I).
Qed.
Lemma ex62_use disc maxE pf tg i st : stmtAt ex51_db i st -> 1 <= i < 11 -> isAssertion st -> disc i = false -> s_reqDisj st = [] -> usable (exFG disc maxE pf tg) i st.
Proof. intros S L A D DJ. constructor; [exact S|exact L|exact A|intros _; exact D|intros _ X; cbn in X; lia|intros _; exact DJ]. Qed.
(* ? in |- 0 = 0 proved by statement 8; a step proved by 8 proved by 5 instead, within its own
   proof; |- 0 = 0 proved by statement 10, whose hypothesis is proved anew *)
Example ex_replace : replaces ex62_E 8 0 false false [3; 8]%Z /\ repOk ex62_E ex62_T 8 ex51_8 0 [6; 3; 5; 3] false false.
Proof.
  split; [exists 60; intros fuel L; replace fuel with (60 + (fuel - 60)) by lia; generalize (fuel - 60); intros n; vm_compute; reflexivity|].
  apply ex62_ok; try reflexivity; [repeat (constructor; try reflexivity)|]. apply ex62_use; try reflexivity; [lia|right; reflexivity].
Qed.
Example ex_replace_sub : replaces ex62_M 5 1 true false [3; 5]%Z /\ exists st, repOk ex62_M ex62_U 5 st 1 [6; 3; 5; 3] true false.
Proof.
  split; [exists 60; intros fuel L; replace fuel with (60 + (fuel - 60)) by lia; generalize (fuel - 60); intros n; vm_compute; reflexivity|].
  eexists. apply ex62_ok; try reflexivity; [repeat (constructor; try reflexivity)|]. apply ex62_use; try reflexivity; [lia|left; reflexivity].
Qed.
Example ex_replace_search : replaces ex62_S 10 1 false true [3; 8; 10; 10; 10]%Z /\ replaces ex62_S 10 1 false false [] /\ exists st, repOk ex62_S ex62_T 10 st 1 [6; 3; 5; 3] false true.
Proof.
  split; [exists 60; intros fuel L; replace fuel with (60 + (fuel - 60)) by lia; generalize (fuel - 60); intros n; vm_compute; reflexivity|].
  split; [exists 60; intros fuel L; replace fuel with (60 + (fuel - 60)) by lia; generalize (fuel - 60); intros n; vm_compute; reflexivity|].
  eexists. apply ex62_ok; try reflexivity; [repeat (constructor; try reflexivity)|]. apply ex62_use; try reflexivity; [lia|left; reflexivity].
Qed.
Example ex_replace_all : replacesBy ex62_E 0 false [3; 5]%Z /\ exists t, [3; 5]%Z = rpn t /\ proves ex62_E (Some ex62_T) t [6; 3; 5; 3].
Proof.
  assert (A : replacesBy ex62_E 0 false [3; 5]%Z) by (exists 60; intros fuel L; replace fuel with (60 + (fuel - 60)) by lia; generalize (fuel - 60); intros n; vm_compute; reflexivity).
  split; [exact A|]. destruct (C62_all_partial ex62_E ex62_T 0 [6; 3; 5; 3] false) as [p [P1 P2]].
  - apply exF_ok. split; [|split; reflexivity]. repeat (constructor; try reflexivity).
  - reflexivity.
  - split; [discriminate|]. intros t H. cbn in H |- *. lia.
  - intros i st U. apply ex62_ok; try reflexivity; [repeat (constructor; try reflexivity)|exact U].
  - destruct A as [K A]. pose proof (same_by _ _ _ _ _ _ P1 A) as X. subst p. destruct (P2 ltac:(discriminate)) as [t [Q1 [Q2 _]]]. exists t. auto.
Qed.
Lemma ex62_codes : forall z, In z (f_pf ex62_E) -> (0 <= z)%Z \/ z = zUnk.
Proof. intros z [<-|[<-|[]]]; [right; reflexivity|left; lia]. Qed.
Example ex_replace_valid : exists q vals, [3; 8]%Z = map encStep q /\ rpnRun ex51_db ex51_st [] [] q vals [[6; 3; 5; 3]].
Proof.
  destruct ex_replace as [A B]. apply (C62_valid_partial ex62_E ex62_T 8 ex51_8 0 ex51_st [6; 3; 5; 3] false false [3; 8]%Z B); [reflexivity|exact ex62_codes|intros s st [U1 U2 U3 U4 U5 U6]; apply (ex_floated s st); constructor; assumption| |reflexivity|exact A|discriminate|].
  - intros k path u e N NU TG. pose proof (nodeAt_bound _ _ _ _ N) as L. cbn in L. destruct k as [|[|k]]; [| |lia].
    + destruct (nodeAt_unique _ _ _ _ N _ _ (na_kid 10 [Node zUnk []] 0 _ _ _ _ eq_refl (na_root (Node zUnk [])))) as [_ ->]. destruct NU. left. reflexivity.
    + destruct (nodeAt_unique _ _ _ _ N _ _ (na_root ex62_T)) as [_ ->]. destruct NU. left. reflexivity.
  - intros [X|[X|[]]]; discriminate X.
Qed.
