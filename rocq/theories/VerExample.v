(* VerExample.v -- a small concrete database used by the non-vacuity examples,
   and a decision procedure for wf_db used only to check it. *)
From Verif Require Import Base MMSpec VerModel VerSpec VerMatch VerStep VerProofs.
Open Scope nat_scope.

(* symbols: 1,2 variables t,r; 3 "0"; 4 "+"; 5 "="; 6 "|-"; 7 "term"; 20 the separator *)
Definition ex_isvar (t : nat) : bool := (t =? 1) || (t =? 2).

Definition ex_stmts : list stmtRec := [
  mkStmt S_other [] [] [] [] [] [];                                   (* 0 unused *)
  mkStmt S_f [7; 1] [] [] [] [] [];                                   (* 1 tt $f term t *)
  mkStmt S_f [7; 2] [] [] [] [] [];                                   (* 2 tr $f term r *)
  mkStmt S_a [7; 3] [] [1; 2] [] [] [];                               (* 3 tze $a term 0 *)
  mkStmt S_a [7; 1; 4; 2] [1; 2] [] [1; 2] [] [];                     (* 4 tpl $a term t + r *)
  mkStmt S_a [6; 1; 5; 1] [1] [2] [1] [] [];                          (* 5 $a |- t = t *)
  mkStmt S_a [6; 1; 5; 2] [1; 2] [] [1; 2] [(1, 2)] [];               (* 6 $d t r; $a |- t = r *)
  mkStmt S_p [6; 3; 4; 3; 5; 3; 4; 3] [] [1; 2] [] [] [];             (* 7 $p |- 0 + 0 = 0 + 0 *)
  mkStmt S_p [6; 1; 5; 1] [1] [2] [1] [] [];                          (* 8 $p |- t = t *)
  mkStmt S_e [6; 1; 5; 2] [] [] [] [] [];                             (* 9 $e |- t = r *)
  mkStmt S_a [6; 2; 5; 1] [9] [] [1; 2] [] []                         (* 10 $a |- r = t, no $f (tests ambiguity) *)
].
Definition ex_db : dbase := mkDb ex_isvar 20 ex_stmts.

(* ---------- deciding wf_db ---------- *)
Definition hypB (s : stmtRec) : bool := match s_type s with S_e | S_f => true | _ => false end.
Definition assB (s : stmtRec) : bool := match s_type s with S_a | S_p => true | _ => false end.
Fixpoint nodupB (l : list nat) : bool :=
  match l with [] => true | x :: r => negb (memb x r) && nodupB r end.
Definition hypMathsB (db : dbase) (st : stmtRec) : list (list nat) :=
  map (fun h => match nth_error (db_stmts db) h with Some sh => s_math sh | None => [] end) (s_reqHyps st).
Definition stmtB (db : dbase) (st : stmtRec) : bool :=
  negb (memb (db_sep db) (s_math st)) &&
  (if hypB st || assB st then match s_math st with c :: _ => negb (db_isvar db c) | [] => false end else true) &&
  (if assB st then
     forallb (fun h => match nth_error (db_stmts db) h with Some sh => hypB sh | None => false end) (s_reqHyps st) &&
     nodupB (s_reqVars st) &&
     forallb (fun t => db_isvar db t && existsb (memb t) (hypMathsB db st)) (s_reqVars st) &&
     forallb (forallb (fun t => implb (db_isvar db t) (memb t (s_reqVars st)))) (hypMathsB db st) &&
     forallb (fun t => implb (db_isvar db t) (memb t (s_reqVars st))) (s_math st) &&
     forallb (fun xy => memb (fst xy) (s_reqVars st) && memb (snd xy) (s_reqVars st)) (s_reqDisj st)
   else true) &&
  forallb (fun xy => fst xy <? snd xy) (s_reqDisj st ++ s_optDisj st).
Definition wf_dbB (db : dbase) : bool :=
  negb (db_isvar db (db_sep db)) && forallb (stmtB db) (db_stmts db).

Lemma memb_true x l : memb x l = true <-> In x l.
Proof.
  unfold memb. rewrite existsb_exists. split.
  - intros [y [H E]]. apply Nat.eqb_eq in E. subst; auto.
  - intros H. exists x. rewrite Nat.eqb_refl. auto.
Qed.

Lemma nodupB_ok l : nodupB l = true -> NoDup l.
Proof.
  induction l as [|x l IH]; intros H; constructor; simpl in H; apply andb_prop in H; destruct H as [H1 H2]; auto.
  intros Hc. apply memb_true in Hc. rewrite Hc in H1. discriminate.
Qed.

Lemma wf_dbB_ok db : wf_dbB db = true -> wf_db db.
Proof.
  unfold wf_dbB. intros H. apply andb_prop in H. destruct H as [H0 H].
  rewrite forallb_forall in H.
  assert (HS : forall n st, stmtAt db n st -> stmtB db st = true).
  { intros n st Hn. apply H. eapply nth_error_In; eauto. }
  assert (HA : forall st, isAssertion st -> assB st = true).
  { intros st [E|E]; unfold assB; rewrite E; auto. }
  assert (HH : forall st, isHyp st -> hypB st = true).
  { intros st [E|E]; unfold hypB; rewrite E; auto. }
  assert (HH' : forall st, hypB st = true -> isHyp st).
  { intros st E; unfold hypB in E; unfold isHyp. destruct (s_type st); auto; discriminate. }
  assert (HX : forall n st, stmtAt db n st ->
    ~ In (db_sep db) (s_math st) /\
    (hypB st || assB st = true -> exists c r, s_math st = c :: r /\ db_isvar db c = false) /\
    (assB st = true ->
      forallb (fun h => match nth_error (db_stmts db) h with Some sh => hypB sh | None => false end) (s_reqHyps st) = true /\
      NoDup (s_reqVars st) /\
      forallb (fun t => db_isvar db t && existsb (memb t) (hypMathsB db st)) (s_reqVars st) = true /\
      forallb (forallb (fun t => implb (db_isvar db t) (memb t (s_reqVars st)))) (hypMathsB db st) = true /\
      forallb (fun t => implb (db_isvar db t) (memb t (s_reqVars st))) (s_math st) = true /\
      forallb (fun xy => memb (fst xy) (s_reqVars st) && memb (snd xy) (s_reqVars st)) (s_reqDisj st) = true) /\
    forallb (fun xy => fst xy <? snd xy) (s_reqDisj st ++ s_optDisj st) = true).
  { intros n st Hn. apply HS in Hn. unfold stmtB in Hn.
    apply andb_prop in Hn. destruct Hn as [Hn A4].
    apply andb_prop in Hn. destruct Hn as [Hn A3].
    apply andb_prop in Hn. destruct Hn as [A1 A2].
    split.
    { intros Hc. apply memb_true in Hc. rewrite Hc in A1. discriminate. }
    split.
    { intros E. rewrite E in A2. destruct (s_math st) as [|c r]; [discriminate|].
      exists c, r. split; auto. destruct (db_isvar db c); auto; discriminate. }
    split; [|exact A4].
    intros E. rewrite E in A3. repeat (apply andb_prop in A3; destruct A3 as [A3 ?]).
    match goal with H : nodupB _ = true |- _ => apply nodupB_ok in H end. auto 10. }
  clear HS H.
  constructor.
  - destruct (db_isvar db (db_sep db)); auto; discriminate.
  - intros n st Hn. apply HX in Hn. tauto.
  - intros n st Hn Hc. destruct (HX _ _ Hn) as [_ [X _]]. apply X.
    destruct Hc as [Hc|Hc]; [apply HH in Hc|apply HA in Hc]; rewrite Hc; auto using orb_true_r.
  - intros n st h Hn Ha Hh. destruct (HX _ _ Hn) as [_ [_ [X _]]]. destruct (X (HA _ Ha)) as [X1 _].
    rewrite forallb_forall in X1. apply X1 in Hh. unfold stmtAt.
    destruct (nth_error (db_stmts db) h) as [sh|]; [|discriminate]. eauto.
  - intros n st Hn Ha. destruct (HX _ _ Hn) as [_ [_ [X _]]]. destruct (X (HA _ Ha)) as [_ [X1 _]]. exact X1.
  - intros n st Hn Ha t. destruct (HX _ _ Hn) as [_ [_ [X _]]].
    destruct (X (HA _ Ha)) as [X0 [_ [X1 [X2 _]]]].
    rewrite forallb_forall in X1, X2, X0. split.
    + intros Ht. apply X1 in Ht. apply andb_prop in Ht. destruct Ht as [Hv Ht]. split; auto.
      apply existsb_exists in Ht. destruct Ht as [m [Hm Ht]]. unfold hypMathsB in Hm.
      apply in_map_iff in Hm. destruct Hm as [h [E Hh]]. apply memb_true in Ht.
      exists h. unfold stmtAt. destruct (nth_error (db_stmts db) h) as [sh|]; subst m; [eauto|destruct Ht].
    + intros [Hv [h [sh [Hh [Hs Ht]]]]]. unfold hypMathsB in X2.
      specialize (X2 (s_math sh)). rewrite forallb_forall in X2.
      assert (In (s_math sh) (hypMathsB db st)).
      { unfold hypMathsB. apply in_map_iff. exists h. unfold stmtAt in Hs. rewrite Hs. auto. }
      specialize (X2 H t Ht). rewrite Hv in X2. apply memb_true. exact X2.
  - intros n st Hn Ha t Ht Hv. destruct (HX _ _ Hn) as [_ [_ [X _]]].
    destruct (X (HA _ Ha)) as [_ [_ [_ [_ [X1 _]]]]]. rewrite forallb_forall in X1.
    apply X1 in Ht. rewrite Hv in Ht. apply memb_true. exact Ht.
  - intros n st Hn Ha x y Hxy. destruct (HX _ _ Hn) as [_ [_ [X _]]].
    destruct (X (HA _ Ha)) as [_ [_ [_ [_ [_ X1]]]]]. rewrite forallb_forall in X1.
    apply X1 in Hxy. apply andb_prop in Hxy. rewrite !memb_true in Hxy. exact Hxy.
  - intros n st Hn x y Hxy. destruct (HX _ _ Hn) as [_ [_ [_ X]]]. rewrite forallb_forall in X.
    apply in_app_iff in Hxy. apply X in Hxy. apply Nat.ltb_lt in Hxy. exact Hxy.
Qed.

Lemma ex_db_wf : wf_db ex_db.
Proof. apply wf_dbB_ok. vm_compute. reflexivity. Qed.

(* ---------- the witness for C06 ---------- *)
Definition c06_parse (n : nat) : parsed :=
  if n =? 8 then mkParsed 0 [Stm 1; Stm 1; Stm 6] 0 0
  else mkParsed 0 [Stm 3; Stm 3; Stm 4; Stm 5] 0 0.

Lemma verifyLoop_fuel fuel fuel' db parse cnt : fuel <= fuel' -> forall i e em msgs r,
  verifyLoop fuel db parse i cnt e em msgs = Ok r -> verifyLoop fuel' db parse i cnt e em msgs = Ok r.
Proof.
  intros Hle. induction cnt as [|cnt IH]; intros i e em msgs r H; simpl in *; auto.
  destruct (rget _) as [st| | |]; cbn [rbind] in *; try discriminate.
  destruct (s_type st); auto.
  apply rbind_ok in H. destruct H as [[e2 ds] [H1 H2]].
  destruct (pr_k (parse i) <? 2).
  - apply rbind_ok in H1. destruct H1 as [v [Hv H1]].
    rewrite (verifyProof_mono fuel fuel' _ _ _ _ _ _ Hle Hv) by discriminate. cbn [rbind].
    rewrite H1. cbn [rbind]. auto.
  - rewrite H1. cbn [rbind]. auto.
Qed.

Lemma verifyProofs_mono fuel fuel' db parse r : fuel <= fuel' ->
  verifyProofs fuel db parse = Ok r -> verifyProofs fuel' db parse = Ok r.
Proof.
  intros Hle H. unfold verifyProofs in *. apply rbind_ok in H. destruct H as [x [H1 H2]].
  rewrite (verifyLoop_fuel _ _ _ _ _ Hle _ _ _ _ _ H1). exact H2.
Qed.

Lemma ex_stmt_p n st : stmtAt ex_db n st -> s_type st = S_p ->
  (n = 7 /\ st = mkStmt S_p [6; 3; 4; 3; 5; 3; 4; 3] [] [1; 2] [] [] []) \/
  (n = 8 /\ st = mkStmt S_p [6; 1; 5; 1] [1] [2] [1] [] []).
Proof.
  intros H T. unfold stmtAt in H.
  do 11 (destruct n as [|n]; [simpl in H; injection H as <-; try discriminate T; auto|]).
  simpl in H. destruct n; discriminate.
Qed.

(* deciding parse_ok for concrete proofs *)
Definition parse_okB (db : dbase) (n : nat) (pr : parsed) (st : stmtRec) : bool :=
  forallb (fun x => match x with
    | Unk => false
    | Loc _ => false
    | Stm m => match nth_error (db_stmts db) m with
               | None => false
               | Some sm => if hypB sm then memb m (s_reqHyps st) || memb m (s_optHyps st)
                            else if assB sm then m <? n else false
               end
    end) (pr_proof pr) && (pr_err pr =? 0).

Lemma parse_okB_ok db n pr st : stmtAt db n st -> parse_okB db n pr st = true -> parse_ok db n pr.
Proof.
  intros Hs H _. apply andb_prop in H. destruct H as [H He]. apply Nat.eqb_eq in He.
  rewrite forallb_forall in H. split; [intros Hc; apply H in Hc; discriminate|].
  split; [intros j i Hj; apply nth_error_In in Hj; apply H in Hj; discriminate|].
  split; [|split; [|exact He]].
  - intros m sm Hm Hsm Ha. apply H in Hm. unfold stmtAt in Hsm. rewrite Hsm in Hm.
    destruct Ha as [E|E]; unfold hypB, assB in Hm; rewrite E in Hm; apply Nat.ltb_lt; exact Hm.
  - intros m sm st' Hm Hsm Ha Hs'. unfold stmtAt in *. assert (st' = st) as -> by congruence.
    apply H in Hm. rewrite Hsm in Hm.
    assert (hypB sm = true) as E by (destruct Ha as [E|E]; unfold hypB; rewrite E; auto).
    rewrite E in Hm. apply orb_prop in Hm. rewrite !memb_true in Hm. exact Hm.
Qed.

Lemma c06_witness :
  wf_db ex_db /\ (forall n st, stmtAt ex_db n st -> s_type st = S_p -> parse_ok ex_db n (c06_parse n)) /\
  (exists n st, stmtAt ex_db n st /\ s_type st = S_p /\ ~ validProof ex_db st (pr_proof (c06_parse n))) /\
  exists F msgs, msgs <> [] /\ forall fuel, F <= fuel -> verifyProofs fuel ex_db c06_parse = Ok (true, msgs).
Proof.
  split; [apply ex_db_wf|]. split; [|split].
  - intros n st Hs Ht. apply (parse_okB_ok _ _ _ st Hs).
    destruct (ex_stmt_p _ _ Hs Ht) as [[-> ->]|[-> ->]]; reflexivity.
  - exists 8. eexists. split; [reflexivity|]. split; [reflexivity|]. intros Hv.
    destruct (valid_accepted ex_db 8 _ _ 0 ex_db_wf eq_refl eq_refl (Nat.le_0_l 2) Hv) as [F HF].
    destruct (HF (F + 200)) as [err E]; [lia|].
    assert (E' : verifyProof (F + 200) ex_db 8 (pr_proof (c06_parse 8)) 0 0 = Ok (0, [DDisjCommon 2 1 2 1], 0)).
    { apply (verifyProof_mono 200); [lia| |discriminate]. vm_compute. reflexivity. }
    rewrite E' in E. discriminate.
  - exists 200, [(8, DDisjCommon 2 1 2 1)]. split; [discriminate|].
    intros fuel Hf. apply (verifyProofs_mono 200); auto.
Qed.
