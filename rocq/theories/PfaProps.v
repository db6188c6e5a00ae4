(* PfaProps.v -- properties of proof-assistant surgery (C35) and of EXPAND (C51).
   nodeAt T k path u: u is the subproof of tree T that ends at step k (from 0). *)
From Verif Require Import Base MMSpec VerModel VerSpec VerStep VerProofs VerExample ParModel ParSpec CmpModel CmpSpec SqModel SqSpec SqProofs SqPack SqValid SqAttr SqGood SqProps
  PfaModel PfaSpec PfaProofs PfaMore PfaFloat PfaAssign PfaExpand PfaValid PfaExpAll PfaHist.
From Coq Require Import Sorting.Sorted.
Open Scope nat_scope.

(* ---------------- C35: deleting, adding, replacing a subproof ---------------- *)
(* Deleting the subproof u that ends at step k puts one unknown step in its place
   and changes nothing else; the unknown step keeps the target and user strings of
   step k. *)
Theorem C35_delete_subproof : forall db s T k path u,
  pipOk db s T -> nodeAt T k path u -> nth_error (pf s) k <> Some zUnk ->
  exists s' T', deleteSubProof db s k = Ok s' /\ pipOk db s' T' /\ putAt unknown T path T' /\
    nodeAt T' (k + 1 - length (rpn u)) path unknown /\
    pf s' = splice (pf s) k (length (rpn u)) [zUnk] /\
    tg s' = splice (tg s) k (length (rpn u)) [nth k (tg s) []] /\
    sr s' = splice (sr s) k (length (rpn u)) [[]] /\
    us s' = splice (us s) k (length (rpn u)) [nth k (us s) []].
Proof. exact delete_ok. Qed.

(* Adding a subproof v at an unknown step. *)
Theorem C35_add_subproof : forall db s T k path u v,
  pipOk db s T -> nodeAt T k path u -> nth_error (pf s) k = Some zUnk -> wfTree db v -> noRefs (rpn v) ->
  exists s' T', addSubProof s (rpn v) k = Ok s' /\ pipOk db s' T' /\ putAt v T path T' /\
    nodeAt T' (k + length (rpn v) - 1) path v /\
    pf s' = splice (pf s) k 1 (rpn v) /\
    tg s' = splice (tg s) k 1 (repeat [] (length (rpn v) - 1) ++ [nth k (tg s) []]) /\
    sr s' = splice (sr s) k 1 (repeat [] (length (rpn v))) /\
    us s' = splice (us s) k 1 (repeat [] (length (rpn v) - 1) ++ [nth k (us s) []]).
Proof. exact add_ok. Qed.

(* Replacing (delete, then add), as REPLACE, IMPROVE and MINIMIZE_WITH do. *)
Theorem C35_replace_subproof : forall db s T k path u v,
  pipOk db s T -> nodeAt T k path u -> wfTree db v -> noRefs (rpn v) ->
  exists s' T', replaceSubProof db s (rpn v) k = Ok s' /\ pipOk db s' T' /\ putAt v T path T' /\
    pf s' = splice (pf s) k (length (rpn u)) (rpn v) /\
    tg s' = splice (tg s) k (length (rpn u)) (repeat [] (length (rpn v) - 1) ++ [nth k (tg s) []]) /\
    sr s' = splice (sr s) k (length (rpn u)) (repeat [] (length (rpn v))) /\
    us s' = splice (us s) k (length (rpn u)) (repeat [] (length (rpn v) - 1) ++ [nth k (us s) []]).
Proof. exact replace_ok. Qed.

(* Replacing a subproof by one that proves the same expression keeps the proof a
   valid proof of its statement. *)
Theorem C35_replace_keeps_valid : forall db stp s T k path u v e p s' p',
  wf_db db -> pipOk db s T -> nodeAt T k path u -> wfTree db v -> noRefs (rpn v) ->
  tval db stp u e -> tval db stp v e ->
  pf s = map encStep p -> replaceSubProof db s (rpn v) k = Ok s' -> pf s' = map encStep p' ->
  validProof db stp p -> validProof db stp p'.
Proof. exact replace_valid. Qed.

(* Deleting a subproof and putting it back restores the proof. *)
Theorem C35_delete_add_back : forall db s T k path u, pipOk db s T -> nodeAt T k path u ->
  exists s', replaceSubProof db s (rpn u) k = Ok s' /\ pf s' = pf s /\ pipOk db s' T.
Proof. exact delete_add_back. Qed.

(* DELETE STEP n: a message and no change for number 0, for the number after the
   last step and for an unknown step; otherwise the subproof is deleted. *)
Theorem C35_delete_step : forall db s T n, pipOk db s T ->
  (n = 0 \/ n = length (rpn T) + 1 -> deleteStep db s n = Ok None) /\
  (forall k path u, n = k + 1 -> nodeAt T k path u ->
     (u = unknown -> deleteStep db s n = Ok None) /\
     (u <> unknown -> exists s', deleteStep db s n = Ok (Some s') /\ deleteSubProof db s k = Ok s')).
Proof. exact deleteStep_ok. Qed.
(* Larger numbers are looked up outside the proof before the range check. *)
Theorem C35_delete_step_range_refuted : exists db s T n, wf_db db /\ pipOk db s T /\
  length (rpn T) < n /\ deleteStep db s n = UB.
Proof.
  exists ex_db, (mkPip [3]%Z [[7; 3]%Z] [[7; 3]%Z] [[]]), (Node 3 []), 3. split; [exact ex_db_wf|].
  split; [|split; [cbn; lia|reflexivity]].
  constructor; try reflexivity; [constructor; [reflexivity|constructor]| |].
  - intros z [<-|[]]; reflexivity.
  - intros [|[|k]] H; discriminate.
Qed.

(* DELETE FLOATING_HYPOTHESES: the proofs of all $f hypotheses become unknown steps,
   all other steps keep their strings. *)
Theorem C35_delete_floating : forall db s T, wf_db db -> pipOk db s T -> legalCodes (rpn T) ->
  exists s', deleteFloating db s = Ok s' /\ pipOk db s' (dropFloating db T) /\
    tg s' = map (fun k => nth k (tg s) []) (keptSteps db T 0) /\
    us s' = map (fun k => nth k (us s) []) (keptSteps db T 0) /\
    forall i z k, nth_error (pf s') i = Some z -> nth_error (keptSteps db T 0) i = Some k ->
      nth_error (sr s') i = Some (if (z =? zUnk)%Z then [] else nth k (sr s) []).
Proof. exact delete_floating_ok. Qed.

(* ---------------- C35: ASSIGN ---------------- *)
(* Assigning an assertion to an unknown step: unknown steps for its hypotheses, fresh
   dummy variables for its variables (numbers mt+1+dv, ..., never used before), the
   source of the step is the assertion and the targets of the new steps are its
   hypotheses, under that renaming. *)
Theorem C35_assign_assertion : forall db mt old s T k path n st dv,
  wf_db db -> pipOk db s T -> nodeAt T k path unknown -> nth_error (db_stmts db) n = Some st -> isAssertion st ->
  let h := length (s_reqHyps st) in
  exists s' T' m, assignStatement db mt old s n k dv = Ok (s', dv + length (s_reqVars st)) /\
    pipOk db s' T' /\ putAt (premiseNode n h) T path T' /\
    (forall i v, nth_error (s_reqVars st) i = Some v -> m v = Z.of_nat (mt + 1 + dv + i)) /\
    pf s' = splice (pf s) k 1 (repeat zUnk h ++ [Z.of_nat n]) /\
    sr s' = splice (sr s) k 1 (repeat [] h ++ [renamed db m (s_math st)]) /\
    tg s' = splice (tg s) k 1 (map (fun x => renamed db m (mathAt db x)) (s_reqHyps st) ++ [nth k (tg s) []]) /\
    us s' = splice (us s) k 1 (repeat [] h ++ [nth k (us s) []]).
Proof. exact assign_ok. Qed.
Theorem C35_assign_hypothesis : forall db mt old s T k path n st dv,
  pipOk db s T -> nodeAt T k path unknown -> nth_error (db_stmts db) n = Some st -> isHyp st -> s_reqHyps st = [] ->
  exists s' T', assignStatement db mt old s n k dv = Ok (s', dv) /\
    pipOk db s' T' /\ putAt (Node (Z.of_nat n) []) T path T' /\
    pf s' = splice (pf s) k 1 [Z.of_nat n] /\ sr s' = splice (sr s) k 1 [map Z.of_nat (s_math st)] /\
    tg s' = tg s /\ us s' = us s.
Proof. exact assign_hyp_ok. Qed.

(* ---------------- C35: looking around in the proof ---------------- *)
Theorem C35_parent : forall db T k path z j u, wfTree db T -> noRefs (rpn T) -> legalCodes (rpn T) ->
  nodeAt T k (path ++ [(z, j)]) u ->
  exists k' kids, nodeAt T k' path (Node z kids) /\ nth_error kids j = Some u /\ getParentStep db (rpn T) k = Ok k'.
Proof. exact parent_ok. Qed.
Theorem C35_parent_of_last : forall db T, wfTree db T -> getParentStep db (rpn T) (length (rpn T) - 1) = Ok (length (rpn T) - 1).
Proof. exact parent_root. Qed.
(* a subproof is known if it contains no unknown step *)
Theorem C35_known : forall db T, wfTree db T -> noRefs (rpn T) -> legalCodes (rpn T) ->
  exists fl, getKnownSubProofs db (rpn T) = Ok fl /\ length fl = length (rpn T) /\
    forall k path u, nodeAt T k path u -> (nth_error fl k = Some true <-> ~ In zUnk (rpn u)).
Proof.
  intros db T W N L. exists (kflags T). split; [exact (known_ok db T W N L)|]. split; [exact (kflags_len T)|].
  intros k path u H. rewrite (kflags_at T k path u H), <- known_iff. split; congruence.
Qed.
(* IMPROVE may copy subproof k for step ref only if k does not contain ref, is known,
   is not a hypothesis and its target contains no dummy variable *)
Theorem C35_independent_known : forall db mt s T ref,
  pipOk db s T -> legalCodes (rpn T) -> ref < length (rpn T) -> (forall t, In t (tg s) -> t <> []) ->
  exists fl, getIndepKnownSteps db mt s ref = Ok fl /\ length fl = length (rpn T) /\
    forall k path u, nodeAt T k path u ->
      (nth_error fl k = Some true <->
        ~ contains T k ref /\ ~ In zUnk (rpn u) /\
        (exists st, nth_error (db_stmts db) (Z.to_nat (rootOf u)) = Some st /\ isAssertion st) /\
        forall t, In t (nth k (tg s) []) -> (t <= mt)%Z).
Proof. exact indep_ok. Qed.

(* ---------------- C35: histories ---------------- *)
(* Whatever sequence of deletions, additions, replacements and assignments is made,
   the state stays a well-formed proof tree with strings for each step, the target of
   its last step is the one it started with, and dummy variables are never reused. *)
Theorem C35_history : forall db mt x y, wf_db db -> history db mt x y -> forall T, pipOk db (fst x) T ->
  snd x <= snd y /\ last (tg (fst y)) [] = last (tg (fst x)) [] /\ exists T', pipOk db (fst y) T'.
Proof. exact history_ok. Qed.

(* ---------------- C51: EXPAND ---------------- *)
(* Expanding theorem src in proof pt: terminates; the result is the proof tree with
   every use of src replaced by its proof tree S, whose hypotheses are replaced by
   the proofs the use had for them (other hypotheses, of dummy variables, become
   unknown); it is an acceptable proof that does not use src, uses only what pt and
   the proof of src use, and is valid if pt is and the proof of src is valid and
   without dummy variables. *)
Theorem C51_expand : forall db k stp pt src sts sp, wf_db db -> stmtAt db src sts -> s_type sts = S_p ->
  goodProof db k stp pt -> goodProof db src sts sp ->
  (forall h sh, In h (s_optHyps sts) -> stmtAt db h sh -> s_type sh = S_f) ->
  exists T S q F, denotes db (map encStep pt) T /\ denotes db (map encStep sp) S /\
    map encStep q = rpn (expanded db src (s_reqHyps sts) S T) /\
    (forall fuel, F <= fuel -> expandProof fuel db src (map encStep sp) (map encStep pt) = Ok (map encStep q)) /\
    goodProof db k stp q /\ ~ In (Stm src) q /\ (forall i, ~ In (Loc i) q) /\
    (forall m, In (Stm m) q -> In (Stm m) pt \/ (In (Stm m) sp /\ m < src)) /\
    (completeSource db sts sp -> validProof db stp pt -> validProof db stp q).
Proof. exact expand_good. Qed.
(* The EXPAND command: several theorems ss, highest statement number first. *)
Theorem C51_expand_all : forall db k stp (stm : nat -> stmtRec) (sp : nat -> list pstep), wf_db db ->
  forall ss, StronglySorted (fun a b => b < a) ss ->
  (forall m, In m ss -> stmtAt db m (stm m) /\ s_type (stm m) = S_p /\ goodProof db m (stm m) (sp m) /\
     forall h sh, In h (s_optHyps (stm m)) -> stmtAt db h sh -> s_type sh = S_f) ->
  forall pt, goodProof db k stp pt ->
  exists q F, (forall fuel, F <= fuel -> expandAll fuel db (fun m => map encStep (sp m)) ss (map encStep pt) = Ok (map encStep q)) /\
    goodProof db k stp q /\ (forall m, In m ss -> ~ In (Stm m) q) /\
    (forall m, In (Stm m) q -> In (Stm m) pt \/ exists n, In n ss /\ In (Stm m) (sp n) /\ m < n) /\
    ((forall m, In m ss -> completeSource db (stm m) (sp m)) -> validProof db stp pt -> validProof db stp q).
Proof. exact expand_all_good. Qed.

(* ---------------- examples ---------------- *)
(* 0 + (0 + 0): statement 4 takes two hypotheses; step numbers 0..4 = tze tze tze tpl tpl *)
Definition ex_T : tree := Node 4 [Node 3 []; Node 4 [Node 3 []; Node 3 []]].
Definition ex_s : pip := mkPip [3; 3; 3; 4; 4]%Z [[7; 3]; [7; 3]; [7; 3]; [7; 3; 4; 3]; [7; 3; 4; 3; 4; 3]]%Z
  [[7; 3]; [7; 3]; [7; 3]; [7; 3; 4; 3]; [7; 3; 4; 3; 4; 3]]%Z [[]; []; []; []; []].
Lemma ex_pip : pipOk ex_db ex_s ex_T.
Proof.
  constructor; try reflexivity.
  - repeat (constructor; try reflexivity).
  - intros z H. cbn in H. repeat (destruct H as [<-|H]; [reflexivity|]). destruct H.
  - intros k H. do 5 (destruct k as [|k]; [discriminate|]). destruct k; discriminate.
Qed.
Lemma ex_node : nodeAt ex_T 3 [(4%Z, 1)] (Node 4 [Node 3 []; Node 3 []]).
Proof. exact (na_kid 4%Z [Node 3 []; Node 4 [Node 3 []; Node 3 []]] 1 _ 2 [] _ eq_refl (na_root _)). Qed.
Example ex_C35_delete := C35_delete_subproof ex_db ex_s ex_T 3 _ _ ex_pip ex_node ltac:(discriminate).
Example ex_C35_delete_run : deleteSubProof ex_db ex_s 3 =
  Ok (mkPip [3; zUnk; 4]%Z [[7; 3]; [7; 3; 4; 3]; [7; 3; 4; 3; 4; 3]]%Z [[7; 3]; []; [7; 3; 4; 3; 4; 3]]%Z [[]; []; []]).
Proof. reflexivity. Qed.
Definition ex_s2 : pip := mkPip [3; zUnk; 4]%Z [[7; 3]; [7; 3; 4; 3]; [7; 3; 4; 3; 4; 3]]%Z [[7; 3]; []; [7; 3; 4; 3; 4; 3]]%Z [[]; []; []].
Definition ex_T2 : tree := Node 4 [Node 3 []; unknown].
Lemma ex_pip2 : pipOk ex_db ex_s2 ex_T2.
Proof.
  constructor; try reflexivity.
  - repeat (constructor; try reflexivity).
  - intros z H. cbn in H. repeat (destruct H as [<-|H]; [reflexivity|]). destruct H.
  - intros k H. do 3 (destruct k as [|k]; [try discriminate; reflexivity|]). destruct k; discriminate.
Qed.
Lemma ex_node2 : nodeAt ex_T2 1 [(4%Z, 1)] unknown.
Proof. exact (na_kid 4%Z [Node 3 []; unknown] 1 _ 0 [] _ eq_refl (na_root _)). Qed.
Lemma ex_v_wf : wfTree ex_db (Node 4 [Node 3 []; Node 3 []]).
Proof. repeat (constructor; try reflexivity). Qed.
Lemma ex_v_norefs : noRefs (rpn (Node 4 [Node 3 []; Node 3 []])).
Proof. intros z H. cbn in H. repeat (destruct H as [<-|H]; [reflexivity|]). destruct H. Qed.
Example ex_C35_add := C35_add_subproof ex_db ex_s2 ex_T2 1 _ _ _ ex_pip2 ex_node2 eq_refl ex_v_wf ex_v_norefs.
Example ex_C35_replace := C35_replace_subproof ex_db ex_s ex_T 3 _ _ (Node 3 []) ex_pip ex_node
  ltac:(repeat (constructor; try reflexivity)) ltac:(intros z [<-|[]]; reflexivity).
Example ex_C35_back := C35_delete_add_back ex_db ex_s ex_T 3 _ _ ex_pip ex_node.
Example ex_C35_assign := C35_assign_assertion ex_db 20 (fun _ => 0%Z) ex_s2 ex_T2 1 _ 4 _ 5 ex_db_wf ex_pip2 ex_node2 eq_refl (or_introl eq_refl).
Example ex_C35_assign_run : assignStatement ex_db 20 (fun _ => 0%Z) ex_s2 4 1 5 =
  Ok (mkPip [3; zUnk; zUnk; 4; 4]%Z [[7; 3]; [7; 26]; [7; 27]; [7; 3; 4; 3]; [7; 3; 4; 3; 4; 3]]%Z
       [[7; 3]; []; []; [7; 26; 4; 27]; [7; 3; 4; 3; 4; 3]]%Z [[]; []; []; []; []], 7).
Proof. reflexivity. Qed.
Example ex_C35_assign_hyp := C35_assign_hypothesis ex_db 20 (fun _ => 0%Z) ex_s2 ex_T2 1 _ 9 _ 5 ex_pip2 ex_node2 eq_refl (or_introl eq_refl) eq_refl.
Lemma ex_T_legal : legalCodes (rpn ex_T).
Proof. intros z H. left. cbn in H. repeat (destruct H as [<-|H]; [lia|]). destruct H. Qed.
Example ex_C35_parent := C35_parent ex_db ex_T 3 [] 4%Z 1 _ (po_tree _ _ _ ex_pip) (po_norefs _ _ _ ex_pip) ex_T_legal ex_node.
Example ex_C35_parent_run : getParentStep ex_db (rpn ex_T) 2 = Ok 3 /\ getParentStep ex_db (rpn ex_T) 0 = Ok 4.
Proof. split; reflexivity. Qed.
Example ex_C35_known := C35_known ex_db ex_T (po_tree _ _ _ ex_pip) (po_norefs _ _ _ ex_pip) ex_T_legal.
Example ex_C35_known_run : getKnownSubProofs ex_db (rpn ex_T2) = Ok [true; false; false].
Proof. reflexivity. Qed.
Example ex_C35_indep := C35_independent_known ex_db 20%Z ex_s ex_T 0 ex_pip ex_T_legal ltac:(cbn; lia)
  ltac:(intros t H; cbn in H; repeat (destruct H as [<-|H]; [discriminate|]); destruct H).
Example ex_C35_indep_run : getIndepKnownSteps ex_db 20%Z ex_s 0 = Ok [false; true; true; true; false].
Proof. reflexivity. Qed.
Example ex_C35_floating := C35_delete_floating ex_db ex_s ex_T ex_db_wf ex_pip ex_T_legal.
Example ex_C35_floating_run : deleteFloating ex_db ex_s =
  Ok (mkPip [zUnk; zUnk; 4]%Z [[7; 3]; [7; 3; 4; 3]; [7; 3; 4; 3; 4; 3]]%Z [[]; []; [7; 3; 4; 3; 4; 3]]%Z [[]; []; []]).
Proof. reflexivity. Qed.
Example ex_C35_step := C35_delete_step ex_db ex_s ex_T 4 ex_pip.
(* a history: delete step 3's subproof, assign tpl there *)
Example ex_C35_history : exists y, history ex_db 20 (ex_s, 5) y /\ snd y = 7 /\ length (pf (fst y)) = 5.
Proof.
  eexists. split; [|split].
  - eapply hi_step; [eapply su_delete with (k := 3); [cbn; lia|exact ex_C35_delete_run]|].
    eapply hi_step; [eapply su_assign with (k := 1) (n := 4) (old := fun _ => 0%Z);
      [reflexivity|reflexivity|left; left; reflexivity|exact ex_C35_assign_run]|]. apply hi_nil.
  - reflexivity.
  - reflexivity.
Qed.
(* statement 11: $p |- 0 = 0, proved with theorem 8 (|- t = t), itself proved with 5 *)
Definition ex51_stmts : list stmtRec := ex_stmts ++ [mkStmt S_p [6; 3; 5; 3] [] [1; 2] [] [] []].
Definition ex51_db : dbase := mkDb ex_isvar 20 ex51_stmts.
Lemma ex51_wf : wf_db ex51_db.
Proof. apply wf_dbB_ok. vm_compute. reflexivity. Qed.
Definition ex51_st : stmtRec := mkStmt S_p [6; 3; 5; 3] [] [1; 2] [] [] [].
Definition ex51_8 : stmtRec := mkStmt S_p [6; 1; 5; 1] [1] [2] [1] [] [].
Lemma ex51_good : goodProof ex51_db 11 ex51_st [Stm 3; Stm 8].
Proof.
  constructor.
  - split; [reflexivity|]. intros [|[|[|k]]] i; discriminate.
  - intros [|[|[|k]]] i; discriminate.
  - intros m [E|[E|[]]]; injection E as <-; eexists; (split; [reflexivity|]); left; (split; [|lia]); [left|right]; reflexivity.
Qed.
Lemma ex51_good8 : goodProof ex51_db 8 ex51_8 [Stm 1; Stm 5].
Proof.
  constructor.
  - split; [reflexivity|]. intros [|[|[|k]]] i; discriminate.
  - intros [|[|[|k]]] i; discriminate.
  - intros m [E|[E|[]]]; injection E as <-; eexists; (split; [reflexivity|]).
    + right. split; [right; reflexivity|]. left. left. reflexivity.
    + left. split; [left; reflexivity|lia].
Qed.
Lemma ex51_opt : forall h sh, In h (s_optHyps ex51_8) -> stmtAt ex51_db h sh -> s_type sh = S_f.
Proof. intros h sh [<-|[]] E. injection E as <-. reflexivity. Qed.
Lemma ex51_valid : validProof ex51_db ex51_st [Stm 3; Stm 8].
Proof.
  destruct (verify_sound ex51_db ex51_wf 100 11 [Stm 3; Stm 8] 0 0) as [stp [A [_ V]]].
  - intros [|[|[|k]]] i; discriminate.
  - vm_compute. reflexivity.
  - injection A as <-. exact V.
Qed.
Lemma ex51_src : completeSource ex51_db ex51_8 [Stm 1; Stm 5].
Proof.
  constructor.
  - destruct (verify_sound ex51_db ex51_wf 100 8 [Stm 1; Stm 5] 0 0) as [stp [A [_ V]]].
    + intros [|[|[|k]]] i; discriminate.
    + vm_compute. reflexivity.
    + injection A as <-. exact V.
  - intros m sm [E|[E|[]]] Es Ih; injection E as <-; injection Es as <-; [left; reflexivity|].
    destruct Ih as [H|H]; discriminate.
  - intros m sm [E|[E|[]]] Es Ia; injection E as <-; injection Es as <-; [destruct Ia as [H|H]; discriminate|].
    intros t [<-|[]]. exists 1, (mkStmt S_f [7; 1] [] [] [] [] []), 7. repeat split; left; reflexivity.
  - intros x y [].
Qed.
Example ex_C51 : exists F, forall fuel, F <= fuel ->
  expandProof fuel ex51_db 8 (map encStep [Stm 1; Stm 5]) (map encStep [Stm 3; Stm 8]) = Ok [3; 5]%Z.
Proof.
  destruct (C51_expand ex51_db 11 ex51_st [Stm 3; Stm 8] 8 ex51_8 [Stm 1; Stm 5] ex51_wf eq_refl eq_refl ex51_good ex51_good8 ex51_opt)
    as [T [S [q [F [_ [_ [_ [E _]]]]]]]].
  exists (F + 20). intros fuel L. rewrite E by lia. rewrite <- (E (F + 20)) by lia.
  assert (X : forall f, expandProof (f + 20) ex51_db 8 (map encStep [Stm 1; Stm 5]) (map encStep [Stm 3; Stm 8]) = Ok [3; 5]%Z)
    by (intros f; rewrite Nat.add_comm; reflexivity).
  apply X.
Qed.
Example ex_C51_all := C51_expand_all ex51_db 11 ex51_st (fun _ => ex51_8) (fun _ => [Stm 1; Stm 5]) ex51_wf [8]
  ltac:(repeat constructor) ltac:(intros m [<-|[]]; exact (conj eq_refl (conj eq_refl (conj ex51_good8 ex51_opt)))) [Stm 3; Stm 8] ex51_good.
Example ex_C51_complete : (forall m, In m [8] -> completeSource ex51_db ex51_8 [Stm 1; Stm 5]) /\ validProof ex51_db ex51_st [Stm 3; Stm 8].
Proof. exact (conj (fun _ _ => ex51_src) ex51_valid). Qed.
(* two different proofs of |- 0 = 0, for C35_replace_keeps_valid *)
Example ex_C35_same : tval ex51_db ex51_st (Node 8 [Node 3 []]) [6; 3; 5; 3] /\ tval ex51_db ex51_st (Node 5 [Node 3 []]) [6; 3; 5; 3].
Proof.
  assert (W : forall z, z = 8%Z \/ z = 5%Z -> wfTree ex51_db (Node z [Node 3 []])).
  { intros z [-> | ->]; repeat (constructor; try reflexivity). }
  assert (N : forall z, z = 8%Z \/ z = 5%Z -> noRefs (rpn (Node z [Node 3 []]))).
  { intros z [-> | ->] y H; cbn in H; repeat (destruct H as [<-|H]; [reflexivity|]); destruct H. }
  split.
  - apply (valid_tval ex51_db ex51_st ex51_wf [Stm 3; Stm 8]); [apply (rpn_denotes ex51_db (Node 8 [Node 3 []])); auto|exact ex51_valid].
  - apply (valid_tval ex51_db ex51_st ex51_wf [Stm 3; Stm 5]); [apply (rpn_denotes ex51_db (Node 5 [Node 3 []])); auto|].
    destruct (verify_sound ex51_db ex51_wf 100 11 [Stm 3; Stm 5] 0 0) as [stp [A [_ V]]].
    + intros [|[|[|k]]] i; discriminate.
    + vm_compute. reflexivity.
    + injection A as <-. exact V.
Qed.
Print Assumptions C35_delete_subproof.
Print Assumptions C35_add_subproof.
Print Assumptions C35_replace_subproof.
Print Assumptions C35_replace_keeps_valid.
Print Assumptions C35_delete_add_back.
Print Assumptions C35_delete_step.
Print Assumptions C35_delete_step_range_refuted.
Print Assumptions C35_delete_floating.
Print Assumptions C35_assign_assertion.
Print Assumptions C35_assign_hypothesis.
Print Assumptions C35_parent.
Print Assumptions C35_parent_of_last.
Print Assumptions C35_known.
Print Assumptions C35_independent_known.
Print Assumptions C35_history.
Print Assumptions C51_expand.
Print Assumptions C51_expand_all.
