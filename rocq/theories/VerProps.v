(* VerProps.v -- the properties of the proof verifier (C01-C08).
   Each theorem only applies a lemma of VerProofs.v. *)
From Verif Require Import Base MMSpec VerModel VerSpec VerMatch VerStep VerProofs VerExample.
Open Scope nat_scope.

(* ---------------- C01 ---------------- *)
(* Status 0 and no message: the statement is derivable from the statements its
   proof mentions.  (That those are the statement's own hypotheses and earlier
   assertions is the parser's business: C08.) *)
Theorem C01_verify_sound : forall db fuel k proof sev err,
  wf_db db ->
  (forall j i, nth_error proof j = Some (Loc i) -> i < j) ->
  verifyProof fuel db k proof sev 0 = Ok (0, [], err) ->
  exists stp, stmtAt db k stp /\ s_type stp = S_p /\
    provable db stp (fun n => In (Stm n) proof) (s_math stp).
Proof.
  exact (fun db fuel k proof sev err WF HL H =>
    match verify_sound db WF fuel k proof sev err HL H with
    | ex_intro _ stp (conj A (conj B C)) =>
        ex_intro _ stp (conj A (conj B (validProof_provable db WF stp proof C)))
    end).
Qed.

(* ---------------- C02 ---------------- *)
(* A well-formed proof is processed to the end, with no internal trap and no
   undefined behaviour, and is accepted exactly when it is valid. *)
Theorem C02_verify_decides : forall db k stp proof sev,
  wf_db db -> stmtAt db k stp -> s_type stp = S_p -> sev <= 2 -> wf_proof db proof ->
  exists F st ds err,
    (forall fuel, F <= fuel -> verifyProof fuel db k proof sev 0 = Ok (st, ds, err)) /\
    (st = 0 /\ ds = [] <-> validProof db stp proof).
Proof.
  exact (fun db k stp proof sev WF Hk Ht Hs Hp =>
    match verify_core db WF k stp proof sev Hk Ht Hs Hp with
    | ex_intro _ F (ex_intro _ st (ex_intro _ ds (ex_intro _ err (conj A (conj B _))))) =>
        ex_intro _ F (ex_intro _ st (ex_intro _ ds (ex_intro _ err (conj A B))))
    end).
Qed.

Theorem C02_valid_accepted : forall db k stp proof sev,
  wf_db db -> stmtAt db k stp -> s_type stp = S_p -> sev <= 2 -> validProof db stp proof ->
  exists F, forall fuel, F <= fuel -> exists err, verifyProof fuel db k proof sev 0 = Ok (0, [], err).
Proof. exact valid_accepted. Qed.

(* If every assertion used has a $f for each of its variables, whatever is
   derivable has a proof the verifier accepts. *)
Theorem C02_derivable_accepted : forall db k stp sev (uses : nat -> Prop),
  wf_db db -> stmtAt db k stp -> s_type stp = S_p -> sev <= 2 ->
  (forall n st, uses n -> stmtAt db n st -> isAssertion st -> floated db st) ->
  provable db stp uses (s_math stp) ->
  exists proof F, (forall n, In (Stm n) proof -> uses n) /\
    forall fuel, F <= fuel -> exists err, verifyProof fuel db k proof sev 0 = Ok (0, [], err).
Proof. exact derivable_accepted. Qed.

(* ---------------- C03 ---------------- *)
Theorem C03_unifier_exact : forall db k stp n ss insts step err,
  wf_db db -> stmtAt db k stp -> stmtAt db n ss -> isAssertion ss ->
  length insts = length (s_reqHyps ss) ->
  (forall i, In i insts -> ~ In (db_sep db) i) ->
  (forall i, In i insts -> i <> []) ->
  exists F result ds err',
    (forall fuel, F <= fuel -> stepCall fuel db stp ss n insts step err = Ok (result, ds, err')) /\
    ((result = [] /\ (forall sg, ~ unifier db ss insts sg) /\ err' = err + 1 /\
        (err = 0 -> ds = [DNoUnify step n])) \/
     (result <> [] /\ (forall s m, ~ In (DNoUnify s m) ds) /\ exists sg, unifier db ss insts sg /\
        result = subst (db_isvar db) sg (s_math ss) /\
        (forall t, In t (s_reqVars ss) -> ~ In (db_sep db) (sg t)))).
Proof.
  exact (fun db k stp n ss insts step err WF Hk Hn Ha Hl Hs Hne =>
    unifier_exact db WF k stp n ss insts step Hk Hn Ha Hl Hs err Hne).
Qed.

(* ---------------- C04 ---------------- *)
Theorem C04_ambiguity_detected : forall db k stp n ss insts step,
  wf_db db -> stmtAt db k stp -> stmtAt db n ss -> isAssertion ss ->
  length insts = length (s_reqHyps ss) ->
  (forall i, In i insts -> ~ In (db_sep db) i) ->
  (forall i, In i insts -> i <> []) ->
  exists F result ds err',
    (forall fuel, F <= fuel -> stepCall fuel db stp ss n insts step 0 = Ok (result, ds, err')) /\
    (In (DNotUnique step) ds <->
       exists sg sg2 t, unifier db ss insts sg /\ unifier db ss insts sg2 /\
         In t (s_reqVars ss) /\ sg t <> sg2 t).
Proof.
  exact (fun db k stp n ss insts step WF Hk Hn Ha Hl Hs Hne =>
    ambiguity_detected db WF k stp n ss insts step Hk Hn Ha Hl Hs Hne).
Qed.

(* with unknown hypotheses the step has a known result exactly when the known
   hypotheses leave only one possibility *)
Theorem C04_ambiguity_unknown : forall db k stp n ss insts step err,
  wf_db db -> stmtAt db k stp -> stmtAt db n ss -> isAssertion ss ->
  length insts = length (s_reqHyps ss) ->
  (forall i, In i insts -> ~ In (db_sep db) i) ->
  In [] insts ->
  exists F result ds err',
    (forall fuel, F <= fuel -> stepCall fuel db stp ss n insts step err = Ok (result, ds, err')) /\
    (result <> [] <->
       (forall t, In t (s_reqVars ss) -> determined db ss insts t) /\
       exists sg, punifier db ss insts sg /\
         forall sg', punifier db ss insts sg' -> forall t, In t (s_reqVars ss) -> sg' t = sg t) /\
    (result <> [] -> exists sg, punifier db ss insts sg /\
         result = subst (db_isvar db) sg (s_math ss)).
Proof.
  exact (fun db k stp n ss insts step err WF Hk Hn Ha Hl Hs Hne =>
    ambiguity_unknown db WF k stp n ss insts step Hk Hn Ha Hl Hs err Hne).
Qed.

(* ---------------- C05 ---------------- *)
(* Before the first error of the proof (afterwards messages are suppressed):
   the $d messages are exactly the violations of the unifier found. *)
Theorem C05_disj_reported : forall db k stp n ss insts step,
  wf_db db -> stmtAt db k stp -> stmtAt db n ss -> isAssertion ss ->
  length insts = length (s_reqHyps ss) ->
  (forall i, In i insts -> ~ In (db_sep db) i) ->
  (forall i, In i insts -> i <> []) ->
  (exists sg, unifier db ss insts sg) ->
  exists F result ds err' sg,
    (forall fuel, F <= fuel -> stepCall fuel db stp ss n insts step 0 = Ok (result, ds, err')) /\
    unifier db ss insts sg /\
    (forall d, isDisj d -> (In d ds <->
       violation (db_isvar db) step (s_reqDisj stp) (s_optDisj stp) (s_reqDisj ss) sg d)) /\
    ((forall d, isDisj d -> ~ In d ds) <-> disj_ok db stp ss sg).
Proof.
  exact (fun db k stp n ss insts step WF Hk Hn Ha Hl Hs Hne =>
    disj_reported db WF k stp n ss insts step Hk Hn Ha Hl Hs Hne).
Qed.

(* ---------------- C06 ---------------- *)
(* The property fails: a database with one $p whose proof breaks a $d condition;
   the error is printed and so is "All proofs in the database were verified". *)
Theorem C06_message_truthful_refuted : exists db parse,
  wf_db db /\ (forall n st, stmtAt db n st -> s_type st = S_p -> parse_ok db n (parse n)) /\
  (exists n st, stmtAt db n st /\ s_type st = S_p /\ ~ validProof db st (pr_proof (parse n))) /\
  exists F msgs, msgs <> [] /\ forall fuel, F <= fuel -> verifyProofs fuel db parse = Ok (true, msgs).
Proof. exact (ex_intro _ ex_db (ex_intro _ c06_parse c06_witness)). Qed.

(* What does hold: message printed and no error message shown => all valid. *)
Theorem C06_clean_run_truthful : forall db parse fuel,
  wf_db db -> (forall n st, stmtAt db n st -> s_type st = S_p -> parse_ok db n (parse n)) ->
  verifyProofs fuel db parse = Ok (true, []) ->
  forall n st, 1 <= n -> stmtAt db n st -> s_type st = S_p ->
    validProof db st (pr_proof (parse n)) /\
    (forall m sm, In (Stm m) (pr_proof (parse n)) -> stmtAt db m sm -> isHyp sm ->
       In m (s_reqHyps st) \/ In m (s_optHyps st)) /\
    (forall m sm, In (Stm m) (pr_proof (parse n)) -> stmtAt db m sm -> isAssertion sm -> m < n).
Proof. exact verifyProofs_clean. Qed.

(* and it is never printed after a "cannot be unified" error or for a proof with
   unknown steps *)
Theorem C06_never_after_unify_failure : forall db parse fuel msgs,
  wf_db db -> (forall n st, stmtAt db n st -> s_type st = S_p -> parse_ok db n (parse n)) ->
  verifyProofs fuel db parse = Ok (true, msgs) ->
  forall n s m, ~ In (n, DNoUnify s m) msgs.
Proof. exact verifyProofs_nounify. Qed.

(* ---------------- C07 (verifier part) ---------------- *)
Theorem C07_incomplete_not_accepted : forall fuel db k proof sev e st ds err,
  In Unk proof -> verifyProof fuel db k proof sev e = Ok (st, ds, err) -> st <> 0.
Proof. exact verify_incomplete. Qed.

(* ---------------- C08 (whole database) ---------------- *)
Theorem C08_all_follow_from_axioms : forall db parse fuel,
  wf_db db -> (forall n st, stmtAt db n st -> s_type st = S_p -> parse_ok db n (parse n)) ->
  (forall st, stmtAt db 0 st -> ~ isAssertion st) ->
  verifyProofs fuel db parse = Ok (true, []) ->
  forall n st, stmtAt db n st -> isAssertion st -> entailed db n.
Proof. exact verifyProofs_entailed. Qed.

(* ---------------- examples ---------------- *)
(* |- 0 + 0 = 0 + 0 is accepted *)
Example ex_accept : verifyProof 200 ex_db 7 [Stm 3; Stm 3; Stm 4; Stm 5] 0 0 = Ok (0, [], 0).
Proof. vm_compute. reflexivity. Qed.
(* the same with the repeated subproof as a local label *)
Example ex_accept_local : verifyProof 200 ex_db 7 [Stm 3; Loc 0; Stm 4; Stm 5] 0 0 = Ok (0, [], 0).
Proof. vm_compute. reflexivity. Qed.
(* wrong result *)
Example ex_mismatch : verifyProof 200 ex_db 7 [Stm 3; Stm 5] 0 0 = Ok (0, [DMismatch 1], 1).
Proof. vm_compute. reflexivity. Qed.
(* C01, C02 on that instance *)
Example ex_C01 : exists stp, stmtAt ex_db 7 stp /\ s_type stp = S_p /\
  provable ex_db stp (fun n => In (Stm n) [Stm 3; Loc 0; Stm 4; Stm 5]) (s_math stp).
Proof.
  eapply C01_verify_sound; [apply ex_db_wf| |apply ex_accept_local].
  intros [|[|[|[|[|j]]]]] i; simpl; intros E; inversion E; auto.
Qed.
Example ex_C02_wf : wf_proof ex_db [Stm 3; Loc 0; Stm 4; Stm 5].
Proof. split; [vm_compute; reflexivity|]. intros [|[|[|[|[|j]]]]] i; simpl; intros E; inversion E; auto. Qed.
Example ex_C02_floated : forall n st, n <> 10 -> stmtAt ex_db n st -> isAssertion st -> floated ex_db st.
Proof.
  intros n st Hn Hs Ha t Ht.
  do 11 (destruct n as [|n]; [unfold stmtAt in Hs; simpl in Hs; injection Hs as <-;
    destruct Ha as [Ha|Ha]; try discriminate Ha; simpl in Ht;
    try (exfalso; apply Hn; reflexivity);
    repeat (destruct Ht as [<-|Ht];
      [first [exists 1; eexists; exists 7; split; [simpl; auto|]; split; [reflexivity|]; split; reflexivity
             |exists 2; eexists; exists 7; split; [simpl; auto|]; split; [reflexivity|]; split; reflexivity]|]);
    destruct Ht|]).
  unfold stmtAt in Hs. simpl in Hs. destruct n; discriminate.
Qed.
(* unknown step *)
Example ex_C07 : verifyProof 200 ex_db 7 [Unk; Unk; Stm 4; Stm 5] 1 0 = Ok (1, [], 0).
Proof. vm_compute. reflexivity. Qed.
(* $d violation and missing-$d messages *)
Example ex_C05_common : stepCall 200 ex_db (nth 8 ex_stmts (mkStmt S_other [] [] [] [] [] []))
   (nth 6 ex_stmts (mkStmt S_other [] [] [] [] [] [])) 6 [[7; 1]; [7; 1; 4; 2]] 3 0
  = Ok ([6; 1; 5; 1; 4; 2], [DDisjCommon 3 1 2 1; DDisjMissing 3 1 2 1 2], 0).
Proof. vm_compute. reflexivity. Qed.
(* ambiguity: hypothesis |- t = r against |- 0 = 0 = 0 *)
Example ex_C04 : stepCall 200 ex_db (nth 8 ex_stmts (mkStmt S_other [] [] [] [] [] []))
   (nth 10 ex_stmts (mkStmt S_other [] [] [] [] [] [])) 10 [[6; 3; 5; 3; 5; 3]] 3 0
  = Ok ([6; 3; 5; 3; 5; 3], [DNotUnique 3], 1).
Proof. vm_compute. reflexivity. Qed.
(* a whole database verified cleanly *)
Definition ok_parse (n : nat) : parsed :=
  if n =? 8 then mkParsed 0 [Stm 1; Stm 5] 0 0
  else mkParsed 0 [Stm 3; Stm 3; Stm 4; Stm 5] 0 0.
Example ex_C08_run : verifyProofs 200 ex_db ok_parse = Ok (true, []).
Proof. vm_compute. reflexivity. Qed.

Example ex_C08 : forall n st, stmtAt ex_db n st -> isAssertion st -> entailed ex_db n.
Proof.
  apply (C08_all_follow_from_axioms ex_db ok_parse 200 ex_db_wf).
  - intros n st Hs Ht. apply (parse_okB_ok _ _ _ st Hs).
    destruct (ex_stmt_p _ _ Hs Ht) as [[-> ->]|[-> ->]]; reflexivity.
  - intros st Hs. injection Hs as <-. intros [H|H]; discriminate.
  - exact ex_C08_run.
Qed.

Print Assumptions C01_verify_sound.
Print Assumptions C02_verify_decides.
Print Assumptions C02_valid_accepted.
Print Assumptions C02_derivable_accepted.
Print Assumptions C03_unifier_exact.
Print Assumptions C04_ambiguity_detected.
Print Assumptions C04_ambiguity_unknown.
Print Assumptions C05_disj_reported.
Print Assumptions C06_message_truthful_refuted.
Print Assumptions C06_clean_run_truthful.
Print Assumptions C06_never_after_unify_failure.
Print Assumptions C07_incomplete_not_accepted.
Print Assumptions C08_all_follow_from_axioms.
