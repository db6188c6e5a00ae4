(* ArgProps.v -- C73: the step and statement arguments of MM-PA commands. *)
From Coq Require Import NArith String.
From Verif Require Import Base VerModel VerSpec VerExample ParModel SqSpec SqModel SqAttr VstrSpec VstrProps
  LabModel LabSpec MatchModel MatchSpec MatchProps FatlSpec ArgModel ArgSpec ArgStmt ArgMain.
Open Scope nat_scope.

(* ---------------- the step argument ---------------- *)
(* For every proof being built (T its tree, l its unknown essential steps in order) and
   every text of at most 15 characters (so that the numbers are exact as doubles): if it
   can be read as nn, FIRST, LAST, +nn, -nn or ALL, it stands for that step, and -1 if
   there is no such step; if it cannot be read, -1.  An error message is printed exactly
   in the cases with -1. *)
Theorem C73_step_argument : forall db T fuel s all l, wf_db db -> wfTree db T -> legalCodes (rpn T) -> List.length (rpn T) <= fuel ->
  isStr s -> List.length s <= 15 -> unknowns db T l ->
  exists r msg, getStepNum fuel db s (rpn T) all = Ok (r, msg) /\ (msg = SM_none <-> r <> (-1)%Z) /\
    (forall a, reads s a -> r = match designates (List.length (rpn T)) l all a with Some k => Z.of_nat k | None => (-1)%Z end) /\
    ((forall a, ~ reads s a) -> r = (-1)%Z).
Proof. exact step_main. Qed.
(* no text has two readings *)
Theorem C73_one_reading : forall s a b, reads s a -> reads s b -> a = b.
Proof. exact ArgStr.reads_det. Qed.
(* The offsets of SHOW NEW_PROOF / UNKNOWN: known and inessential steps keep their number;
   an unknown essential step gets an offset 0, -1, ... and this, typed as the step of a
   command, designates that step. *)
Theorem C73_shown_offsets : forall db T fuel, wf_db db -> wfTree db T -> legalCodes (rpn T) -> List.length (rpn T) <= fuel ->
  exists rs, getRelStepNums fuel db (rpn T) = Ok rs /\ List.length rs = List.length (rpn T) /\
    forall k, k < List.length (rpn T) ->
      (~ unknownEss db T k /\ nth_error rs k = Some (Z.of_nat (S k))) \/
      (unknownEss db T k /\ exists j, nth_error rs k = Some (- Z.of_nat j)%Z /\
         forall d all, isDecimal (N.of_nat j) d -> List.length d <= 14 ->
           getStepNum fuel db (45 :: d) (rpn T) all = Ok (Z.of_nat (S k), SM_none)).
Proof. exact rel_main. Qed.

(* ---------------- the statement argument ---------------- *)
(* For every database read without label errors, name or list of patterns, range and
   wanted kinds: with uniqueFlag the result is the one candidate, if there is exactly one,
   and otherwise -1 with a message that is true; without uniqueFlag it is the first
   candidate.  Bugs 247 and 248 do not happen. *)
Theorem C73_statement_argument : forall fuel env hyps fl name start maxS,
  env_ok env -> isStr name -> labels_ok env fuel name ->
  (g_efOnly fl = true -> maxS <= List.length (e_stmts env)) -> 1 <= start ->
  let w := wantedOf fl in
  let cand := candidate fuel env hyps w name start maxS in
  exists z msg, getStatementNum fuel env hyps name start maxS fl = Ok (z, msg) /\
   (g_unique fl = true ->
       (exists k, cand k /\ (forall j, cand j -> j = k) /\ z = Z.of_nat k /\ msg = GM_none) \/
       (~ (exists k, cand k /\ forall j, cand j -> j = k) /\ z = (-1)%Z /\ msg <> GM_none /\
        (msg = GM_earlier -> (forall k, ~ cand k) /\ exists k, maxS <= k /\ start <= k /\ fits fuel env hyps w name maxS k) /\
        (msg = GM_notHyp \/ msg = GM_noAP -> forall k, start <= k -> ~ fits fuel env hyps w name maxS k) /\
        (msg = GM_noP \/ msg = GM_noLabel -> forall k, ~ cand k) /\
        (forall n a b, msg = GM_unique n a b -> exists j k, j < k /\ cand j /\ cand k /\ labelled env j a /\ labelled env k b))) /\
    (g_unique fl = false ->
       (exists k, cand k /\ (forall j, cand j -> k <= j) /\ z = Z.of_nat k) \/ ((forall k, ~ cand k) /\ z = (-1)%Z)).
Proof. exact getStmt_ok. Qed.

(* ---------------- examples ---------------- *)
Definition exA_stmts : list stmtRec := [
  mkStmt S_other [] [] [] [] [] [];
  mkStmt S_f [7; 1] [] [] [] [] [];                                   (* 1 $f wff P *)
  mkStmt S_f [7; 2] [] [] [] [] [];                                   (* 2 $f wff Q *)
  mkStmt S_e [6; 1] [] [] [] [] [];                                   (* 3 $e |- P *)
  mkStmt S_e [6; 3; 1; 2] [] [] [] [] [];                             (* 4 $e |- -> P Q *)
  mkStmt S_a [6; 2] [1; 2; 3; 4] [] [1; 2] [] []].                    (* 5 $a |- Q *)
Definition exA_db : dbase := mkDb (fun t => (t =? 1) || (t =? 2)) 20 exA_stmts.
Definition exA_T : tree := Node 5 [Node (-63) []; Node 2 []; Node (-63) []; Node (-63) []].
Lemma exA_wf : wf_db exA_db. Proof. apply wf_dbB_ok. vm_compute. reflexivity. Qed.
Lemma exA_tree : wfTree exA_db exA_T.
Proof. repeat (constructor; try reflexivity). Qed.
Lemma exA_legal : legalCodes (rpn exA_T).
Proof. intros z H. cbn in H. unfold ParModel.zUnk. intuition lia. Qed.
Example C73_example_step :
  getStepNum 5 exA_db (chars "first") (rpn exA_T) false = Ok (3%Z, SM_none) /\
  getStepNum 5 exA_db (chars "La") (rpn exA_T) false = Ok (4%Z, SM_none) /\
  getStepNum 5 exA_db (chars "-1") (rpn exA_T) false = Ok (3%Z, SM_none) /\
  getStepNum 5 exA_db (chars "+1") (rpn exA_T) false = Ok (4%Z, SM_none) /\
  getStepNum 5 exA_db (chars "-2") (rpn exA_T) false = Ok ((-1)%Z, SM_notEnough 3) /\
  getStepNum 5 exA_db (chars "5") (rpn exA_T) false = Ok (5%Z, SM_none) /\
  getStepNum 5 exA_db (chars "6") (rpn exA_T) false = Ok ((-1)%Z, SM_range 5) /\
  getStepNum 5 exA_db (chars "a") (rpn exA_T) true = Ok (0%Z, SM_none) /\
  getStepNum 5 exA_db (chars "a") (rpn exA_T) false = Ok ((-1)%Z, SM_noAll) /\
  getStepNum 5 exA_db (chars "+-1") (rpn exA_T) false = Ok ((-1)%Z, SM_notEnough 0) /\
  getStepNum 5 exA_db [] (rpn exA_T) false = Ok (3%Z, SM_none) /\
  getRelStepNums 5 exA_db (rpn exA_T) = Ok [1; 2; -1; 0; 5]%Z.
Proof. vm_compute. repeat split; reflexivity. Qed.
Example C73_example_hyps := fun s H1 H2 l => C73_step_argument exA_db exA_T 5 s false l exA_wf exA_tree exA_legal ltac:(cbn; lia) H1 H2.
Example C73_example_unknowns : exists l, unknowns exA_db exA_T l.
Proof. eexists. apply (ArgProofs.unknowns_ok exA_db exA_T exA_tree). Qed.
Example C73_example_reads : reads (chars "La") (ABack 0) /\ reads (chars "-12") (ABack 12) /\ reads (chars "7") (AStep 7) /\ forall a, ~ reads (chars "07") a.
Proof.
  split; [apply rd_last; [discriminate|exists [83; 84]; reflexivity]|].
  split; [apply (rd_minus [49; 50]); repeat split; try discriminate; repeat constructor; lia|].
  split; [apply rd_num; repeat split; try discriminate; repeat constructor; lia|].
  intros a R. inversion R as [s n D|s [r A]|s _ [r A]|s n D|s n D|s _ [r A]]; subst; try discriminate A.
  destruct D as (_ & _ & _ & D). specialize (D eq_refl). discriminate D.
Qed.

(* wp $f (2), wi $a (3), ax-1 $a (4), a1i $p (5): ASSIGN in the proof of a1i *)
Definition exG : gflags := Build_gflags true true true true true true.
Example C73_example_statement :
  getStatementNum 1000 exEnv (fun m => if m =? 5 then [2] else []) (chars "wi") 1 5 exG = Ok (3%Z, GM_none) /\
  getStatementNum 1000 exEnv (fun m => if m =? 5 then [2] else []) (chars "ax-?") 1 5 exG = Ok (4%Z, GM_none) /\
  getStatementNum 1000 exEnv (fun m => if m =? 5 then [2] else []) (chars "w*") 1 5 exG = Ok ((-1)%Z, GM_unique 2 (chars "wp") (chars "wi")) /\
  getStatementNum 1000 exEnv (fun m => []) (chars "w*") 1 5 exG = Ok (3%Z, GM_none) /\
  getStatementNum 1000 exEnv (fun m => []) (chars "a1i") 1 5 exG = Ok ((-1)%Z, GM_earlier) /\
  getStatementNum 1000 exEnv (fun m => []) (chars "xyz") 1 5 exG = Ok ((-1)%Z, GM_notHyp).
Proof. vm_compute. repeat split; reflexivity. Qed.
Example C73_example_statement_hyps := C73_statement_argument 1000 exEnv (fun m => [2]) exG (chars "w*") 1 5 (proj1 C16_example)
  ltac:(repeat constructor; cbn; lia)
  ltac:(intros s H; cbn in H; repeat (destruct H as [<-|H]; [cbn; split; [repeat constructor; lia|split; [intuition lia|lia]]|]); destruct H)
  ltac:(intros _; cbn; lia) (le_n 1).

Print Assumptions C73_step_argument.
Print Assumptions C73_one_reading.
Print Assumptions C73_shown_offsets.
Print Assumptions C73_statement_argument.
