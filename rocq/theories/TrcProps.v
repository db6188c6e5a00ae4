(* TrcProps.v -- SHOW USAGE and SHOW TRACE_BACK (C37). *)
From Coq Require Import Relations String.
From Verif Require Import Base MMSpec VerModel VerSpec VerProofs VerExample TokModel ParModel ParSpec CmpSpec ParExample SqModel SqSpec
  TrcModel TrcSpec TrcProofs TrcWork TrcText.
Open Scope nat_scope.

(* SHOW USAGE / RECURSIVE: for every statement s, exactly the theorems that depend
   on s are marked (up to statement number c, when a cut-off c is given).  Entry 0
   tells whether there is any.  No crash, no internal error. *)
Theorem C37_usage_recursive : forall e s c,
  wf_tenv e -> s < List.length (db_stmts (t_db e)) -> c <= nstm (t_db e) ->
  exists fl, traceUsage e s true c = Ok fl /\ List.length fl = S (nstm (t_db e)) /\
    (forall n, n <= nstm (t_db e) -> nth_error fl n = Some 89 \/ nth_error fl n = Some 78) /\
    (forall n, 0 < n -> (marked fl n <-> dependsOn e n s /\ (c = 0 \/ n <= c))) /\
    (marked fl 0 <-> exists n, dependsOn e n s /\ (c = 0 \/ n <= c)).
Proof. exact usage_recursive. Qed.

(* SHOW USAGE without / RECURSIVE never marks a theorem whose proof does not refer
   to s, ... *)
Theorem C37_usage_direct_sound : forall e s c fl, traceUsage e s false c = Ok fl ->
  forall n, 0 < n -> marked fl n -> uses e n s.
Proof. exact usage_direct_sound. Qed.
(* ... is exact for a hypothesis s, whatever the proofs' texts, ... *)
Theorem C37_usage_direct_hypothesis : forall e s c,
  wf_tenv e -> s < List.length (db_stmts (t_db e)) -> c <= nstm (t_db e) ->
  (forall st, stmtAt (t_db e) s st -> isHyp st) ->
  exists fl, traceUsage e s false c = Ok fl /\
    forall n, 0 < n -> (marked fl n <-> uses e n s /\ (c = 0 \/ n <= c)).
Proof.
  exact (fun e s c W HS HC HH =>
    match usage_direct e s c W HS HC (fun st n Ss NH _ => False_ind _ (NH (HH st Ss))) with
    | ex_intro _ fl (conj A (conj _ (conj _ (conj D _)))) => ex_intro _ fl (conj A D)
    end).
Qed.
(* ... and for every labelled statement when the proofs contain no comments. *)
Theorem C37_usage_direct_partial : forall env e s c,
  wf_tenv e -> fromTexts env e -> plainTexts e ->
  s < List.length (db_stmts (t_db e)) -> c <= nstm (t_db e) ->
  (forall st, stmtAt (t_db e) s st -> isHyp st \/ isAssertion st) ->
  exists fl, traceUsage e s false c = Ok fl /\ List.length fl = S (nstm (t_db e)) /\
    (forall n, n <= nstm (t_db e) -> nth_error fl n = Some 89 \/ nth_error fl n = Some 78) /\
    (forall n, 0 < n -> (marked fl n <-> uses e n s /\ (c = 0 \/ n <= c))) /\
    (marked fl 0 <-> exists n, uses e n s /\ (c = 0 \/ n <= c)).
Proof. exact direct_texts. Qed.

(* the hypotheses of these theorems hold for what READ and parseProof leave *)
Theorem C37_readable_database : forall env e, wf_db (t_db e) -> fromTexts env e ->
  (forall n st h, stmtAt (t_db e) n st -> s_type st = S_p -> In h (s_reqHyps st) \/ In h (s_optHyps st) -> h < n) ->
  (forall st, stmtAt (t_db e) 0 st -> s_type st = S_other) -> wf_tenv e.
Proof. exact fromTexts_wf. Qed.

(* SHOW TRACE_BACK: exactly the $a and $p statements the theorem depends on (with
   /ESSENTIAL: through steps proving essential hypotheses only; with /TO: those that
   match, or lead to a matching statement), and the traced theorems whose proofs
   have unknown steps. *)
Theorem C37_trace_back : forall e s ess to fuel, wf_tenv e -> theorem e s -> nstm (t_db e) < fuel ->
  exists fl un, traceProofWork fuel e s ess to = Ok (fl, un) /\ List.length fl = S (nstm (t_db e)) /\
    (forall n, n <= nstm (t_db e) -> nth_error fl n = Some 89 \/ nth_error fl n = Some 78) /\
    (forall n, marked fl n <-> n = s \/ (tracesTo ess e s n /\ wanted e to n)) /\
    (forall n, In n un <-> marked fl n /\ unknownIn ess e n) /\ NoDup un.
Proof. exact traceWork_ok. Qed.

(* what is listed: in increasing order, those that match the /MATCH list, only $a
   with /AXIOMS; the answer of the test mode is the same *)
Theorem C37_trace_back_listed : forall e s ess ax mt to fuel,
  wf_tenv e -> theorem e s -> nstm (t_db e) < fuel ->
  exists found lst un, traceProof fuel e s ess ax false mt to = Ok (found, lst, un) /\
    traceProof fuel e s ess ax true mt to = Ok (found, [], []) /\
    (forall n, In n lst <-> tracesTo ess e s n /\ wanted e to n /\
       match mt with None => True | Some f => f n = true end /\
       (ax = true -> exists st, stmtAt (t_db e) n st /\ s_type st = S_a)) /\
    (forall i j a b, i < j -> nth_error lst i = Some a -> nth_error lst j = Some b -> a < b) /\
    (found = true <-> exists n, tracesTo ess e s n /\ wanted e to n /\
       match mt with None => True | Some f => f n = true end) /\
    (forall n, In n un <-> (n = s \/ (tracesTo ess e s n /\ wanted e to n)) /\ unknownIn ess e n) /\ NoDup un.
Proof. exact traceProof_ok. Qed.

(* ---------------- a concrete database ---------------- *)
(* 1 wa $f; 2 ax $a; theorems 3 th1 (from ax), 4 th2 (from th1), 5 th3 (from th1,
   compressed, with a comment before th2, which it also uses), 6 th4 with a proof
   that is not readable, 7 th5 incomplete *)
Definition tr_db : dbase := mkDb (fun t => t =? 1) 9 [
  mkStmt S_other [] [] [] [] [] [];
  mkStmt S_f [2; 1] [] [] [] [] [];
  mkStmt S_a [3; 1] [1] [] [1] [] [];
  mkStmt S_p [3; 1] [1] [] [1] [] [];
  mkStmt S_p [3; 1] [1] [] [1] [] [];
  mkStmt S_p [3; 1] [1] [] [1] [] [];
  mkStmt S_p [3; 1] [1] [] [1] [] [];
  mkStmt S_p [3; 1] [1] [] [1] [] [] ].
Definition tr_name (n : nat) : list nat :=
  codes (match n with 1 => "wa" | 2 => "ax" | 3 => "th1" | 4 => "th2" | 5 => "th3" | 6 => "th4" | 7 => "th5" | _ => "" end)%string.
Definition tr_text (t5 t6 : string) (n : nat) : list nat * list nat :=
  (codes (match n with 3 => " wa ax " | 4 => " wa th1 " | 5 => t5 | 6 => t6 | 7 => " ? th1 " | _ => "" end)%string,
   codes " $. "%string).
Definition tr_end (sec : list nat) : list nat * list nat := (sec, 36 :: 46 :: [10]).
Definition tr_texts (t5 t6 : string) (n : nat) : list nat * list nat := tr_end (fst (tr_text t5 t6 n)).
Definition tr_parse (k6 e6 : nat) (n : nat) : parsed :=
  match n with
  | 3 => mkParsed 0 [Stm 1; Stm 2] 0 0
  | 4 => mkParsed 0 [Stm 1; Stm 3] 0 0
  | 5 => mkParsed 0 [Stm 1; Stm 4] 0 0
  | 6 => mkParsed k6 [] k6 e6
  | 7 => mkParsed 1 [Unk; Stm 3] 1 0
  | _ => mkParsed 4 [] 4 0
  end.
Definition tr_env (t5 t6 : string) (k6 e6 : nat) : tenv :=
  mkTenv tr_db tr_name (tr_parse k6 e6) (tr_texts t5 t6).
Lemma tr_wf_db : wf_db tr_db.
Proof. apply wf_dbB_ok. vm_compute. reflexivity. Qed.
Lemma tr_wf_env : wf_env (stdEnv tr_db tr_name).
Proof. apply stdEnv_wf. vm_compute. reflexivity. Qed.

Lemma tr_cases n st : stmtAt tr_db n st -> s_type st = S_p -> n = 3 \/ n = 4 \/ n = 5 \/ n = 6 \/ n = 7.
Proof.
  unfold stmtAt, tr_db. intros S P.
  do 8 (destruct n as [|n]; [cbn in S; injection S as <-; try discriminate P; lia|]). destruct n; discriminate S.
Qed.
Lemma tr_from t5 t6 k6 e6 zs5 zs6 :
  (let sec := fst (tr_texts t5 t6 5) in exists st, nth_error (db_stmts tr_db) 5 = Some st /\
     parseText 40 (stdEnv tr_db tr_name) 5 (wrkMax 0 st sec) sec [36; 46; 10] = Ok (Some (0, zs5, 0))) ->
  decodes zs5 [Stm 1; Stm 4] ->
  (let sec := fst (tr_texts t5 t6 6) in exists st, nth_error (db_stmts tr_db) 6 = Some st /\
     parseText 40 (stdEnv tr_db tr_name) 6 (wrkMax 0 st sec) sec [36; 46; 10] = Ok (Some (k6, zs6, e6))) ->
  1 < k6 -> fromTexts (stdEnv tr_db tr_name) (tr_env t5 t6 k6 e6).
Proof.
  intros H5 D5 H6 K6. split; [exact tr_wf_env|]. split; [reflexivity|]. split; [reflexivity|]. split.
  - intros n [st [S A]]. unfold stmtAt in S. cbn [tr_env t_db tr_db db_stmts] in S.
    do 8 (destruct n as [|n]; [vm_compute; try discriminate; cbn in S; injection S as <-; destruct A; discriminate|]).
    destruct n; discriminate S.
  - intros n st S P. destruct (tr_cases n st S P) as [ -> |[ -> |[ -> |[ -> | -> ]]]].
    + exists 40, 0, 0, [1; 2]%Z, 0. unfold stmtAt in S. cbn in S. injection S as <-.
      split; [vm_compute; reflexivity|]. split; [reflexivity|]. split; [reflexivity|]. split; [reflexivity|]. intros _. reflexivity.
    + exists 40, 0, 0, [1; 3]%Z, 0. unfold stmtAt in S. cbn in S. injection S as <-.
      split; [vm_compute; reflexivity|]. split; [reflexivity|]. split; [reflexivity|]. split; [reflexivity|]. intros _. reflexivity.
    + destruct H5 as [st' [S' H5]]. unfold stmtAt in S. cbn [stdEnv e_db] in S. rewrite S' in S. injection S as ->.
      exists 40, 0, 0, zs5, 0. split; [exact H5|]. split; [reflexivity|]. split; [reflexivity|]. split; [reflexivity|]. intros _. exact D5.
    + destruct H6 as [st' [S' H6]]. unfold stmtAt in S. cbn [stdEnv e_db] in S. rewrite S' in S. injection S as ->.
      exists 40, 0, k6, zs6, e6. split; [exact H6|]. split; [reflexivity|]. split; [reflexivity|]. split; [reflexivity|].
      intros Q. lia.
    + exists 40, 0, 1, [-63; 3]%Z, 0. unfold stmtAt in S. cbn in S. injection S as <-.
      split; [vm_compute; reflexivity|]. split; [reflexivity|]. split; [reflexivity|]. split; [reflexivity|]. intros _. reflexivity.
Qed.
Lemma tr_wf t5 t6 k6 e6 : fromTexts (stdEnv tr_db tr_name) (tr_env t5 t6 k6 e6) -> wf_tenv (tr_env t5 t6 k6 e6).
Proof.
  intros H. apply (C37_readable_database _ (tr_env t5 t6 k6 e6) tr_wf_db H).
  - intros n st h S P Hh. destruct (tr_cases n st S P) as [ -> |[ -> |[ -> |[ -> | -> ]]]];
      unfold stmtAt in S; cbn in S; injection S as <-; cbn in Hh; destruct Hh as [[ <- |[]]|[]]; lia.
  - intros st S. unfold stmtAt in S. cbn in S. injection S as <-. reflexivity.
Qed.

(* comment-free texts; 6 is not readable *)
Definition tr1 : tenv := tr_env " ( th2 ) AB " " ( th1 ) B " 3 3.
Lemma tr1_from : fromTexts (stdEnv tr_db tr_name) tr1.
Proof.
  apply (tr_from _ _ _ _ [1; 4]%Z [1]%Z); [eexists; split; [reflexivity|vm_compute; reflexivity]|reflexivity| |lia].
  eexists. split; [reflexivity|]. vm_compute. reflexivity.
Qed.
Lemma tr1_plain : plainTexts tr1.
Proof.
  intros n [st [S P]]. destruct (tr_cases n st S P) as [ -> |[ -> |[ -> |[ -> | -> ]]]]; cbn;
    (split; [intros H; repeat (destruct H as [H|H]; [discriminate H|]); exact H|]);
    (split; [|eexists; reflexivity]); intros H; auto 20; repeat (destruct H as [H|H]; [discriminate H|]); destruct H.
Qed.
Definition tr1_wf : wf_tenv tr1 := tr_wf _ _ _ _ tr1_from.
Example ex_C37_recursive := C37_usage_recursive tr1 2 0 tr1_wf ltac:(vm_compute; lia) ltac:(lia).
Example ex_C37_recursive_run : traceUsage tr1 2 true 0 = Ok (codes "YNNYYYNY").
Proof. vm_compute. reflexivity. Qed.
Example ex_C37_direct := C37_usage_direct_partial _ tr1 3 0 tr1_wf tr1_from tr1_plain ltac:(vm_compute; lia) ltac:(lia)
  ltac:(intros st S; unfold stmtAt in S; cbn in S; injection S as <-; right; right; reflexivity).
Example ex_C37_direct_run : traceUsage tr1 3 false 0 = Ok (codes "YNNNYNNY").
Proof. vm_compute. reflexivity. Qed.
Example ex_C37_hypothesis_run : traceUsage tr1 1 false 0 = Ok (codes "YNNYYYNN").
Proof. vm_compute. reflexivity. Qed.
Example ex_C37_back := C37_trace_back tr1 5 false (Some (fun n => n =? 3)) 20 tr1_wf
  ltac:(eexists; split; reflexivity) ltac:(vm_compute; lia).
Example ex_C37_back_run :
  traceProofWork 20 tr1 5 false None = Ok (codes "NNYYYYNN", []) /\
  traceProofWork 20 tr1 5 false (Some (fun n => n =? 3)) = Ok (codes "NNNYYYNN", []) /\
  traceProofWork 20 tr1 7 false None = Ok (codes "NNYYNNNY", [7]) /\
  traceProofWork 20 tr1 7 true None = Ok (codes "NNYYNNNY", []) /\
  traceProof 20 tr1 5 false true false None None = Ok (true, [2], []).
Proof. vm_compute. auto. Qed.

(* ---------------- where it fails ---------------- *)
(* SHOW USAGE without / RECURSIVE overlooks a theorem: a comment containing ')' in
   the label list of a compressed proof hides the labels after it. *)
Theorem C37_usage_direct_refuted : exists env e s n fl,
  wf_tenv e /\ fromTexts env e /\ 0 < n /\ uses e n s /\
  traceUsage e s false 0 = Ok fl /\ ~ marked fl n.
Proof.
  exists (stdEnv tr_db tr_name), (tr_env " ( ax $( (see th1) $) th2 ) AC " " ( th1 ) B " 3 3), 4, 5.
  assert (F : fromTexts (stdEnv tr_db tr_name) (tr_env " ( ax $( (see th1) $) th2 ) AC " " ( th1 ) B " 3 3)).
  { apply (tr_from _ _ _ _ [1; 4]%Z [1]%Z); [eexists; split; [reflexivity|vm_compute; reflexivity]|reflexivity| |lia].
    eexists. split; [reflexivity|]. vm_compute. reflexivity. }
  eexists. split; [apply tr_wf; exact F|]. split; [exact F|]. split; [lia|]. split.
  - split; [eexists; split; reflexivity|]. split; [cbn; unfold readable; cbn; lia|]. cbn. auto.
  - split; [vm_compute; reflexivity|]. discriminate.
Qed.
(* A compressed proof whose ')' is missing (an error when the proof is parsed, which
   SHOW USAGE should ignore) stops it with "internal bug 217" when no ')' follows in
   the file. *)
Theorem C37_usage_bug_refuted : exists env e s,
  wf_tenv e /\ fromTexts env e /\ traceUsage e s false 0 = Bug 217.
Proof.
  exists (stdEnv tr_db tr_name), (tr_env " ( th2 ) AB " " ( th1 " 3 2), 2.
  assert (F : fromTexts (stdEnv tr_db tr_name) (tr_env " ( th2 ) AB " " ( th1 " 3 2)).
  { apply (tr_from _ _ _ _ [1; 4]%Z [-63]%Z); [eexists; split; [reflexivity|vm_compute; reflexivity]|reflexivity| |lia].
    eexists. split; [reflexivity|]. vm_compute. reflexivity. }
  split; [apply tr_wf; exact F|]. split; [exact F|]. vm_compute. reflexivity.
Qed.

(* SHOW TRACE_BACK / ESSENTIAL depends on how the proof is stored: after packing, a
   subproof shared between a $f and a $e hypothesis is not followed any more. *)
Definition es_db : dbase := mkDb (fun t => t =? 1) 9 [
  mkStmt S_other [] [] [] [] [] [];
  mkStmt S_f [2; 1] [] [] [] [] [];                      (* 1 $f wff a *)
  mkStmt S_a [2; 4] [] [] [] [] [];                      (* 2 $a wff 0 *)
  mkStmt S_a [2; 5; 1] [1] [] [1] [] [];                 (* 3 $a wff - a *)
  mkStmt S_e [2; 1] [] [] [] [] [];                      (* 4 $e wff a *)
  mkStmt S_a [3; 1] [1; 4] [] [1] [] [];                 (* 5 $a |- a *)
  mkStmt S_p [3; 5; 4] [] [1] [] [] [] ].                (* 6 $p |- - 0 *)
Definition es_tenv (p : list pstep) : tenv :=
  mkTenv es_db (fun _ => []) (fun n => if n =? 6 then mkParsed 0 p 0 0 else mkParsed 4 [] 4 0) (fun _ => ([], [])).
Theorem C37_essential_packed_refuted : exists e1 e2 s m p q st,
  wf_db (t_db e1) /\ t_db e2 = t_db e1 /\ stmtAt (t_db e1) s st /\ s_type st = S_p /\
  pr_proof (t_parse e1 s) = p /\ pr_proof (t_parse e2 s) = q /\
  verifyProof 100 (t_db e1) s p 0 0 = Ok (0, [], 0) /\ verifyProof 100 (t_db e1) s q 0 0 = Ok (0, [], 0) /\
  squishProof (t_db e1) (map encStep p) = Ok (map encStep q) /\
  exists f1 f2, traceProofWork 20 e1 s true None = Ok (f1, []) /\ traceProofWork 20 e2 s true None = Ok (f2, []) /\
    marked f1 m /\ ~ marked f2 m.
Proof.
  exists (es_tenv [Stm 2; Stm 3; Stm 2; Stm 3; Stm 5]), (es_tenv [Stm 2; Stm 3; Loc 1; Stm 5]), 6, 3. do 3 eexists.
  split; [apply wf_dbB_ok; vm_compute; reflexivity|]. split; [reflexivity|]. split; [reflexivity|]. split; [reflexivity|].
  split; [reflexivity|]. split; [reflexivity|].
  split; [vm_compute; reflexivity|]. split; [vm_compute; reflexivity|]. split; [vm_compute; reflexivity|].
  do 2 eexists. split; [vm_compute; reflexivity|]. split; [vm_compute; reflexivity|].
  split; [reflexivity|]. discriminate.
Qed.

Print Assumptions C37_usage_recursive.
Print Assumptions C37_usage_direct_sound.
Print Assumptions C37_usage_direct_hypothesis.
Print Assumptions C37_usage_direct_partial.
Print Assumptions C37_readable_database.
Print Assumptions C37_trace_back.
Print Assumptions C37_trace_back_listed.
Print Assumptions C37_usage_direct_refuted.
Print Assumptions C37_usage_bug_refuted.
Print Assumptions C37_essential_packed_refuted.
