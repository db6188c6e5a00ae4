(* SrcProps.v -- C38 (writing back), C46 (file clean-up), C47 (statement array),
   C48 (structure of a source read without errors). *)
From Verif Require Import Base TokModel LabModel SrcModel TokSpec SrcSpec SrcProofs SrcFinal.
Open Scope nat_scope.

(* ---- C46 ---- *)
(* A file that does not start with the UTF-16 mark: its text is its lines with
   CR LF and CR as line ends, and a last line end is added if missing. *)
Theorem C46_file_text : forall bytes,
  bytes <> [] -> (forall r, bytes <> 255 :: 254 :: r) ->
  exists t u, readFile bytes = Ok (Some t) /\ lines bytes u /\ ~ In 13 t /\
    (exists p, t = p ++ [10]) /\ (t = u \/ t = u ++ [10] /\ ~ exists p, u = p ++ [10]).
Proof. exact c46_file_text. Qed.
Print Assumptions C46_file_text.
(* the meaning of line ends is a function: [lines] relates a text to one text *)
Theorem C46_lines_unique : forall l t u, lines l t -> lines l u -> u = t.
Proof. exact c46_lines_unique. Qed.
Print Assumptions C46_lines_unique.
(* Unix text is unchanged *)
Theorem C46_unix_text_unchanged : forall p,
  ~ In 13 p -> (forall r, p ++ [10] <> 255 :: 254 :: r) -> readFile (p ++ [10]) = Ok (Some (p ++ [10])).
Proof. exact c46_unix_text_unchanged. Qed.
Print Assumptions C46_unix_text_unchanged.
(* an empty file makes the code read the byte before its buffer *)
Theorem C46_empty_file_ub_refuted : readFile [] = UB /\ readFile [255; 254] = UB.
Proof. exact c46_empty_file_ub_refuted. Qed.
Print Assumptions C46_empty_file_ub_refuted.
Example C46_example : readFile [97; 13; 10; 98; 13; 99] = Ok (Some [97; 10; 98; 10; 99; 10]).
Proof. reflexivity. Qed.
Example C46_utf16_example : readFile [255; 254; 97; 0; 13; 0; 10; 0] = Ok (Some [97; 10]).
Proof. reflexivity. Qed.

(* ---- C38 ---- *)
Theorem C38_write_source_reproduces : forall src es st dummy,
  readSource src = Ok (es, [], st, dummy) -> writeSource src st dummy = Ok src.
Proof. exact c38_write_source_reproduces. Qed.
Print Assumptions C38_write_source_reproduces.

(* The statements with their label, math and proof sections and keywords, in order,
   followed by the text after the last one, are the whole source. *)
Theorem C38_statements_partition_source : forall src es st dummy,
  readSource src = Ok (es, [], st, dummy) ->
  src = sourceText (map (toItem src) st) (secText src dummy) /\ Forall itemOK (map (toItem src) st).
Proof. exact c38_statements_partition_source. Qed.
Print Assumptions C38_statements_partition_source.

(* Conversely statements written down one after the other are read back exactly. *)
Theorem C38_reading_inverts_writing : forall items tail,
  Forall itemOK items -> Forall quietItem items -> quiet tail ->
  noDouble (sourceText items tail) ->
  exists es st dummy, readSource (sourceText items tail) = Ok (es, [], st, dummy) /\
    map (toItem (sourceText items tail)) st = items /\ secText (sourceText items tail) dummy = tail.
Proof. exact c38_reading_inverts_writing. Qed.
Print Assumptions C38_reading_inverts_writing.

(* Only error-free sources: "$p" ended by "$." is written with "$=" *)
Theorem C38_erroneous_source_differs_refuted : exists src es ks st dummy out,
  readSource src = Ok (es, ks, st, dummy) /\ ks <> [] /\ writeSource src st dummy = Ok out /\ out <> src.
Proof. exact c38_erroneous_source_differs_refuted. Qed.
Print Assumptions C38_erroneous_source_differs_refuted.

(* ---- C47 ---- *)
(* The statement array is sized from a first scan; the second scan never leaves it. *)
Theorem C47_statement_array : forall src,
  fst (readRaw src) = [] \/ noDouble src -> exists r, readSource src = Ok r.
Proof. exact c47_statement_array. Qed.
Print Assumptions C47_statement_array.
(* With "$$" the two scans disagree about comments, and enough statements overflow the
   array: "$$( ${ ${ ${ ..." *)
Theorem C47_statement_array_overflow_refuted : exists src, readSource src = UB.
Proof. exact c47_statement_array_overflow_refuted. Qed.
Print Assumptions C47_statement_array_overflow_refuted.

(* ---- C48 ---- *)
(* A source read without errors is a sequence of well-formed statements: every keyword
   stands between white space, sections contain no keyword outside comments. *)
Theorem C48_error_free_source : forall src st dummy,
  readSource src = Ok ([], [], st, dummy) ->
  exists items tail, src = sourceText items tail /\ Forall neat items /\ quiet tail /\
    map (toItem src) st = items /\ secText src dummy = tail.
Proof. exact c48_error_free_source. Qed.
Print Assumptions C48_error_free_source.

(* " $c x $. ax $a x $. " with a comment: reads without error, so the hypotheses of
   C38 and C48 are met *)
Definition exSrc := [36;40;32;97;32;36;41;10;36;99;32;120;32;36;46;10;97;120;32;36;97;32;120;32;36;46;10].
Example C38_C48_example : exists st dummy,
  readSource exSrc = Ok ([], [], st, dummy) /\ List.length st = 2 /\ writeSource exSrc st dummy = Ok exSrc.
Proof.
  eexists _, _. split; [vm_compute; reflexivity|]. split; vm_compute; reflexivity.
Qed.
