(* IncProps.v -- C57, C58, C59: file inclusion. *)
From Coq Require Import String List.
From Verif Require Import Base TokSpec TokModel SrcModel CmdModel IncModel IncSpec IncProofs IncMain IncTerm ReadExample.
Import ListNotations.
Open Scope nat_scope.

(* ---------------- C57 ---------------- *)
(* A main file whose text is made of words, comments, inclusion commands and marks, each
   naming another existing file made the same way (and where regions written earlier have
   nothing left to expand): reading gives the text described by Expands, with its length,
   and its words outside comments are those of the files, each file being inserted where it
   is first included and nowhere else. *)
Theorem C57_includes_expanded : forall rd main t out ws seen,
  rd main = Ok (Some t) -> Expands main (fun n x => rd n = Ok (Some x)) [] [] t out ws seen ->
  Flat out ws /\
  exists bound tab msgs, forall fuel, bound < fuel ->
    readSourceAndIncludes fuel rd main = Ok (Some (out, Z.of_nat (List.length out)), tab, msgs).
Proof. intros rd main t out ws seen R X. split; [exact (expands_flat _ _ _ _ _ _ _ _ X)|exact (expands_source rd main t out ws seen R X)]. Qed.
Print Assumptions C57_includes_expanded.

(* main: "x $[ a $] y\n$[ b $] z\n", a: "aa $[ b $] ab\n", b: "bb $( n $)\n" *)
Definition exA := codes "aa $[ b $] ab".
Definition exB := codes "bb $( n $)".
Definition exMain := codes "x $[ a $] y" ++ [10] ++ codes "$[ b $] z".
Definition exFs (n : list nat) : option (list nat) :=
  if seqb n (codes "main") then Some exMain else if seqb n (codes "a") then Some exA
  else if seqb n (codes "b") then Some exB else None.
Definition exOut := codes "x $( Begin $[ a $] $)" ++ [10] ++ codes "aa $( Begin $[ b $] $)" ++ [10] ++ codes "bb $( n $)" ++ [10] ++
  codes "$( End $[ b $] $) ab" ++ [10] ++ codes "$( End $[ a $] $) y" ++ [10] ++ codes "$( Skip $[ b $] $) z" ++ [10].
Definition exWords := map codes ["x"; "aa"; "bb"; "ab"; "y"; "z"]%string.
Definition exRd := readNamed exFs.

Ltac wh := apply ex_white; [cbv; lia|].
Ltac nograph := first [left; reflexivity | right; eexists _, _; split; [reflexivity|cbv; lia]].
Ltac isword := split; [discriminate|repeat constructor; cbv; lia].
Ltac isname := split; [isword|cbv; intuition discriminate].
Ltac notbeg := intros [r' Hr']; cbv in Hr'; discriminate.
Ltac wd w := match goal with |- Expands _ _ _ _ ?t ?o _ _ =>
    let t' := eval cbv in (skipn (List.length (codes w)) t) in let o' := eval cbv in (skipn (List.length (codes w)) o) in
    apply (ex_word _ _ _ _ (codes w) t' o'); [isword|notbeg|notbeg|nograph|] end.
Lemma exPlain : plain (codes " n ").
Proof.
  split.
  - split; [exists 32, (codes "n "); split; [reflexivity|cbv; lia]|]. split; [exists 32, (codes " n"); split; [reflexivity|cbv; lia]|].
    intros x y E. cbv in E. repeat (destruct x as [|? x]; [discriminate|injection E as _ E]). destruct x; discriminate.
  - intros key K. assert (L : 3 <= List.length key) by (cbn in K; repeat (destruct K as [<-|K]; [cbv; lia|]); contradiction).
    split.
    + intros s1 s2 s3 n s4 s5 _ _ _ _ _ _ E. apply (f_equal (@List.length nat)) in E. rewrite !app_length in E. cbn in E. lia.
    + intros s1 s2 s3 [N1 _] [N2 _] [N3 _] E. apply (f_equal (@List.length nat)) in E. rewrite !app_length in E. cbn in E. lia.
Qed.
Lemma exCmd n : fileName (codes n) -> command (codes n) (codes "$[ " ++ codes n ++ codes " $]").
Proof.
  intros F. exists [32], [32]. assert (W : whites [32]) by (split; [discriminate|repeat constructor; cbv; lia]).
  split; [exact W|]. split; [exact W|]. split; [exact F|]. reflexivity.
Qed.
Lemma exExpands : Expands (codes "main") (fun n x => exRd n = Ok (Some x)) [] [] (exMain ++ [10]) exOut exWords [codes "b"; codes "a"].
Proof.
  change (exMain ++ [10]) with (codes "x" ++ 32 :: (codes "$[ a $]" ++ codes " y" ++ [10] ++ codes "$[ b $] z" ++ [10])).
  unfold exWords. cbn [map].
  apply (ex_word _ _ [] [] (codes "x") _ (skipn 1 exOut)); [isword|notbeg|notbeg|nograph|]. cbv [exOut]. cbn [skipn codes map]. wh.
  apply (ex_first _ _ [] [] (codes "a") (codes "$[ a $]") (exA ++ [10])
    (codes "aa $( Begin $[ b $] $)" ++ [10] ++ codes "bb $( n $)" ++ [10] ++ codes "$( End $[ b $] $) ab" ++ [10])
    (map codes ["aa"; "bb"; "ab"]%string) [codes "b"; codes "a"]
    (codes " y" ++ [10] ++ codes "$[ b $] z" ++ [10]) (codes " y" ++ [10] ++ codes "$( Skip $[ b $] $) z" ++ [10]) (map codes ["y"; "z"]%string)).
  - left. apply (exCmd "a"). isname.
  - discriminate.
  - intros [].
  - reflexivity.
  - right. eexists _, exA. split; [reflexivity|cbv; lia].
  - nograph.
  - apply (ex_word _ _ _ _ (codes "aa") (codes " $[ b $] ab" ++ [10]) (codes " $( Begin $[ b $] $)" ++ [10] ++ codes "bb $( n $)" ++ [10] ++ codes "$( End $[ b $] $) ab" ++ [10])); [isword|notbeg|notbeg|nograph|].
    cbn [app codes map]. apply (ex_white _ _ _ _ 32 (codes "$[ b $] ab" ++ [10]) (codes "$( Begin $[ b $] $)" ++ [10] ++ codes "bb $( n $)" ++ [10] ++ codes "$( End $[ b $] $) ab" ++ [10])); [cbv; lia|].
    apply (ex_first _ _ _ _ (codes "b") (codes "$[ b $]") (exB ++ [10]) (exB ++ [10]) [codes "bb"] [codes "b"; codes "a"] (codes " ab" ++ [10]) (codes " ab" ++ [10]) [codes "ab"]).
    + left. apply (exCmd "b"). isname.
    + discriminate.
    + intros [H|[]]. discriminate.
    + reflexivity.
    + right. eexists _, exB. split; [reflexivity|cbv; lia].
    + nograph.
    + apply (ex_word _ _ _ _ (codes "bb") (codes " $( n $)" ++ [10]) (codes " $( n $)" ++ [10]) []); [isword|notbeg|notbeg|nograph|].
      apply (ex_white _ _ _ _ 32 (comment (codes " n ") ++ [10]) (comment (codes " n ") ++ [10])); [cbv; lia|].
      apply ex_comment; [exact exPlain|nograph|]. apply (ex_white _ _ _ _ 10 [] []); [cbv; lia|]. apply ex_nil.
    + apply (ex_white _ _ _ _ 32 (codes "ab" ++ [10]) (codes "ab" ++ [10])); [cbv; lia|].
      apply (ex_word _ _ _ _ (codes "ab") [10] [10] []); [isword|notbeg|notbeg|nograph|]. apply (ex_white _ _ _ _ 10 [] []); [cbv; lia|]. apply ex_nil.
  - apply (ex_white _ _ _ _ 32 (codes "y" ++ [10] ++ codes "$[ b $] z" ++ [10]) (codes "y" ++ [10] ++ codes "$( Skip $[ b $] $) z" ++ [10])); [cbv; lia|].
    apply (ex_word _ _ _ _ (codes "y") ([10] ++ codes "$[ b $] z" ++ [10]) ([10] ++ codes "$( Skip $[ b $] $) z" ++ [10])); [isword|notbeg|notbeg|nograph|].
    apply (ex_white _ _ _ _ 10 (codes "$[ b $]" ++ codes " z" ++ [10]) (codes "$( Skip $[ b $] $)" ++ codes " z" ++ [10])); [cbv; lia|].
    apply (ex_again _ _ _ _ (codes "b") (codes "$[ b $]")).
    + apply (exCmd "b"). isname.
    + discriminate.
    + now left.
    + nograph.
    + apply (ex_white _ _ _ _ 32 (codes "z" ++ [10]) (codes "z" ++ [10])); [cbv; lia|].
      apply (ex_word _ _ _ _ (codes "z") [10] [10] []); [isword|notbeg|notbeg|nograph|]. apply (ex_white _ _ _ _ 10 [] []); [cbv; lia|]. apply ex_nil.
Qed.
Example C57_nonvacuous : exRd (codes "main") = Ok (Some (exMain ++ [10])) /\
  Expands (codes "main") (fun n x => exRd n = Ok (Some x)) [] [] (exMain ++ [10]) exOut exWords [codes "b"; codes "a"] /\
  exists tab, readSourceAndIncludes 100 exRd (codes "main") = Ok (Some (exOut, Z.of_nat (List.length exOut)), tab, []).
Proof. split; [reflexivity|]. split; [exact exExpands|]. eexists. vm_compute. reflexivity. Qed.

(* ---------------- C58 ---------------- *)
(* The text so obtained (what WRITE SOURCE puts in one file), read again under the same
   name, whatever the other files have become: the same text, if no included name is a
   proper beginning of another. *)
Theorem C58_expanded_source_reads_back_partial : forall rd main t out ws seen rd',
  Expands main (fun n x => rd n = Ok (Some x)) [] [] t out ws seen ->
  (forall m n, In m seen -> In n seen -> begins m n -> m = n) -> rd' main = Ok (Some out) ->
  exists bound tab msgs, forall fuel, bound < fuel ->
    readSourceAndIncludes fuel rd' main = Ok (Some (out, Z.of_nat (List.length out)), tab, msgs).
Proof. exact again_source. Qed.
Print Assumptions C58_expanded_source_reads_back_partial.
Example C58_nonvacuous : (forall m n, In m [codes "b"; codes "a"] -> In n [codes "b"; codes "a"] -> begins m n -> m = n) /\
  exists tab, readSourceAndIncludes 100 (fun n => if seqb n (codes "main") then Ok (Some exOut) else Ok None) (codes "main") =
    Ok (Some (exOut, Z.of_nat (List.length exOut)), tab, []).
Proof.
  split; [|eexists; vm_compute; reflexivity].
  intros m n [<-|[<-|[]]] [<-|[<-|[]]] [r H]; try reflexivity; discriminate.
Qed.

(* Without that hypothesis it is false: "ab" includes "a"; the first reading succeeds, the
   second takes "$( End $[ a $] $)" for the end of "ab" and fails. *)
Definition badFs (m n : list nat) : option (list nat) :=
  if seqb n (codes "main") then Some m
  else if seqb n (codes "a") then Some (codes "aa") else if seqb n (codes "ab") then Some (codes "bb $[ a $] b2") else None.
Theorem C58_prefix_names_refuted : exists m out tab tab',
  readSourceAndIncludes 100 (readNamed (badFs m)) (codes "main") = Ok (Some (out, Z.of_nat (List.length out)), tab, []) /\
  readSourceAndIncludes 100 (readNamed (badFs out)) (codes "main") = Ok (None, tab', [MNoEnd]).
Proof.
  exists (codes "u $[ ab $] v"), (codes "u $( Begin $[ ab $] $)" ++ [10] ++ codes "bb $( Begin $[ a $] $)" ++ [10] ++ codes "aa" ++ [10] ++
    codes "$( End $[ a $] $) b2" ++ [10] ++ codes "$( End $[ ab $] $) v" ++ [10]).
  eexists. eexists. split; [vm_compute; reflexivity|]. vm_compute. reflexivity.
Qed.
Print Assumptions C58_prefix_names_refuted.

(* ---------------- C59 ---------------- *)
(* With finitely many files, whatever they contain, cyclic inclusion included, reading ends. *)
Theorem C59_inclusion_terminates_partial : forall fs dom main, (forall n, fs n <> None -> In n dom) ->
  exists bound, forall fuel, bound <= fuel -> readSourceAndIncludes fuel (readNamed fs) main <> Fuel.
Proof. exact named_ends. Qed.
Print Assumptions C59_inclusion_terminates_partial.
(* two files including each other *)
Definition cycFs (n : list nat) : option (list nat) :=
  if seqb n (codes "main") then Some (codes "$[ a $]") else if seqb n (codes "a") then Some (codes "a $[ b $]")
  else if seqb n (codes "b") then Some (codes "b $[ a $]") else None.
Example C59_nonvacuous : (forall n, cycFs n <> None -> In n [codes "main"; codes "a"; codes "b"]) /\
  exists tab, readSourceAndIncludes 100 (readNamed cycFs) (codes "main") = Ok (Some (
    let o := codes "$( Begin $[ a $] $)" ++ [10] ++ codes "a $( Begin $[ b $] $)" ++ [10] ++ codes "b $( Skip $[ a $] $)" ++ [10] ++
      codes "$( End $[ b $] $)" ++ [10] ++ codes "$( End $[ a $] $)" ++ [10] in (o, Z.of_nat (List.length o))), tab, []).
Proof.
  split; [|eexists; vm_compute; reflexivity]. intros n. unfold cycFs.
  destruct (seqb n (codes "main")) eqn:E1; [apply seqb_eq in E1; subst; cbn; tauto|].
  destruct (seqb n (codes "a")) eqn:E2; [apply seqb_eq in E2; subst; cbn; tauto|].
  destruct (seqb n (codes "b")) eqn:E3; [apply seqb_eq in E3; subst; cbn; tauto|]. easy.
Qed.

(* But it need not end with a text or an error message: *)
(* a main file including itself stops with internal error 1765; *)
Theorem C59_self_inclusion_refuted :
  readSourceAndIncludes 100 (readNamed (badFs (codes "u $[ main $] v"))) (codes "main") = Bug 1765.
Proof. vm_compute. reflexivity. Qed.
Print Assumptions C59_self_inclusion_refuted.
(* a Begin mark at the end of the file is read past the end of the buffer; *)
Theorem C59_begin_at_end_refuted :
  readSourceAndIncludes 100 (readNamed (badFs (codes "u $( Begin $[ c $] $)"))) (codes "main") = UB.
Proof. vm_compute. reflexivity. Qed.
Print Assumptions C59_begin_at_end_refuted.
(* an inclusion command inside a Begin ... End region is read, but its text is dropped, and
   the scan goes on at a place that may lie behind the end of the buffer; *)
Theorem C59_command_in_region_refuted :
  (let m := codes "u $( Begin $[ c $] $) $[ a $] $( End $[ c $] $) v" in
   readSourceAndIncludes 100 (readNamed (badFs m)) (codes "main") = UB) /\
  (let m := codes "u $( Begin $[ c $] $) $[ a $] $( End $[ c $] $) v $[ ab $] w x y z 1 2 3 4 5 6 7 8 9" ++ [10] in
   exists tab, readSourceAndIncludes 100 (readNamed (badFs m)) (codes "main") = Ok (Some (m, Z.of_nat (List.length m)), tab, [])).
Proof. split; [vm_compute; reflexivity|]. eexists. vm_compute. reflexivity. Qed.
Print Assumptions C59_command_in_region_refuted.
(* and a second, identical copy of a region is reported as a mismatch. *)
Theorem C59_identical_copy_refuted : exists tab,
  readSourceAndIncludes 100 (readNamed (badFs (codes "u $( Begin $[ c $] $) x $( End $[ c $] $) v $( Begin $[ c $] $) x $( End $[ c $] $) w"))) (codes "main") =
  Ok (Some (let o := codes "u $( Begin $[ c $] $) x $( End $[ c $] $) v $( Skip $[ c $] $) w" ++ [10] in (o, Z.of_nat (List.length o))), tab, [MMismatch 2 0]).
Proof. eexists. vm_compute. reflexivity. Qed.
Print Assumptions C59_identical_copy_refuted.
