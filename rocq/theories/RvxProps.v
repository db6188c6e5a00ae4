(* RvxProps.v -- C67: proofs in /EXPLICIT format and the verdict of VERIFY PROOF *. *)
From Coq Require Import String.
From Verif Require Import Base TokModel LabModel LabSpec SrcModel StmModel TokSpec SrcSpec StmSpec VerModel VerSpec ParModel ParSpec
  StmMain ReadModel ReadSpec ReadSec ReadWords ReadMain ReadExample ReadProps ExpModel ExpSpec ExsMain RvxModel RvxProofs.
Open Scope nat_scope.

(* What parseProof returns with status 0 or 1, whatever the text and its format, is a proof:
   the stack never popped below empty and one entry at the end, local references to earlier
   steps that are no references or hypotheses, only earlier assertions and the statement's own
   hypotheses.  Status 0: no '?' and no error counted. *)
Theorem C67_parsed_good : forall fuel env n st max section rest k zs ec,
  wf_env env -> hypLabels env -> stmtAt (e_db env) n st -> s_type st = S_p ->
  parseProofText fuel env n max section rest = Ok (k, zs, ec) -> k <= 1 ->
  exists proof, zs = map encStep proof /\ goodProof (e_db env) n st proof /\
    (In Unk proof -> k = 1) /\ (k = 0 -> ec = 0).
Proof. exact parseProofText_good. Qed.
Print Assumptions C67_parsed_good.

(* If READ of a file and then VERIFY PROOF * report nothing, then the file consists of
   statements in proper form and every $p statement follows from the $a statements: as
   C53_silent_run_proves_the_file, for proofs in all formats. *)
Theorem C67_silent_run_proves_the_file : forall lsort msort find minSub prev fuel src r,
  isoLib lsort msort find ->
  readVerifyAll lsort msort find minSub prev fuel src = Ok ([], true, [], r) ->
  exists items tail sts,
    src = sourceText items tail /\ Forall neat items /\ Forall2 readsAs items sts /\
    goodLabels items tail sts /\ legal sts /\
    forall n, kindAt sts n K_p -> theorem sts n.
Proof.
  intros lsort msort find minSub prev fuel src r (LS & MS & FS & FN) H. unfold readVerifyAll in H.
  apply rbind_ok in H. destruct H as ([errs r'] & HR & H).
  apply rbind_ok in H. destruct H as (l & HP & H).
  apply rbind_ok in H. destruct H as ([b ms] & HV & H). apply Ok_inj in H. cbn [fst snd] in H.
  injection H as -> -> -> ->.
  destruct (ok_items lsort msort minSub src r HR) as (items & tail & E1 & E2 & E3 & E4 & E5).
  exists items, tail, (rd_sts r). split; [exact E1|]. split; [exact E2|]. rewrite <- E4, <- E5.
  split; [exact (ok_readsAs lsort msort minSub src r HR)|].
  split; [exact (ok_goodLabels lsort msort LS minSub src r HR)|].
  split; [exact (proj1 (ok_legal lsort msort MS minSub src r HR))|].
  exact (all_formats lsort msort LS MS minSub src r HR find FS FN fuel prev l HP HV).
Qed.
Print Assumptions C67_silent_run_proves_the_file.

(* it is the same run when no proof is in /EXPLICIT format *)
Theorem C67_other_formats : forall lsort msort find minSub prev fuel src x,
  readVerify lsort msort find minSub prev fuel src = Ok (Some x) ->
  readVerifyAll lsort msort find minSub prev fuel src = Ok x.
Proof. exact verify_same. Qed.
Print Assumptions C67_other_formats.

(* a database with a theorem proved in /EXPLICIT format (hypotheses in another order, a local
   label used before the step it is on comes to stand), one in normal and one in compressed
   format *)
Definition exAll : list nat := codes (
  "$c wff |- ( ) -> $.  $v p q $." ++ nl ++
  "wp $f wff p $.  wq $f wff q $." ++ nl ++
  "wi $a wff ( p -> q ) $." ++ nl ++
  "${ mp1 $e |- p $.  mp2 $e |- ( p -> q ) $.  mp $a |- q $. $}" ++ nl ++
  "${ id1 $e |- q $. id2 $e |- ( q -> p ) $. id $p |- p $= wq wp id1 id2 mp $. $}" ++ nl ++
  "${ $v r $.  wr $f wff r $.  f1 $e |- ( p -> q ) $.  f2 $e |- ( ( p -> q ) -> ( ( p -> q ) -> r ) ) $." ++ nl ++
  "   th $p |- r $= mp2 = f2 mp1 = f1 wp = wp wq = wq a : wp = wi wp = a wq = wr wq = wi mp2 = mp" ++ nl ++
  "     mp1 = f1 wp = a wq = wr th = mp $. $}" ++ nl ++
  "${ k1 $e |- ( q -> p ) $.  k2 $e |- ( ( q -> p ) -> ( ( q -> p ) -> q ) ) $." ++ nl ++
  "   th2 $p |- q $= ( th ) BABCDE $. $}" ++ nl)%string.
Example C67_example : exists r,
  readVerifyAll exLsort exMsort exFind 1 0 2000 exAll = Ok ([], true, [], r) /\
  kindAt (rd_sts r) 14 K_p /\ kindAt (rd_sts r) 21 K_p /\ kindAt (rd_sts r) 26 K_p.
Proof.
  destruct (readVerifyAll exLsort exMsort exFind 1 0 2000 exAll) as [[[[e b] m] r]| | |] eqn:E;
    try (vm_compute in E; discriminate).
  exists r. vm_compute in E. injection E as <- <- <- <-. split; [reflexivity|].
  split; [|split]; eexists; (split; [split; [lia|vm_compute; reflexivity]|reflexivity]).
Qed.
Print Assumptions C67_example.
(* C53 says nothing of this file *)
Example C67_other : readVerify exLsort exMsort exFind 1 0 2000 exAll = Ok None.
Proof. vm_compute. reflexivity. Qed.
