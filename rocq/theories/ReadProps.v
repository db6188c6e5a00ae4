(* ReadProps.v -- C53: READ and VERIFY PROOF * from the text of the source file. *)
From Verif Require Import Base TokModel LabModel LabSpec SrcModel StmModel TokSpec SrcSpec StmSpec VerModel VerSpec ParModel ParSpec
  StmMain ReadModel ReadSpec ReadSec ReadWords ReadMain ReadSize ReadExample SrcProofs SrcFinal.
Open Scope nat_scope.

(* what ISO C says of qsort and bsearch, for the tables they are used on *)
Definition isoLib (lsort : list lstmt -> list nat) (msort : list (list nat) -> list nat)
  (find : list (label * Z) -> label -> option Z) : Prop :=
  (forall l, qsorted l (lsort l)) /\ (forall l, mqsorted l (msort l)) /\
  (forall tab l j, find tab l = Some j -> In (l, j) tab) /\
  (forall tab l, find tab l = None -> forall j, ~ In (l, j) tab).

(* If READ of a file and then VERIFY PROOF * report nothing, then the file consists of
   statements in proper form and every $p statement follows from the $a statements. *)
Theorem C53_silent_run_proves_the_file : forall lsort msort find minSub prev fuel src r,
  isoLib lsort msort find ->
  readVerify lsort msort find minSub prev fuel src = Ok (Some ([], true, [], r)) ->
  exists items tail sts,
    src = sourceText items tail /\ Forall neat items /\ Forall2 readsAs items sts /\
    goodLabels items tail sts /\ legal sts /\
    forall n, kindAt sts n K_p -> theorem sts n.
Proof.
  intros lsort msort find minSub prev fuel src r (LS & MS & FS & FN) H. unfold readVerify in H.
  apply rbind_ok in H. destruct H as ([errs r'] & HR & H).
  apply rbind_ok in H. destruct H as ([l|] & HP & H); [|discriminate].
  apply rbind_ok in H. destruct H as ([b ms] & HV & H). apply Ok_inj in H. cbn [fst snd] in H.
  injection H as -> -> -> ->.
  destruct (ok_items lsort msort minSub src r HR) as (items & tail & E1 & E2 & E3 & E4 & E5).
  exists items, tail, (rd_sts r). split; [exact E1|]. split; [exact E2|]. rewrite <- E4, <- E5.
  split; [exact (ok_readsAs lsort msort minSub src r HR)|].
  split; [exact (ok_goodLabels lsort msort LS minSub src r HR)|].
  split; [exact (proj1 (ok_legal lsort msort MS minSub src r HR))|].
  exact (ok_theorems lsort msort LS MS minSub src r HR find FS FN fuel prev l HP HV).
Qed.
Print Assumptions C53_silent_run_proves_the_file.

(* the statements are determined by the text: a section has only one list of words, and
   the text only one division into statements *)
Theorem C53_words_unique : forall l xs ys, words l xs -> words l ys -> xs = ys.
Proof. exact words_fun. Qed.
Print Assumptions C53_words_unique.

(* error-free READ alone *)
Theorem C53_silent_read : forall lsort msort find minSub src r,
  isoLib lsort msort find ->
  readText lsort msort minSub src = Ok ([], r) ->
  exists items tail sts,
    src = sourceText items tail /\ Forall neat items /\ Forall2 readsAs items sts /\
    goodLabels items tail sts /\ legal sts.
Proof.
  intros lsort msort find minSub src r (LS & MS & FS & FN) HR.
  destruct (ok_items lsort msort minSub src r HR) as (items & tail & E1 & E2 & E3 & E4 & E5).
  exists items, tail, (rd_sts r). split; [exact E1|]. split; [exact E2|]. rewrite <- E4, <- E5.
  split; [exact (ok_readsAs lsort msort minSub src r HR)|].
  split; [exact (ok_goodLabels lsort msort LS minSub src r HR)|].
  exact (proj1 (ok_legal lsort msort MS minSub src r HR)).
Qed.
Print Assumptions C53_silent_read.

(* the arrays for symbols and work space are large enough if no error was found before *)
Theorem C53_symbol_tables_fit : forall src ks dummy sts,
  readSource src = Ok ([], [], ks, dummy) -> mathOfAll src ks = Ok sts ->
  length (declTokens 1 sts) <= potentialSymbols ks /\ wrkFits 1 ks sts = true.
Proof. exact tables_fit. Qed.
Print Assumptions C53_symbol_tables_fit.

(* but not otherwise: "$ca$.$cb$. ... $cf$. " has six sections of one character; reported as
   keywords without white space, and then g_MathToken[] is written beyond its end *)
Theorem C53_symbol_table_overflow_refuted : forall lsort msort minSub, (forall l, qsorted l (lsort l)) ->
  exists src, readText lsort msort minSub src = UB.
Proof.
  intros lsort msort minSub LS. exists (exBad).
  unfold readText.
  destruct (readSource (exBad)) as [[[[raw kw] ks] dummy]| | |] eqn:E; try (vm_compute in E; discriminate).
  vm_compute in E. apply Ok_inj in E. injection E as <- <- <- <-. cbn [rbind].
  match goal with |- context [scanLabels ?a ?b ?c] => destruct (scanLabels a b c) as [ls| | |] eqn:E1; vm_compute in E1; try discriminate end.
  apply Ok_inj in E1. subst ls. cbn [rbind fst snd].
  match goal with |- context [tailErr ?a ?b] => destruct (tailErr a b) as [te| | |] eqn:E1; vm_compute in E1; try discriminate end.
  apply Ok_inj in E1. subst te. cbn [rbind].
  match goal with |- context [labelTables ?l (lsort ?l)] => 
    destruct (LabProofs.tables_ok l (lsort l) (LS l)) as (dups & all & asrt & EL & _) end.
  { intros s HS. cbn [In] in HS. repeat (destruct HS as [<-|HS]; [cbn; congruence|]). destruct HS. }
  rewrite EL. cbn [rbind].
  match goal with |- context [mathOfAll ?a ?b] => destruct (mathOfAll a b) as [sts| | |] eqn:E1; vm_compute in E1; try discriminate end.
  apply Ok_inj in E1. subst sts. cbn [rbind]. reflexivity.
Qed.
Print Assumptions C53_symbol_table_overflow_refuted.

(* the hypotheses are met: a library as required, and a database with two theorems (one
   with an uncompressed, one with a compressed proof) *)
Example C53_library : isoLib exLsort exMsort exFind.
Proof. exact (conj exLsort_ok (conj exMsort_ok (conj exFind_some exFind_none))). Qed.
Example C53_example : exists r,
  readVerify exLsort exMsort exFind 1 0 2000 exText = Ok (Some ([], true, [], r)) /\
  kindAt (rd_sts r) 14 K_p /\ kindAt (rd_sts r) 22 K_p.
Proof.
  destruct (readVerify exLsort exMsort exFind 1 0 2000 exText) as [[[[[e b] m] r]|]| | |] eqn:E;
    try (vm_compute in E; discriminate).
  exists r. vm_compute in E. injection E as <- <- <- <-. split; [reflexivity|].
  split; eexists; (split; [split; [lia|vm_compute; reflexivity]|reflexivity]).
Qed.
Print Assumptions C53_example.
