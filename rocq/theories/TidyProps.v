(* TidyProps.v -- C54: the source files READ accepts are the ones the language allows. *)
From Verif Require Import Base TokModel LabModel LabSpec SrcModel StmModel TokSpec SrcSpec StmSpec VerModel ParModel
  StmScope StmMain ReadModel ReadSpec ReadMain ReadExample ReadProps SrcFinal TidySpec TidyFile TidyMain.
From Coq Require Import String.
Open Scope nat_scope.

(* READ reports no error if and only if the text is a sequence of statements, words and
   comments separated by white space, the labels are in order, the statements are legal, and
   "${" are nested at most 32000 deep. *)
Theorem C54_read_accepts_exactly_the_language : forall lsort msort find minSub src,
  isoLib lsort msort find ->
  ((exists r, readText lsort msort minSub src = Ok ([], r)) <->
   exists items tail sts,
     src = sourceText items tail /\ tidyFile items tail /\ Forall2 readsAs items sts /\
     goodLabels items tail sts /\ legal sts /\
     forall n, n <= S (List.length sts) -> (depth sts n <= 32000)%Z).
Proof.
  intros lsort msort find minSub src (LS & MS & FS & FN). split.
  - intros (r & HR).
    pose proof (ro_src _ _ (proj1 (readText_inv lsort msort minSub src [] r HR eq_refl))) as RS.
    destruct (source_sound src _ _ RS) as (items & tail & E1 & TF & E4 & E5).
    exists items, tail, (rd_sts r). split; [exact E1|]. split; [exact TF|]. rewrite <- E4, <- E5.
    split; [exact (ok_readsAs lsort msort minSub src r HR)|].
    split; [exact (ok_goodLabels lsort msort LS minSub src r HR)|].
    exact (ok_legal lsort msort MS minSub src r HR).
  - intros (items & tail & sts & -> & TF & RA & GL & LG & NO).
    destruct (read_text_complete lsort msort LS MS minSub items tail sts TF RA GL LG NO) as (r & HR & _).
    exists r. exact HR.
Qed.
Print Assumptions C54_read_accepts_exactly_the_language.

(* and then the statements stored are those of the text *)
Theorem C54_statements_are_those_of_the_text : forall lsort msort find minSub items tail sts,
  isoLib lsort msort find ->
  tidyFile items tail -> Forall2 readsAs items sts -> goodLabels items tail sts -> legal sts ->
  (forall n, n <= S (List.length sts) -> (depth sts n <= 32000)%Z) ->
  exists r, readText lsort msort minSub (sourceText items tail) = Ok ([], r) /\ rd_sts r = sts.
Proof.
  intros lsort msort find minSub items tail sts (LS & MS & FS & FN).
  exact (read_text_complete lsort msort LS MS minSub items tail sts).
Qed.
Print Assumptions C54_statements_are_those_of_the_text.

(* the white space and the characters alone (readRawSource and parseKeywords) *)
Theorem C54_error_free_source_iff_tidy : forall src,
  (exists ks dummy, readSource src = Ok ([], [], ks, dummy)) <->
  exists items tail, src = sourceText items tail /\ tidyFile items tail.
Proof.
  intros src. split.
  - intros (ks & dummy & H). destruct (source_sound src _ _ H) as (items & tail & E1 & TF & _). exists items, tail. exact (conj E1 TF).
  - intros (items & tail & -> & TF). destruct (source_complete items tail TF) as (ks & dummy & H & _). exists ks, dummy. exact H.
Qed.
Print Assumptions C54_error_free_source_iff_tidy.

(* both sides occur: a file that is read without errors, and one with an error *)
Example C54_example : exists items tail sts,
  exText = sourceText items tail /\ tidyFile items tail /\ Forall2 readsAs items sts /\
  goodLabels items tail sts /\ legal sts /\ List.length sts = 23.
Proof.
  destruct (readText exLsort exMsort 1 exText) as [[e r]| | |] eqn:E; try (vm_compute in E; discriminate).
  assert (HE : e = []) by (vm_compute in E; injection E as <- _; reflexivity).
  assert (HL : List.length (rd_sts r) = 23) by (vm_compute in E; injection E as _ <-; reflexivity). subst e.
  pose proof (ro_src _ _ (proj1 (readText_inv exLsort exMsort 1 exText [] r E eq_refl))) as RS.
  destruct (source_sound exText _ _ RS) as (items & tail & E1 & TF & E4 & E5).
  exists items, tail, (rd_sts r). split; [exact E1|]. split; [exact TF|]. rewrite <- E4, <- E5.
  split; [exact (ok_readsAs exLsort exMsort 1 exText r E)|].
  split; [exact (ok_goodLabels exLsort exMsort exLsort_ok 1 exText r E)|].
  split; [exact (proj1 (ok_legal exLsort exMsort exMsort_ok 1 exText r E))|exact HL].
Qed.
Example C54_rejected : ~ exists items tail, codes "a$c x $. "%string = sourceText items tail /\ tidyFile items tail.
Proof.
  intros H. apply C54_error_free_source_iff_tidy in H. destruct H as (ks & dummy & H). vm_compute in H. discriminate.
Qed.
