(* CheckProps.v -- C55: READ and VERIFY PROOF on a file text accept exactly the correct proofs. *)
From Verif Require Import Base LabModel LabSpec StmModel TokSpec SrcSpec StmSpec ParModel SrcProofs SrcFinal
  ReadModel ReadOut ReadSpec ReadMain ReadExample ReadProps TidySpec TidyFile TidyMain CheckSpec CheckMain CheckFinal CheckEx.
Open Scope nat_scope.

(* A file in the language of C54 whose every $p statement has a correct proof, written as a list
   of labels or in compressed form, is read and verified without any message: "All proofs in
   the database were verified" is printed.  (The length bound excludes numbers in compressed
   proofs beyond the range of long.) *)
Theorem C55_correct_proofs_are_accepted : forall lsort msort find minSub prev items tail sts,
  isoLib lsort msort find ->
  tidyFile items tail -> Forall2 readsAs items sts -> goodLabels items tail sts -> legal sts ->
  (forall n, n <= S (List.length sts) -> (depth sts n <= 32000)%Z) ->
  (Z.of_nat (List.length (sourceText items tail)) <= maxLong)%Z ->
  (forall n, kindAt sts n K_p -> proofCorrect items sts n) ->
  exists r F, rd_sts r = sts /\ forall fuel, F <= fuel ->
    readVerify lsort msort find minSub prev fuel (sourceText items tail) = Ok (Some ([], true, [], r)).
Proof.
  intros lsort msort find minSub prev items tail sts (LS & MS & FS & FN).
  exact (correct_file lsort msort LS MS find FS FN minSub prev items tail sts).
Qed.
Print Assumptions C55_correct_proofs_are_accepted.

(* Conversely, each proof written in one of the two layouts is correct if no message is given. *)
Theorem C55_accepted_proofs_are_correct : forall lsort msort find minSub prev fuel items tail sts r,
  isoLib lsort msort find ->
  tidyFile items tail -> Forall2 readsAs items sts -> goodLabels items tail sts -> legal sts ->
  (forall n, n <= S (List.length sts) -> (depth sts n <= 32000)%Z) ->
  readVerify lsort msort find minSub prev fuel (sourceText items tail) = Ok (Some ([], true, [], r)) ->
  forall n it, kindAt sts n K_p -> nth_error items (n - 1) = Some it ->
    listLayout (it_proof it) \/ packedLayout (it_proof it) -> proofCorrect items sts n.
Proof.
  intros lsort msort find minSub prev fuel items tail sts r (LS & MS & FS & FN).
  exact (accepted_correct lsort msort LS MS find FS FN minSub prev fuel items tail sts r).
Qed.
Print Assumptions C55_accepted_proofs_are_correct.

(* the two together *)
Theorem C55_verified_iff_proofs_correct : forall lsort msort find minSub prev items tail sts,
  isoLib lsort msort find ->
  tidyFile items tail -> Forall2 readsAs items sts -> goodLabels items tail sts -> legal sts ->
  (forall n, n <= S (List.length sts) -> (depth sts n <= 32000)%Z) ->
  (Z.of_nat (List.length (sourceText items tail)) <= maxLong)%Z ->
  (forall n it, kindAt sts n K_p -> nth_error items (n - 1) = Some it -> listLayout (it_proof it) \/ packedLayout (it_proof it)) ->
  ((exists fuel r, readVerify lsort msort find minSub prev fuel (sourceText items tail) = Ok (Some ([], true, [], r))) <->
   forall n, kindAt sts n K_p -> proofCorrect items sts n).
Proof.
  intros lsort msort find minSub prev items tail sts ISO TF RA GL LG NO ML LAY. split.
  - intros (fuel & r & H) n KP.
    destruct (nth_error items (n - 1)) as [it|] eqn:Hit.
    + exact (C55_accepted_proofs_are_correct lsort msort find minSub prev fuel items tail sts r ISO TF RA GL LG NO H n it KP Hit (LAY n it KP Hit)).
    + exfalso. destruct KP as (j & [P Hj] & _). apply nth_error_None in Hit. apply CheckCmpTok.F2_len in RA.
      assert (L : nth_error sts (n - 1) <> None) by congruence. apply nth_error_Some in L. rewrite <- RA in L. exact (Nat.lt_irrefl _ (Nat.lt_le_trans _ _ _ L Hit)).
  - intros PC. destruct (C55_correct_proofs_are_accepted lsort msort find minSub prev items tail sts ISO TF RA GL LG NO ML PC) as (r & F & _ & Q).
    exists F, r. apply Q. apply le_n.
Qed.
Print Assumptions C55_verified_iff_proofs_correct.

Definition exKs := match SrcModel.readSource exText with Ok (_, ks, _) => ks | _ => [] end.
Lemma ex14 : exists it, nth_error (map (toItem exText) exKs) 13 = Some it /\ listLayout (it_proof it).
Proof.
  destruct (nth_error (map (toItem exText) exKs) 13) as [it|] eqn:Q; vm_compute in Q; [|discriminate]. exists it. split; [reflexivity|].
  injection Q as <-. cbn [it_proof]. apply list_layout; reflexivity.
Qed.
Lemma ex22 : exists it, nth_error (map (toItem exText) exKs) 21 = Some it /\ packedLayout (it_proof it).
Proof.
  destruct (nth_error (map (toItem exText) exKs) 21) as [it|] eqn:Q; vm_compute in Q; [|discriminate]. exists it. split; [reflexivity|].
  injection Q as <-. cbn [it_proof]. apply (packed_layout [32] [32; 116; 104; 32] [32; 65; 66; 67; 68; 69; 32]); reflexivity.
Qed.
Lemma exRead : exists r, readText exLsort exMsort 1 exText = Ok ([], r) /\ kindAt (rd_sts r) 14 K_p /\ kindAt (rd_sts r) 22 K_p.
Proof.
  destruct (readText exLsort exMsort 1 exText) as [[e r]| | |] eqn:E; try (vm_compute in E; discriminate).
  exists r. vm_compute in E. injection E as <- <-. split; [reflexivity|].
  split; eexists; (split; [split; [lia|vm_compute; reflexivity]|reflexivity]).
Qed.
(* the file of C53: statement 14 has a list of labels, statement 22 a compressed proof *)
Example C55_example : exists items tail sts,
  exText = sourceText items tail /\ tidyFile items tail /\ Forall2 readsAs items sts /\
  goodLabels items tail sts /\ legal sts /\
  (forall n, n <= S (List.length sts) -> (depth sts n <= 32000)%Z) /\
  (Z.of_nat (List.length (sourceText items tail)) <= maxLong)%Z /\
  kindAt sts 14 K_p /\ kindAt sts 22 K_p /\
  (exists it, nth_error items 13 = Some it /\ listLayout (it_proof it)) /\
  (exists it, nth_error items 21 = Some it /\ packedLayout (it_proof it)) /\
  proofCorrect items sts 14 /\ proofCorrect items sts 22.
Proof.
  destruct exRead as (r0 & E & K1 & K2). destruct C53_example as (r & EV & _).
  pose proof (ro_src _ _ (proj1 (readText_inv exLsort exMsort 1 exText [] r0 E eq_refl))) as RS.
  destruct (source_sound exText _ _ RS) as (items & tail & E1 & TF & E4 & E5).
  assert (RA : Forall2 readsAs items (rd_sts r0)) by (rewrite <- E4; exact (ok_readsAs exLsort exMsort 1 exText r0 E)).
  assert (GL : goodLabels items tail (rd_sts r0)) by (rewrite <- E4, <- E5; exact (ok_goodLabels exLsort exMsort exLsort_ok 1 exText r0 E)).
  destruct (ok_legal exLsort exMsort exMsort_ok 1 exText r0 E) as [LG NO].
  assert (EK : rd_ks r0 = exKs) by (unfold exKs; rewrite RS; reflexivity). rewrite EK in E4.
  assert (L1 : exists it, nth_error items 13 = Some it /\ listLayout (it_proof it)).
  { rewrite <- E4. destruct ex14 as (it & Q & L). exists it. split; [exact Q|exact L]. }
  assert (L2 : exists it, nth_error items 21 = Some it /\ packedLayout (it_proof it)).
  { rewrite <- E4. destruct ex22 as (it & Q & L). exists it. split; [exact Q|exact L]. }
  assert (ACC : forall n it, kindAt (rd_sts r0) n K_p -> nth_error items (n - 1) = Some it ->
    listLayout (it_proof it) \/ packedLayout (it_proof it) -> proofCorrect items (rd_sts r0) n).
  { apply (C55_accepted_proofs_are_correct exLsort exMsort exFind 1 0 2000 items tail (rd_sts r0) r C53_library TF RA GL LG NO). rewrite <- E1. exact EV. }
  exists items, tail, (rd_sts r0). split; [exact E1|]. split; [exact TF|]. split; [exact RA|]. split; [exact GL|]. split; [exact LG|]. split; [exact NO|].
  split; [rewrite <- E1; vm_compute; discriminate|]. split; [exact K1|]. split; [exact K2|]. split; [exact L1|]. split; [exact L2|]. split.
  - destruct L1 as (it & A & B). exact (ACC 14 it K1 A (or_introl B)).
  - destruct L2 as (it & A & B). exact (ACC 22 it K2 A (or_intror B)).
Qed.
Print Assumptions C55_example.
