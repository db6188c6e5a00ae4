(* SafeProps.v -- C40: backup versions of output files. *)
From Verif Require Import Base SafeModel SafeSpec SafeProofs.
Open Scope nat_scope.

(* Wherever saving (or deleting) a file is stopped, at least the nine newest versions are
   still there, in order, with the part of the new one written so far in front if the new
   file has been opened; no other file has changed. *)
Theorem C40_any_stop : forall d fn m blocks x, usable d fn -> In x (states true d fn m false blocks) ->
  usable x fn /\ onlyVersions fn d x /\
  (survived (versions d fn) (versions x fn) \/
   m = ModeW /\ exists k, versions x fn = concat (firstn k blocks) :: firstn 9 (versions d fn)).
Proof. intros d fn m blocks x U H. destruct (states_ok d fn m blocks x U H) as [[A B] C]. exact (conj A (conj B C)). Qed.
(* If it is not stopped, the new contents are the newest version and nine older ones remain. *)
Theorem C40_finished : forall d fn blocks, usable d fn ->
  versions (fst (save true d fn ModeW false blocks)) fn = concat blocks :: firstn 9 (versions d fn) /\
  versions (fst (save true d fn ModeD false blocks)) fn = firstn 9 (versions d fn) /\
  fst (save true d fn ModeD false blocks) fn = None.
Proof.
  intros d fn blocks U. split; [exact (proj2 (save_ok d fn ModeW blocks U))|]. split; [exact (proj2 (save_ok d fn ModeD blocks U))|].
  pose proof (backup_ok d fn U) as (_ & H & _). unfold save, fSafeOpen. destruct (backup true d fn). exact H.
Qed.
(* After any sequence of attempts, each finished or stopped anywhere, the versions on disk
   are the newest of everything written, in order, and at least nine of them. *)
Theorem C40_history : forall fn d l d', attempts fn d l d' -> usable d fn ->
  onlyVersions fn d d' /\ exists log, logged (versions d fn) l log /\ survived log (versions d' fn).
Proof. intros fn d l d' H U. exact (proj2 (history_ok fn d l d' H U _ (survived_refl _))). Qed.
(* Without versions only the file itself changes. *)
Theorem C40_no_versions : forall dirW d fn m blocks x, In x (states dirW d fn m true blocks) -> forall n, n <> fn -> x n = d n.
Proof. exact noVersion_ok. Qed.

(* The results of rename() are not checked: in a directory that may not be changed, the only
   copy of a file is overwritten.  The same happens to a file that can be written but not
   read. *)
Definition one (r : bool) : dir := bind (fun _ => None) [102] (Some (mkFile r true [1; 2; 3])).
Theorem C40_fixed_directory_refuted :
  ~ (forall d fn blocks, usable d fn -> In [1; 2; 3] (versions d fn) -> In [1; 2; 3] (versions (fst (save false d fn ModeW false blocks)) fn)).
Proof.
  intros H. specialize (H (one true) [102] [[7]]). 
  assert (usable (one true) [102]) as U.
  { intros v f Hv. do 10 (destruct v as [|v]; [vm_compute; try discriminate; intros E; injection E as <-; auto|]). lia. }
  specialize (H U (or_introl eq_refl)). vm_compute in H. destruct H as [H|[]]. discriminate H.
Qed.
Theorem C40_unreadable_refuted :
  ~ (forall d fn blocks, In [1; 2; 3] (versions d fn) -> In [1; 2; 3] (versions (fst (save true d fn ModeW false blocks)) fn)).
Proof. intros H. specialize (H (one false) [102] [[7]] (or_introl eq_refl)). vm_compute in H. destruct H as [H|[]]. discriminate H. Qed.

(* concrete cases: the tenth version is dropped only at the tenth save; a stop between two
   renames leaves a gap that later saves fill *)
Fixpoint saves (d : dir) (n : nat) : dir := match n with O => d | S k => let d := saves d k in fst (save true d [102] ModeW false [[n]; [0]]) end.
Example C40_case : usable (saves (one true) 12) [102] /\
  versions (saves (one true) 3) [102] = [[3; 0]; [2; 0]; [1; 0]; [1; 2; 3]] /\
  versions (saves (one true) 12) [102] = [[12; 0]; [11; 0]; [10; 0]; [9; 0]; [8; 0]; [7; 0]; [6; 0]; [5; 0]; [4; 0]; [3; 0]] /\
  map (fun x => versions x [102]) (states true (saves (one true) 2) [102] ModeW false [[5]; [6]]) =
    [[[5; 6]; [2; 0]; [1; 0]; [1; 2; 3]]; [[5]; [2; 0]; [1; 0]; [1; 2; 3]]; [[]; [2; 0]; [1; 0]; [1; 2; 3]];
     [[2; 0]; [1; 0]; [1; 2; 3]]; [[2; 0]; [1; 0]; [1; 2; 3]]; [[2; 0]; [1; 0]; [1; 2; 3]]; [[2; 0]; [1; 0]; [1; 2; 3]]].
Proof.
  split; [|vm_compute; auto].
  intros v f Hv. do 10 (destruct v as [|v]; [vm_compute; intros E; injection E as <-; auto|]). lia.
Qed.

Print Assumptions C40_any_stop.
Print Assumptions C40_finished.
Print Assumptions C40_history.
Print Assumptions C40_no_versions.
Print Assumptions C40_fixed_directory_refuted.
Print Assumptions C40_unreadable_refuted.
