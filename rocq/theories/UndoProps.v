(* UndoProps.v -- C25, C26: the undo stack of the Proof Assistant.
   P: proofs; I: descriptions of commands; idle: the states of the stack between sessions
   in any life of the program; the session commands are in UndoModel.cmd. *)
From Verif Require Import Base UndoModel UndoSpec UndoProofs.
Open Scope Z_scope.

(* C25.  Every session runs without trap or undefined behaviour, and its answers and its
   current proof are those of a linear history with the limit in force. *)
Theorem C25_linear_history : forall P I (emptyP : P) (noInfo : I) u p cs,
  idle P I emptyP noInfo u ->
  let h0 := hstart P I p (Z.to_nat (u_size P I u - 1)) in
  exists s0 s, prove P I emptyP noInfo u p = Ok s0 /\
    run P I emptyP noInfo s0 cs = Ok (s, snd (hrun P I h0 cs)) /\
    s_cur P I s = h_cur P I (fst (hrun P I h0 cs)).
Proof. exact session_history. Qed.

(* The words of the property, after any commands cs: *)
(* n commands that change the proof, then n UNDOs: the proof is what it was (n within the limit) *)
Theorem C25_undo_restores : forall P I (emptyP : P) (noInfo : I) u p cs s0 s a es,
  idle P I emptyP noInfo u -> prove P I emptyP noInfo u p = Ok s0 -> run P I emptyP noInfo s0 cs = Ok (s, a) ->
  Z.of_nat (length es) <= u_size P I (s_u P I s) - 1 ->
  exists s' a', run P I emptyP noInfo s
      (map (fun e => Edit P I (fst e) (snd e)) es ++ repeat (Undo P I) (length es)) = Ok (s', a') /\
    s_cur P I s' = s_cur P I s.
Proof. exact undo_restores. Qed.
(* a command and UNDO: UNDO says it undid that command *)
Theorem C25_undo_answer : forall P I (emptyP : P) (noInfo : I) u p cs s0 s a q i,
  idle P I emptyP noInfo u -> prove P I emptyP noInfo u p = Ok s0 -> run P I emptyP noInfo s0 cs = Ok (s, a) ->
  1 <= u_size P I (s_u P I s) - 1 ->
  exists s', run P I emptyP noInfo s [Edit P I q i; Undo P I] = Ok (s', [Silent I; Undid I i]) /\
    s_cur P I s' = s_cur P I s.
Proof. exact edit_undo_answer. Qed.
(* REDO reverses an effective UNDO *)
Theorem C25_redo_reverses : forall P I (emptyP : P) (noInfo : I) u p cs s0 s a s' i,
  idle P I emptyP noInfo u -> prove P I emptyP noInfo u p = Ok s0 -> run P I emptyP noInfo s0 cs = Ok (s, a) ->
  step P I emptyP noInfo s (Undo P I) = Ok (s', Undid I i) ->
  exists s'', step P I emptyP noInfo s' (Redo P I) = Ok (s'', Redid I i) /\ s_cur P I s'' = s_cur P I s.
Proof. exact undo_redo. Qed.
(* a new command discards what could be redone *)
Theorem C25_edit_discards_redo : forall P I (emptyP : P) (noInfo : I) u p cs s0 s a q i,
  idle P I emptyP noInfo u -> prove P I emptyP noInfo u p = Ok s0 -> run P I emptyP noInfo s0 cs = Ok (s, a) ->
  exists s', run P I emptyP noInfo s [Edit P I q i; Redo P I] = Ok (s', [Silent I; NothingToRedo I]) /\
    s_cur P I s' = q.
Proof. exact edit_no_redo. Qed.
(* EXIT and SET UNDO outside the Proof Assistant do not fail either *)
Theorem C25_exit_ok : forall P I (emptyP : P) (noInfo : I) u p cs s0 s a,
  idle P I emptyP noInfo u -> prove P I emptyP noInfo u p = Ok s0 -> run P I emptyP noInfo s0 cs = Ok (s, a) ->
  exists u', leave P I emptyP noInfo s = Ok u'.
Proof. exact leave_never_fails. Qed.
Theorem C25_set_outside_ok : forall P I (emptyP : P) (noInfo : I) u x n,
  idle P I emptyP noInfo u -> exists u', setUndoOutside P I emptyP noInfo u x n = Ok u'.
Proof. exact idle_never_fails. Qed.

(* C26.  "Not changed" is only reported when the proof is the one at entry. *)
Theorem C26_status_sound : forall P I (emptyP : P) (noInfo : I) u p cs s0 s a,
  idle P I emptyP noInfo u -> prove P I emptyP noInfo u p = Ok s0 -> run P I emptyP noInfo s0 cs = Ok (s, a) ->
  exists u' b, process P I emptyP noInfo (s_u P I s) (s_cur P I s) (GET_STATUS I) = Ok (u', s_cur P I s, Status I b) /\
    (b = false -> s_cur P I s = p).
Proof. exact status_sound. Qed.
(* EXIT without a warning loses nothing, as long as no SAVE PROOF of another statement is used *)
Theorem C26_exit_sound : forall P I (emptyP : P) (noInfo : I) u p cs s0 s a,
  idle P I emptyP noInfo u -> ~ In (SaveOther P I) cs ->
  prove P I emptyP noInfo u p = Ok s0 -> run P I emptyP noInfo s0 cs = Ok (s, a) ->
  exists w, exitWarns P I emptyP noInfo s = Ok w /\ (w = false -> s_cur P I s = s_saved P I s).
Proof. exact exit_sound. Qed.
(* The side condition is needed: SAVE PROOF of another statement clears g_proofChanged
   (metamath.c:3795), and EXIT then drops an unsaved proof without a warning. *)
Theorem C26_exit_sound_saveOther_refuted :
  ~ (forall u (p : nat) cs s0 s a, idle nat nat 0%nat 0%nat u ->
       prove nat nat 0%nat 0%nat u p = Ok s0 -> run nat nat 0%nat 0%nat s0 cs = Ok (s, a) ->
       exists w, exitWarns nat nat 0%nat 0%nat s = Ok w /\ (w = false -> s_cur nat nat s = s_saved nat nat s)).
Proof.
  intros H.
  destruct (prove nat nat 0%nat 0%nat (uinit nat nat 20) 1%nat) as [s0| | |] eqn:E0; try (vm_compute in E0; discriminate).
  destruct (run nat nat 0%nat 0%nat s0 [Edit nat nat 2%nat 7%nat; SaveOther nat nat]) as [[s a]| | |] eqn:E1;
    try (vm_compute in E0; injection E0 as <-; vm_compute in E1; discriminate).
  destruct (H _ _ _ _ _ _ (idle_start nat nat 0%nat 0%nat) E0 E1) as (w & E & K).
  vm_compute in E0. injection E0 as <-. vm_compute in E1. injection E1 as <- <-.
  vm_compute in E. injection E as <-. specialize (K eq_refl). vm_compute in K. discriminate.
Qed.

(* Cases: limit 2, three edits (the first is lost), undo twice, "exceeded", redo, edit, redo. *)
Definition caseU : res (list (answer nat) * nat) :=
  do u <- setUndoOutside nat nat 0%nat 0%nat (uinit nat nat 20) 0%nat 2;
  do s <- prove nat nat 0%nat 0%nat u 10%nat;
  do r <- run nat nat 0%nat 0%nat s
    [Edit _ _ 11%nat 1%nat; Edit _ _ 12%nat 2%nat; Edit _ _ 13%nat 3%nat; Undo _ _; Undo _ _; Undo _ _; Redo _ _;
     Edit _ _ 14%nat 4%nat; Redo _ _];
  Ok (snd r, s_cur _ _ (fst r)).
Example caseU_value : caseU = Ok ([Silent _; Silent _; Silent _; Undid _ 3%nat; Undid _ 2%nat; ExceededMax _; Redid _ 2%nat;
  Silent _; NothingToRedo _], 14%nat).
Proof. vm_compute. reflexivity. Qed.
Example caseU_idle : exists u, setUndoOutside nat nat 0%nat 0%nat (uinit nat nat 20) 0%nat 2 = Ok u /\ idle nat nat 0%nat 0%nat u.
Proof.
  eexists. split; [reflexivity|]. eapply idle_set with (cur := 0%nat) (n := 2); [apply idle_start|reflexivity].
Qed.
(* an edit, an undo: exit does not warn and the proof is the old one; after an edit it warns *)
Example caseExit :
  (do s <- prove nat nat 0%nat 0%nat (uinit nat nat 20) 10%nat;
   do r <- run nat nat 0%nat 0%nat s [Edit _ _ 11%nat 1%nat; Undo _ _];
   do w <- exitWarns nat nat 0%nat 0%nat (fst r); Ok (w, s_cur _ _ (fst r))) = Ok (false, 10%nat) /\
  (do s <- prove nat nat 0%nat 0%nat (uinit nat nat 20) 10%nat;
   do r <- run nat nat 0%nat 0%nat s [Edit _ _ 11%nat 1%nat];
   exitWarns nat nat 0%nat 0%nat (fst r)) = Ok true /\
  (do s <- prove nat nat 0%nat 0%nat (uinit nat nat 20) 10%nat;
   do r <- run nat nat 0%nat 0%nat s [Edit _ _ 11%nat 1%nat; SaveNew _ _; Undo _ _];
   exitWarns nat nat 0%nat 0%nat (fst r)) = Ok true.
Proof. vm_compute. repeat split. Qed.

Print Assumptions C25_linear_history.
Print Assumptions C25_undo_restores.
Print Assumptions C25_undo_answer.
Print Assumptions C25_redo_reverses.
Print Assumptions C25_edit_discards_redo.
Print Assumptions C25_exit_ok.
Print Assumptions C25_set_outside_ok.
Print Assumptions C26_status_sound.
Print Assumptions C26_exit_sound.
Print Assumptions C26_exit_sound_saveOther_refuted.
