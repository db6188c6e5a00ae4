(* FatlProps.v -- C28: fatal error messages. *)
From Coq Require Import NArith.
From Verif Require Import Base FatlModel FatlSpec FatlProofs.
Open Scope nat_scope.

(* Every format, with arguments of the kinds it asks for, stands for exactly one text. *)
Theorem C28_text_exists : forall bits f a, str f ->
  Forall2 (goodArg bits) (asks f) (firstn (length (asks f)) a) -> exists t, expands bits f a t.
Proof. exact asks_total. Qed.
Theorem C28_text_unique : forall bits f a t t', expands bits f a t -> expands bits f a t' -> t = t'.
Proof. intros bits f a t t' H. exact (expands_fun bits f a t H t'). Qed.

(* Any sequence of pushes into the buffer stays inside its bounds (UB is a distinct
   outcome); each push reports whether everything so far fits; afterwards the buffer is the
   string of all texts if that is shorter than the buffer, and otherwise its first maxMsg
   characters followed by the ellipsis; what is printed ends in a line feed. *)
Theorem C28_buffer : forall maxMsg ell bits l ts, str ell -> expandsAll bits l ts ->
  exists b, pushes maxMsg bits (initBuffer maxMsg ell) l = Ok (b, flags maxMsg 0 ts) /\
    cstring (b_text b) = Ok (shownText maxMsg ell (concat ts)) /\
    fatalErrorPrintAndExit maxMsg bits b = Ok (shownText maxMsg ell (ended (concat ts))).
Proof. exact session_ok. Qed.
(* fatalErrorExitAt prints the location, then the message, cut in the same way. *)
Theorem C28_exit_at : forall maxMsg ell bits file line dec msg args t, str ell ->
  (line < 2 ^ N.of_nat bits)%N -> isDecimal line dec -> (forall f, file = Some f -> str f) ->
  match msg with None => t = [] | Some f => expands bits f args t end ->
  fatalErrorExitAt maxMsg ell bits file line msg args = Ok (shownText maxMsg ell (ended (location file line dec ++ t))).
Proof. exact exitAt_ok. Qed.
(* The digits of an unsigned number of any width fit their array, and are its decimal form. *)
Theorem C28_unsigned : forall bits n, (n < 2 ^ N.of_nat bits)%N ->
  exists d, unsignedToString bits n = Ok d /\ isDecimal n d.
Proof. exact unsigned_ok. Qed.

(* concrete cases, with the ellipsis and the integer width of the program *)
Definition ellipsis : list nat := [46; 46; 46; 10].
Example C28_case_fits : str ellipsis /\ expandsAll 32 [(Some [37; 115; 58; 37; 117], [AStr (Some [97]); AUns 4294967295]); (None, [])]
    [[97; 58; 52; 50; 57; 52; 57; 54; 55; 50; 57; 53]; []] /\
  (do x <- pushes 1024 32 (initBuffer 1024 ellipsis) [(Some [37; 115; 58; 37; 117], [AStr (Some [97]); AUns 4294967295]); (None, [])];
   fatalErrorPrintAndExit 1024 32 (fst x)) = Ok [97; 58; 52; 50; 57; 52; 57; 54; 55; 50; 57; 53; 10].
Proof.
  split; [repeat constructor; discriminate|]. split.
  - split; [|split; [reflexivity|exact I]].
    apply (ex_str 32 [97]); [repeat constructor; discriminate|]. apply ex_char; [discriminate|discriminate|].
    rewrite <- (app_nil_r [52; 50; 57; 52; 57; 54; 55; 50; 57; 53]).
    apply ex_uns; [vm_compute; reflexivity| |constructor].
    split; [discriminate|]. split; [repeat constructor; lia|]. split; [vm_compute; reflexivity|discriminate].
  - vm_compute. reflexivity.
Qed.
Example C28_case_cut : (do x <- pushes 5 32 (initBuffer 5 ellipsis) [(Some [97; 98], []); (Some [99; 37; 115; 100], [AStr (Some [101; 102])])];
   do y <- cstring (b_text (fst x)); Ok (snd x, y)) = Ok ([true; false], [97; 98; 99; 101; 102; 46; 46; 46; 10]).
Proof. vm_compute. reflexivity. Qed.
Print Assumptions C28_text_exists.
Print Assumptions C28_text_unique.
Print Assumptions C28_buffer.
Print Assumptions C28_exit_at.
Print Assumptions C28_unsigned.
