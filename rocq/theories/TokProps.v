(* TokProps.v -- C30: tokenisation partitions the source. *)
From Verif Require Import Base TokModel TokSpec TokProofs.
Open Scope nat_scope.

(* Skipping white space splits off exactly the longest run of blanks and comments;
   the only other outcomes are the two malformed endings of a file:
   a comment whose last character is '$' (read past the end of the buffer), and
   a "$!" line without newline (internal trap 1716). *)
Theorem C30_white_space_is_blanks : forall l : list nat,
  match whiteSpace l with
  | Ok s => exists w, l = w ++ s /\ blanks w s /\ startsInk s
  | UB => exists w body, l = w ++ dollar :: 40 :: body ++ [dollar] /\
            commentText body /\ blanks w (dollar :: 40 :: body ++ [dollar])
  | Bug k => k = 1716 /\ exists w body, l = w ++ dollar :: 33 :: body /\ ~ In 10 body /\
            blanks w (dollar :: 33 :: body)
  | Fuel => False
  end.
Proof. exact whiteSpace_ok. Qed.
Print Assumptions C30_white_space_is_blanks.

Theorem C30_white_space_unique : forall w s : list nat,
  blanks w s -> startsInk s -> whiteSpace (w ++ s) = Ok s.
Proof. exact whiteSpace_blanks. Qed.
Print Assumptions C30_white_space_unique.

(* The token loop over a math section: the text is blanks, then maximal tokens
   separated by blanks, then a rest at which no token can start. *)
Theorem C30_math_tokens_partition : forall n l ts e,
  mathTokens n l = Ok (ts, e) ->
  exists w s, l = w ++ s /\ blanks w s /\ startsInk s /\
  tokenised mathToken tokenEnds s ts e.
Proof. exact mathTokens_ok. Qed.
Print Assumptions C30_math_tokens_partition.

Theorem C30_math_tokens_unique : forall l ts e,
  tokenised mathToken tokenEnds l ts e -> startsInk l ->
  forall n, length ts < n -> mathTokens n l = Ok (ts, e).
Proof. exact mathTokens_complete. Qed.
Print Assumptions C30_math_tokens_unique.

(* tokens contain only printable non-blank characters *)
Theorem C30_tokens_have_no_white_space : forall t, tokenText t -> Forall graphic t.
Proof. exact tokenText_graphic. Qed.
Print Assumptions C30_tokens_have_no_white_space.

Theorem C30_proof_tokens_partition : forall n l ts e,
  proofTokens n l = Ok (ts, e) -> tokenised proofToken noProofToken l ts e.
Proof. exact proofTokens_ok. Qed.
Print Assumptions C30_proof_tokens_partition.

Theorem C30_proof_tokens_unique : forall l ts e,
  tokenised proofToken noProofToken l ts e ->
  forall n, length ts < n -> proofTokens n l = Ok (ts, e).
Proof. exact proofTokens_complete. Qed.
Print Assumptions C30_proof_tokens_unique.

Theorem C30_token_loops_terminate : forall n l, length l < n ->
  mathTokens n l <> Fuel /\ proofTokens n l <> Fuel.
Proof. intros n l H. exact (conj (mathTokens_total n l H) (proofTokens_total n l H)). Qed.
Print Assumptions C30_token_loops_terminate.

(* the malformed endings are real *)
Theorem C30_white_space_ub_refuted : exists l, whiteSpace l = UB.
Proof. exists [36; 40; 32; 36]. vm_compute. reflexivity. Qed.
Theorem C30_white_space_trap_refuted : exists l, whiteSpace l = Bug 1716.
Proof. exists [36; 33; 32]. vm_compute. reflexivity. Qed.
Print Assumptions C30_white_space_ub_refuted.
Print Assumptions C30_white_space_trap_refuted.

(* " $( a $$) $) ph $$ $( x $) -> $." *)
Example C30_math_example :
  mathTokens 40 [32;36;40;32;97;32;36;36;41;32;36;41;32;112;104;32;36;36;32;36;40;32;120;32;36;41;32;45;62;32;36;46]
  = Ok ([[112;104]; [36;36]; [45;62]], [36;46]).
Proof. vm_compute. reflexivity. Qed.
(* "( a1i )?:b $." *)
Example C30_proof_example :
  proofTokens 40 [40;32;97;49;105;32;41;63;58;98;32;36;46]
  = Ok ([[40]; [97;49;105]; [41]; [63]; [58]; [98]], [36;46]).
Proof. vm_compute. reflexivity. Qed.
