(* SavModel.v -- SAVE PROOF ... /COMPRESSED, src/metamath.c:3640-3836 without /FAST,
   outside the proof assistant: the text stored as the statement's proof section.
   No proofs here. *)
From Verif Require Import Base VerModel TokModel ParModel SqModel CmpModel OrdModel VstrModel LineModel CmdModel.
Open Scope nat_scope.

(* compressProof's result string, src/mmdata.c:2340-2350: labels separated by one
   space, then the letters *)
Fixpoint joinSp (names : list (list nat)) : list nat :=
  match names with
  | [] => []
  | [n] => n
  | n :: r => n ++ 32 :: joinSp r
  end.
(* the line printed, metamath.c:3713-3714 *)
Definition proofText (ind : nat) (names : list (list nat)) (letters : list nat) : list nat :=
  repeat 32 ind ++ [40; 32] ++ joinSp names ++ [32; 41; 32] ++ letters ++ [32; 36; 46].

(* g_printString: every line printed, each with its line feed (print2 with
   g_outputToString, src/mminou.c:449-453) *)
Definition printed (lines : list (list nat)) : list nat := concat (map (fun l => l ++ [10]) lines).

(* 3802-3836: a line feed before it; it must end in " $.\n"; the section is all but
   the last three characters *)
Definition section (out : list (list nat)) : res (list nat) :=
  let s := 10 :: printed out in
  if seqb (skipn (length s - 4) s) [32; 36; 46; 10] then Ok (firstn (length s - 3) s) else Bug 1128.

(* the command; p = the proof as parsed; w = g_screenWidth, back = the text before the
   statement (read backwards).  The fuels given to the label order and to the printing
   loop are enough (OrdProps, LineProps). *)
Definition saveCompressed (fuel : nat) (env : penv) (n : nat) (w : Z) (back : list nat) (p : list Z) : res (list nat) :=
  let ind := 2 + sourceIndentation back in
  do u <- unsquishProof fuel (e_db env) p;
  do q <- squishProof (e_db env) u;
  do c <- compressProofNew (length q + 2) env n w back q;
  let line := proofText ind (map (fun z => e_name env (Z.to_nat z)) (fst c)) (snd c) in
  do out <- printLongLine (2 * length line + 3) w line (repeat 32 ind) [38; 32];
  section out.
