(* TokModel.v -- white space and token scanning, src/mmpars.c:3664-3819.
   A C string is the list of its character codes up to (not including) the NUL;
   a pointer into it is the remaining suffix.  No proofs here. *)
From Verif Require Import Base.
Open Scope nat_scope.

(* isgraph() in the C locale: printable ASCII except space *)
Definition isgraph (c : nat) : bool := (33 <=? c) && (c <=? 126).

Definition chDollar := 36.   (* $ *)
Definition chOpen := 40.     (* ( *)
Definition chClose := 41.    (* ) *)
Definition chDot := 46.      (* . *)
Definition chBang := 33.     (* ! *)
Definition chNL := 10.
Definition chColon := 58.
Definition chEq := 61.
Definition chQ := 63.

(* in-line strchr(p, c), mmpars.c:3682-3688: the suffix starting at the first c *)
Fixpoint strchr (c : nat) (l : list nat) : option (list nat) :=
  match l with
  | [] => None
  | x :: r => if Nat.eqb x c then Some l else strchr c r
  end.

(* the loop over one comment, mmpars.c:3677-3695, started after "$(".
   Result: the suffix after "$)"; [] for an unterminated comment ("goto EOF").
   After a '$' not followed by ')' the search restarts two characters further
   (ptr + i + 2); if that '$' is the last character this is past the NUL: UB.
   n bounds the number of rounds (the length of the text is enough). *)
Fixpoint skipComment (n : nat) (l : list nat) : res (list nat) :=
  match n with
  | 0 => Fuel
  | S n' =>
      match strchr chDollar l with
      | None => Ok []
      | Some (_ :: r1) =>
          match r1 with
          | [] => UB
          | c :: r2 => if Nat.eqb c chClose then Ok r2 else skipComment n' r2
          end
      | Some [] => Ok []
      end
  end.

(* whiteSpaceLen, mmpars.c:3664-3708, as the suffix it leaves *)
Fixpoint skipWs (n : nat) (l : list nat) : res (list nat) :=
  match n with
  | 0 => Fuel
  | S n' =>
      match l with
      | [] => Ok []
      | c :: r =>
          if Nat.eqb c chDollar then
            match r with
            | d :: r' =>
                if Nat.eqb d chOpen then
                  do s <- skipComment (S (length r')) r'; skipWs n' s
                else if Nat.eqb d chBang then
                  match strchr chNL r' with
                  | None => Bug 1716
                  | Some (_ :: s) => skipWs n' s
                  | Some [] => Ok []
                  end
                else Ok l
            | [] => Ok l
            end
          else if isgraph c then Ok l
          else skipWs n' r
      end
  end.
Definition whiteSpace (l : list nat) : res (list nat) := skipWs (S (length l)) l.
Definition whiteSpaceLen (l : list nat) : res nat :=
  do s <- whiteSpace l; Ok (length l - length s).

(* tokenLen, mmpars.c:3737-3762 *)
Fixpoint tokenLen (l : list nat) : nat :=
  match l with
  | [] => 0
  | c :: r =>
      if Nat.eqb c chDollar then
        match r with
        | d :: r' => if Nat.eqb d chDollar || ((48 <=? d) && (d <=? 57))
                     then S (S (tokenLen r')) else 0
        | [] => 0
        end
      else if isgraph c then S (tokenLen r) else 0
  end.

(* rawTokenLen, mmpars.c:3773-3783; rawWhiteSpaceLen, 3715-3725 *)
Fixpoint rawTokenLen (l : list nat) : nat :=
  match l with
  | [] => 0
  | c :: r => if isgraph c then S (rawTokenLen r) else 0
  end.
Fixpoint rawWhiteSpaceLen (l : list nat) : nat :=
  match l with
  | [] => 0
  | c :: r => if isgraph c then 0 else S (rawWhiteSpaceLen r)
  end.

(* one-character proof tokens, mmpars.c:3795-3799 and 3811-3815 *)
Definition proofSpecial (c : nat) : bool :=
  (c =? chColon) || (c =? chQ) || (c =? chOpen) || (c =? chClose) || (c =? chEq).

(* proofTokenLen, mmpars.c:3791-3819 *)
Fixpoint proofTokenGo (l : list nat) : nat :=
  match l with
  | [] => 0
  | c :: r =>
      if Nat.eqb c chDollar then
        match r with
        | d :: r' => if Nat.eqb d chDollar then S (S (proofTokenGo r')) else 0
        | [] => 0
        end
      else if negb (isgraph c) then 0
      else if proofSpecial c then 0
      else S (proofTokenGo r)
  end.
Definition proofTokenLen (l : list nat) : nat :=
  match l with
  | c :: _ => if proofSpecial c then 1 else proofTokenGo l
  | [] => 0
  end.

(* "First break up proof section of source into tokens", mmpars.c:2008-2018:
   the tokens, and the suffix at which no further token starts *)
Fixpoint proofTokens (n : nat) (l : list nat) : res (list (list nat) * list nat) :=
  match n with
  | 0 => Fuel
  | S n' =>
      match proofTokenLen l with
      | 0 => Ok ([], l)
      | k => do s <- whiteSpace (skipn k l);
             do r <- proofTokens n' s;
             let '(ts, e) := r in Ok (firstn k l :: ts, e)
      end
  end.

(* the token loop over a math section, mmpars.c:592-597 ($c/$v) and 1087-1090:
   skip white space, take a token, stop at the first place without one *)
Fixpoint mathTokens (n : nat) (l : list nat) : res (list (list nat) * list nat) :=
  match n with
  | 0 => Fuel
  | S n' =>
      do s <- whiteSpace l;
      match tokenLen s with
      | 0 => Ok ([], s)
      | k => do r <- mathTokens n' (skipn k s);
             let '(ts, e) := r in Ok (firstn k s :: ts, e)
      end
  end.
