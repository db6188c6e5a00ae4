(* LetModel.v -- parseMathTokens, src/mmpars.c:4544-4814: the math symbols in a text
   typed by the user, and its use by LET, src/metamath.c:4346-4355.
   No proofs here.
   Not modelled: malloc failures, the wording and position of the messages
   (sourceError), and nmbrLet of the result. *)
From Verif Require Import Base VstrModel LabModel TokModel StmModel MatchModel.
Open Scope nat_scope.

(* the globals it reads: le_T: g_MathToken (names, types, declaring statements), g_mathKey and
   the tables made of them, 4619-4664; le_end, le_scope: the fields endStatement and scope;
   le_at: statemNum; le_cur: g_Statement[statemNum].scope, 4666; le_pip: g_pipDummyVars *)
Record lenv := mkLE {
  le_T : tenv; le_end : nat -> nat; le_scope : nat -> Z; le_at : nat; le_cur : Z; le_pip : nat }.

(* 4609-4618 *)
Definition leActive (E : lenv) (t : nat) : bool :=
  match nth_error (tk_toks (le_T E)) t with
  | Some k => (mt_stmt k <=? le_at E) && (le_at E <=? le_end E t)
  | None => false
  end.

(* 4711-4722: the active symbol of the group with the greatest scope *)
Fixpoint pickTop (E : lenv) (l : list nat) (best : nat) (maxS : Z) : nat * Z :=
  match l with
  | [] => (best, maxS)
  | j :: r =>
      if leActive E j && Z.ltb maxS (le_scope E j) then
        if Z.eqb (le_scope E j) (le_cur E) then (j, le_scope E j) else pickTop E r j (le_scope E j)
      else pickTop E r best maxS
  end.

(* 4694-4742: the symbol at place ki of g_mathKey; None: not active (an error) *)
Definition symAt (E : lenv) (ki : nat) : res (option nat) :=
  let T := le_T E in
  do t0 <- rget (nth_error (tk_key T) ki);
  do sa <- rget (nth_error (tk_same T) ki);
  if Nat.eqb sa 0 then Ok (if leActive E t0 then Some t0 else None)
  else
    do g <- group T ki;
    let (t, m) := pickTop E g t0 (-1)%Z in
    Ok (if Z.eqb m (-1) then None else Some t).

(* 4687-4693 and 4743: the lengths len, len-1, ..., 1 of the trial token *)
Fixpoint tryLens (T : tenv) (l : list nat) (len : nat) : res (option (nat * nat)) :=
  match len with
  | 0 => Ok None
  | S k =>
      if tk_maxLen T <? len then UB        (* symbolLenExists[] *)
      else if hasLen (tk_toks T) len then
        do f <- msearch (S (length (tk_key T))) T (firstn len l) 0 (length (tk_key T));
        match f with
        | Some ki => Ok (Some (len, ki))
        | None => tryLens T l k
        end
      else tryLens T l k
  end.

(* 4745-4754: the length of "$<number>", or 0 *)
Fixpoint digitRun (l : list nat) : nat :=
  match l with
  | [] => 0
  | c :: r => if (48 <=? c) && (c <=? 57) then S (digitRun r) else 0
  end.
Definition dummyLen (l : list nat) : nat :=
  match l with
  | c :: r => if Nat.eqb c chDollar
              then match digitRun (firstn (tokenLen l - 1) r) with 0 => 0 | d => S d end
              else 0
  | [] => 0
  end.

(* the answer so far (wrkNmbrPtr), errCount, the messages printed, g_dummyVars *)
Record lst := mkL { l_toks : list nat; l_err : nat; l_printed : nat; l_dummy : nat }.
Definition addErr (st : lst) : lst :=      (* 4726-4731 *)
  mkL (l_toks st) (S (l_err st)) (if S (l_err st) <=? 1 then S (l_printed st) else l_printed st) (l_dummy st).
(* 4778-4780; wrk = wrkLen *)
Definition addTok (wrk t : nat) (st : lst) : res lst :=
  if wrk <=? length (l_toks st) then UB
  else Ok (mkL (l_toks st ++ [t]) (l_err st) (l_printed st) (l_dummy st)).

(* 4676-4783: one symbol at fbPtr; the number of characters it takes.
   Numbers of dummies from 2^53 on (not exact as a double; from 2^63 on the
   conversion to long is undefined) are all taken as UB. *)
Definition oneSym (E : lenv) (wrk : nat) (l : list nat) (orig : nat) (st : lst) : res (nat * lst) :=
  let T := le_T E in
  let sl := if tk_maxLen T <? orig then tk_maxLen T else orig in
  if (wrk <? sl) || (length l <? sl) then UB       (* memcpy, 4686 *)
  else
  do f <- tryLens T l sl;
  match f with
  | Some (len, ki) =>
      do o <- symAt E ki;
      match o with
      | Some t => do st1 <- addTok wrk t st; Ok (len, st1)
      | None => Ok (len, addErr st)
      end
  | None =>
      match dummyLen l with
      | 0 => Ok (tokenLen l, addErr st)
      | S d =>
          let v := val_ (firstn d (skipn 1 l)) in
          if Z.leb (2 ^ 53) v then UB
          else
            let n := Z.to_nat v in
            (* declareDummyVars, 4757-4761, mmpfas.c:3037-3074 *)
            let nd := if le_pip E <? n then l_dummy st + (n - le_pip E) else l_dummy st in
            do st1 <- addTok wrk (n + length (tk_toks T)) (mkL (l_toks st) (l_err st) (l_printed st) nd);
            Ok (S d, st1)
      end
  end.

(* 4669-4791; orig = 0: look for the next token *)
Fixpoint letGo (fuel : nat) (E : lenv) (wrk : nat) (l : list nat) (orig : nat) (st : lst) : res lst :=
  match fuel with
  | 0 => Fuel
  | S f =>
      match orig with
      | 0 => do s <- whiteSpace l;
             match tokenLen s with
             | 0 => Ok st
             | k => letGo f E wrk s k st
             end
      | _ => do x <- oneSym E wrk l orig st;
             let (n, st1) := x in
             if n <? orig then letGo f E wrk (skipn n l) (orig - n) st1
             else letGo f E wrk (skipn n l) 0 st1
      end
  end.
(* nd: g_dummyVars before *)
Definition parseMath (E : lenv) (nd : nat) (text : list nat) : res lst :=
  letGo (2 * length text + 3) E (length text) (chNL :: text) 0 (mkL [] 0 0 nd).

(* LET, metamath.c:4348-4355 (g_errorCount is cleared before): the math string, or
   None: refused *)
Definition letText (E : lenv) (nd : nat) (text : list nat) : res (option (list nat)) :=
  do st <- parseMath E nd text;
  Ok (if Nat.eqb (l_printed st) 0 then Some (l_toks st) else None).
