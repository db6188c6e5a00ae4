(* CmdModel.v -- command lines: parseCommandLine (src/mmcmdl.c:1944-2085), the keyword
   part of getFullArg (src/mmcmdl.c:1754-1920), cmdMatches and switchPos
   (src/mmcmdl.c:2095-2146).  No proofs here.
   Strings are lists of character codes without the terminator, as in VstrModel.v.
   Not modelled: the number ('#'), free text ('*') and file ('&') cases of getFullArg,
   printing of messages, deallocation. *)
From Verif Require Import Base VstrModel.
Open Scope nat_scope.

(* ---------- parseCommandLine ---------- *)
Definition chSq : nat := 39.  Definition chDq : nat := 34.
Inductive mode := MODE_START | MODE_END | MODE_QUOTE (q : nat).   (* SQUOTE: 39, DQUOTE: 34 *)
(* instr(1, set, chr(c)) *)
Definition inSet (set : list nat) (c : nat) : bool := negb (instr 1 set [c] =? 0).
Definition tokenWhiteSpace : list nat := [32; 9; 10].
Definition specialOneCharTokens (toolsMode : bool) : list nat := if toolsMode then [] else [47; 61].
(* the loop; rest is line from p on; the result has the column (g_rawArgNmbr) and the text
   (g_rawArgPntr) of each argument *)
Fixpoint pcl (tools : bool) (line rest : list nat) (p : nat) (m : mode) (tokenStart : nat)
  : res (list (nat * list nat)) :=
  match rest with
  | [] =>
      match m with
      | MODE_START => Ok []
      | _ => do t <- seg line (Z.of_nat tokenStart) (Z.of_nat p); Ok [(tokenStart, t)]
      end
  | c :: r =>
      match m with
      | MODE_START =>
          if inSet tokenWhiteSpace c then pcl tools line r (S p) MODE_START tokenStart
          else if (p =? 0) && inSet [33] c then Ok []
          else if inSet (specialOneCharTokens tools) c then
            do l <- pcl tools line r (S p) MODE_START tokenStart; Ok ((p + 1, [c]) :: l)
          else if c =? chSq then pcl tools line r (S p) (MODE_QUOTE chSq) (p + 2)
          else if c =? chDq then pcl tools line r (S p) (MODE_QUOTE chDq) (p + 2)
          else pcl tools line r (S p) MODE_END (p + 1)
      | MODE_END =>
          if inSet tokenWhiteSpace c then
            do t <- seg line (Z.of_nat tokenStart) (Z.of_nat p);
            do l <- pcl tools line r (S p) MODE_START tokenStart; Ok ((tokenStart, t) :: l)
          else if inSet (specialOneCharTokens tools) c then
            do t <- seg line (Z.of_nat tokenStart) (Z.of_nat p);
            do l <- pcl tools line r (S p) MODE_START tokenStart; Ok ((tokenStart, t) :: (p + 1, [c]) :: l)
          else if c =? chSq then
            do t <- seg line (Z.of_nat tokenStart) (Z.of_nat p);
            do l <- pcl tools line r (S p) (MODE_QUOTE chSq) (p + 2); Ok ((tokenStart, t) :: l)
          else if c =? chDq then
            do t <- seg line (Z.of_nat tokenStart) (Z.of_nat p);
            do l <- pcl tools line r (S p) (MODE_QUOTE chDq) (p + 2); Ok ((tokenStart, t) :: l)
          else pcl tools line r (S p) MODE_END tokenStart
      | MODE_QUOTE q =>
          if c =? q then
            do t <- seg line (Z.of_nat tokenStart) (Z.of_nat p);
            do l <- pcl tools line r (S p) MODE_START tokenStart; Ok ((tokenStart, t) :: l)
          else pcl tools line r (S p) (MODE_QUOTE q) tokenStart
      end
  end.
(* the columns are shifted by the length of the prompt at the end *)
Definition parseCommandLine (tools : bool) (promptLen : nat) (line : list nat) : res (list (nat * list nat)) :=
  do l <- pcl tools line line 0 MODE_START 0;
  Ok (map (fun x => (fst x + promptLen, snd x)) l).

(* ---------- getFullArg with a list of keywords ---------- *)
Definition bar : list nat := [124].
Definition seqb (a b : list nat) : bool := if list_eq_dec Nat.eq_dec a b then true else false.   (* !strcmp *)
(* the loop that splits the list at the bars, 1758-1766 *)
Fixpoint splitBar (fuel : nat) (cmdList : list nat) (p q : nat) : res (list (list nat)) :=
  match fuel with
  | 0 => Fuel
  | S f =>
      match instr (Z.of_nat p + 1) (cmdList ++ bar) bar with
      | 0 => Ok []
      | p' => do s <- seg cmdList (Z.of_nat q + 1) (Z.of_nat p' - 1);
              do l <- splitBar f cmdList p' p'; Ok (s :: l)
      end
  end.
Definition sNothing : list nat := [110; 111; 116; 104; 105; 110; 103].      (* "nothing" *)
Definition sDefNothing : list nat := 60 :: sNothing ++ [62].                   (* "<nothing>" *)
(* the possible keywords and the default, 1767-1783 *)
Definition choices (cmdList : list nat) : res (list (list nat) * list nat) :=
  do poss <- splitBar (length cmdList + 2) cmdList 0 0;
  do last_ <- rget (nth_error poss (length poss - 1));
  do b <- left_ last_ 1;
  let '(poss, def) :=
    if seqb b [60] then (firstn (length poss - 1) poss, if seqb last_ [60; 36; 62] then sDefNothing else last_)
    else (poss, []) in
  do last_ <- (if length poss =? 0 then UB else rget (nth_error poss (length poss - 1)));
  let poss := if seqb last_ [36] then firstn (length poss - 1) poss ++ [sNothing] else poss in
  Ok (poss, def).
Inductive kwOut :=
| Keyword (k : list nat)        (* the expanded keyword *)
| Nothing                       (* chr(3): no argument *)
| Ambiguous (l : list (list nat))
| Expected (l : list (list nat))
| NoDefault.
(* the scan for a match, 1847-1868: k, j and the list of matches *)
Fixpoint scanKw (poss : list (list nat)) (i : nat) (arg : list nat) (k j : nat) (acc : list (list nat))
  : res (nat * nat * list (list nat)) :=
  match poss with
  | [] => Ok (k, j, acc)
  | c :: r =>
      if seqb c arg then Ok (1, i, acc)
      else do l <- left_ c (Z.of_nat (length arg));
           if seqb l arg then scanKw r (S i) arg (S k) i (acc ++ [c])
           else scanKw r (S i) arg k j acc
  end.
(* raw: the argument in the command line, if present; answer: what the user types if prompted *)
Definition getKeyword (cmdList : list nat) (queryMode : bool) (raw : option (list nat)) (answer : list nat) : res kwOut :=
  do x <- choices cmdList;
  let '(poss, def) := x in
  do last_ <- rget (nth_error poss (length poss - 1));
  do raw <- match raw with
    | Some a => Ok (Some a)
    | None =>
        if negb (seqb last_ sNothing) || queryMode then
          do tmpArg <- (if negb (length poss =? 1) then Ok answer
                        else if seqb cmdList [36; 124; 60; 36; 62] then rget (nth_error poss 0) else Ok []);
          do tmpArg <- (match tmpArg with [] => seg def 2 (Z.of_nat (length def) - 1) | _ => Ok tmpArg end);
          Ok (if seqb tmpArg sNothing then None else Some tmpArg)
        else Ok None
    end;
  match raw with
  | None => Ok Nothing
  | Some a =>
      do arg <- edit 0 a 32 [];
      do r <- scanKw poss 0 arg 0 0 [];
      let '(k, j, acc) := r in
      if k <? 1 then Ok (Expected poss)
      else if 1 <? k then Ok (Ambiguous acc)
      else do kw <- rget (nth_error poss j);
           match kw with
           | [] => if seqb def [60; 62] then Ok (Keyword []) else Ok NoDefault
           | _ => Ok (Keyword kw)
           end
  end.

(* ---------- cmdMatches, switchPos ---------- *)
Fixpoint spaces (s : list nat) : nat :=
  match s with [] => 0 | c :: r => (if c =? 32 then 1 else 0) + spaces r end.
Fixpoint joinArgs (fuel i : nat) (args : list (list nat)) (acc : list nat) : res (list nat) :=
  match fuel with
  | 0 => Ok acc
  | S f => do a <- rget (nth_error args i); joinArgs f (S i) args (acc ++ 32 :: a)
  end.
Definition cmdMatches (fullArg : list (list nat)) (cmdString : list nat) : res bool :=
  let j := spaces cmdString in
  if length fullArg <=? j then Ok false
  else do t <- joinArgs (j + 1) 0 fullArg []; Ok (seqb (32 :: cmdString) t).
Fixpoint switchLoop (args : list (list nat)) (i : nat) (sw : list nat) : nat :=
  match args with
  | [] => 0
  | a :: r => if seqb a [47] && (match r with b :: _ => seqb b sw | [] => false end) then i + 1
              else switchLoop r (S i) sw
  end.
Definition switchPos (fullArg : list (list nat)) (sw : list nat) : res nat :=
  if negb (instr 1 sw [32] =? 0) then Bug 1108 else Ok (switchLoop fullArg 0 sw).
