(* LineModel.v -- printLongLine, src/mminou.c:498-724: breaking a long line into
   screen lines.  No proofs here.  Strings are lists of character codes without the
   terminator; C's long is Z.  The result is the list of the lines handed to
   print2() (without their line feeds). *)
From Verif Require Import Base VstrModel.
Open Scope Z_scope.

Definition len (l : list nat) : Z := Z.of_nat (length l).
Definition bz (b : bool) : Z := if b then 1 else 0.
Definition chSpace : nat := 32.
Definition chQuoted : nat := 3.        (* QUOTED_SPACE, mminou.c:41 *)
(* space(n), src/mmvstr.c:620-632 *)
Definition space (n : Z) : list nat := repeat chSpace (Z.to_nat n).
(* s[k]; s[strlen(s)] is the terminator, beyond it is out of bounds *)
Definition charAt (s : list nat) (k : Z) : res nat :=
  if (k <? 0) || (len s <? k) then UB else Ok (nth (Z.to_nat k) s 0%nat).
Definition hdIs (c : nat) (s : list nat) : bool :=
  match s with x :: _ => Nat.eqb x c | [] => false end.

(* print2("%s\n", ...), 183-482: reverting quoted spaces (352-356).  A line longer
   than the screen is broken up again, anywhere (358-372), or reported as bug 1505
   (457-467); the model makes both a trap.  Not modelled: scrolling, paging, the
   log file (where the line goes). *)
Definition unquote (c : nat) : nat := if Nat.eqb c chQuoted then chSpace else c.
Definition print2 (w : Z) (line : list nat) : res (list nat) :=
  if w + 1 <? len line + 1 then Bug 1505 else Ok (map unquote line).

(* how the line is broken: tildeFlag, treeIndentationFlag, breakMatch1 *)
Record style := mkStyle { y_tilde : bool; y_tree : bool; y_brk : list nat }.

(* strchr(set, c) != NULL; the terminator of set counts *)
Definition strchr (set : list nat) (c : nat) : bool := existsb (Nat.eqb c) set || Nat.eqb c 0.
(* the backward search, 650-654: p counts from 1; 0 = not found *)
Fixpoint findBreak (set long : list nat) (p : nat) : res nat :=
  match p with
  | O => Ok O
  | S q => do c <- charAt long (Z.of_nat q);
           if strchr set c then Ok p else findBreak set long q
  end.

(* where to break, 632-654 *)
Definition breakPos (y : style) (long : list nat) (p : Z) : res Z :=
  do compressed <-
    (if hdIs 38 (y_brk y) then
       do part <- left_ long (len long - 3);
       do c3 <- charAt long (p - 3);
       do c4 <- charAt long (p - 4);
       Ok ((Nat.eqb (instr p part [chSpace]) 0 && negb (Nat.eqb c3 chSpace)) || Nat.eqb c4 41)
     else Ok false);
  if (compressed : bool) then
    do c2 <- charAt long (p - 2);
    Ok (if Nat.eqb c2 chSpace then p - 1 else p)
  else match y_brk y with
       | [] => Ok p
       | _ => do q <- findBreak (if hdIs 92 (y_brk y) then [chSpace] else y_brk y) long (Z.to_nat p);
              Ok (Z.of_nat q)
       end.

(* 608-613: startNextLineLen and startNextLine1 *)
Definition setStart (w : Z) (start : list nat) : res (Z * list nat) :=
  if w - 4 <? len start then do s <- left_ start (w - 4); Ok (w - 4, s)
  else Ok (len start, start).

(* 603-717: one line of the caller.  w = g_screenWidth, sl = startNextLineLen,
   first = firstLine.  Also returns startNextLine1. *)
Fixpoint wrap (fuel : nat) (y : style) (w sl : Z) (start long : list nat) (first : bool)
  : res (list (list nat) * list nat) :=
  match fuel with
  | O => Fuel
  | S f =>
      let room := w - bz (y_tilde y) - bz (hdIs 92 (y_brk y)) in
      let used := if first then 0 else sl in
      if len long + used <=? room then
        do x <- print2 w (if first then long
                          else if y_tree y then start ++ space (w - sl - len long) ++ long
                          else start ++ long);
        Ok ([x], start)
      else
        let p := room + 1 - used in
        if p <? 4 then Bug 1524
        else
          do p <- breakPos y long p;
          if p <=? 0 then                                   (* goto HTML_RESTART *)
            do s <- setStart (w + 1) start;
            wrap f y (w + 1) (fst s) (snd s) long true
          else
            do c0 <- charAt long 0;
            if (p =? 1) && negb (Nat.eqb c0 chSpace) then Bug 1516
            else
              let prefix := if first then []
                            else if y_tree y && (sl + p - 1 <? w) then start ++ space (w - sl - p + 1)
                            else start in
              do l <- left_ long (p - 1);
              do x <- print2 w (prefix ++ l ++ if y_tilde y then [126%nat] else []);
              do c <- charAt long (p - 1);
              do rest <-
                (if Nat.eqb c chSpace && negb (match y_brk y with [] => true | _ => false end) then
                   do d <- charAt long p;
                   if Nat.eqb d chSpace then right_ long (p + 2) else right_ long (p + 1)
                 else right_ long p);
              do r <- wrap f y w sl start rest false;
              Ok (x :: fst r, snd r)
  end.

(* 563-583: spaces inside a quotation that follows '=' are protected *)
Fixpoint quoteSpaces (prev : option nat) (quote : bool) (s : list nat) : list nat :=
  match s with
  | [] => []
  | c :: r =>
      let quote := if Nat.eqb c 34
                   then match prev with
                        | None => quote
                        | Some a => if negb quote && Nat.eqb a 61 then true else false
                        end
                   else quote in
      (if Nat.eqb c chSpace && quote then chQuoted else c) :: quoteSpaces (Some c) quote r
  end.

(* 593-603: the caller's lines.  "x\n" is one line.  (The C code cuts them off one at a
   time with instr, left and right.) *)
Fixpoint callerLines (s : list nat) : list (list nat) :=
  match s with
  | [] => []
  | c :: r =>
      if Nat.eqb c 10 then [] :: callerLines r
      else match callerLines r with
           | [] => [[c]]
           | x :: xs => (c :: x) :: xs
           end
  end.

(* the loop over the caller's lines, 593-718 *)
Fixpoint wrapAll (fuel : nat) (y : style) (w : Z) (start : list nat) (ls : list (list nat))
  : res (list (list nat)) :=
  match ls with
  | [] => Ok []
  | l :: r =>
      do s <- setStart w start;
      do x <- wrap fuel y w (fst s) (snd s) l true;
      do xs <- wrapAll fuel y w (snd x) r;
      Ok (fst x ++ xs)
  end.

(* printLongLine(line, startNextLine, breakMatch); w = g_screenWidth *)
Definition printLongLine (fuel : nat) (w : Z) (line start brk : list nat) : res (list (list nat)) :=
  match line with
  | [] => do x <- print2 w []; Ok [x]
  | _ =>
      let tree := hdIs 1 brk in
      let brk := if tree then chSpace :: tl brk else brk in
      let html := hdIs 34 brk in
      let brk := if html then chSpace :: tl brk else brk in
      let multi := if html then quoteSpaces None false line else line in
      let tilde := hdIs 126 start in
      let start := if tilde then [chSpace] else start in
      wrapAll fuel (mkStyle tilde tree brk) w start (callerLines multi)
  end.
