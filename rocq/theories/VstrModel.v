(* VstrModel.v -- executable model of the string library src/mmvstr.c (mid, seg,
   left, right, instr, rinstr, edit, entry, lookup, numEntries, entryPosition).
   No proofs here.  A string is the list of its character codes (1..255), without
   the terminating NUL; a C "long" argument is a Z.  Not modelled: the stack of
   temporary allocations and failing malloc. *)
From Verif Require Import Base.
Open Scope nat_scope.

(* ---------- substrings ---------- *)
(* strncpy(dst, src, n): n cells, padded with NULs *)
Fixpoint strncpy (n : nat) (src : list nat) : list nat :=
  match n with
  | 0 => []
  | S n' => match src with [] => 0 :: strncpy n' [] | c :: r => c :: strncpy n' r end
  end.
(* the string in a buffer: up to the first NUL; no NUL in the buffer is UB *)
Fixpoint cstr (buf : list nat) : res (list nat) :=
  match buf with
  | [] => UB
  | 0 :: _ => Ok []
  | c :: r => do s <- cstr r; Ok (c :: s)
  end.

(* mid, mmvstr.c:312-320.  sin + start - 1 must not be beyond the terminator; one past it
   is a valid pointer, and nothing is read if the length is 0. *)
Definition mid (s : list nat) (start len : Z) : res (list nat) :=
  let start := if (start <? 1)%Z then 1%Z else start in
  let len := if (len <? 0)%Z then 0%Z else len in
  if (Z.of_nat (length s) <? start - 1)%Z then
    (if ((start - 1 =? Z.of_nat (length s) + 1) && (len =? 0))%Z then Ok [] else UB)
  else cstr (strncpy (Z.to_nat len) (skipn (Z.to_nat (start - 1)) s) ++ [0]).

(* seg, mmvstr.c:306-309 *)
Definition seg (s : list nat) (start stop : Z) : res (list nat) :=
  let start := if (start <? 1)%Z then 1%Z else start in
  mid s start (stop - start + 1).
(* left, mmvstr.c:323-325 *)
Definition left_ (s : list nat) (n : Z) : res (list nat) := mid s 1 n.
(* right, mmvstr.c:328-330 *)
Definition right_ (s : list nat) (n : Z) : res (list nat) := seg s n (Z.of_nat (length s)).

(* ---------- searching ---------- *)
(* strncmp(p, m, strlen(m)) == 0 *)
Fixpoint strnEq (m p : list nat) : bool :=
  match m, p with
  | [], _ => true
  | x :: m', y :: p' => (x =? y) && strnEq m' p'
  | _ :: _, [] => false
  end.
(* the loop of instr, mmvstr.c:650-657: p is the string from sp1 on, i its offset.
   strchr() stops at the terminator when match[0] is NUL. *)
Fixpoint instrFrom (p : list nat) (i : nat) (m : list nat) : nat :=
  match p with
  | [] => match m with [] => i + 1 | _ => 0 end
  | c :: r =>
      match m with
      | [] => instrFrom r (S i) m
      | x :: _ => if (c =? x) && strnEq m p then i + 1 else instrFrom r (S i) m
      end
  end.
(* instr, mmvstr.c:642-659 *)
Definition instr (start : Z) (s m : list nat) : nat :=
  let start := if (start <? 1)%Z then 1%Z else start in
  let start := if (Z.of_nat (length s) <? start)%Z then (Z.of_nat (length s) + 1)%Z else start in
  let i := Z.to_nat (start - 1) in
  instrFrom (skipn i s) i m.

(* rinstr, mmvstr.c:665-675 *)
Fixpoint rinstrLoop (fuel : nat) (s m : list nat) (pos savePos : nat) : res nat :=
  match fuel with
  | 0 => Fuel
  | S f =>
      let pos' := instr (Z.of_nat pos + 1) s m in
      if pos' =? 0 then Ok savePos else rinstrLoop f s m pos' pos'
  end.
Definition rinstr (fuel : nat) (s m : list nat) : res nat := rinstrLoop fuel s m 0 0.

(* ---------- comma-separated lists ---------- *)
Definition comma : nat := 44.

(* The loop shared by entry (mmvstr.c:850-862) and entryPosition (mmvstr.c:937-949): returns
   (i, commaCount, lastComma + 1, rest of the list from i on) *)
Fixpoint entryLoop (l : list nat) (element : Z) (i cc lc1 : nat) : nat * nat * nat * list nat :=
  match l with
  | [] => (i, cc, lc1, [])
  | c :: r =>
      if c =? comma then
        if (Z.of_nat (S cc) =? element)%Z then (i, S cc, lc1, l)
        else entryLoop r element (S i) (S cc) (S i)
      else entryLoop r element (S i) cc lc1
  end.
(* entry, mmvstr.c:846-871 *)
Definition entry (element : Z) (list_ : list nat) : res (list nat) :=
  if (element <? 1)%Z then Ok []
  else
    let '(i, cc, lc1, rest) := entryLoop list_ element 0 0 0 in
    let cc := match rest with [] => S cc | _ => cc end in
    if (Z.of_nat cc <? element)%Z then Ok []
    else
      let len := i - lc1 in
      if len <? 1 then Ok []
      else cstr (strncpy len (skipn lc1 list_) ++ [0]).

(* lookup, mmvstr.c:877-907.  ex: expression from exprPos on (not read once match
   is 0) *)
Fixpoint lookupLoop (expr l ex : list nat) (match_ : bool) (exprNum : nat) : nat :=
  match l with
  | [] => if match_ && (match ex with [] => true | _ => false end) then S exprNum else 0
  | c :: r =>
      if c =? comma then
        if match_ && (match ex with [] => true | _ => false end) then S exprNum
        else lookupLoop expr r expr true (S exprNum)
      else
        let ok := match_ && (match ex with [] => false | x :: _ => x =? c end) in
        lookupLoop expr r (tl ex) ok exprNum
  end.
Definition lookup (expr list_ : list nat) : nat := lookupLoop expr list_ expr true 0.

(* numEntries, mmvstr.c:912-925 *)
Definition numEntries (list_ : list nat) : nat :=
  match list_ with
  | [] => 0
  | _ => length (filter (Nat.eqb comma) list_) + 1
  end.

(* entryPosition, mmvstr.c:934-958 *)
Definition entryPosition (element : Z) (list_ : list nat) : nat :=
  if (element <? 1)%Z then 0
  else
    let '(i, cc, lc1, rest) := entryLoop list_ element 0 0 0 in
    let fin (cc : nat) :=
      if (Z.of_nat cc <? element)%Z then 0
      else if nth lc1 list_ 0 =? comma then 0 else lc1 + 1 in
    match rest with
    | [] => if i =? 0 then 0
            else if nth (i - 1) list_ 0 =? comma then 0 else fin (S cc)
    | _ => fin cc
    end.

(* ---------- edit, mmvstr.c:333-617 ---------- *)
Definition isblank (c : nat) : bool := (c =? 32) || (c =? 9).
Definition isblanklf (c : nat) : bool := (c =? 32) || (c =? 9) || (c =? 10).
Definition isctrl (c : nat) : bool := (c =? 13) || (c =? 10) || (c =? 12) || (c =? 27) || (c =? 8).
Definition isquote (c : nat) : bool := (c =? 34) || (c =? 39).

(* the flag words, 1 2 4 ... 16384, are bits 0..14 of control *)
Definition bit (control k : nat) : bool := Nat.testbit control k.

(* screen graphics, 462-476 (unsigned codes) *)
Definition screenChar (c : nat) : nat :=
  if ((234 <=? c) && (c <=? 237)) || (c =? 218) || (c =? 217) || (c =? 191) || (c =? 192) then 43
  else if (c =? 241) || (c =? 196) then 45
  else if (c =? 248) || (c =? 166) || (c =? 179) then 124
  else c.
(* the body of the main loop, 411-476, outside quotes; 0 marks a deleted cell.
   A NUL made by an earlier step stays a NUL. *)
Definition editChar (w : nat) (c : nat) : nat :=
  let c := if bit w 1 && isblank c then 0 else c in
  let c := if bit w 0 then Nat.land c 127 else c in
  let c := if bit w 2 && isctrl c then 0 else c in
  let c := if bit w 13 && (c =? 13) then 0 else c in
  let c := if bit w 5 && ((97 <=? c) && (c <=? 122)) then c - 32 else c in
  let c := if bit w 6 && (c =? 91) then 40 else c in
  let c := if bit w 6 && (c =? 93) then 41 else c in
  let c := if bit w 9 && ((65 <=? c) && (c <=? 90)) then c + 32 else c in
  if bit w 12 then screenChar c else c.
(* 394-398: leading blanks are zeroed *)
Fixpoint leadZero (s : list nat) : nat :=
  match s with c :: r => if isblank c then S (leadZero r) else 0 | [] => 0 end.
(* main loop, 400-480 *)
Fixpoint editLoop (w : nat) (inq : bool) (s : list nat) : list nat :=
  match s with
  | [] => []
  | c :: r =>
      let inq' := if bit w 8 && isquote c then negb inq else inq in
      (if inq' then c else editChar w c) :: editLoop w inq' r
  end.
(* write the cells l at position pos of a buffer (callers stay inside it) *)
Definition poke (pos : nat) (l buf : list nat) : list nat :=
  firstn pos buf ++ l ++ skipn (pos + length l) buf.
Definition nonzero (c : nat) : bool := negb (c =? 0).
(* number of cells kept when blanks are dropped from the end of the first k
   cells, 489-501 *)
Fixpoint trailKeep (p : nat -> bool) (buf : list nat) (k : nat) : nat :=
  match k with
  | 0 => 0
  | S k' => if p (nth k' buf 0) then trailKeep p buf k' else k
  end.
(* blank reduction, 503-519 *)
Fixpoint reduceLoop (l : list nat) (lastBlank : bool) : list nat :=
  match l with
  | [] => []
  | c :: r => if isblank c then (if lastBlank then [] else [32]) ++ reduceLoop r true
              else c :: reduceLoop r false
  end.

(* Untab, 546-565.  Cells are read and written by index; outside the buffer is UB. *)
Fixpoint untabLoop (fuel : nat) (buf : list nat) (i m k : nat) : res (list nat) :=
  match fuel with
  | 0 => Fuel
  | S f =>
      if k <? i then Ok buf
      else
        do c <- rget (nth_error buf (i - 1));
        if c =? 10 then untabLoop f buf (S i) 0 k
        else
          let m := S m in
          if negb (c =? 9) then untabLoop f buf (S i) m k
          else
            let n := 8 - (m - 1) mod 8 in
            (* the tail i..k moves up n - 1 cells; the last cell written is k + n - 1 *)
            if k + n <=? length buf then
              untabLoop f (poke (i - 1) (repeat 32 n ++ firstn (k + 1 - i) (skipn i buf)) buf)
                (S i) m (k + n)
            else UB
  end.

(* Tab, 567-614.  The first inner loop tests sout[j - 1] before j > i - 8. *)
Fixpoint tabBack (fuel : nat) (buf : list nat) (i j : nat) : res nat :=
  match fuel with
  | 0 => Fuel
  | S f =>
      match j with
      | 0 => UB
      | S j' =>
          do c <- rget (nth_error buf j');
          if (c =? 32) && (i - 8 <? j) then tabBack f buf i j' else Ok j
      end
  end.
Fixpoint tabZero (fuel : nat) (buf : list nat) (i j : nat) : res (list nat) :=
  match fuel with
  | 0 => Fuel
  | S f =>
      match j with
      | 0 => UB
      | S j' =>
          do c <- rget (nth_error buf j');
          if (c =? 32) && (i - 8 + 1 <? j) then tabZero f (poke j' [0] buf) i j' else Ok buf
      end
  end.
Fixpoint tabLoop (fuel : nat) (buf : list nat) (i k : nat) : res (list nat) :=
  match fuel with
  | 0 => Fuel
  | S f =>
      if i <? k then
        do j <- tabBack 20 buf i i;
        if j <=? i - 2 then
          do b <- tabZero 20 (poke j [9] buf) i i;
          tabLoop f b (i + 8) k
        else tabLoop f buf (i + 8) k
      else Ok buf
  end.

(* garbage: what malloc left in the cells after the copied string; it must have
   the right length: (len + 1) * 7 - (len + 1) cells if bit 11, else none *)
Definition editBufSize (s : list nat) (w : nat) : nat :=
  (length s + 1) * (if bit w 11 then 7 else 1).
Definition editBase (s : list nat) (w : nat) (garbage : list nat) : list nat * nat :=
  let lead := if bit w 3 then leadZero s else 0 in
  let cells := repeat 0 lead ++ editLoop w false (skipn lead s) in
  let buf := cells ++ 0 :: garbage in
  (* clean up the deleted characters, 483-487 *)
  let kept := filter nonzero cells in
  let buf := poke 0 (kept ++ [0]) buf in
  let k := length kept in
  let k1 := if bit w 7 then trailKeep isblank buf k else k in
  let buf := if bit w 7 then poke k1 [0] buf else buf in
  let k2 := if bit w 14 then trailKeep isblanklf buf k1 else k1 in
  let buf := if bit w 14 then poke k2 [0] buf else buf in
  let red := reduceLoop (firstn k2 buf) false in
  if bit w 4 then (poke 0 (red ++ [0]) buf, length red) else (buf, k2).
Definition edit (fuel : nat) (s : list nat) (w : nat) (garbage : list nat) : res (list nat) :=
  let '(buf, k) := editBase s w garbage in
  do buf <- (if bit w 11 || bit w 10 then untabLoop fuel buf 1 0 k else Ok buf);
  do buf <- (if bit w 10 then
               do cur <- cstr buf;
               do b <- tabLoop fuel buf 8 (length cur);
               Ok (poke 0 (filter nonzero (firstn (length cur + 1) b) ++ [0]) b)
             else Ok buf);
  cstr buf.
