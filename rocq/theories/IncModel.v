(* IncModel.v -- file inclusion: getNextInclusion, readInclude and readSourceAndIncludes
   (src/mmpars.c:4821-5053, 5459-5923, 5930-6047), getFileAndLineNum (5399-5436) and
   countLines (3825-3842).  No proofs here.
   Texts are lists of character codes without NUL.  A pointer into the text is the rest
   of the text.  Positions (cmdPos1 ...) are numbered from 1 as in the C code.
   Not modelled: the messages printed by getNextInclusion itself (a missing "$]", an
   unterminated comment; neither sets the error flag), progress messages, memory. *)
From Verif Require Import Base TokModel SrcModel CmdModel.
Open Scope nat_scope.

Definition wBegin := [66; 101; 103; 105; 110].
Definition wSkip := [83; 107; 105; 112].
Definition wEnd := [69; 110; 100].
Definition wOpen := [chDollar; chOpen].      (* $( *)
Definition wClose := [chDollar; chClose].    (* $) *)
Definition wLB := [chDollar; chLB].          (* $[ *)
Definition wRB := [chDollar; chRB].          (* $] *)

(* rawTokenLen(l) == strlen(w) && !strncmp(w, l, j) *)
Definition tokIs (w l : list nat) : bool := (rawTokenLen l =? length w) && seqb (firstn (length w) l) w.
(* fbPtr + rawWhiteSpaceLen(fbPtr) *)
Definition skipRaw (l : list nat) : list nat := skipn (rawWhiteSpaceLen l) l.

(* GET_PASSED_END_OF_COMMENT, 4985-5036: behind the next "$)"; the end of the text if
   there is none *)
Fixpoint pastClose (l : list nat) : list nat :=
  match l with
  | [] => []
  | c :: r =>
      if Nat.eqb c chDollar then
        match r with
        | d :: r' => if Nat.eqb d chClose then r' else pastClose r
        | [] => []
        end
      else pastClose r
  end.

(* the result: 'N', 'E' (with cmdPos2), or one of 'B', 'I', 'S' with cmdPos1, cmdPos2,
   endPos1, endPos2 and the file name *)
Inductive incTy := TBegin | TIncl | TSkip.
Inductive nextRes :=
| NNone
| NNoEnd (c2 : nat)
| NFound (t : incTy) (c1 c2 e1 e2 : nat) (fn : list nat).

(* getNextInclusion.  len: the length of the whole text; look = Some (cmdPos1, cmdPos2,
   fileName): lookForEndMode.  Simplification: the traps 1742, 1743, 1744, 1746 test the
   values of local variables that are constructors here; "i != i + 1" at 4978 reads i
   before it is set, only to silence a compiler: taken to be true. *)
Fixpoint nextInc (n len : nat) (look : option (nat * nat * list nat)) (l0 : list nat) : res nextRes :=
  match n with
  | 0 => Fuel
  | S n' =>
      let pos := fun x : list nat => len - length x + 1 in
      let l := skipRaw l0 in
      let j := rawTokenLen l in
      if j =? 0 then Ok (match look with Some (_, c2, _) => NNoEnd c2 | None => NNone end)
      else if negb (Nat.eqb (nth 0 l 0) chDollar) then nextInc n' len look (skipn j l)
      else if Nat.eqb (nth 1 l 0) chLB then
        match look with
        | Some _ => nextInc n' len look (skipn j l)
        | None =>
            do a <- whiteSpace (skipn j l);
            let ja := rawTokenLen a in
            do b <- whiteSpace (skipn ja a);
            if tokIs wRB b then Ok (NFound TIncl (pos l) (pos b + 2) 0 0 (firstn ja a))
            else nextInc n' len look (skipn (rawTokenLen b) b)
        end
      else if Nat.eqb (nth 1 l 0) chOpen then
        let a := skipRaw (skipn j l) in
        let ty := match look with
                  | None => if tokIs wBegin a then Some TBegin else if tokIs wSkip a then Some TSkip else None
                  | Some _ => if tokIs wEnd a then Some TIncl else None
                  end in
        match ty with
        | None => nextInc n' len look (pastClose a)
        | Some t =>
            let b := skipRaw (skipn (rawTokenLen a) a) in
            if negb (tokIs wLB b) then nextInc n' len look (pastClose b)
            else
              let c := skipRaw (skipn 2 b) in
              let jc := rawTokenLen c in
              let other := match look with
                           | Some (_, _, fn) => negb (seqb (firstn jc fn) (firstn jc c))
                           | None => false end in
              if other then nextInc n' len look (pastClose c)
              else
                let d := skipRaw (skipn jc c) in
                if negb (tokIs wRB d) then nextInc n' len look (pastClose d)
                else
                  let e := skipRaw (skipn 2 d) in
                  if negb (tokIs wClose e) then nextInc n' len look (pastClose e)
                  else
                    let f := skipn 2 e in
                    match look with
                    | Some (b1, b2, fn) => Ok (NFound TBegin b1 b2 (pos l) (pos f) fn)
                    | None =>
                        match t with
                        | TBegin => nextInc n' len (Some (pos l, pos f + 1, firstn jc c)) f
                        | _ => Ok (NFound TSkip (pos l) (pos f) 0 0 (firstn jc c))
                        end
                    end
        end
      else nextInc n' len look (skipn j l)
  end.
(* startOffset beyond the terminating NUL: the first access is out of bounds *)
Definition getNextInclusion (buf : list nat) (start : nat) : res nextRes :=
  if length buf <? start then UB
  else nextInc (S (length buf)) (length buf) None (skipn start buf).

(* countLines, 3825-3842: n characters from position p; a negative n (only -1 occurs)
   counts to the end *)
Definition countLines (buf : list nat) (p : nat) (n : Z) : Z :=
  let s := skipn p buf in
  Z.of_nat (count_occ Nat.eq_dec (if (n =? -1)%Z then s else firstn (Z.to_nat n) s) chNL).

(* g_IncludeCall[].  Fields not yet assigned hold 0 or "" in the model, except
   current_includeSource, which is compared at 5800: None = not assigned. *)
Record incCall := mkIC {
  ic_push : nat;              (* pushOrPop *)
  ic_incl : list nat;         (* included_fn *)
  ic_src : list nat;          (* source_fn *)
  ic_off : Z;                 (* current_offset *)
  ic_line : Z;                (* current_line *)
  ic_isrc : option (list nat) (* current_includeSource *);
  ic_ilen : Z }.              (* current_includeLength *)
Inductive incMsg :=
| MNoEnd                        (* ?Error: "$( Begin $[..." without matching "$( End $[..." *)
| MNotFound (fn : list nat)     (* ?Error: file ... was not found *)
| MMismatch (n m : nat).        (* ?Warning: ... mismatches earlier inclusion *)
Record incSt := mkIS { is_tab : list incCall; is_err : bool; is_msgs : list incMsg }.
Definition incErr (m : incMsg) (s : incSt) : incSt := mkIS (is_tab s) true (is_msgs s ++ [m]).
Definition incWarn (m : incMsg) (s : incSt) : incSt := mkIS (is_tab s) (is_err s) (is_msgs s ++ [m]).

Definition setNth {A} (i : nat) (x : A) (l : list A) : list A := firstn i l ++ x :: skipn (S i) l.

(* alreadyInclBy, 5589-5606 *)
Fixpoint findIncl (fn : list nat) (l : list incCall) : option nat :=
  match l with
  | [] => None
  | e :: r => if Nat.eqb (ic_push e) 0 && seqb (ic_incl e) fn then Some 0
              else match findIncl fn r with Some i => Some (S i) | None => None end
  end.

(* seg(s, i, j) with 1 <= i; left(s, i - 1); right(s, i)  (C18-C20) *)
Definition segT (s : list nat) (i j : nat) : list nat := firstn (S j - i) (skipn (i - 1) s).
Definition leftT (s : list nat) (i : nat) : list nat := firstn (i - 1) s.
Definition rightT (s : list nat) (i : nat) : list nat := skipn (i - 1) s.

Definition sp := [32].
(* "$( Begin $[ fn $] $)\n", "$( End $[ fn $] $)", "$( Skip $[ fn $] $)" *)
Definition markup (w fn : list nat) : list nat := wOpen ++ sp ++ w ++ sp ++ wLB ++ sp ++ fn ++ sp ++ wRB ++ sp ++ wClose.
Definition beginMark fn := markup wBegin fn ++ [chNL].
Definition endMark fn := markup wEnd fn.
Definition skipMark fn := markup wSkip fn.

(* the assignments after the switch, 5871-5907; k is saveInclCalls.  The entry k-1
   gets its line, source, offset and length, the entry k those of the continuation. *)
Definition closeCalls (k : nat) (fn src : list nat) (off : Z) (c1 : nat) (prefixLen : nat) (ext : bool)
  (inclSize newInclSize line1 line2 : Z) (s : incSt) : incSt :=
  let a := mkIC 0 fn (if ext then fn else src) (off + Z.of_nat c1 - 1 + Z.of_nat prefixLen - 1) line1 (Some []) inclSize in
  let b := mkIC 1 src src (off + Z.of_nat c1 + newInclSize - 1) line2 (Some []) 0 in
  mkIS (setNth k b (setNth (k - 1) a (is_tab s))) (is_err s) (is_msgs s).

(* the loop of readInclude, 5489-5908.  rd: readFileToString (None: NULL).
   Result: newFileBuf and size. *)
Fixpoint readInclude (fuel : nat) (rd : list nat -> res (option (list nat)))
  (buf : list nat) (off : Z) (src : list nat) (size pline : Z) (start : nat) (s : incSt) : res (list nat * Z * incSt) :=
  match fuel with
  | 0 => Fuel
  | S f =>
      do o <- getNextInclusion buf start;
      match o with
      | NNone => Ok (buf, size, s)
      | NNoEnd c2 => readInclude f rd buf off src size pline c2 (incErr MNoEnd s)
      | NFound ty c1 c2 e1 e2 fn =>
          let tab := is_tab s in
          if negb (Nat.eqb (ic_push (last tab (mkIC 0 [] [] 0 0 None 0))) 1) then Bug 1764
          else
            let k := length tab + 1 in
            let zc1 := Z.of_nat c1 in let zc2 := Z.of_nat c2 in let ze2 := Z.of_nat e2 in
            let zstart := Z.of_nat start in
            let s1 := fun l1 l2 : Z =>
              mkIS (tab ++ [mkIC 0 fn [] 0 l1 None 0; mkIC 1 src [] 0 l2 None 0]) (is_err s) (is_msgs s) in
            match findIncl fn tab with
            | None =>
                match ty with
                | TBegin =>
                    let prefix := segT buf c1 (c2 - 1) in
                    let suffix := segT buf e1 (e2 - 1) in
                    let bef := (pline + countLines buf (start + 1) (zc2 - 1 - zstart))%Z in
                    let aft := (bef + countLines buf c2 (ze2 - zc2 - 1) + 1)%Z in
                    do x <- readInclude f rd (segT buf c2 (e1 - 1)) (off + zc1 - 1 + Z.of_nat (length prefix)) src
                              (Z.of_nat e1 - zc2) bef 0 (s1 (bef - 1) (aft - 1))%Z;
                    let '(_, isz, s2) := x in
                    let new := (Z.of_nat (length prefix) + isz + Z.of_nat (length suffix))%Z in
                    readInclude f rd buf off src size aft (Z.to_nat (zc1 + new - 1))
                      (closeCalls k fn src off c1 (length prefix) false isz new (bef - 1) (aft - 1) s2)
                | _ =>   (* TIncl, TSkip: the same except for the progress message *)
                    do t <- rd fn;
                    let '(tmp, s') := match t with Some x => (x, s1) | None => ([], fun a b => incErr (MNotFound fn) (s1 a b)) end in
                    let bef := (pline + countLines buf (start + 1) (zc1 - 1 - zstart))%Z in
                    let aft := (bef + countLines buf c1 (zc2 - zc1 - 1))%Z in
                    let prefix := beginMark fn in
                    let suffix := endMark fn in
                    do x <- readInclude f rd tmp (off + zc1 - 1 + Z.of_nat (length prefix)) fn
                              (Z.of_nat (length tmp)) 1 0 (s' 0 aft)%Z;
                    let '(isrc, isz, s2) := x in
                    let new := (Z.of_nat (length prefix) + isz + Z.of_nat (length suffix))%Z in
                    readInclude f rd (leftT buf c1 ++ prefix ++ isrc ++ suffix ++ rightT buf c2) off src
                      (size - (zc2 - zc1) + new)%Z aft (Z.to_nat (zc1 + new - 1))
                      (closeCalls k fn src off c1 (length prefix) true isz new 0 aft s2)
                end
            | Some i =>
                if Nat.eqb i 0 then Bug 1765
                else
                  match ty with
                  | TBegin =>
                      do e <- rget (nth_error tab i);
                      do old <- rget (ic_isrc e);
                      let inner := segT buf c2 (e1 - 1) in
                      let bef := (pline + countLines buf (start + 1) (zc2 - 1 - zstart))%Z in
                      let aft := (bef + countLines buf c2 (ze2 - zc2))%Z in
                      let s2 := if seqb inner old then s1 bef aft
                                else incWarn (MMismatch (length inner) (length old)) (s1 bef aft) in
                      let prefix := skipMark fn in
                      let new := Z.of_nat (length prefix) in
                      readInclude f rd (leftT buf c1 ++ prefix ++ rightT buf e2) off src
                        (size - (ze2 - zc1) + new)%Z aft (Z.to_nat (zc1 + new - 1))
                        (closeCalls k fn src off c1 (length prefix) false 0 new bef aft s2)
                  | TIncl =>
                      let bef := (pline + countLines buf (start + 1) (zc1 - 1 - zstart))%Z in
                      let aft := (bef + countLines buf c1 (zc2 - zc1))%Z in
                      let prefix := skipMark fn in
                      let new := Z.of_nat (length prefix) in
                      readInclude f rd (leftT buf c1 ++ prefix ++ rightT buf c2) off src
                        (size - (zc2 - zc1) + new)%Z aft (Z.to_nat (zc1 + new - 1))
                        (closeCalls k fn src off c1 (length prefix) false 0 new bef aft (s1 bef aft))
                  | TSkip =>
                      let prefix := segT buf c1 (c2 - 1) in
                      let bef := (pline + countLines buf (start + 1) (zc1 - 1 - zstart))%Z in
                      let aft := (bef + countLines buf c1 (zc2 - zc1))%Z in
                      let new := (zc2 - zc1)%Z in
                      readInclude f rd buf off src size aft (Z.to_nat (zc1 + new - 1))
                        (closeCalls k fn src off c1 (length prefix) false 0 new bef (aft - 1) (s1 bef aft))
                  end
            end
      end
  end.

(* readSourceAndIncludes: the text and the table, or None (NULL) after an error *)
Definition readSourceAndIncludes (fuel : nat) (rd : list nat -> res (option (list nat))) (fn : list nat)
  : res (option (list nat * Z) * list incCall * list incMsg) :=
  do t <- rd fn;
  let '(txt, err, msgs) := match t with Some x => (x, false, []) | None => ([], true, [MNotFound fn]) end in
  let size := Z.of_nat (length txt) in
  let tab := [mkIC 0 fn fn 0 1 (Some []) size; mkIC 1 [] [] 0 (-1) (Some []) 0] in
  do x <- readInclude fuel rd txt 0 fn size 1 0 (mkIS tab err msgs);
  let '(out, sz, s) := x in
  let tab' := match is_tab s with
              | a :: b :: r => a :: mkIC (ic_push b) (ic_incl b) (ic_src b) sz (ic_line b) (ic_isrc b) (ic_ilen b) :: r
              | l => l
              end in
  Ok (if is_err s then None else Some (out, sz), tab', is_msgs s).

(* the files: names to bytes; readFileToString is readFile (SrcModel) *)
Definition readNamed (fs : list nat -> option (list nat)) (fn : list nat) : res (option (list nat)) :=
  match fs fn with None => Ok None | Some bytes => readFile bytes end.

(* getFileAndLineNum, 5399-5436, for position p of the text: the entry with the largest
   current_offset not above p, the last of these; its source_fn and line *)
Fixpoint nearest (p : Z) (best : Z) (bi : nat) (i : nat) (l : list incCall) : Z * nat :=
  match l with
  | [] => (best, bi)
  | e :: r =>
      if (ic_off e <=? p)%Z && (p - ic_off e <=? best)%Z then nearest p (p - ic_off e)%Z i (S i) r
      else nearest p best bi (S i) r
  end.
Definition fileAndLine (buf : list nat) (tab : list incCall) (p : nat) : res (list nat * Z) :=
  do e1 <- rget (nth_error tab 1);
  if (ic_off e1 <=? Z.of_nat p)%Z then Bug 1769
  else
    let '(d, i) := nearest (Z.of_nat p) (Z.of_nat p) 0 0 tab in
    do e <- rget (nth_error tab i);
    Ok (ic_src e, (ic_line e + countLines buf (Z.to_nat (ic_off e)) d)%Z).
