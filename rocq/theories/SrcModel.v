(* SrcModel.v -- from the bytes of a file to the statement table: the clean-up in
   readFileToString (src/mminou.c:1292-1448), readRawSource and parseKeywords
   (src/mmpars.c:30-425), and writeSourceToBuffer (src/mmpars.c:5075-5179).
   No proofs here.  Texts are lists of character codes; all texts are assumed to
   contain no NUL (a NUL ends the text for the C code; readFileToString warns). *)
From Verif Require Import Base TokModel LabModel.
Open Scope nat_scope.

Definition chCR := 13.

(* ---------- readFileToString ---------- *)
(* "See if it's Unicode", mminou.c:1350-1391: UTF-16LE text with only ASCII
   characters; carriage returns are dropped.  None: "?Sorry" and NULL. *)
Fixpoint utf16 (l : list nat) : option (list nat) :=
  match l with
  | [] => Some []
  | [_] => None
  | c :: h :: r =>
      if negb (Nat.eqb h 0) then None
      else if Nat.eqb c 0 then None
      else match utf16 r with
           | None => None
           | Some t => Some (if Nat.eqb c chCR then t else c :: t)
           end
  end.
(* "Make sure the file has no carriage-returns", mminou.c:1393-1416 *)
Fixpoint fixCR (l : list nat) : list nat :=
  match l with
  | [] => []
  | c :: r =>
      if Nat.eqb c chCR then
        match r with
        | d :: r' => if Nat.eqb d chNL then chNL :: fixCR r' else chNL :: fixCR r
        | [] => [chNL]
        end
      else c :: fixCR r
  end.
(* "Make sure the last line is not a partial line", 1418-1427: with an empty
   buffer this reads fileBuf[-1] *)
Definition addNL (l : list nat) : res (list nat) :=
  match rev l with
  | [] => UB
  | c :: _ => Ok (if Nat.eqb c chNL then l else l ++ [chNL])
  end.
(* readFileToString on the bytes of an existing regular file; None is NULL *)
Definition readFile (bytes : list nat) : res (option (list nat)) :=
  do t <- match bytes with
          | c :: d :: r =>
              if Nat.eqb c 255 && Nat.eqb d 254
              then if Nat.even (length bytes) then Ok (utf16 r) else Ok None
              else Ok (Some bytes)
          | _ => Ok (Some bytes)
          end;
  match t with
  | None => Ok None
  | Some u => do v <- addNL (fixCR u); Ok (Some v)
  end.

(* ---------- readRawSource, mmpars.c:42-171 ---------- *)
Inductive rawErr :=
| RComment      (* The last comment in the file is incomplete *)
| RChar         (* Illegal character *)
| RBefore       (* A keyword must be preceded by white space *)
| RAfter        (* A keyword must be followed by white space *)
| RNested       (* Nested comments are not allowed *)
| RUnopened     (* A comment terminator was found outside of a comment *)
| RInclude      (* $[ is unterminated or has ill-formed $] *)
| RIncludeEnd.  (* A $[ is required before $] *)

Definition isspace (c : nat) : bool := ((9 <=? c) && (c <=? 13)) || (c =? 32).
Definition chLB := 91. Definition chRB := 93.        (* [ ] *)
Definition chLC := 123. Definition chRC := 125.      (* { } *)

(* prev: the character before, if any (fbPtr[-1]); inC: insideComment.  mode never
   leaves 0.  Returns the errors in order and the increment of potentialStatements.
   After a '$' the loop continues AT the following character (also if that is '$').
   At the last '$' of the file fbPtr[0] is NUL and nothing more happens. *)
Fixpoint rawScan (prev : option nat) (inC : bool) (l : list nat) : list rawErr * nat :=
  match l with
  | [] => (if inC then [RComment] else [], 0)
  | c :: r =>
      if negb (Nat.eqb c chDollar) then
        let (es, n) := rawScan (Some c) inC r in
        ((if negb (isgraph c) && negb (isspace c) then [RChar] else []) ++ es, n)
      else
        let next := nth_error r 0 in
        let isClose := match next with Some d => Nat.eqb d chClose | None => false end in
        let e1 := match prev with
                  | Some p => if isgraph p && (negb inC || isClose) then [RBefore] else []
                  | None => [] end in
        let e2 := match r with
                  | d :: d2 :: _ => if isgraph d2 && (negb inC || isClose) then [RAfter] else []
                  | _ => [] end in
        let '(e3, inC', k) :=
          match next with
          | None => ([], inC, 0)
          | Some d =>
              if Nat.eqb d chOpen then ((if inC then [RNested] else []), true, 0)
              else if Nat.eqb d chClose then ((if inC then [] else [RUnopened]), false, 0)
              else if inC then ([], inC, 0)
              else if Nat.eqb d chLB then ([RInclude], inC, 0)
              else if Nat.eqb d chRB then ([RIncludeEnd], inC, 0)
              else if Nat.eqb d chLC || Nat.eqb d chRC || Nat.eqb d chDot then ([], inC, 1)
              else ([], inC, 0)
          end in
        let (es, n) := rawScan (Some c) inC' r in
        (e1 ++ e2 ++ e3 ++ es, k + n)
  end.
Definition readRaw (src : list nat) : list rawErr * nat := rawScan None false src.

(* ---------- parseKeywords, mmpars.c:177-425 ---------- *)
(* a section: offset in the source buffer and length.  The initial value (pointer
   to "", length 0) is None. *)
Definition section := (nat * nat)%type.
Record kstmt := mkK {
  k_kind : kind;
  k_lab : section;
  k_math : option section;
  k_proof : option section }.

Inductive kwErr :=
| KExpDot          (* Expected $. here *)
| KExpEq           (* Expected $= here *)
| KExpKeyword      (* Expected $c ... here *)
| KEof.            (* Expected $. here (last line of file) *)

(* the letter after '$' of each statement type, mmpars.c:293-303; mmdata.h:33-44 *)
Definition kindOfChar (d : nat) : option kind :=
  if d =? 99 then Some K_c else if d =? 118 then Some K_v else if d =? 101 then Some K_e
  else if d =? 102 then Some K_f else if d =? 100 then Some K_d else if d =? 97 then Some K_a
  else if d =? 112 then Some K_p else if d =? chLC then Some K_lb
  else if d =? chRC then Some K_rb else None.
Definition charOfKind (k : kind) : nat :=
  match k with
  | K_c => 99 | K_v => 118 | K_e => 101 | K_f => 102 | K_d => 100 | K_a => 97
  | K_p => 112 | K_lb => chLC | K_rb => chRC
  end.
Definition isP (t : option kind) : bool := match t with Some K_p => true | _ => false end.

(* Loop state.  ks_type: the local variable type (0 at first); ks_cur: the
   statements so far, latest first (g_Statement[g_statements] is the head);
   ks_start: startSection. *)
Record kst := mkKst {
  ks_mode : nat;
  ks_type : option kind;
  ks_inC : bool;
  ks_start : nat;
  ks_cur : list kstmt;
  ks_err : list kwErr }.
Definition addErr (e : kwErr) (s : kst) : kst :=
  mkKst (ks_mode s) (ks_type s) (ks_inC s) (ks_start s) (ks_cur s) (ks_err s ++ [e]).
Definition setMath (sec : section) (cur : list kstmt) : list kstmt :=
  match cur with
  | k :: r => mkK (k_kind k) (k_lab k) (Some sec) (k_proof k) :: r
  | [] => []
  end.
Definition setProof (sec : section) (cur : list kstmt) : list kstmt :=
  match cur with
  | k :: r => mkK (k_kind k) (k_lab k) (k_math k) (Some sec) :: r
  | [] => []
  end.

Definition isCh (d : option nat) (c : nat) : bool := match d with Some x => Nat.eqb x c | None => false end.

(* what is done at a '$' whose following character (at offset pos = fbPtr) is d;
   d = None: the '$' is the last character.  mmpars.c:277-371, except "$$".
   room = potentialStatements (after adding 3): writing entry number >= room is
   outside the array. *)
Definition kwStep (room : nat) (d : option nat) (pos : nat) (s : kst) : res kst :=
  if isCh d chOpen then Ok (mkKst (ks_mode s) (ks_type s) true (ks_start s) (ks_cur s) (ks_err s))
  else if isCh d chClose then Ok (mkKst (ks_mode s) (ks_type s) false (ks_start s) (ks_cur s) (ks_err s))
  else if ks_inC s then Ok s
  else
    match match d with Some x => kindOfChar x | None => None end with
    | Some ty =>
        let s := mkKst (ks_mode s) (Some ty) (ks_inC s) (ks_start s) (ks_cur s) (ks_err s) in
        match ks_mode s with
        | 0 =>
            if room <=? S (length (ks_cur s)) then UB
            else
            let k := mkK ty (ks_start s, pos - ks_start s - 1) None None in
            let mode := match ty with K_lb | K_rb => 0 | _ => 1 end in
            Ok (mkKst mode (Some ty) (ks_inC s) (pos + 1) (k :: ks_cur s) (ks_err s))
        | m =>
            if (m =? 2) || negb (isP (Some ty)) then Ok (addErr KExpDot s) else Ok (addErr KExpEq s)
        end
    | None =>
        match ks_mode s with
        | 0 => Ok (addErr KExpKeyword s)
        | 1 =>
            let s1 := if isP (ks_type s) && negb (isCh d chEq) then addErr KExpEq s else s in
            let dotErr := isP (ks_type s) && isCh d chDot in      (* mode = 2 for a moment *)
            if negb (isP (ks_type s)) && negb (isCh d chDot) then Ok (addErr KExpDot s1)
            else
              let mode := if isP (ks_type s) && negb dotErr then 2 else 0 in
              Ok (mkKst mode (ks_type s1) (ks_inC s1) (pos + 1)
                    (setMath (ks_start s1, pos - ks_start s1 - 1) (ks_cur s1)) (ks_err s1))
        | _ =>
            if negb (isCh d chDot) then Ok (addErr KExpDot s)
            else Ok (mkKst 0 (ks_type s) (ks_inC s) (pos + 1)
                       (setProof (ks_start s, pos - ks_start s - 1) (ks_cur s)) (ks_err s))
        end
    end.

(* the while loop, mmpars.c:255-372; l is the text from offset pos on *)
Fixpoint kwLoop (room : nat) (l : list nat) (pos : nat) (s : kst) : res kst :=
  match l with
  | [] => Ok s
  | c :: r =>
      if negb (Nat.eqb c chDollar) then kwLoop room r (S pos) s
      else match r with
           | [] => kwStep room None (S pos) s
           | d :: r' =>
               if Nat.eqb d chDollar then kwLoop room r' (S (S pos)) s
               else do s' <- kwStep room (Some d) (S pos) s; kwLoop room r (S pos) s'
           end
  end.

(* parseKeywords: the statements 1..g_statements, the label section of the dummy
   statement g_statements+1, and the errors.  End of file: mmpars.c:258-270;
   dummy statement 381-387.  pinkNumber and headerStartStmt are in SrcPink. *)
Definition parseKeywords (room : nat) (src : list nat) : res (list kstmt * section * list kwErr) :=
  do s <- kwLoop room src 0 (mkKst 0 None false 0 [] []);
  let s1 := match ks_mode s with
            | 0 => s
            | _ => let s' := addErr KEof s in
                   match ks_cur s with
                   | k :: r => mkKst (ks_mode s) (ks_type s) (ks_inC s) (fst (k_lab k)) r (ks_err s')
                   | [] => s'
                   end
            end in
  if room <=? S (length (ks_cur s1)) then UB
  else Ok (rev (ks_cur s1), (ks_start s1, length src - ks_start s1), ks_err s1).

(* READ up to parseKeywords: potentialStatements starts at 0 and 3 is added *)
Definition readSource (src : list nat) : res (list rawErr * list kwErr * list kstmt * section) :=
  let (es, n) := readRaw src in
  do r <- parseKeywords (n + 3) src;
  let '(st, dummy, ks) := r in Ok (es, ks, st, dummy).

(* ---------- writeSourceToBuffer, mmpars.c:5075-5179 ---------- *)
(* the text of a section; an absent section is the empty string *)
Definition secText (src : list nat) (s : section) : list nat := firstn (snd s) (skipn (fst s) src).
Definition osecText (src : list nat) (s : option section) : list nat :=
  match s with Some x => secText src x | None => [] end.
Definition stmtText (src : list nat) (k : kstmt) : list nat :=
  secText src (k_lab k) ++
  match k_kind k with
  | K_lb | K_rb => [chDollar; charOfKind (k_kind k)]
  | K_p => [chDollar; charOfKind K_p] ++ osecText src (k_math k) ++ [chDollar; chEq]
           ++ osecText src (k_proof k) ++ [chDollar; chDot]
  | t => [chDollar; charOfKind t] ++ osecText src (k_math k) ++ [chDollar; chDot]
  end.
Definition secLen (s : option section) : nat := match s with Some x => snd x | None => 0 end.
(* the size computed first, 5084-5116 *)
Definition stmtSize (k : kstmt) : nat :=
  snd (k_lab k) + secLen (k_math k) + secLen (k_proof k) +
  match k_kind k with K_lb | K_rb => 2 | K_p => 6 | _ => 4 end.
(* the final check "ptr - buf != size", 5176 *)
Definition writeSource (src : list nat) (st : list kstmt) (dummy : section) : res (list nat) :=
  let buf := flat_map (stmtText src) st ++ secText src dummy in
  let size := fold_right (fun k n => stmtSize k + n) 0 st + snd dummy in
  if Nat.eqb (length buf) size then Ok buf else Bug 1751.
