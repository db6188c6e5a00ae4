(* UndoModel.v -- the undo stack of the Proof Assistant: processUndoStack,
   src/mmpfas.c:3180-3407, and its callers PROVE, UNDO, REDO, SET UNDO, SAVE and EXIT in
   src/metamath.c (1204-1238, 3793-3801, 4127-4172, 6083-6098).  No proofs here.
   P is the type of proof structures (struct pip_struct); copyProofStruct
   (mmpfas.c:3080-3114) is assignment, deallocation leaves the empty structure.
   I is the type of command descriptions (info). *)
From Verif Require Import Base.
Open Scope Z_scope.

Section Undo.
  Variables P I : Type.
  Variable emptyP : P.
  Variable noInfo : I.             (* "" *)

  Record ust := mkU {
    u_stack : option (list (P * I));      (* proofStack[] and infoStack[]; None: not allocated *)
    u_size : Z;                           (* stackSize *)
    u_end : Z; u_ptr : Z;
    u_over : bool;                        (* stackOverflowed *)
    u_abort : bool }.                     (* stackAborted *)
  (* the static initial values; size0 = DEFAULT_UNDO_STACK_SIZE *)
  Definition uinit (size0 : Z) : ust := mkU None size0 (-1) (-1) false false.

  Definition DEFAULT_UNDO_STACK_SIZE : Z := 20.  (* mmpfas.c:3179 *)

  Inductive action := PUSH (i : I) | UNDO | REDO | INIT | NEW_SIZE (n : Z) | GET_STATUS.
  (* what is printed, or returned by GET_STATUS *)
  Inductive answer := Silent | Undid (i : I) | Redid (i : I) | NothingToUndo | ExceededMax | NothingToRedo
    | Status (changed : bool).

  (* the check at the beginning and the end *)
  Definition bad (s : ust) : bool :=
    (u_ptr s <? -1) || (u_end s <? u_ptr s) || (u_size s - 1 <? u_ptr s) ||
    (u_end s <? -1) || (u_size s - 1 <? u_end s).
  Definition setEntry (l : list (P * I)) (k : Z) (x : P * I) : res (list (P * I)) :=
    if (k <? 0) || (Z.of_nat (length l) <=? k) then UB
    else Ok (firstn (Z.to_nat k) l ++ x :: skipn (S (Z.to_nat k)) l).
  Definition getEntry (l : list (P * I)) (k : Z) : res (P * I) :=
    if k <? 0 then UB else rget (nth_error l (Z.to_nat k)).
  (* deallocation of entries a .. b *)
  Fixpoint clear (fuel : nat) (l : list (P * I)) (a b : Z) : res (list (P * I)) :=
    match fuel with
    | O => Fuel
    | S f => if b <? a then Ok l else do l <- setEntry l a (emptyP, noInfo); clear f l (a + 1) b
    end.
  (* the loop "proofStack[i] = proofStack[i + 1]", i from i to stackSize - 2 *)
  Fixpoint shift (fuel : nat) (l : list (P * I)) (i n : Z) : res (list (P * I)) :=
    match fuel with
    | O => Fuel
    | S f => if n <=? i then Ok l
             else do x <- getEntry l (i + 1); do l <- setEntry l i x; shift f l (i + 1) n
    end.
  Definition blank (n : Z) : list (P * I) := repeat (emptyP, noInfo) (Z.to_nat n).

  Definition finish (s : ust) (cur : P) (a : answer) : res (ust * P * answer) :=
    if bad s then Bug 1866 else Ok (s, cur, a).
  (* one call; cur is *proofStruct before and after *)
  Definition process (s : ust) (cur : P) (act : action) : res (ust * P * answer) :=
    if bad s then Bug 1858 else
    let st := match u_stack s with Some l => l | None => blank (u_size s) end in
    let fuel := S (length st) in
    match act with
    | GET_STATUS =>
        let s := mkU (Some st) (u_size s) (u_end s) (u_ptr s) (u_over s) (u_abort s) in
        finish s cur (Status (u_over s || u_abort s || negb (u_ptr s =? 0)))
    | INIT =>
        do st <- clear fuel st 0 (u_end s);
        finish (mkU (Some st) (u_size s) (-1) (-1) false false) cur Silent
    | NEW_SIZE n =>
        do st <- clear fuel st 0 (u_end s);
        let ab := (u_abort s || (0 <? u_ptr s) || u_over s)%bool in
        if n + 1 <? 1 then Bug 1867
        else finish (mkU (Some (blank (n + 1))) (n + 1) (-1) (-1) false ab) cur Silent
    | PUSH info =>
        do st <- (if u_ptr s <? u_end s then clear fuel st (u_ptr s + 1) (u_end s) else Ok st);
        let e := if u_ptr s <? u_end s then u_ptr s else u_end s in
        do x <- (if u_ptr s =? u_size s - 1 then
                   do st <- setEntry st 0 (emptyP, noInfo);
                   do st <- shift fuel st 0 (u_size s - 1);
                   do st <- setEntry st (u_ptr s) (emptyP, noInfo);
                   if negb (u_ptr s - 1 =? u_size s - 2) || negb (u_ptr s - 1 =? e - 1) then Bug 1862
                   else Ok (st, u_ptr s - 1, e - 1, true)
                 else Ok (st, u_ptr s, e, u_over s));
        let '(st, p, e, ov) := x in
        if negb (p + 1 =? e + 1) then Bug 1863
        else do st <- setEntry st (p + 1) (cur, info);
             finish (mkU (Some st) (u_size s) (e + 1) (p + 1) ov (u_abort s)) cur Silent
    | UNDO =>
        if u_ptr s <? 0 then Bug 1864
        else if u_ptr s =? 0 then
          finish (mkU (Some st) (u_size s) (u_end s) (u_ptr s) (u_over s) (u_abort s)) cur
            (if u_over s then ExceededMax else NothingToUndo)
        else
          do m <- getEntry st (u_ptr s);
          do x <- getEntry st (u_ptr s - 1);
          finish (mkU (Some st) (u_size s) (u_end s) (u_ptr s - 1) (u_over s) (u_abort s)) (fst x) (Undid (snd m))
    | REDO =>
        if u_ptr s =? u_end s then
          finish (mkU (Some st) (u_size s) (u_end s) (u_ptr s) (u_over s) (u_abort s)) cur NothingToRedo
        else
          do x <- getEntry st (u_ptr s + 1);
          finish (mkU (Some st) (u_size s) (u_end s) (u_ptr s + 1) (u_over s) (u_abort s)) (fst x) (Redid (snd x))
    end.

  (* ---------- the commands of a Proof Assistant session ---------- *)
  (* changed: g_proofChanged; savedFlag: proofSavedFlag; saved: the proof that SAVE
     NEW_PROOF last stored in the source, or the one present on entry *)
  Record sess := mkSess { s_u : ust; s_cur : P; s_changed : bool; s_savedFlag : bool; s_saved : P }.
  Inductive cmd :=
  | Edit (p : P) (i : I)     (* any command that changes the proof: sets g_proofChanged and pushes *)
  | Undo | Redo
  | SetUndo (n : Z)          (* n: val() of the argument *)
  | SaveNew                  (* SAVE NEW_PROOF *)
  | SaveOther.               (* SAVE PROOF of a statement, also allowed in the Proof Assistant; 3795 *)
  Definition step (s : sess) (c : cmd) : res (sess * answer) :=
    match c with
    | Edit p i => do r <- process (s_u s) p (PUSH i);
                  Ok (mkSess (fst (fst r)) (snd (fst r)) true (s_savedFlag s) (s_saved s), snd r)
    | Undo => do r <- process (s_u s) (s_cur s) UNDO;
              Ok (mkSess (fst (fst r)) (snd (fst r)) true (s_savedFlag s) (s_saved s), snd r)
    | Redo => do r <- process (s_u s) (s_cur s) REDO;
              Ok (mkSess (fst (fst r)) (snd (fst r)) true (s_savedFlag s) (s_saved s), snd r)
    | SetUndo n =>
        let n := if n <? 0 then 0 else n in
        if u_size (s_u s) - 1 =? n then Ok (s, Silent)
        else do r <- process (s_u s) (s_cur s) (NEW_SIZE n);
             do r <- process (fst (fst r)) (snd (fst r)) (PUSH noInfo);
             Ok (mkSess (fst (fst r)) (snd (fst r)) (s_changed s) (s_savedFlag s) (s_saved s), Silent)
    | SaveNew | SaveOther =>
        do r <- process (s_u s) (s_cur s) GET_STATUS;
        Ok (mkSess (fst (fst r)) (s_cur s) false
              (match snd r with Status true => true | _ => s_savedFlag s end)
              (match c with SaveNew => s_cur s | _ => s_saved s end), Silent)
    end.
  Fixpoint run (s : sess) (cs : list cmd) : res (sess * list answer) :=
    match cs with
    | [] => Ok (s, [])
    | c :: r => do x <- step s c; do y <- run (fst x) r; Ok (fst y, snd x :: snd y)
    end.
  (* PROVE with stack u: INIT and PUSH *)
  Definition prove (u : ust) (p : P) : res sess :=
    do r <- process u p INIT; do r <- process (fst (fst r)) (snd (fst r)) (PUSH noInfo);
    Ok (mkSess (fst (fst r)) (snd (fst r)) false false p).
  (* EXIT: does it warn?  metamath.c:1206-1214 *)
  Definition exitWarns (s : sess) : res bool :=
    if s_changed s then
      do r <- process (s_u s) (s_cur s) GET_STATUS;
      Ok (match snd r with Status b => b || s_savedFlag s | _ => s_savedFlag s end)%bool
    else Ok false.
  (* SET UNDO outside the Proof Assistant *)
  Definition setUndoOutside (u : ust) (cur : P) (n : Z) : res ust :=
    let n := if n <? 0 then 0 else n in
    if u_size u - 1 =? n then Ok u
    else do r <- process u cur (NEW_SIZE n); Ok (fst (fst r)).
  (* EXIT: INIT.  metamath.c:1231 *)
  Definition leave (s : sess) : res ust :=
    do r <- process (s_u s) (s_cur s) INIT; Ok (fst (fst r)).
  (* the states of the stack outside the Proof Assistant in the life of the program *)
  Inductive idle : ust -> Prop :=
  | idle_start : idle (uinit DEFAULT_UNDO_STACK_SIZE)
  | idle_set : forall u cur n u', idle u -> setUndoOutside u cur n = Ok u' -> idle u'
  | idle_session : forall u p s cs s' a u', idle u -> prove u p = Ok s -> run s cs = Ok (s', a) ->
      leave s' = Ok u' -> idle u'.
End Undo.
