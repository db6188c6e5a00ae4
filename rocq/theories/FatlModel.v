(* FatlModel.v -- fatal error messages: src/mmfatl.c:72-478.  No proofs here.
   Characters are codes; a string argument is the list of its characters before the NUL.
   maxMsg: MMFATL_MAX_MSG_SIZE (mmfatl.h:94), ell: MMFATL_ELLIPSIS without its NUL
   (mmfatl.h:105), bits: sizeof(unsigned) * CHAR_BIT.
   Not modelled: corruption of memory by other code. *)
From Verif Require Import Base.
Open Scope nat_scope.

Section Fatl.
  Variables (maxMsg : nat) (ell : list nat) (bits : nat).
  Definition chLF : nat := 10.  Definition chPct : nat := 37.  Definition chS : nat := 115.  Definition chU : nat := 117.

  (* struct Buffer, mmfatl.c:72-87: begin as an offset; end is constant, maxMsg *)
  Record buffer := mkB { b_text : list nat; b_begin : nat }.
  (* initBuffer, mmfatl.c:107-114 *)
  Definition initBuffer : buffer := mkB (repeat 0 maxMsg ++ ell ++ [0]) 0.
  Definition isBufferOverflow (b : buffer) : bool := b_begin b =? maxMsg.
  Definition poke (l : list nat) (k c : nat) : res (list nat) :=
    if k <? length l then Ok (firstn k l ++ c :: skipn (S k) l) else UB.
  (* appendText, mmfatl.c:177-185; fmt: type is FORMAT.  Result: buffer and number copied *)
  Fixpoint appendText (source : list nat) (fmt : bool) (b : buffer) : res (buffer * nat) :=
    match source with
    | [] => Ok (b, 0)
    | c :: r =>
        if (fmt && (c =? chPct)) || isBufferOverflow b then Ok (b, 0)
        else do t <- poke (b_text b) (b_begin b) c;
             do x <- appendText r fmt (mkB t (S (b_begin b)));
             Ok (fst x, S (snd x))
    end.

  (* unsignedToString, mmfatl.c:260-282: ofs counts down in an array of this many cells *)
  Definition digitCells : nat := bits * 146 / 485 + 2.
  Fixpoint digitLoop (fuel : nat) (value : N) (ofs : nat) (acc : list nat) : res (list nat) :=
    if (value =? 0)%N then Ok acc
    else match fuel with
         | 0 => Fuel
         | S f => match ofs with
                  | 0 => UB                         (* digits[-1] *)
                  | S o => digitLoop f (value / 10)%N o (N.to_nat (value mod 10) + 48 :: acc)
                  end
         end.
  Definition unsignedToString (value : N) : res (list nat) :=
    let ofs := digitCells - 1 in
    if (value =? 0)%N then match ofs with 0 => UB | _ => Ok [48] end
    else digitLoop bits value ofs [].

  Inductive arg := AStr (s : option (list nat))      (* char const*, may be NULL *)
                 | AUns (n : N).                      (* unsigned *)
  (* struct ParserState: format still to read, arguments still to read *)
  Record pstate := mkP { p_format : list nat; p_args : list arg; p_out : buffer }.
  (* checkOverflow, mmfatl.c:293-298 *)
  Definition checkOverflow (s : pstate) : pstate :=
    if isBufferOverflow (p_out s) then mkP [] (p_args s) (p_out s) else s.
  (* handleText, mmfatl.c:313-316 *)
  Definition handleText (s : pstate) : res pstate :=
    do x <- appendText (p_format s) true (p_out s);
    Ok (checkOverflow (mkP (skipn (snd x) (p_format s)) (p_args s) (fst x))).
  (* handleSubstitution, mmfatl.c:342-371; a missing or mistyped argument is UB *)
  Definition handleSubstitution (s : pstate) : res pstate :=
    let next := nth 1 (p_format s) 0 in
    do x <- (if next =? chS then
               match p_args s with AStr a :: r => Ok (a, r, 2) | _ => UB end
             else if next =? chU then
               match p_args s with AUns n :: r => do d <- unsignedToString n; Ok (Some d, r, 2) | _ => UB end
             else if next =? chPct then Ok (Some [chPct], p_args s, 2)
             else Ok (Some [chPct], p_args s, 1));
    let '(a, args, size) := x in
    let fmt := skipn size (p_format s) in
    match a with
    | None => Ok (mkP fmt args (p_out s))
    | Some a => do y <- appendText a false (p_out s); Ok (checkOverflow (mkP fmt args (fst y)))
    end.
  (* parse, mmfatl.c:381-388 *)
  Fixpoint parse (fuel : nat) (s : pstate) : res pstate :=
    match fuel with
    | 0 => Fuel
    | S f =>
        do s <- (if nth 0 (p_format s) 0 =? chPct then handleSubstitution s else handleText s);
        match p_format s with [] => Ok s | _ => parse f s end
    end.
  (* fatalErrorPush, mmfatl.c:422-436; None is a NULL format *)
  Definition fatalErrorPush (b : buffer) (format : option (list nat)) (args : list arg) : res (buffer * bool) :=
    if isBufferOverflow b then Ok (b, false)
    else match format with
         | None => Ok (b, true)
         | Some f => do s <- parse (S (length f)) (mkP f args b);
                     Ok (p_out s, negb (isBufferOverflow (p_out s)))
         end.
  Fixpoint pushes (b : buffer) (l : list (option (list nat) * list arg)) : res (buffer * list bool) :=
    match l with
    | [] => Ok (b, [])
    | (f, a) :: r => do x <- fatalErrorPush b f a; do y <- pushes (fst x) r; Ok (fst y, snd x :: snd y)
    end.
  (* fputs(buffer->text): up to the first NUL, which must be inside the array *)
  Fixpoint cstring (l : list nat) : res (list nat) :=
    match l with [] => UB | 0 :: _ => Ok [] | c :: r => do s <- cstring r; Ok (c :: s) end.
  (* fatalErrorPrintAndExit, mmfatl.c:438-449: what is printed *)
  Definition fatalErrorPrintAndExit (b : buffer) : res (list nat) :=
    do b <- (if negb (isBufferOverflow b) && negb (b_begin b =? 0)
                && negb (nth (b_begin b - 1) (b_text b) 0 =? chLF)
             then do x <- fatalErrorPush b (Some [chLF]) []; Ok (fst x) else Ok b);
    cstring (b_text b).
  (* fatalErrorExitAt, mmfatl.c:451-477 *)
  Definition sAt : list nat := [65; 116; 32; 37; 115; 58; 37; 117; 10].                                   (* "At %s:%u\n" *)
  Definition sInFile : list nat := [73; 110; 32; 102; 105; 108; 101; 32; 37; 115; 58; 10].                (* "In file %s:\n" *)
  Definition sInLine : list nat := [37; 115; 73; 110; 32; 108; 105; 110; 101; 32; 37; 117; 58; 10].       (* "%sIn line %u:\n" *)
  Definition fatalErrorExitAt (file : option (list nat)) (line : N) (msg : option (list nat)) (args : list arg) : res (list nat) :=
    let format :=
      match file with
      | Some (_ :: _) => if (0 <? line)%N then Some sAt else Some sInFile
      | _ => if (0 <? line)%N then Some sInLine else None
      end in
    do x <- fatalErrorPush initBuffer format [AStr file; AUns line];
    do b <- (match snd x, msg with
             | true, Some f => do s <- parse (S (length f)) (mkP f args (fst x)); Ok (p_out s)
             | _, _ => Ok (fst x)
             end);
    fatalErrorPrintAndExit b.
End Fatl.
