(* NrmModel.v -- SAVE PROOF ... /NORMAL and /PACKED: nmbrCvtRToVString (src/mmdata.c:1377-1525,
   explicitTargets = 0) and the stored section, src/metamath.c:3640-3836 without /FAST,
   outside the proof assistant.  No proofs here. *)
From Verif Require Import Base VerModel TokModel ParModel SqModel OrdModel VstrModel LineModel CmdModel DateModel SavModel.
Open Scope nat_scope.

(* g_allLabelKeyBase (src/mmpars.c:519-527): the labels of all labelled statements;
   bsearch with labelSrchCmp finds an entry iff there is one *)
Definition hasLabel (st : stmtRec) : bool :=
  match s_type st with S_e | S_f | S_a | S_p => true | S_other => false end.
Definition allLabels (env : penv) : list label :=
  map (e_name env)
    (filter (fun i => match nth_error (db_stmts (e_db env)) i with Some st => hasLabel st | None => false end)
       (seq 0 (length (db_stmts (e_db env))))).
Definition inLabels (env : penv) (t : label) : bool := existsb (fun x => seqb x t) (allLabels env).

(* 1488-1498: the next integer that is no statement label.  The fuel given below
   (one more than the number of labels) is enough. *)
Fixpoint freeNumber (fuel : nat) (env : penv) (next : nat) : res nat :=
  match fuel with
  | 0 => Fuel
  | S f => if inLabels env (DateModel.str (Z.of_nat next)) then freeNumber f env (S next) else Ok next
  end.

Definition putAt (i v : nat) (l : list nat) : list nat := firstn i l ++ v :: skipn (S i) l.

(* the loop 1463-1508, without the space added after each piece.  names =
   localLabelNames; next = nextLocLabNum.  nmbrElementIn(1, localLabels, step): some
   element of the proof refers to the step. *)
Fixpoint pieces (env : penv) (proof : list Z) (step next : nat) (names : list nat) (l : list Z) : res (list (list nat)) :=
  match l with
  | [] => Ok []
  | z :: r =>
      if (z <? 0)%Z then
        do t <- (if (z <=? -1000)%Z then
                   do v <- rget (nth_error names (Z.to_nat (-1000 - z))); Ok (DateModel.str (Z.of_nat v))
                 else if (z =? zUnk)%Z then Ok [chQ]
                 else Ok ([chQ; chQ] ++ DateModel.str z));
        do ts <- pieces env proof (S step) next names r;
        Ok (t :: ts)
      else if (z <? 1)%Z || (Z.of_nat (length (db_stmts (e_db env))) <=? z)%Z then
        do ts <- pieces env proof (S step) next names r;
        Ok (([chQ; chQ] ++ DateModel.str z) :: ts)
      else if existsb (Z.eqb (zLoc (Z.of_nat step))) proof then
        do k <- freeNumber (S (length (allLabels env))) env next;
        do ts <- pieces env proof (S step) (S k) (putAt step k names) r;
        Ok ((DateModel.str (Z.of_nat k) ++ chColon :: e_name env (Z.to_nat z)) :: ts)
      else
        do ts <- pieces env proof (S step) next names r;
        Ok (e_name env (Z.to_nat z) :: ts)
  end.

(* 1410-1416: the number of decimal digits (0 for 0) *)
Fixpoint digitCount (fuel i : nat) : nat :=
  match fuel with
  | 0 => 0
  | S f => if i =? 0 then 0 else S (digitCount f (i / 10))
  end.
(* 1420-1451: maxLabelLen.  A '?' sets it to 100, whatever it was. *)
Fixpoint maxLabel (env : penv) (m : nat) (l : list Z) : nat :=
  match l with
  | [] => m
  | z :: r =>
      if (z <=? -1000)%Z then maxLabel env m r
      else if (z <? 1)%Z || (Z.of_nat (length (db_stmts (e_db env))) <=? z)%Z then maxLabel env 100 r
      else maxLabel env (Nat.max m (length (e_name env (Z.to_nat z)))) r
  end.

(* the result.  The pieces are copied, each with a space, into a string of
   plen * (2 + maxLabelLen + maxLocalLen) characters (1459-1462): writing more is out
   of bounds (one more overwrites the terminator, which the let() at 1512 then needs).
   The last space is removed. *)
Definition cvtR (env : penv) (proof : list Z) : res (list nat) :=
  let plen := length proof in
  let room := plen * (2 + maxLabel env 0 proof + digitCount (S plen) plen) in
  do ts <- pieces env proof 0 1 (repeat 0 plen) proof;
  if room <? length (concat ts) + length ts then UB else Ok (joinSp ts).

(* the line printed, metamath.c:3716-3717 *)
Definition normalText (ind : nat) (s : list nat) : list nat := repeat 32 ind ++ s ++ [32; 36; 46].

(* the command; packed: /PACKED given *)
Definition saveNormal (packed : bool) (fuel : nat) (env : penv) (w : Z) (back : list nat) (p : list Z) : res (list nat) :=
  let ind := 2 + sourceIndentation back in
  do u <- unsquishProof fuel (e_db env) p;
  do q <- (if packed then squishProof (e_db env) u else Ok u);
  do s <- cvtR env q;
  let line := normalText ind s in
  do out <- printLongLine (2 * length line + 3) w line (repeat 32 ind) [32];
  section out.
