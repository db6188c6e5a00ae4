(* NmbModel.v -- number strings, src/mmdata.c:1137-1345 and 1591-1700.  No proofs here.
   A number string is an allocated block of cells (None: not yet written) together
   with its stored length nmbrLen = size/sizeof(nmbrString) - 1, which is a field of its
   own.  -1 ends the string.  Blocks have exactly the requested size (poolMalloc may
   hand out a larger one).  A C long argument is a Z.  Not modelled: the temporary
   allocation stack and the pool bookkeeping (see PoolModel.v). *)
From Verif Require Import Base.
Open Scope nat_scope.

Record nmbr := mkN { nb_cells : list (option Z); nb_len : nat }.
Definition nulls : nmbr := mkN [Some (-1)%Z] 0.               (* NULL_NMBRSTRING *)
Definition nalloc (n : nat) : nmbr := mkN (repeat None n) (n - 1).   (* nmbrTempAlloc(n), n > 0 *)
(* s[i]: reading outside the block or an unwritten cell is undefined *)
Definition nget (s : nmbr) (i : nat) : res Z :=
  match nth_error (nb_cells s) i with Some (Some x) => Ok x | _ => UB end.
Fixpoint setCell (l : list (option Z)) (i : nat) (x : Z) : option (list (option Z)) :=
  match l, i with
  | [], _ => None
  | _ :: r, 0 => Some (Some x :: r)
  | c :: r, S i' => option_map (cons c) (setCell r i' x)
  end.
Definition nset (s : nmbr) (i : nat) (x : Z) : res nmbr :=
  do c <- rget (setCell (nb_cells s) i x); Ok (mkN c (nb_len s)).
Definition zapLen (s : nmbr) (n : nat) : nmbr := mkN (nb_cells s) n.     (* nmbrZapLen, 1201-1209 *)

(* nmbrCpy(s + so, t + to), 1213-1221 *)
Fixpoint ncpy (fuel : nat) (s : nmbr) (so : nat) (t : nmbr) (ti : nat) : res nmbr :=
  match fuel with
  | 0 => Fuel
  | S f => do x <- nget t ti;
           do s' <- nset s so x;
           if (x =? -1)%Z then Ok s' else ncpy f s' (S so) t (S ti)
  end.
Definition nmbrCpy (s : nmbr) (so : nat) (t : nmbr) (ti : nat) : res nmbr :=
  ncpy (S (length (nb_cells t))) s so t ti.
(* nmbrNCpy(s, t + to, n), 1226-1235; k = n - i *)
Fixpoint nncpy (s : nmbr) (i : nat) (t : nmbr) (ti k : nat) : res nmbr :=
  do x <- nget t ti;
  match k with
  | 0 => nset s i x
  | S k' => do s' <- nset s i x;
            if (x =? -1)%Z then Ok s' else nncpy s' (S i) t (S ti) k'
  end.

(* nmbrEq, 1241-1248 *)
Fixpoint eqLoop (fuel : nat) (s t : nmbr) (i : nat) : res bool :=
  match fuel with
  | 0 => Fuel
  | S f => do x <- nget s i; do y <- nget t i;
           if (x =? y)%Z then (if (x =? -1)%Z then Ok true else eqLoop f s t (S i)) else Ok false
  end.
Definition nmbrEq (s t : nmbr) : res bool :=
  if negb (Nat.eqb (nb_len s) (nb_len t)) then Ok false
  else eqLoop (S (length (nb_cells s))) s t 0.

(* nmbrSeg, nmbrMid, nmbrLeft, nmbrRight, 1250-1291 *)
Definition slice (s : nmbr) (start : Z) (length : Z) : res nmbr :=
  let n := Z.to_nat length in
  do o <- nncpy (nalloc (n + 1)) 0 s (Z.to_nat (start - 1)) n;
  nset o n (-1)%Z.
Definition nmbrMid (s : nmbr) (start length : Z) : res nmbr :=
  let start := if (start <? 1)%Z then 1%Z else start in
  let length := if (length <? 0)%Z then 0%Z else length in
  slice s start length.
Definition nmbrSeg (s : nmbr) (start stop : Z) : res nmbr :=
  let start := if (start <? 1)%Z then 1%Z else start in
  let stop := if (stop <? 1)%Z then 0%Z else stop in
  let length := (stop - start + 1)%Z in
  let length := if (length <? 0)%Z then 0%Z else length in
  slice s start length.
Definition nmbrLeft (s : nmbr) (n : Z) : res nmbr :=
  let n := if (n <? 0)%Z then 0%Z else n in
  slice s 1 n.
Definition nmbrRight (s : nmbr) (n : Z) : res nmbr :=
  let n := if (n <? 1)%Z then 1%Z else n in
  if (Z.of_nat (nb_len s) <? n)%Z then Ok nulls
  else nmbrCpy (nalloc (Z.to_nat (Z.of_nat (nb_len s) - n + 2))) 0 s (Z.to_nat (n - 1)).
(* nmbrSpace, 1294-1305, for n >= 0 *)
Definition nmbrSpace (n : Z) : res nmbr :=
  if (n <? 0)%Z then Bug 1327
  else Ok (mkN (repeat (Some 0%Z) (Z.to_nat n) ++ [Some (-1)%Z]) (Z.to_nat n)).
(* nmbrCat of two strings (more arguments: repeated), 1137-1176 *)
Definition nmbrCat (s t : nmbr) : res nmbr :=
  do v <- nmbrCpy (nalloc (nb_len s + nb_len t + 1)) 0 s 0;
  nmbrCpy v (nb_len s) t 0.

(* nmbrInstr, 1308-1324.  matchAt: the loop over j, k rounds left *)
Fixpoint matchAt (s1 s2 : nmbr) (i j k : nat) : res bool :=
  match k with
  | 0 => Ok true
  | S k' => do x <- nget s1 (i + j); do y <- nget s2 j;
            if (x =? y)%Z then matchAt s1 s2 i (S j) k' else Ok false
  end.
Fixpoint instrLoop (s1 s2 : nmbr) (i k : nat) : res nat :=       (* k rounds left *)
  match k with
  | 0 => Ok 0
  | S k' => do m <- matchAt s1 s2 i 0 (nb_len s2);
            if (m : bool) then Ok (i + 1) else instrLoop s1 s2 (S i) k'
  end.
Definition nmbrInstr (start : Z) (s1 s2 : nmbr) : res nat :=
  let start := if (start <? 1)%Z then 1%Z else start in
  (* i from start-1 to ls1 - ls2 *)
  instrLoop s1 s2 (Z.to_nat (start - 1))
    (Z.to_nat (Z.of_nat (nb_len s1) - Z.of_nat (nb_len s2) - (start - 1) + 1)).
(* nmbrRevInstr, 1330-1345 *)
Fixpoint revLoop (fuel : nat) (p : Z) (s1 s2 : nmbr) : res Z :=
  match fuel with
  | 0 => Fuel
  | S f => do m <- nmbrMid s1 p (Z.of_nat (nb_len s2));
           do e <- nmbrEq s2 m;
           if (e : bool) then Ok p
           else if (p - 1 <? 1)%Z then Ok 0%Z else revLoop f (p - 1) s1 s2
  end.
Definition nmbrRevInstr (start : Z) (s1 s2 : nmbr) : res Z :=
  let lim := (Z.of_nat (nb_len s1) - Z.of_nat (nb_len s2) + 1)%Z in
  let start := if (lim <? start)%Z then (lim + 1)%Z else start in
  if (start <? 1)%Z then Ok 0%Z else revLoop (S (Z.to_nat start)) start s1 s2.

(* nmbrElementIn, 1618-1625, start = 1 *)
Fixpoint elemIn (fuel : nat) (g : nmbr) (i : nat) (e : Z) : res nat :=
  match fuel with
  | 0 => Fuel
  | S f => do x <- nget g i;
           if (x =? -1)%Z then Ok 0 else if (x =? e)%Z then Ok (i + 1) else elemIn f g (S i) e
  end.
Definition nmbrElementIn (g : nmbr) (e : Z) : res nat := elemIn (S (length (nb_cells g))) g 0 e.
(* nmbrAddElement, 1628-1637 *)
Definition nmbrAddElement (g : nmbr) (e : Z) : res nmbr :=
  do v <- nmbrCpy (nalloc (nb_len g + 2)) 0 g 0;
  do v <- nset v (nb_len g) e;
  nset v (nb_len g + 1) (-1)%Z.

(* nmbrExtractVars, 1591-1611.  isVar: g_MathToken[].tokenType == var_, for 0..mathTokens *)
Fixpoint extractLoop (isVar : Z -> bool) (mathTokens : Z) (m : nmbr) (i k : nat) (v : nmbr) (j : nat) : res (nmbr * nat) :=
  match k with
  | 0 => Ok (v, j)
  | S k' =>
      do x <- nget m i;
      if (x <? 0)%Z || (mathTokens <? x)%Z then Bug 1328
      else if isVar x then
        do p <- nmbrElementIn v x;
        match p with
        | 0 => do v <- nset v j x; do v <- nset v (S j) (-1)%Z; extractLoop isVar mathTokens m (S i) k' v (S j)
        | _ => extractLoop isVar mathTokens m (S i) k' v j
        end
      else extractLoop isVar mathTokens m (S i) k' v j
  end.
Definition nmbrExtractVars (isVar : Z -> bool) (mathTokens : Z) (m : nmbr) : res nmbr :=
  do v <- nset (nalloc (nb_len m + 1)) 0 (-1)%Z;
  do r <- extractLoop isVar mathTokens m 0 (nb_len m) v 0;
  Ok (zapLen (fst r) (snd r)).

(* nmbrUnion, 1640-1660 *)
Fixpoint unionLoop (m2 : nmbr) (len1 i k : nat) (v : nmbr) (j : nat) : res (nmbr * nat) :=
  match k with
  | 0 => Ok (v, j)
  | S k' =>
      do x <- nget m2 i;
      do p <- nmbrElementIn v x;
      match p with
      | 0 => let v := zapLen v (len1 + j + 1) in
             do v <- nset v (len1 + j) x; do v <- nset v (len1 + S j) (-1)%Z;
             unionLoop m2 len1 (S i) k' v (S j)
      | _ => unionLoop m2 len1 (S i) k' v j
      end
  end.
Definition nmbrUnion (m1 m2 : nmbr) : res nmbr :=
  do v <- nmbrCpy (nalloc (nb_len m1 + nb_len m2 + 1)) 0 m1 0;
  do r <- unionLoop m2 (nb_len m1) 0 (nb_len m2) (zapLen v (nb_len m1)) 0;
  do v <- nset (fst r) (nb_len m1 + snd r) (-1)%Z;
  Ok (zapLen v (nb_len m1 + snd r)).

(* nmbrIntersection and nmbrSetMinus, 1663-1700: the elements of src (not) in other *)
Fixpoint pickLoop (want : bool) (other src : nmbr) (i k : nat) (v : nmbr) (j : nat) : res (nmbr * nat) :=
  match k with
  | 0 => Ok (v, j)
  | S k' =>
      do x <- nget src i;
      do p <- nmbrElementIn other x;
      if Bool.eqb want (negb (Nat.eqb p 0)) then
        do v <- nset v j x; pickLoop want other src (S i) k' v (S j)
      else pickLoop want other src (S i) k' v j
  end.
Definition pick (want : bool) (other src : nmbr) : res nmbr :=
  do r <- pickLoop want other src 0 (nb_len src) (nalloc (nb_len src + 1)) 0;
  do v <- nset (fst r) (snd r) (-1)%Z;
  Ok (zapLen v (snd r)).
Definition nmbrIntersection (m1 m2 : nmbr) : res nmbr := pick true m1 m2.
Definition nmbrSetMinus (m1 m2 : nmbr) : res nmbr := pick false m2 m1.
