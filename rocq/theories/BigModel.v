(* BigModel.v -- bigAdd and bigSub, src/mmcmds.c:3404-3476 (step counts of SHOW
   TRACE_BACK / COUNT_STEPS).  No proofs here.  A string is the list of its character
   codes; the arithmetic on char values is done in Z without wrap-around (for digits
   the values stay between 0 and 57). *)
From Verif Require Import Base VstrModel.
Open Scope nat_scope.

(* bignum[p1] - '0' with p1 = len - p, or 0 if p1 < 0; mmcmds.c:3420-3423 *)
Definition digitAt (s : list nat) (p : nat) : res Z :=
  if p <=? length s then do c <- rget (nth_error s (length s - p)); Ok (Z.of_nat c - 48)%Z
  else Ok 0%Z.
(* the loop over p, 3419-3433; k rounds left, cells: bignum3[maxlen + 1 - p + 1 ..],
   already written *)
Fixpoint addLoop (s1 s2 : list nat) (p k : nat) (carry : Z) (cells : list nat) : res (Z * list nat) :=
  match k with
  | 0 => Ok (carry, cells)
  | S k' =>
      do d1 <- digitAt s1 p;
      do d2 <- digitAt s2 p;
      let dsum := (d1 + d2 + carry)%Z in
      let '(dsum, carry) := if (9 <? dsum)%Z then ((dsum - 10)%Z, 1%Z) else (dsum, 0%Z) in
      addLoop s1 s2 (S p) k' carry (Z.to_nat (dsum + 48) :: cells)
  end.
(* "Suppress leading 0s", 3435-3438 and 3470-3473 *)
Fixpoint dropZeros (fuel : nat) (s : list nat) : res (list nat) :=
  match fuel with
  | 0 => Fuel
  | S f =>
      match s with
      | 48 :: _ => do t <- right_ s 2; dropZeros f t
      | _ => Ok s
      end
  end.
Definition bigAdd (s1 s2 : list nat) : res (list nat) :=
  let maxlen := if length s1 <? length s2 then length s2 else length s1 in
  do x <- addLoop s1 s2 1 maxlen 0%Z [];
  let b := Z.to_nat (fst x + 48) :: snd x in
  dropZeros (S (length b)) b.

(* (char)(9 - (c - '0') + '0') *)
Definition cmpl9 (c : nat) : nat := Z.to_nat (9 - (Z.of_nat c - 48) + 48).
Definition bigSub (s1 s2 : list nat) : res (list nat) :=
  do b <- bigAdd (map cmpl9 s1) s2;
  let b := if length b <? length s1 then repeat 48 (length s1 - length b) ++ b else b in
  dropZeros (S (length b)) (map cmpl9 b).
