(* DateModel.v -- dates: parseDate, buildDate, compareDates (src/mmdata.c:3746-3812), the
   date checks of getContrib (3408-3421, 3600-3607), date() and val(), str()
   (src/mmvstr.c), and the decrement of WRITE RECENT_ADDITIONS (src/metamath.c:2395-2406).
   No proofs here.  Doubles are taken as exact (true for integers below 2^53, which the
   strings of at most 15 digits give); sprintf is taken to print decimal digits.  A
   conversion or sum outside the range of long is UB. *)
From Verif Require Import Base VstrModel.
Open Scope Z_scope.

Definition longMax : Z := 2 ^ 63 - 1.
Definition long (n : Z) : res Z := if (- longMax - 1 <=? n) && (n <=? longMax) then Ok n else UB.
Definition isDigit (c : nat) : bool := (48 <=? c)%nat && (c <=? 57)%nat.
(* val, mmvstr.c: from the right; the value is n / d *)
Fixpoint valLoop (r : list nat) (n d power : Z) (neg : bool) : Z * Z :=
  match r with
  | [] => (if neg then - n else n, d)
  | c :: r => if Nat.eqb c 46 then valLoop r n (d * power) 1 neg
              else if Nat.eqb c 45 then valLoop r n d power true
              else if isDigit c then valLoop r (n + Z.of_nat (c - 48) * power * d) d (10 * power) neg
              else valLoop r n d power neg
  end.
(* (long)val(s) *)
Definition valL (s : list nat) : res Z := let '(n, d) := valLoop (rev s) 0 1 1 false in long (Z.quot n d).

(* sprintf("%f") of an integer, then removal of trailing zeros and period: str *)
Fixpoint digits (fuel : nat) (n : Z) : list nat :=
  match fuel with
  | O => []
  | S f => if n <? 10 then [(Z.to_nat n + 48)%nat] else digits f (n / 10) ++ [(Z.to_nat (n mod 10) + 48)%nat]
  end.
Definition printInt (n : Z) : list nat :=
  (if n <? 0 then [45%nat] else []) ++ digits (S (Z.to_nat (Z.log2 (Z.abs n)))) (Z.abs n).
Fixpoint dropZero (r : list nat) : list nat :=
  match r with c :: t => match t with [] => r | _ => if Nat.eqb c 48 then dropZero t else r end | [] => [] end.
Definition str (n : Z) : list nat :=
  let r := dropZero (rev (printInt n ++ [46; 48; 48; 48; 48; 48; 48]%nat)) in
  rev (match r with c :: t => if Nat.eqb c 46 then t else r | [] => r end).

(* "JanFebMarAprMayJunJulAugSepOctNovDec" *)
Definition MONTHS : list nat :=
  [74; 97; 110; 70; 101; 98; 77; 97; 114; 65; 112; 114; 77; 97; 121; 74; 117; 110;
   74; 117; 108; 65; 117; 103; 83; 101; 112; 79; 99; 116; 78; 111; 118; 68; 101; 99]%nat.
Definition dash : list nat := [45%nat].
(* parseDate: error flag, day, month, year *)
Definition parseDate (s : list nat) : res (bool * Z * Z * Z) :=
  let j := Z.of_nat (instr 1 s dash) in
  do l <- left_ s (j - 1);
  do dd <- valL l;
  do m3 <- mid s (j + 1) 3;
  let mmm := Z.quot (Z.of_nat (instr 1 MONTHS m3) - 1) 3 + 1 in
  let j := Z.of_nat (instr (j + 1) s dash) in
  do r <- right_ s (j + 1);
  do y <- valL r;
  do yyyy <- (if y <? 100 then (if y <? 93 then long (y + 2000) else long (y + 1900)) else Ok y);
  Ok ((dd <? 1) || (31 <? dd) || (mmm <? 1) || (12 <? mmm), dd, mmm, yyyy).
Definition buildDate (dd mmm yyyy : Z) : res (list nat) :=
  do m3 <- mid MONTHS (mmm * 3 - 2) 3;
  Ok (str dd ++ dash ++ m3 ++ dash ++ str yyyy).
Definition compareDates (s1 s2 : list nat) : res Z :=
  match s1, s2 with
  | [], [] => Ok 0
  | [], _ => Ok (-1)
  | _, [] => Ok 1
  | _, _ =>
      do x <- parseDate s1;
      do y <- parseDate s2;
      let '(_, d1, m1, y1) := x in
      let '(_, d2, m2, y2) := y in
      do a <- long (y1 * 500); do a <- long (d1 + m1 * 32 + a);
      do b <- long (y2 * 500); do b <- long (d2 + m2 * 32 + b);
      Ok (if a <? b then -1 else if a =? b then 0 else 1)
  end.
(* the format check of getContrib, 3600-3603 *)
Fixpoint sameText (a b : list nat) : bool :=
  match a, b with [], [] => true | x :: a, y :: b => Nat.eqb x y && sameText a b | _, _ => false end.
Definition formatOk (s : list nat) : res bool :=
  do x <- parseDate s;
  let '(_, d, m, y) := x in
  do t <- buildDate d m y;
  Ok (sameText s t).
(* the most recent date of a statement, 3408-3421 *)
Definition mostRecent (contrib revise shorten : list nat) : res (list nat) :=
  do c <- compareDates contrib revise;
  let m := if c =? -1 then revise else contrib in
  do c <- compareDates m shorten;
  Ok (if c =? -1 then shorten else m).
(* date() on a given day: sprintf("%d-%s-%04d") *)
Definition date (d m y : Z) : res (list nat) :=
  do m3 <- mid MONTHS (m * 3 - 2) 3;
  let t := printInt y in
  Ok (printInt d ++ dash ++ m3 ++ dash ++ repeat 48%nat (4 - length t) ++ t).
(* metamath.c:2395-2406 *)
Definition decrement (d m y : Z) : Z * Z * Z :=
  if 1 <? d then (d - 1, m, y) else (if 1 <? m then (31, m - 1, y) else (31, 12, y - 1)).
