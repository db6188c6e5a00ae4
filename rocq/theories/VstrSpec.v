(* VstrSpec.v -- what the string functions should do. *)
From Verif Require Import Base VstrModel.
Open Scope nat_scope.

(* characters number a to b (counting from 1) of s *)
Definition substr (s : list nat) (a b : nat) : list nat := firstn (b + 1 - a) (skipn (a - 1) s).

(* m occurs in s at position p (counting from 1) *)
Definition occurs (m s : list nat) (p : nat) : Prop :=
  exists a b, s = a ++ m ++ b /\ p = length a + 1.

(* fields of a comma-separated list *)
Fixpoint fields (s : list nat) : list (list nat) :=
  match s with
  | [] => [[]]
  | c :: r => if c =? 44 then [] :: fields r
              else match fields r with f :: fs => (c :: f) :: fs | [] => [[c]] end
  end.
(* position, counting from 1, of field number k (counting from 0) *)
Definition fieldStart (s : list nat) (k : nat) : nat :=
  length (concat (map (fun f => f ++ [44]) (firstn k (fields s)))) + 1.

(* ---------- edit ---------- *)
Fixpoint dropWhile (p : nat -> bool) (s : list nat) : list nat :=
  match s with c :: r => if p c then dropWhile p r else s | [] => [] end.
Definition dropEnd (p : nat -> bool) (s : list nat) : list nat := rev (dropWhile p (rev s)).
Definition toUpper (c : nat) : nat := if (97 <=? c) && (c <=? 122) then c - 32 else c.
Definition toLower (c : nat) : nat := if (65 <=? c) && (c <=? 90) then c + 32 else c.

(* the string with its tabs replaced by spaces up to the next multiple of 8; col:
   number of characters already on the line *)
Fixpoint expand (s : list nat) (col : nat) : list nat :=
  match s with
  | [] => []
  | c :: r => if c =? 10 then c :: expand r 0
              else if c =? 9 then repeat 32 (8 - col mod 8) ++ expand r (col + (8 - col mod 8))
              else c :: expand r (S col)
  end.
Definition tabs (s : list nat) : nat := length (filter (Nat.eqb 9) s).
Definition isStr (s : list nat) : Prop := Forall (fun c => 0 < c < 256) s.

(* edit(), control word without TAB (1024) and UNTAB (2048).  Flag number k has value 2^k. *)
Definition flag (w k : nat) : bool := negb ((w / 2 ^ k) mod 2 =? 0).
Definition discard (b : bool) (p : nat -> bool) (l : list nat) : list nat :=
  if b then filter (fun c => negb (p c)) l else l.
Definition change (b : bool) (f : nat -> nat) (l : list nat) : list nat := if b then map f l else l.
Definition oneOf (l : list nat) (c : nat) : bool := existsb (Nat.eqb c) l.
Definition roundBracket (c : nat) : nat := if c =? 91 then 40 else if c =? 93 then 41 else c.
Definition boxAscii (c : nat) : nat :=
  if oneOf [234; 235; 236; 237; 218; 217; 191; 192] c then 43
  else if oneOf [241; 196] c then 45 else if oneOf [248; 166; 179] c then 124 else c.
(* what becomes of one unquoted character *)
Definition charEdit (w c : nat) : list nat :=
  change (flag w 12) boxAscii (change (flag w 9) toLower (change (flag w 6) roundBracket
    (change (flag w 5) toUpper (discard (flag w 13) (oneOf [13]) (discard (flag w 2) (oneOf [13; 10; 12; 27; 8])
      (discard (flag w 0) (oneOf [0]) (change (flag w 0) (fun c => c mod 128)
         (discard (flag w 1) (oneOf [32; 9]) [c])))))))).
Fixpoint charsEdit (w : nat) (quoted : bool) (s : list nat) : list nat :=
  match s with
  | [] => []
  | c :: r => let quoted' := if flag w 8 && oneOf [34; 39] c then negb quoted else quoted in
              (if quoted' then [c] else charEdit w c) ++ charsEdit w quoted' r
  end.
(* one space for every run of blanks *)
Fixpoint squeeze (s : list nat) : list nat :=
  match s with
  | [] => []
  | c :: r => if oneOf [32; 9] c
              then match r with d :: _ => if oneOf [32; 9] d then squeeze r else 32 :: squeeze r | [] => [32] end
              else c :: squeeze r
  end.
Definition editSpec (w : nat) (s : list nat) : list nat :=
  let s := if flag w 3 then dropWhile (oneOf [32; 9]) s else s in
  let s := charsEdit w false s in
  let s := if flag w 7 then dropEnd (oneOf [32; 9]) s else s in
  let s := if flag w 14 then dropEnd (oneOf [32; 9; 10]) s else s in
  if flag w 4 then squeeze s else s.
