(* CmdSpec.v -- what splitting a command line and abbreviating keywords mean. *)
From Verif Require Import Base VstrSpec.
Open Scope nat_scope.

(* ---------- command lines ---------- *)
(* A line is a sequence of pieces. *)
Inductive piece :=
| White (c : nat)              (* space, tab, newline *)
| Special (c : nat)            (* / or =, an argument of its own *)
| Word (w : list nat)
| Quoted (q : nat) (b : list nat)      (* in quotes q *)
| Unclosed (q : nat) (b : list nat).   (* the closing quote is missing *)
Definition isWhite (c : nat) : Prop := c = 32 \/ c = 9 \/ c = 10.
Definition isSpecial (tools : bool) (c : nat) : Prop := tools = false /\ (c = 47 \/ c = 61).
Definition isQuote (c : nat) : Prop := c = 39 \/ c = 34.
Definition render1 (x : piece) : list nat :=
  match x with
  | White c | Special c => [c]
  | Word w => w
  | Quoted q b => q :: b ++ [q]
  | Unclosed q b => q :: b
  end.
Definition render (l : list piece) : list nat := concat (map render1 l).
(* well-formed sequences: words are maximal, only the last piece may be unclosed *)
Fixpoint wfPieces (tools : bool) (l : list piece) : Prop :=
  match l with
  | [] => True
  | x :: r =>
      wfPieces tools r /\
      match x with
      | White c => isWhite c
      | Special c => isSpecial tools c
      | Word w => w <> [] /\ (forall c, In c w -> ~ isWhite c /\ ~ isSpecial tools c /\ ~ isQuote c) /\
                  (match r with Word _ :: _ => False | _ => True end)
      | Quoted q b => isQuote q /\ ~ In q b
      | Unclosed q b => isQuote q /\ ~ In q b /\ r = []
      end
  end.
(* the arguments with their columns *)
Fixpoint arguments (col : nat) (l : list piece) : list (nat * list nat) :=
  match l with
  | [] => []
  | x :: r =>
      (match x with
       | White _ => []
       | Special c => [(col, [c])]
       | Word w => [(col, w)]
       | Quoted _ b | Unclosed _ b => [(col + 1, b)]
       end) ++ arguments (col + length (render1 x)) r
  end.
(* a way to write any argument that does not use both quotes *)
Definition quote (a : list nat) : list nat :=
  if in_dec Nat.eq_dec 39 a then 34 :: a ++ [34] else 39 :: a ++ [39].
Fixpoint quoteAll (l : list (list nat)) : list nat :=
  match l with [] => [] | a :: r => quote a ++ 32 :: quoteAll r end.

(* ---------- keywords ---------- *)
Fixpoint joinBar (l : list (list nat)) : list nat :=
  match l with
  | [] => []
  | [a] => a
  | a :: r => a ++ 124 :: joinBar r
  end.
(* "$" at the end stands for "no argument" and is shown as "nothing" *)
Definition shown (ks : list (list nat)) : list (list nat) :=
  if list_eq_dec Nat.eq_dec (last ks []) [36] then removelast ks ++ [[110; 111; 116; 104; 105; 110; 103]] else ks.
Definition isPrefix (a k : list nat) : bool :=
  if list_eq_dec Nat.eq_dec (firstn (length a) k) a then true else false.
(* what resolving argument a among keywords ks gives *)
Inductive verdict := Accept (k : list nat) | Unknown | Several (l : list (list nat)).
Inductive resolves (ks : list (list nat)) (a : list nat) : verdict -> Prop :=
| res_exact : In (map toUpper a) ks -> resolves ks a (Accept (map toUpper a))
| res_unique : forall k, ~ In (map toUpper a) ks -> filter (isPrefix (map toUpper a)) ks = [k] ->
    resolves ks a (Accept k)
| res_none : filter (isPrefix (map toUpper a)) ks = [] -> resolves ks a Unknown
| res_several : forall k1 k2 r, ~ In (map toUpper a) ks -> filter (isPrefix (map toUpper a)) ks = k1 :: k2 :: r ->
    resolves ks a (Several (k1 :: k2 :: r)).

(* ---------- recognising commands ---------- *)
Fixpoint joinSpace (l : list (list nat)) : list nat :=
  match l with
  | [] => []
  | [a] => a
  | a :: r => a ++ 32 :: joinSpace r
  end.
