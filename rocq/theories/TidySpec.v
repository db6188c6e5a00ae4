(* TidySpec.v -- which texts are source files (Metamath book, sec. 4.1): words, comments
   and keywords separated by white space, over the characters allowed.  Independent of the
   scanning code. *)
From Verif Require Import Base LabModel TokSpec SrcSpec.
Open Scope nat_scope.

Definition space (c : nat) : Prop := (9 <= c /\ c <= 13) \/ c = 32.
Definition startsSpace (l : list nat) : Prop := exists c r, l = c :: r /\ space c.
Definition endsSpace (l : list nat) : Prop := exists c r, l = r ++ [c] /\ space c.

(* the inside of a comment: legal characters, white space at both ends, no "$(" or "$)" *)
Definition commentBody (l : list nat) : Prop :=
  (forall c, In c l -> graphic c \/ space c) /\
  (forall a d b, l = a ++ dollar :: d :: b -> d <> 40 /\ d <> 41) /\
  startsSpace l /\ endsSpace l.

(* what precedes: white space or nothing; a word; a keyword or comment *)
Inductive before := White | Word | Mark.
(* words and comments between white space *)
Inductive tidy : before -> list nat -> Prop :=
| td_nil b : tidy b []
| td_space b c r : space c -> tidy White r -> tidy b (c :: r)
| td_char b c r : b <> Mark -> graphic c -> c <> dollar -> tidy Word r -> tidy b (c :: r)
| td_comment body r : commentBody body -> tidy Mark r ->
    tidy White (dollar :: 40 :: body ++ dollar :: 41 :: r).

(* sections after a keyword and before the next *)
Definition inner (l : list nat) : Prop := tidy Mark l /\ endsSpace l.
Definition tidyItem (i : item) : Prop :=
  match it_kind i with
  | K_lb | K_rb => it_math i = [] /\ it_proof i = []
  | K_p => inner (it_math i) /\ inner (it_proof i)
  | _ => inner (it_math i) /\ it_proof i = []
  end.
Definition tidyFile (items : list item) (tail : list nat) : Prop :=
  match items with
  | [] => tidy White tail
  | i :: r =>
      (it_lab i = [] \/ tidy White (it_lab i) /\ endsSpace (it_lab i)) /\ tidyItem i /\
      Forall (fun j => inner (it_lab j) /\ tidyItem j) r /\ tidy Mark tail
  end.
