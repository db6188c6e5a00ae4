(* NmbSpec.v -- number strings as lists. *)
From Verif Require Import Base NmbModel.
Open Scope nat_scope.
(* an ordinary number string: l, then the terminator -1, then anything; its stored
   length is the length of l, and no element of l is -1 *)
Definition isNmbr (s : nmbr) (l : list Z) : Prop :=
  ~ In (-1)%Z l /\ nb_len s = length l /\ exists rest, nb_cells s = map Some l ++ Some (-1)%Z :: rest.
(* elements number a to b, counting from 1 *)
Definition elems (l : list Z) (a b : nat) : list Z := firstn (b + 1 - a) (skipn (a - 1) l).
(* m occurs in l at position p, counting from 1 *)
Definition occursAt (m l : list Z) (p : nat) : Prop := exists a b, l = a ++ m ++ b /\ p = length a + 1.
(* the first occurrences in l of elements not in seen, in order *)
Fixpoint firstOcc (seen l : list Z) : list Z :=
  match l with
  | [] => []
  | x :: r => if in_dec Z.eq_dec x seen then firstOcc seen r else x :: firstOcc (x :: seen) r
  end.
Definition has (l : list Z) (x : Z) : bool := if in_dec Z.eq_dec x l then true else false.
