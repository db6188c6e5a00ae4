(* OrdSpec.v -- independent statements for the knapsack solver and the label
   order. *)
From Coq Require Import Permutation.
From Verif Require Import Base.
Open Scope nat_scope.

(* the sum of l over the items chosen *)
Fixpoint total (chosen : list bool) (l : list Z) : Z :=
  match chosen, l with
  | b :: bs, x :: xs => ((if b then x else 0) + total bs xs)%Z
  | _, _ => 0%Z
  end.

(* a choice of items that fits *)
Definition fits (size : list Z) (cap : Z) (chosen : list bool) : Prop :=
  length chosen = length size /\ (total chosen size <= cap)%Z.

(* how often a statement is used by the steps of a proof *)
Definition uses (z : Z) (proof : list Z) : nat := count_occ Z.eq_dec proof z.

(* the number of letters the explicit labels take in a proof when they are listed
   in the order l, the first of them being label number k (from 0): each use of a
   label writes its code *)
Fixpoint letters (codeLen : nat -> nat) (proof : list Z) (k : nat) (l : list Z) : nat :=
  match l with
  | [] => 0
  | z :: r => uses z proof * codeLen k + letters codeLen proof (S k) r
  end.
