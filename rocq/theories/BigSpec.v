(* BigSpec.v -- decimal numbers. *)
From Verif Require Import Base.
Open Scope nat_scope.
Definition isDigit (c : nat) : Prop := 48 <= c <= 57.
Definition digits (s : list nat) : Prop := Forall isDigit s.
(* the number written by a digit string; "" is 0 *)
Definition value (s : list nat) : Z := fold_left (fun n c => 10 * n + (Z.of_nat c - 48))%Z s 0%Z.
(* no leading zeros; the canonical form of 0 is "" *)
Definition canonical (s : list nat) : Prop := digits s /\ forall r, s <> 48 :: r.
