(* LabSpec.v *)
From Verif Require Import Base LabModel.
From Coq Require Import Permutation Sorted.
Open Scope nat_scope.
(* what the library function qsort guarantees, called with labelSortCmp on the numbers 1..n *)
Definition qsorted (st : list lstmt) (keys : list nat) : Prop :=
  Permutation keys (seq 1 (length st)) /\ Sorted (labLe st) keys.
(* statement number k has label lab (which is not empty) *)
Definition hasLabel (st : list lstmt) (k : nat) (lab : list nat) : Prop :=
  lab <> [] /\ exists s, lnth st k = Some s /\ l_label s = lab.
Definition isAsrt (st : list lstmt) (k : nat) : Prop :=
  exists s, lnth st k = Some s /\ (l_kind s = K_a \/ l_kind s = K_p).
(* only hypotheses and assertions have labels (checked by parseLabels) *)
Definition labelled_ok (st : list lstmt) : Prop :=
  forall s, In s st -> l_label s <> [] -> match l_kind s with K_e | K_f | K_a | K_p => True | _ => False end.
