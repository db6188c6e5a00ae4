(* NrmSpec.v -- the normal proof format: what SAVE PROOF /NORMAL and /PACKED write. *)
From Verif Require Import Base MMSpec VerModel VerSpec TokModel ParModel ParSpec FatlSpec CmpSpec.
Open Scope nat_scope.

(* a step that a later step refers to *)
Definition referred (p : list pstep) (k : nat) : Prop := In (Loc k) p.

(* no label of the database is the decimal numeral of a positive number *)
Definition noNumericLabel (env : penv) : Prop :=
  forall m sm k, stmtAt (e_db env) m sm -> labelled sm -> (0 < k)%N -> ~ isDecimal k (e_name env m).

(* labels are at most 100 characters long *)
Definition shortLabels (env : penv) : Prop :=
  forall m sm, stmtAt (e_db env) m sm -> labelled sm -> length (e_name env m) <= 100.
