(* SxpSpec.v -- SAVE PROOF /EXPLICIT: conditions on the database. *)
From Verif Require Import Base MMSpec VerModel VerSpec TokModel ParModel CmpSpec.
Open Scope nat_scope.

(* statements are numbered from 1 *)
Definition fromOne (env : penv) : Prop := forall m sm, stmtAt (e_db env) m sm -> labelled sm -> 0 < m.
