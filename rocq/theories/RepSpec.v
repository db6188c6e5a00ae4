(* RepSpec.v -- what the search for a proof of one step from a given statement expects of
   the proof in progress.  Written without reference to the search. *)
From Verif Require Import Base MMSpec VerModel VerSpec ParModel SqModel SqSpec SqAttr PfaModel PfaSpec UniModel FltModel FltSpec.
Open Scope nat_scope.

(* an expression, perhaps with unknowns (tokens above the separator) *)
Definition expression (db : dbase) (t : list nat) : Prop := (exists c r, t = c :: r /\ c < db_sep db) /\ ~ In (db_sep db) t.
Definition noUnknowns (db : dbase) (t : list nat) : Prop := forall x, In x t -> x < db_sep db.

(* The proof in progress is T; its step number `step` is to be proved from statement
   `repl`; its target is m.  sub: only steps of the proof of `step` are used for the
   hypotheses; search: hypotheses may be proved anew. *)
Record repOk (E : fenv) (T : tree) (repl : nat) (st : stmtRec) (step : nat) (m : list nat) (sub search : bool) : Prop := {
  ro_flt : fltOk E (Some T);
  ro_norefs : noRefs (rpn T);
  ro_codes : legalCodes (rpn T);
  ro_target : nth_error (f_tg E) step = Some m;
  ro_goal : goal E m;
  ro_exprs : forall t, In t (f_tg E) -> expression (f_db E) t;
  ro_use : usable E repl st;
  (* mandatory variables are those of the assertion and of the $e hypotheses *)
  ro_vars : forall v, In v (s_reqVars st) -> In v (s_math st) \/ exists h sh, In h (s_reqHyps st) /\ stmtAt (f_db E) h sh /\ s_type sh = S_e /\ In v (s_math sh);
  ro_search : search = true -> forall v, In v (s_reqVars st) -> In v (s_math st);
  (* steps of the proof of `step` that are completely proved have a known target *)
  ro_known : sub = true -> forall k path u t, nodeAt T k path u -> contains T step k -> ~ In zUnk (rpn u) -> nth_error (f_tg E) k = Some t -> noUnknowns (f_db E) t }.
