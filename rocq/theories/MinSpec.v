(* MinSpec.v -- what MINIMIZE_WITH is expected to keep.  Written without reference to how
   replacements are found. *)
From Verif Require Import Base MMSpec VerModel VerSpec ParModel SqModel SqSpec SqAttr PfaModel PfaSpec UniModel FltModel FltSpec RepSpec AkModel AkSpec.
Open Scope nat_scope.

(* the proof in progress is the complete proof T: every step proves its target; what the
   user entered for steps are expressions *)
Record complete (E : fenv) (s : pip) (T : tree) : Prop := {
  co_pip : pipOk (f_db E) s T;
  co_steps : forall k path u, nodeAt T k path u -> exists y, shows (f_db E) anything u y /\ nth_error (tg s) k = Some (toZ y);
  co_user : forall x, In x (us s) -> x = [] \/ expression (f_db E) (ofZ x) }.

(* the statement repl may be used: an assertion before the one being proved, in a plain
   database as left by READ (statement 0 is not a real one) *)
Record minOk (E : fenv) (repl : nat) (st : stmtRec) : Prop := {
  mo_flt : fltOk E None;
  mo_plain : plainDb E;
  mo_zero : forall st, stmtAt (f_db E) 0 st -> ~ isHyp st /\ ~ isAssertion st;
  mo_floated : forall n st, stmtAt (f_db E) n st -> isAssertion st -> floated (f_db E) st;
  mo_stmt : stmtAt (f_db E) repl st;
  mo_type : isAssertion st;
  mo_range : 1 <= repl < f_n E;
  (* mandatory variables are those of the assertion and of the $e hypotheses *)
  mo_vars : forall v, In v (s_reqVars st) -> In v (s_math st) \/ exists h sh, In h (s_reqHyps st) /\ stmtAt (f_db E) h sh /\ s_type sh = S_e /\ In v (s_math sh) }.

(* the steps of proof q are those of proof p, hypotheses of the statement being proved, and
   assertions before it *)
Definition onlyEarlier (E : fenv) (p q : list Z) : Prop := forall z, In z q -> In z p \/ exists n, z = Z.of_nat n /\
  (ownHyp E n \/ (1 <= n < f_n E /\ exists st, stmtAt (f_db E) n st /\ isAssertion st)).

(* the complete proof T in state s has become the complete proof T' in state s': of the same
   expression, with statements that may be used *)
Record kept (E : fenv) (s : pip) (T : tree) (s' : pip) (T' : tree) : Prop := {
  kp_complete : complete E s' T';
  kp_same : forall e, shows (f_db E) anything T e -> shows (f_db E) anything T' e;
  kp_only : onlyEarlier E (pf s) (pf s') }.
