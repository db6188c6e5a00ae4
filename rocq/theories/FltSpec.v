(* FltSpec.v -- what the search for proofs without new variables may use, and what it is
   expected to find.  Written without reference to the search. *)
From Verif Require Import Base MMSpec VerModel VerSpec ParModel SqModel SqSpec.
From Verif Require UniSpec.
From Verif Require Import UniModel FltModel.
Open Scope nat_scope.

Section Spec.
  Variable E : fenv.
  Let db := f_db E.
  Let isvar := db_isvar db.

  (* the hypotheses in force for the statement being proved *)
  Definition ownHyp (h : nat) : Prop := exists stn, stmtAt db (f_n E) stn /\ (In h (s_reqHyps stn) \/ In h (s_optHyps stn)).

  (* an earlier $a or $p that may be used: not one whose usage is discouraged, unless the
     user overrides this; not one of another mathbox, unless they are included; not one
     with $d requirements, if the user said so *)
  Record usable (s : nat) (st : stmtRec) : Prop := {
    us_stmt : stmtAt db s st;
    us_range : 1 <= s < f_n E;
    us_type : isAssertion st;
    us_disc : f_override E = 0 -> f_disc E s = false;
    us_mbox : f_mboxFlag E = false -> 2 <= f_mboxNum E -> s <= f_mboxStmt E \/ f_mboxStart E <= s;
    us_dist : f_noDist E = true -> s_reqDisj st = [] }.

  (* the tree t is a proof of e, apart from $d requirements: it ends in hypotheses of the
     statement being proved, or in finished parts of the proof in progress (the steps of T
     with their target) *)
  Inductive proves (T : option tree) : tree -> list nat -> Prop :=
  | pr_hyp : forall h sh, ownHyp h -> stmtAt db h sh -> proves T (Node (Z.of_nat h) []) (s_math sh)
  | pr_known : forall t k path u e, T = Some t -> nodeAt t k path u -> ~ In zUnk (rpn u) -> nth_error (f_tg E) k = Some e -> proves T u e
  | pr_use : forall s st kids es sg, usable s st -> Forall2 (proves T) kids es -> unifier db st es sg ->
      proves T (Node (Z.of_nat s) kids) (subst isvar sg (s_math st)).

  (* e has a proof of the kind searched for, at depth d (the whole proof is at depth 1):
     statements with $e hypotheses only up to depth maxE, and only if these have no new
     variables; only substitutions that the assistant is willing to try *)
  Definition hasE (st : stmtRec) : Prop := exists h sh, In h (s_reqHyps st) /\ stmtAt db h sh /\ s_type sh = S_e.
  Definition okValue (w : list nat) : Prop :=
    u_min (f_u E) <= length w /\ UniSpec.plausible (u_min (f_u E)) (u_name (f_u E)) (u_con (f_u E)) (u_axioms (f_u E)) w.
  Inductive derivable_at : nat -> list nat -> Prop :=
  | da_hyp : forall d h sh, ownHyp h -> stmtAt db h sh -> derivable_at d (s_math sh)
  | da_use : forall d s st sg, usable s st ->
      (hasE st -> d <= f_maxE E /\ forall v, In v (s_reqVars st) -> In v (s_math st)) ->
      (forall v, In v (s_reqVars st) -> okValue (sg v)) ->
      (forall h sh, In h (s_reqHyps st) -> stmtAt db h sh -> derivable_at (S d) (subst isvar sg (s_math sh))) ->
      derivable_at d (subst isvar sg (s_math st)).

  (* a database as left by READ, and flags as set by the callers *)
  Record fltOk (T : option tree) : Prop := {
    fo_wf : wf_db db;
    fo_mt : u_mt (f_u E) = db_sep db;
    fo_con : forall t, u_con (f_u E) t = true -> t <= db_sep db;
    fo_min : u_min (f_u E) <= 1;
    (* tokens are numbered below the separator *)
    fo_tok : forall n st t, stmtAt db n st -> isHyp st \/ isAssertion st -> In t (s_math st) -> t < db_sep db;
    (* mandatory variables are those of the assertion and of the $e hypotheses *)
    fo_vars : forall n st, stmtAt db n st -> isAssertion st -> ~ hasE st -> forall v, In v (s_reqVars st) -> In v (s_math st);
    fo_n : exists stn, stmtAt db (f_n E) stn;
    fo_hyps : forall h, ownHyp h -> exists sh, stmtAt db h sh /\ isHyp sh;
    fo_over : f_override E <= 2;
    (* the proof in progress, if there is one *)
    fo_pip : match T with
             | None => f_pf E = []
             | Some t => wfTree db t /\ f_pf E = rpn t /\ length (f_tg E) = length (f_pf E)
             end }.

  (* an expression to be proved: of the database's tokens *)
  Definition goal (m : list nat) : Prop := m <> [] /\ forall t, In t m -> t < db_sep db.
End Spec.
