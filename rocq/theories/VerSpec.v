(* VerSpec.v -- what the verifier properties say, stated over the data of the
   database (VerModel.dbase is only a record of its fields) and the Metamath
   language definition in MMSpec.v.  No function of the verifier is used. *)
From Verif Require Import Base MMSpec VerModel.
Open Scope nat_scope.

(* the exact set of $d complaints for a substitution sg of the variables in the
   pairs: req and opt are the mandatory and optional $d pairs of the statement
   being proved *)
Definition violation (isvar : nat -> bool) (step : nat) (req opt pairs : list (nat * nat))
  (sg : nat -> list nat) (d : diag) : Prop :=
  exists x y a b, In (x, y) pairs /\ In a (sg x) /\ In b (sg y) /\
    isvar a = true /\ isvar b = true /\
    ((a = b /\ d = DDisjCommon step x y a) \/
     (a <> b /\ ~ In (a, b) req /\ ~ In (a, b) opt /\ ~ In (b, a) req /\ ~ In (b, a) opt /\
      d = DDisjMissing step x y a b)).

Section Spec.
  Variable db : dbase.
  Let isvar := db_isvar db.

  Definition stmtAt (n : nat) (st : stmtRec) : Prop := nth_error (db_stmts db) n = Some st.
  Definition isAssertion (st : stmtRec) : Prop := s_type st = S_a \/ s_type st = S_p.
  Definition isHyp (st : stmtRec) : Prop := s_type st = S_e \/ s_type st = S_f.

  (* A database as left by READ without errors:
     - the separator is not a variable and occurs in no statement;
     - $e $f $a $p statements begin with a constant;
     - the mandatory hypotheses of an assertion are hypotheses, and its
       mandatory variables are exactly the variables of these hypotheses, each
       listed once; they cover the variables of the assertion and of its $d's;
     - $d pairs are stored in increasing order. *)
  Record wf_db : Prop := {
    wf_sep_con : isvar (db_sep db) = false;
    wf_sep_fresh : forall n st, stmtAt n st -> ~ In (db_sep db) (s_math st);
    wf_head : forall n st, stmtAt n st -> isHyp st \/ isAssertion st ->
      exists c r, s_math st = c :: r /\ isvar c = false;
    wf_hyps : forall n st h, stmtAt n st -> isAssertion st -> In h (s_reqHyps st) ->
      exists sh, stmtAt h sh /\ isHyp sh;
    wf_reqVars_nodup : forall n st, stmtAt n st -> isAssertion st -> NoDup (s_reqVars st);
    wf_reqVars : forall n st, stmtAt n st -> isAssertion st ->
      forall t, In t (s_reqVars st) <->
        isvar t = true /\ exists h sh, In h (s_reqHyps st) /\ stmtAt h sh /\ In t (s_math sh);
    wf_vars_math : forall n st, stmtAt n st -> isAssertion st ->
      forall t, In t (s_math st) -> isvar t = true -> In t (s_reqVars st);
    wf_vars_disj : forall n st, stmtAt n st -> isAssertion st ->
      forall x y, In (x, y) (s_reqDisj st) -> In x (s_reqVars st) /\ In y (s_reqVars st);
    wf_disj_ord : forall n st, stmtAt n st ->
      forall x y, In (x, y) (s_reqDisj st) \/ In (x, y) (s_optDisj st) -> x < y }.

  (* the hypothesis expressions of an assertion *)
  Definition hypMaths (st : stmtRec) (maths : list (list nat)) : Prop :=
    Forall2 (fun h m => exists sh, stmtAt h sh /\ s_math sh = m) (s_reqHyps st) maths.

  (* sigma turns the mandatory hypotheses of st into the expressions es *)
  Definition unifier (st : stmtRec) (es : list (list nat)) (sigma : nat -> list nat) : Prop :=
    Forall2 (fun h e => exists sh, stmtAt h sh /\ subst isvar sigma (s_math sh) = e)
      (s_reqHyps st) es.

  (* the same when some of the expressions are unknown (empty): only the known
     ones constrain sigma *)
  Definition punifier (st : stmtRec) (es : list (list nat)) (sigma : nat -> list nat) : Prop :=
    Forall2 (fun h e => e = [] \/ exists sh, stmtAt h sh /\ subst isvar sigma (s_math sh) = e)
      (s_reqHyps st) es.

  (* variable t occurs in some hypothesis of st whose expression is known *)
  Definition determined (st : stmtRec) (es : list (list nat)) (t : nat) : Prop :=
    exists h e sh, In (h, e) (combine (s_reqHyps st) es) /\ e <> [] /\
      stmtAt h sh /\ In t (s_math sh).

  (* the distinct-variable declarations in force for the statement being proved *)
  Definition declaredDisj (st : stmtRec) (a b : nat) : Prop :=
    In (a, b) (s_reqDisj st) \/ In (a, b) (s_optDisj st).

  (* substitution sigma violates no $d requirement of assertion st when used in a
     proof of statement stp *)
  Definition disj_ok (stp st : stmtRec) (sigma : nat -> list nat) : Prop :=
    forall x y, In (x, y) (s_reqDisj st) -> dv_ok isvar (declaredDisj stp) sigma x y.

  (* frame of an assertion (MMSpec.frame) *)
  Definition frameOf (st : stmtRec) (f : frame) : Prop :=
    hypMaths st (f_hyps f) /\ f_dv f = s_reqDisj st /\ f_concl f = s_math st.

  (* e is provable for statement stp using only the statements listed in steps:
     the hypotheses among them as hypotheses, the assertions among them as rules *)
  Definition provable (stp : stmtRec) (uses : nat -> Prop) (e : list nat) : Prop :=
    derivable isvar
      (fun h => exists n st, uses n /\ stmtAt n st /\ isHyp st /\ s_math st = h)
      (declaredDisj stp)
      (fun f => exists n st, uses n /\ stmtAt n st /\ isAssertion st /\ frameOf st f)
      e.

  (* A proof in RPN form whose references are valid and whose stack never
     underflows: runs from stack height d to height d'. *)
  Fixpoint balanced (proof : list pstep) (d : nat) : option nat :=
    match proof with
    | [] => Some d
    | Stm n :: r =>
        match nth_error (db_stmts db) n with
        | None => None
        | Some st =>
            match s_type st with
            | S_e | S_f => balanced r (S d)
            | S_other => None
            | S_a | S_p => if length (s_reqHyps st) <=? d
                           then balanced r (S (d - length (s_reqHyps st))) else None
            end
        end
    | _ :: r => balanced r (S d)
    end.

  Definition wf_proof (proof : list pstep) : Prop :=
    balanced proof 0 = Some 1 /\
    (forall k i, nth_error proof k = Some (Loc i) -> i < k).

  (* Step-by-step meaning of an RPN proof of stp.  vals: expressions established
     by the steps so far; stk: the stack, top first. *)
  Inductive rpnStep (stp : stmtRec) (vals stk : list (list nat))
    : pstep -> list nat -> list (list nat) -> Prop :=
  | rs_hyp : forall n st,
      stmtAt n st -> isHyp st ->
      rpnStep stp vals stk (Stm n) (s_math st) (s_math st :: stk)
  | rs_loc : forall i e,
      nth_error vals i = Some e ->
      rpnStep stp vals stk (Loc i) e (e :: stk)
  | rs_assert : forall n st es rest sigma,
      stmtAt n st -> isAssertion st ->
      stk = rev es ++ rest ->
      unifier st es sigma ->
      (forall sigma', unifier st es sigma' ->
         forall t, In t (s_reqVars st) -> sigma' t = sigma t) ->
      disj_ok stp st sigma ->
      rpnStep stp vals stk (Stm n) (subst isvar sigma (s_math st))
        (subst isvar sigma (s_math st) :: rest).

  Inductive rpnRun (stp : stmtRec)
    : list (list nat) -> list (list nat) -> list pstep -> list (list nat) -> list (list nat) -> Prop :=
  | rr_nil : forall vals stk, rpnRun stp vals stk [] vals stk
  | rr_cons : forall vals stk x l e stk1 vals2 stk2,
      rpnStep stp vals stk x e stk1 ->
      rpnRun stp (vals ++ [e]) stk1 l vals2 stk2 ->
      rpnRun stp vals stk (x :: l) vals2 stk2.

  (* a valid proof of stp *)
  Definition validProof (stp : stmtRec) (proof : list pstep) : Prop :=
    exists vals, rpnRun stp [] [] proof vals [s_math stp].

  (* a statement that follows from the $a statements alone: an $a, or a $p whose
     expression is derivable using only its own (mandatory and optional)
     hypotheses and such statements *)
  Inductive entailed : nat -> Prop :=
  | ent_axiom : forall n st, stmtAt n st -> s_type st = S_a -> entailed n
  | ent_theorem : forall n st (uses : nat -> Prop),
      stmtAt n st -> s_type st = S_p ->
      (forall m sm, uses m -> stmtAt m sm -> isHyp sm ->
         In m (s_reqHyps st) \/ In m (s_optHyps st)) ->
      (forall m sm, uses m -> stmtAt m sm -> isAssertion sm -> entailed m) ->
      provable st uses (s_math st) ->
      entailed n.

  (* every mandatory variable has its own $f hypothesis: a constant followed by
     the variable *)
  Definition floated (st : stmtRec) : Prop :=
    forall t, In t (s_reqVars st) -> exists h sh c,
      In h (s_reqHyps st) /\ stmtAt h sh /\ s_math sh = [c; t] /\ isvar c = false.

End Spec.
