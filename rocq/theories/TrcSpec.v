(* TrcSpec.v -- what tracing should compute: the dependency relation between
   statements and its transitive closure. *)
From Coq Require Import Relations.
From Verif Require Import Base MMSpec VerModel VerSpec TokModel ParModel ParSpec SqModel SqSpec TrcModel.
Open Scope nat_scope.

(* A readable proof (status 0 or 1) of theorem n: the steps parseProof reports.
   A proof with errors counts as the single unknown step. *)
Definition readable (e : tenv) (n : nat) : Prop := pr_k (t_parse e n) <= 1.
Definition theorem (e : tenv) (n : nat) : Prop :=
  exists st, stmtAt (t_db e) n st /\ s_type st = S_p.
Definition assertion (e : tenv) (n : nat) : Prop :=
  exists st, stmtAt (t_db e) n st /\ isAssertion st.

(* the proof of n refers to statement m *)
Definition uses (e : tenv) (n m : nat) : Prop :=
  theorem e n /\ readable e n /\ In (Stm m) (pr_proof (t_parse e n)).

(* n depends on m, directly or through other theorems *)
Definition dependsOn (e : tenv) : nat -> nat -> Prop := clos_trans nat (uses e).

(* the same through steps that prove essential hypotheses ($e) only, all the way
   from the root of the proof *)
Definition usesEss (e : tenv) (n m : nat) : Prop :=
  theorem e n /\ readable e n /\
  exists T k path u, map encStep (pr_proof (t_parse e n)) = rpn T /\ wfTree (t_db e) T /\
    nodeAt T k path u /\ Forall (isEssHyp (t_db e)) path /\ rootOf u = Z.of_nat m.
(* edges followed by SHOW TRACE_BACK [/ESSENTIAL]: to $a and $p statements *)
Definition traceEdge (ess : bool) (e : tenv) (n m : nat) : Prop :=
  (if ess then usesEss e n m else uses e n m) /\ assertion e m.
Definition tracesTo (ess : bool) (e : tenv) : nat -> nat -> Prop := clos_trans nat (traceEdge ess e).

(* the proof of n has an unknown step (resp. an unknown essential step) *)
Definition unknownIn (ess : bool) (e : tenv) (n : nat) : Prop :=
  theorem e n /\
  (~ readable e n \/
   (if ess then exists T k path u, map encStep (pr_proof (t_parse e n)) = rpn T /\ wfTree (t_db e) T /\
                  nodeAt T k path u /\ Forall (isEssHyp (t_db e)) path /\ rootOf u = zUnk
    else In Unk (pr_proof (t_parse e n)))).

(* What READ and the parser guarantee (C09): readable proofs are good, and
   hypotheses of a theorem come before it. *)
Record wf_tenv (e : tenv) : Prop := {
  wt_db : wf_db (t_db e);
  wt_good : forall n st, stmtAt (t_db e) n st -> s_type st = S_p -> readable e n ->
    goodProof (t_db e) n st (pr_proof (t_parse e n));
  wt_hyps : forall n st h, stmtAt (t_db e) n st -> s_type st = S_p ->
    In h (s_reqHyps st) \/ In h (s_optHyps st) -> h < n;
  wt_zero : forall st, stmtAt (t_db e) 0 st -> s_type st = S_other }.

Definition marked (fl : list nat) (n : nat) : Prop := nth_error fl n = Some 89.   (* 'Y' *)

(* Text level: the tables and texts parseProof worked on. *)
Definition fromTexts (env : penv) (e : tenv) : Prop :=
  wf_env env /\ t_db e = e_db env /\ (forall n, t_name e n = e_name env n) /\
  (forall n, assertion e n -> e_name env n <> []) /\
  parsesTo env (t_text e) (t_parse e).
(* No proof contains '$', so in particular no comment; each is followed by "$.";
   a proof with '(' also has ')'. *)
Definition plainTexts (e : tenv) : Prop :=
  forall n, theorem e n -> ~ In 36 (fst (t_text e n)) /\
    (In 40 (fst (t_text e n)) -> In 41 (fst (t_text e n))) /\
    exists r, snd (t_text e n) = 36 :: 46 :: r.

(* what SHOW TRACE_BACK / TO keeps: statements that match, or that lead to a
   matching $a or $p *)
Definition wanted (e : tenv) (to : option (nat -> bool)) (m : nat) : Prop :=
  match to with
  | None => True
  | Some hit => hit m = true \/ exists t, assertion e t /\ hit t = true /\ dependsOn e m t
  end.
