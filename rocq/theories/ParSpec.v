(* ParSpec.v -- what the proof-parser properties say. *)
From Verif Require Import Base MMSpec VerModel VerSpec TokModel ParModel.
Open Scope nat_scope.

(* The tables the parser looks labels up in, as left by READ:
   - bsearch returns a matching entry, or nothing if there is none;
   - the label table holds exactly the labels of $a and $p statements;
   - hypotheses listed for a $p are $e or $f statements (never number 0). *)
Record wf_env (env : penv) : Prop := {
  we_some : forall tab l j, e_find env tab l = Some j -> In (l, j) tab;
  we_none : forall tab l, e_find env tab l = None -> forall j, ~ In (l, j) tab;
  we_keys : forall l j, In (l, j) (e_keys env) ->
    exists m st, 0 < m /\ j = Z.of_nat m /\ stmtAt (e_db env) m st /\ isAssertion st /\ e_name env m = l;
  we_hyps : forall n st h, stmtAt (e_db env) n st -> s_type st = S_p ->
    In h (s_reqHyps st) \/ In h (s_optHyps st) ->
    0 < h /\ exists sh, stmtAt (e_db env) h sh /\ isHyp sh }.

(* what is promised about a proof string handed on by the parser for statement n *)
Record goodProof (db : dbase) (n : nat) (st : stmtRec) (proof : list pstep) : Prop := {
  gp_wf : wf_proof db proof;
  (* local references point to an earlier step that is an assertion or '?',
     never to another reference *)
  gp_loc : forall k i, nth_error proof k = Some (Loc i) -> i < k /\
    (nth_error proof i = Some Unk \/
     exists m sm, nth_error proof i = Some (Stm m) /\ stmtAt db m sm /\ isAssertion sm);
  (* every statement referenced is an earlier assertion or one of the
     statement's own hypotheses *)
  gp_ref : forall m, In (Stm m) proof -> exists sm, stmtAt db m sm /\
    ((isAssertion sm /\ m < n) \/
     (isHyp sm /\ (In m (s_reqHyps st) \/ In m (s_optHyps st)))) }.

(* parse n is what parseProof leaves behind for each $p statement n, when its
   proof section is fst (texts n), followed in the file by snd (texts n); none of
   the proofs is in /EXPLICIT format.  (prev: g_wrkProofMaxSize before the call.) *)
Definition parsesTo (env : penv) (texts : nat -> list nat * list nat) (parse : nat -> parsed) : Prop :=
  forall n st, stmtAt (e_db env) n st -> s_type st = S_p ->
  exists fuel prev k zs ec,
    parseText fuel env n (wrkMax prev st (fst (texts n))) (fst (texts n)) (snd (texts n))
      = Ok (Some (k, zs, ec)) /\
    pr_k (parse n) = k /\ pr_sev (parse n) = k /\ pr_err (parse n) = ec /\
    (k <= 1 -> decodes zs (pr_proof (parse n))).
