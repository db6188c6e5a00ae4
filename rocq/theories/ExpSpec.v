(* ExpSpec.v -- what a proof in /EXPLICIT format means.  Written without reference to the
   parser. *)
From Verif Require Import Base MMSpec VerModel VerSpec TokModel ParModel SqSpec CmpSpec.
Open Scope nat_scope.

(* a step  a:b:target=name  : the label of the hypothesis it proves, local labels declared
   for it, and the label of what it uses *)
Record estep := mkE { x_locals : list label; x_target : label; x_name : label }.
Definition etoks (l : list estep) : list label :=
  flat_map (fun s => flat_map (fun a => [a; [chColon]]) (x_locals s) ++ [x_target s; [chEq]; x_name s]) l.

Section Means.
  Variables (env : penv) (n : nat) (st : stmtRec).
  (* what one step proves.  loc: the local labels declared so far; stk: what is proved so far
     and not used yet, with targets, last first; the tree proved; what is left of stk.  The
     hypotheses of an assertion are taken by their targets, in whatever order they come. *)
  Inductive stepMeans (loc stk : list (label * tree)) (s : estep) : tree -> list (label * tree) -> Prop :=
  | sm_unknown : x_name s = [chQ] -> stepMeans loc stk s (Node zUnk []) stk
  | sm_hyp h : In h (s_reqHyps st) \/ In h (s_optHyps st) -> x_name s = e_name env h -> x_locals s = [] ->
      stepMeans loc stk s (Node (Z.of_nat h) []) stk
  | sm_ref t : In (x_name s, t) loc -> x_locals s = [] -> stepMeans loc stk s t stk
  | sm_use j sj ents rest kids : stmtAt (e_db env) j sj -> isAssertion sj -> j < n -> x_name s = e_name env j ->
      stk = rev ents ++ rest -> length ents = length (s_reqHyps sj) ->
      Forall2 (fun h t => In (e_name env h, t) ents) (s_reqHyps sj) kids ->
      stepMeans loc stk s (Node (Z.of_nat j) kids) rest.
  Inductive means : list (label * tree) -> list (label * tree) -> list estep -> list (label * tree) -> Prop :=
  | me_nil loc stk : means loc stk [] stk
  | me_cons loc stk s t rest l res : stepMeans loc stk s t rest -> means (map (fun a => (a, t)) (x_locals s) ++ loc) ((x_target s, t) :: rest) l res ->
      means loc stk (s :: l) res.
  (* the steps are a proof; without the targets it would have the tree t *)
  Definition explicitProof (l : list estep) (t : tree) : Prop := exists target, means [] [] l [(target, t)].

  (* local labels are as the language wants them: different from one another, from the labels
     of the assertions up to this one and from its hypotheses *)
  Record localsOk (l : list estep) : Prop := {
    lk_word : forall s a, In s l -> In a (x_locals s) -> a <> [] /\ Forall (fun c => labelChar c = true) a;
    lk_dist : NoDup (flat_map x_locals l);
    lk_asrt : forall s a m sm, In s l -> In a (x_locals s) -> stmtAt (e_db env) m sm -> isAssertion sm -> m <= n -> a <> e_name env m;
    lk_hyp : forall s a h, In s l -> In a (x_locals s) -> In h (s_reqHyps st) \/ In h (s_optHyps st) -> a <> e_name env h;
    lk_target : forall s, In s l -> x_target s <> [] /\ Forall (fun c => labelChar c = true) (x_target s) }.
End Means.

(* a step is unknown *)
Definition hasUnknown (l : list estep) : Prop := exists s, In s l /\ x_name s = [chQ].

(* the hypotheses of an assertion have different labels *)
Definition hypLabels (env : penv) : Prop := forall j sj, stmtAt (e_db env) j sj -> isAssertion sj -> NoDup (map (e_name env) (s_reqHyps sj)).
