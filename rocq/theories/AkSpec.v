(* AkSpec.v -- what the steps of a complete (sub)proof prove.  Written without reference
   to how the assistant finds out. *)
From Verif Require Import Base MMSpec VerModel VerSpec ParModel SqModel SqSpec SqAttr PfaModel PfaSpec.
From Verif Require UniSpec.
From Verif Require Import UniModel FltModel FltSpec AkModel.
Open Scope nat_scope.

(* the tree u proves the expression x, apart from $d requirements; ok: what is demanded of
   the expressions substituted for variables *)
Inductive shows (db : dbase) (ok : list nat -> Prop) : tree -> list nat -> Prop :=
| sh_hyp : forall h sh, h <> 0 -> stmtAt db h sh -> isHyp sh -> shows db ok (Node (Z.of_nat h) []) (s_math sh)
| sh_use : forall n st kids xs sg, n <> 0 -> stmtAt db n st -> isAssertion st -> floated db st -> Forall2 (shows db ok) kids xs -> unifier db st xs sg ->
    (forall v, In v (s_reqVars st) -> ok (sg v)) -> shows db ok (Node (Z.of_nat n) kids) (subst (db_isvar db) sg (s_math st)).
Definition anything (w : list nat) : Prop := True.

(* a database in which no statement looks strange to the assistant: after the type code,
   each expression is one that it would be willing to substitute for a variable, and no
   variable is written as a bracket *)
Record plainDb (E : fenv) : Prop := {
  pd_expr : forall n st c w, stmtAt (f_db E) n st -> isHyp st \/ isAssertion st -> s_math st = c :: w -> okValue E w;
  pd_names : forall v o c, db_isvar (f_db E) v = true -> In (o, c) UniSpec.brackets -> u_name (f_u E) v <> o /\ u_name (f_u E) v <> c }.
(* no unknown steps *)
Definition finished (u : tree) : Prop := ~ In zUnk (rpn u).

(* the steps of the subproof u, which ends at step k, have been assigned their
   expressions; b: without complaint *)
Record assigned (db : dbase) (ok : list nat -> Prop) (u : tree) (k : nat) (b : bool) (s s' : pip) : Prop := {
  as_pf : pf s' = pf s; as_us : us s' = us s; as_tglen : length (tg s') = length (tg s); as_srlen : length (sr s') = length (sr s);
  as_sr : forall i, i < k + 1 - length (rpn u) \/ k < i -> nth_error (sr s') i = nth_error (sr s) i;
  as_tg : forall i, i < k + 1 - length (rpn u) \/ k <= i -> nth_error (tg s') i = nth_error (tg s) i;
  as_src : b = true -> forall j p v y, nodeAt u j p v -> shows db ok v y -> nth_error (sr s') (k + 1 - length (rpn u) + j) = Some (toZ y);
  as_tgt : b = true -> forall j p v y, nodeAt u j p v -> shows db ok v y -> j + 1 < length (rpn u) -> nth_error (tg s') (k + 1 - length (rpn u) + j) = Some (toZ y) }.
(* all finished subproofs from step e on have been assigned their expressions: the sources of
   their steps, and the targets of all but those that do not belong to a larger one *)
Record doneFrom (db : dbase) (ok : list nat -> Prop) (T : tree) (e : nat) (b : bool) (s s' : pip) : Prop := {
  df_pf : pf s' = pf s; df_us : us s' = us s;
  df_below : forall i, i < e -> nth_error (sr s') i = nth_error (sr s) i /\ nth_error (tg s') i = nth_error (tg s) i;
  df_unk : forall i p v, nodeAt T i p v -> ~ finished v -> nth_error (sr s') i = nth_error (sr s) i /\ nth_error (tg s') i = nth_error (tg s) i;
  df_top : forall i p v, nodeAt T i p v -> finished v -> (forall i' p' v', nodeAt T i' p' v' -> finished v' -> i < i' -> i < i' + 1 - length (rpn v')) -> nth_error (tg s') i = nth_error (tg s) i;
  df_src : b = true -> forall i p v y, e <= i -> nodeAt T i p v -> shows db ok v y -> nth_error (sr s') i = Some (toZ y);
  df_tgt : b = true -> forall i p v y i' p' v', e <= i -> nodeAt T i p v -> shows db ok v y -> nodeAt T i' p' v' -> finished v' -> i' + 1 - length (rpn v') <= i < i' -> nth_error (tg s') i = Some (toZ y) }.
