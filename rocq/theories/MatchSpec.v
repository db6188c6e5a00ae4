(* MatchSpec.v -- glob semantics *)
From Verif Require Import Base LabModel LabSpec VstrSpec MatchModel.
Open Scope nat_scope.

(* test is pat with every w replaced by some string and every o by some character *)
Inductive glob (w o : nat) : list nat -> list nat -> Prop :=
| glob_nil : glob w o [] []
| glob_star : forall x p t, glob w o p t -> glob w o (w :: p) (x ++ t)
| glob_one : forall c p t, glob w o p t -> glob w o (o :: p) (c :: t)
| glob_char : forall c p t, c <> w -> c <> o -> glob w o p t -> glob w o (c :: p) (c :: t).

(* the label tables of a database that was read without label errors *)
Definition env_ok (env : menv) : Prop :=
  exists sorted, qsorted (e_stmts env) sorted /\ labelled_ok (e_stmts env) /\
    exists all, labelTables (e_stmts env) sorted = Ok ([], all, e_keys env).
(* lab is the label of assertion number k *)
Definition asrtNamed (env : menv) (lab : list nat) (k : nat) : Prop :=
  hasLabel (e_stmts env) k lab /\ isAsrt (e_stmts env) k.
(* decimal value of a digit string *)
Fixpoint decimal (s : list nat) (acc : nat) : option nat :=
  match s with
  | [] => Some acc
  | c :: r => if (48 <=? c) && (c <=? 57) then decimal r (10 * acc + (c - 48)) else None
  end.
(* patterns with a meaning of their own when the wildcard is '*': ~ # @ = % *)
Definition special (pat : list nat) : Prop :=
  In 126 pat \/ (exists r, pat = 35 :: r) \/ (exists r, pat = 64 :: r) \/ pat = [61] \/ pat = [37].
