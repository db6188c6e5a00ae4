(* MMSpec.v -- an independent specification of what a Metamath proof proves.
   Written from the Metamath language definition (Metamath book, sec. 4.2), not
   from the C code; contains no model function. *)
From Coq Require Import List Arith.
Import ListNotations.

Section Spec.
  (* symbols are numbers; isvar tells variables from constants *)
  Variable isvar : nat -> bool.

  Definition expr := list nat.

  (* simultaneous substitution of expressions for variables *)
  Definition subst (sigma : nat -> expr) (e : expr) : expr :=
    flat_map (fun t => if isvar t then sigma t else [t]) e.

  (* An assertion's frame: mandatory hypotheses ($f and $e, in order), the
     mandatory distinct-variable pairs, and the assertion itself. *)
  Record frame := mkFrame {
    f_hyps : list expr;
    f_dv : list (nat * nat);
    f_concl : expr }.

  (* sigma respects the pair (x,y): the two substituted expressions share no
     variable, and each pair of variables, one from each, is declared distinct
     (D, in either order) in the context of the statement being proved *)
  Definition dv_ok (D : nat -> nat -> Prop) (sigma : nat -> expr) (x y : nat) : Prop :=
    forall a b, In a (sigma x) -> In b (sigma y) -> isvar a = true -> isvar b = true ->
      a <> b /\ (D a b \/ D b a).

  (* What can be proved from hypotheses H, under the distinct-variable
     declarations D, using the assertions A. *)
  Inductive derivable (H : expr -> Prop) (D : nat -> nat -> Prop) (A : frame -> Prop)
    : expr -> Prop :=
  | der_hyp : forall e, H e -> derivable H D A e
  | der_app : forall f sigma,
      A f ->
      (forall h, In h (f_hyps f) -> derivable H D A (subst sigma h)) ->
      (forall x y, In (x, y) (f_dv f) -> dv_ok D sigma x y) ->
      derivable H D A (subst sigma (f_concl f)).

End Spec.
