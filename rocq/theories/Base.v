(* Base.v -- outcome type used by every model file, and small list helpers. *)
From Coq Require Export List Arith ZArith Lia Bool.
Export ListNotations.

(* Result of running a piece of modelled C code.
   - Ok a   : normal completion
   - Bug n  : the code called bug(n) (src/mmdata.c:725-804), the internal
              consistency trap
   - UB     : undefined behaviour in C (out-of-bounds access, read of an
              uninitialised or stale cell, signed overflow where tracked)
   - Fuel   : the loop did not stop within the given fuel *)
Inductive res (A : Type) : Type :=
| Ok : A -> res A
| Bug : nat -> res A
| UB : res A
| Fuel : res A.
Arguments Ok {A} _.
Arguments Bug {A} _.
Arguments UB {A}.
Arguments Fuel {A}.

Definition rbind {A B : Type} (m : res A) (f : A -> res B) : res B :=
  match m with
  | Ok a => f a
  | Bug n => Bug n
  | UB => UB
  | Fuel => Fuel
  end.

Declare Scope res_scope.
Notation "'do' x <- m ; k" := (rbind m (fun x => k))
  (at level 200, x pattern, m at level 100, k at level 200, right associativity) : res_scope.
Open Scope res_scope.

Lemma rbind_ok {A B} (m : res A) (f : A -> res B) b :
  rbind m f = Ok b -> exists a, m = Ok a /\ f a = Ok b.
Proof. destruct m; simpl; intros H; try discriminate; eauto. Qed.

(* lift an array read: None is an out-of-bounds read *)
Definition rget {A : Type} (o : option A) : res A :=
  match o with Some a => Ok a | None => UB end.

Lemma Ok_inj {A} (a b : A) : Ok a = Ok b -> a = b.
Proof. congruence. Qed.
