(* UniSpec.v -- what unification is, without reference to how it is searched for.
   Expressions are lists of math tokens (numbers); tokens up to mt are fixed (constants,
   the variables of the database, and mt itself, the separator); tokens above mt are
   unknowns.  A substitution gives every token an expression. *)
From Coq Require Import List Arith.
Import ListNotations.

Definition subst := nat -> list nat.
Definition app_subst (f : subst) (l : list nat) : list nat := flat_map f l.

(* f makes A and B the same expression U *)
Record unifier (mt minLen : nat) (A B U : list nat) (f : subst) : Prop := {
  un_A : app_subst f A = U;
  un_B : app_subst f B = U;
  (* only unknowns are replaced *)
  un_fixed : forall t, t <= mt -> f t = [t];
  (* what has been replaced is gone: no unknown occurs in what it is given *)
  un_idem : forall t, app_subst f (f t) = f t;
  un_gone : forall t, f t <> [t] -> ~ In t U /\ forall u, ~ In t (f u);
  (* values are long enough and do not reach over a separator *)
  un_long : forall t, minLen <= length (f t);
  un_sep : forall t, In mt (f t) -> t = mt;
  (* only unknowns of the two schemes are replaced, by tokens of the two schemes *)
  un_dom : forall t, f t <> [t] -> In t (A ++ B);
  un_old : forall t u, f t <> [t] -> In u (f t) -> In u (A ++ B) }.

(* f and g are equally general: they have the same instances *)
Definition instance (h f : subst) : Prop := forall t, app_subst h (f t) = h t.
Definition equally_general (f g : subst) : Prop := forall h, instance h f <-> instance h g.

(* values the proof assistant is willing to try.  names: the characters of a token;
   con: the constants; axioms: the expressions of the $a statements *)
Definition count (f : nat -> bool) (l : list nat) : nat := length (filter f l).
Definition balanced (op cl : nat -> bool) (w : list nat) : Prop :=
  (forall k, count cl (firstn k w) <= count op (firstn k w)) /\ count cl w = count op w.
Definition named (names : nat -> list nat) (s : list nat) (t : nat) : bool := if list_eq_dec Nat.eq_dec (names t) s then true else false.
(* ( )  { }  [ ]  <. >.  [_ ]_ *)
Definition brackets : list (list nat * list nat) :=
  [([40], [41]); ([123], [125]); ([91], [93]); ([60; 46], [62; 46]); ([91; 95], [93; 95])].
Definition allBalanced (names : nat -> list nat) (w : list nat) : Prop :=
  forall o c, In (o, c) brackets -> balanced (named names o) (named names c) w.
Record plausible (minLen : nat) (names : nat -> list nat) (con : nat -> bool) (axioms : list (list nat)) (w : list nat) : Prop := {
  (* brackets match, if they do in all axioms *)
  pl_brackets : (forall a, In a axioms -> allBalanced names a) -> allBalanced names w;
  (* a constant at either end stands at that end of some axiom (after the type code) *)
  pl_first : 1 <= minLen -> forall c r, w = c :: r -> con c = true -> exists t q, In (t :: c :: q) axioms;
  pl_one : 1 <= minLen -> forall c, w = [c] -> con c = true -> exists t, In [t; c] axioms;
  pl_last : 1 <= minLen -> forall r c, w = r ++ [c] -> con c = true -> exists t q, In (t :: q ++ [c]) axioms }.

(* f turns the pattern A into B, with values the assistant is willing to try *)
Record matching (mt minLen : nat) (ok : list nat -> Prop) (A B : list nat) (f : subst) : Prop := {
  ma_eq : app_subst f A = B;
  ma_fixed : forall t, t <= mt -> f t = [t];
  ma_val : forall x, In x A -> mt < x -> minLen <= length (f x) /\ ~ In mt (f x) /\ ok (f x) }.
