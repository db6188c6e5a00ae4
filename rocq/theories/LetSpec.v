(* LetSpec.v -- what a text typed by the user means, independent of parseMathTokens.
   toks: the declared symbols; endOf t: the last statement in which symbol t is in
   force; scopeOf t: the nesting depth of its declaration; n: the statement the text
   is typed for, cur: its nesting depth. *)
From Verif Require Import Base StmModel TokSpec BigSpec.
Open Scope nat_scope.

Section Spec.
  Variable toks : list mtok.
  Variable endOf : nat -> nat.
  Variable scopeOf : nat -> Z.
  Variable n : nat.
  Variable cur : Z.

  (* some symbol has this name *)
  Definition declared (x : list nat) : Prop := exists k, In k toks /\ mt_name k = x.
  (* symbol t has this name and is in force at statement n *)
  Definition inForce (x : list nat) (t : nat) : Prop :=
    exists k, nth_error toks t = Some k /\ mt_name k = x /\ mt_stmt k <= n <= endOf t.
  (* ... and, unless declared at the depth of the statement itself, no other is deeper *)
  Definition meansSym (x : list nat) (t : nat) : Prop :=
    inForce x t /\ (scopeOf t = cur \/ forall u, inForce x u -> (scopeOf u <= scopeOf t)%Z).

  (* x is the longest beginning of the text w that is a name *)
  Definition longest (x w : list nat) : Prop :=
    x <> [] /\ declared x /\ (exists r, w = x ++ r) /\
    forall y r, w = y ++ r -> declared y -> length y <= length x.
  Definition noName (w : list nat) : Prop := forall y r, w = y ++ r -> declared y -> y = [].
  Definition notDigit (r : list nat) : Prop := match r with [] => True | c :: _ => ~ isDigit c end.

  (* the symbols of a text without blanks, from the left; None is an error *)
  Inductive splits : list nat -> list (option nat) -> Prop :=
  | sp_nil : splits [] []
  | sp_sym x r t l : longest x (x ++ r) -> meansSym x t -> splits r l -> splits (x ++ r) (Some t :: l)
  | sp_inactive x r l : longest x (x ++ r) -> (forall t, ~ inForce x t) -> splits r l ->
      splits (x ++ r) (None :: l)
  | sp_dummy ds r l : noName (dollar :: ds ++ r) -> ds <> [] -> digits ds -> notDigit r -> splits r l ->
      splits (dollar :: ds ++ r) (Some (length toks + Z.to_nat (value ds)) :: l)
  | sp_bad w : w <> [] -> noName w -> (forall d r, w = dollar :: d :: r -> ~ isDigit d) ->
      splits w [None].

  Fixpoint understood (l : list (option nat)) : list nat :=
    match l with [] => [] | Some t :: r => t :: understood r | None :: r => understood r end.
  Fixpoint errors (l : list (option nat)) : nat :=
    match l with [] => 0 | Some _ :: r => errors r | None :: r => S (errors r) end.

  (* the text is blanks, then tokens separated by blanks, up to e where no token
     starts; ol: their symbols *)
  Definition reading (text : list nat) (ol : list (option nat)) (e : list nat) : Prop :=
    exists w s ws ols, text = w ++ s /\ blanks w s /\ startsInk s /\
      tokenised mathToken tokenEnds s ws e /\ startsInk e /\
      Forall2 splits ws ols /\ ol = concat ols.
End Spec.

(* a number too large for the program *)
Definition hugeIn (text : list nat) : Prop :=
  exists a ds b, text = a ++ dollar :: ds ++ b /\ digits ds /\ (2 ^ 53 <= value ds)%Z.
(* the text ends within a comment, in '$'; or has "$!" without the end of the line *)
Definition brokenComment (text : list nat) : Prop :=
  exists a body, text = a ++ dollar :: 40 :: body ++ [dollar].
Definition openLine (text : list nat) : Prop :=
  exists a b, text = a ++ dollar :: 33 :: b /\ ~ In 10 b.
