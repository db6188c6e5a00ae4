(* ReadSpec.v -- what it means that a source text proves its theorems, written over the
   text and the names of the symbols (Metamath book, ch. 4).  No function of the program
   is used: [sinp] (kind and symbol names of a statement) and [kind] are only data. *)
From Verif Require Import Base LabModel StmModel TokSpec SrcSpec StmSpec.
Open Scope nat_scope.

(* the words of a section, comments skipped *)
Inductive words : list nat -> list name -> Prop :=
| w_nil : words [] []
| w_white c r xs : ~ graphic c -> words r xs -> words (c :: r) xs
| w_comment body r xs : commentText body -> words r xs ->
    words (dollar :: 40 :: body ++ dollar :: 41 :: r) xs
| w_word t r xs : t <> [] -> tokenText t -> tokenEnds r -> words r xs -> words (t ++ r) (t :: xs).

(* a statement of the text and its kind and symbols *)
Definition readsAs (i : item) (s : sinp) : Prop :=
  si_kind s = it_kind i /\ words (it_math i) (si_toks s).

(* ---- labels ---- *)
Definition labelled (k : kind) : Prop := k = K_e \/ k = K_f \/ k = K_a \/ k = K_p.
Definition labelSym (c : nat) : Prop :=      (* a letter, a digit, - _ or . *)
  (48 <= c /\ c <= 57) \/ (65 <= c /\ c <= 90) \/ (97 <= c /\ c <= 122) \/ c = 45 \/ c = 95 \/ c = 46.
(* hypotheses and assertions have one label, other statements have none; no label occurs
   twice or is also a symbol; nothing follows the last statement *)
Record goodLabels (items : list item) (tail : list nat) (sts : list sinp) : Prop := {
  gl_one : forall i, In i items -> labelled (it_kind i) -> exists x, words (it_lab i) [x] /\ Forall labelSym x;
  gl_none : forall i, In i items -> ~ labelled (it_kind i) -> words (it_lab i) [];
  gl_diff : forall n m i j x, nth_error items n = Some i -> nth_error items m = Some j ->
    words (it_lab i) [x] -> words (it_lab j) [x] -> n = m;
  gl_sym : forall i x h v, In i items -> words (it_lab i) [x] -> ~ declares sts h x v;
  gl_tail : words tail [] }.

Section Truth.
  Variable sts : list sinp.

  Definition isVar (x : name) : Prop := exists h, declares sts h x true.

  (* e' is e with sg x put for each variable x *)
  Inductive instance (sg : name -> list name) : list name -> list name -> Prop :=
  | in_nil : instance sg [] []
  | in_var x r r' : isVar x -> instance sg r r' -> instance sg (x :: r) (sg x ++ r')
  | in_con x r r' : ~ isVar x -> instance sg r r' -> instance sg (x :: r) (x :: r').

  (* [follows n e]: e can be derived at statement n, from the hypotheses in force there
     and from assertions before n that are axioms or themselves theorems; a substitution
     must respect the $d's: any two variables, one from each side, have to be distinct and
     declared distinct at n.
     [theorem n]: the $p statement n follows from the axioms. *)
  Inductive follows : nat -> list name -> Prop :=
  | fo_hyp n h e :
      kindAt sts h K_e \/ kindAt sts h K_f -> inScope sts h n -> toksAt sts h e ->
      follows n e
  | fo_app n a sg e e' :
      a < n -> kindAt sts a K_a \/ theorem a ->
      (forall h, mandHyp sts a h -> exists m m', toksAt sts h m /\ instance sg m m' /\ follows n m') ->
      (forall x y, mandVar sts a x -> mandVar sts a y -> disjAt sts a x y ->
         forall u v, In u (sg x) -> In v (sg y) -> isVar u -> isVar v -> disjAt sts n u v) ->
      toksAt sts a e -> instance sg e e' ->
      follows n e'
  with theorem : nat -> Prop :=
  | th_intro n e : kindAt sts n K_p -> toksAt sts n e -> follows n e -> theorem n.
End Truth.
