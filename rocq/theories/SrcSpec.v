(* SrcSpec.v -- what a source text is: statements with their sections, separated
   by keywords.  Independent of the scanning code. *)
From Verif Require Import Base LabModel TokSpec.
Open Scope nat_scope.

(* a statement as text: everything before its keyword, between keyword and "$."
   (or "$="), and between "$=" and "$." *)
Record item := mkItem { it_kind : kind; it_lab : list nat; it_math : list nat; it_proof : list nat }.
Definition letter (k : kind) : nat :=       (* c v d { } e f a p *)
  match k with K_c => 99 | K_v => 118 | K_d => 100 | K_lb => 123 | K_rb => 125
             | K_e => 101 | K_f => 102 | K_a => 97 | K_p => 112 end.
Definition itemText (i : item) : list nat :=
  it_lab i ++ [dollar; letter (it_kind i)] ++
  match it_kind i with
  | K_lb | K_rb => []
  | K_p => it_math i ++ [dollar; 61] ++ it_proof i ++ [dollar; 46]     (* $= ... $. *)
  | _ => it_math i ++ [dollar; 46]
  end.
Definition sourceText (items : list item) (tail : list nat) : list nat :=
  flat_map itemText items ++ tail.
(* absent sections are empty *)
Definition itemOK (i : item) : Prop :=
  match it_kind i with
  | K_lb | K_rb => it_math i = [] /\ it_proof i = []
  | K_p => True
  | _ => it_proof i = []
  end.

(* text without keywords: no '$' except as "$$", or in comments *)
Inductive quiet : list nat -> Prop :=
| q_nil : quiet []
| q_char c r : c <> dollar -> quiet r -> quiet (c :: r)
| q_dollar r : quiet r -> quiet (dollar :: dollar :: r)
| q_comment body r : commentText body -> quiet r ->
    quiet (dollar :: 40 :: body ++ dollar :: 41 :: r).
Definition quietItem (i : item) : Prop :=
  quiet (it_lab i) /\ quiet (it_math i) /\ quiet (it_proof i).

(* no two adjacent '$' *)
Fixpoint noDouble (l : list nat) : Prop :=
  match l with
  | c :: r => (match r with d :: _ => ~ (c = dollar /\ d = dollar) | [] => True end) /\ noDouble r
  | [] => True
  end.
(* begins and ends with a white space character *)
Definition spaced (l : list nat) : Prop :=
  (exists c r, l = c :: r /\ ~ graphic c) /\ (exists c r, l = r ++ [c] /\ ~ graphic c).

(* line ends: CR LF and lone CR both mean LF *)
Inductive lines : list nat -> list nat -> Prop :=
| li_nil : lines [] []
| li_crlf r t : lines r t -> lines (13 :: 10 :: r) (10 :: t)
| li_cr r t : nth_error r 0 <> Some 10 -> lines r t -> lines (13 :: r) (10 :: t)
| li_char c r t : c <> 13 -> lines r t -> lines (c :: r) (c :: t).

(* a statement as the language asks for it: keywords stand between white space *)
Definition endBlank (l : list nat) : Prop := l = [] \/ exists c r, l = r ++ [c] /\ ~ graphic c.
Definition neat (i : item) : Prop :=
  itemOK i /\ quietItem i /\ endBlank (it_lab i) /\
  (it_kind i <> K_lb -> it_kind i <> K_rb -> spaced (it_math i)) /\
  (it_kind i = K_p -> spaced (it_proof i)).
