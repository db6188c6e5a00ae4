(* SafeSpec.v -- what a user expects of the versions of an output file. *)
From Verif Require Import Base SafeModel.
Open Scope nat_scope.

(* the name of the v-th older version: the file itself for v = 0, then name~1 ... name~9 *)
Definition version (fn : name) (v : nat) : name := match v with 0 => fn | _ => fn ++ [126; 48 + v] end.
(* the contents of the existing versions, newest first *)
Definition versions (d : dir) (fn : name) : list (list nat) :=
  concat (map (fun v => match d (version fn v) with Some f => [f_data f] | None => [] end) (seq 0 10)).
(* the versions can be read and written *)
Definition usable (d : dir) (fn : name) : Prop :=
  forall v f, v <= 9 -> d (version fn v) = Some f -> f_read f = true /\ f_write f = true.
(* of the versions V (newest first), at least the nine newest are in V', in the same order,
   and nothing else *)
Definition survived (V : list (list nat)) (V' : list (list nat)) : Prop := exists k, V' = firstn k V /\ Nat.min 9 (length V) <= k.
(* nothing but the versions of this file has changed *)
Definition onlyVersions (fn : name) (d d' : dir) : Prop := forall n, (forall v, v <= 9 -> n <> version fn v) -> d' n = d n.

(* attempts to save (or delete) the file with versions kept, each finished or stopped at
   any point, one after another *)
Record attempt := mkAttempt { a_mode : mode; a_blocks : list (list nat); a_done : bool }.
Inductive attempts (fn : name) : dir -> list attempt -> dir -> Prop :=
| at_none : forall d, attempts fn d [] d
| at_done : forall d m blocks d1 l d2, d1 = fst (save true d fn m false blocks) -> attempts fn d1 l d2 ->
    attempts fn d (mkAttempt m blocks true :: l) d2
| at_stopped : forall d m blocks d1 l d2, In d1 (states true d fn m false blocks) -> attempts fn d1 l d2 ->
    attempts fn d (mkAttempt m blocks false :: l) d2.
(* what has been written so far, newest first: everything of a finished attempt, at most a
   beginning of a stopped one *)
Inductive adds : list (list nat) -> attempt -> list (list nat) -> Prop :=
| ad_done : forall log blocks, adds log (mkAttempt ModeW blocks true) (concat blocks :: log)
| ad_part : forall log blocks k, adds log (mkAttempt ModeW blocks false) (concat (firstn k blocks) :: log)
| ad_before : forall log blocks, adds log (mkAttempt ModeW blocks false) log
| ad_other : forall log m blocks b, m <> ModeW -> adds log (mkAttempt m blocks b) log.
Inductive logged : list (list nat) -> list attempt -> list (list nat) -> Prop :=
| lg_none : forall log, logged log [] log
| lg_more : forall log a log1 l log2, adds log a log1 -> logged log1 l log2 -> logged log (a :: l) log2.
