(* ArgSpec.v -- how the step and statement arguments of MM-PA commands are to be read. *)
From Coq Require Import NArith.
From Verif Require Import Base VerModel ParModel SqSpec LabModel LabSpec MatchModel MatchSpec FatlSpec VstrSpec.
Open Scope nat_scope.

(* ---------- steps ---------- *)
Inductive stepArg := AStep (n : nat) | AForw (n : nat) | ABack (n : nat) | AAll.
Definition upper (c : nat) : nat := if (97 <=? c) && (c <=? 122) then c - 32 else c.
(* s is an abbreviation of the word w (capital letters), in either case *)
Definition abbrev (s w : list nat) : Prop := exists r, map upper s ++ r = w.
Definition wFIRST : list nat := [70; 73; 82; 83; 84].
Definition wLAST : list nat := [76; 65; 83; 84].
Definition wALL : list nat := [65; 76; 76].
(* nn, FIRST, LAST, +nn, -nn, ALL.  nn in decimal without leading zeros.  (Nothing at
   all, which can be typed as '', counts as FIRST.) *)
Inductive reads : list nat -> stepArg -> Prop :=
| rd_num : forall s n, isDecimal (N.of_nat n) s -> reads s (AStep n)
| rd_first : forall s, abbrev s wFIRST -> reads s (AForw 0)
| rd_last : forall s, s <> [] -> abbrev s wLAST -> reads s (ABack 0)
| rd_plus : forall s n, isDecimal (N.of_nat n) s -> reads (43 :: s) (AForw n)
| rd_minus : forall s n, isDecimal (N.of_nat n) s -> reads (45 :: s) (ABack n)
| rd_all : forall s, s <> [] -> abbrev s wALL -> reads s AAll.

(* step k (from 0) of the proof with tree T is an unknown step that is essential: on
   the way to it from the root one goes through $e hypotheses only *)
Definition unknownEss (db : dbase) (T : tree) (k : nat) : Prop :=
  exists path kids, nodeAt T k path (Node (-63)%Z kids) /\ Forall (isEssHyp db) path.
(* l lists them in order *)
Definition unknowns (db : dbase) (T : tree) (l : list nat) : Prop :=
  (forall k, In k l <-> unknownEss db T k) /\
  forall i j a b, nth_error l i = Some a -> nth_error l j = Some b -> i < j -> a < b.
(* the step number (from 1) designated; None: there is no such step *)
Definition designates (plen : nat) (l : list nat) (allowed : bool) (a : stepArg) : option nat :=
  match a with
  | AStep n => if (1 <=? n) && (n <=? plen) then Some n else None
  | AForw n => option_map S (nth_error l n)
  | ABack n => option_map S (nth_error (rev l) n)
  | AAll => if allowed then Some 0 else None
  end.

(* ---------- statements ---------- *)
(* which kinds of statements are wanted, and whether hypotheses must belong to the
   statement being proved *)
Record wanted := { w_a : bool; w_p : bool; w_e : bool; w_f : bool; w_own : bool }.
Definition kindWanted (w : wanted) (k : kind) : Prop :=
  match k with K_a => w_a w = true | K_p => w_p w = true | K_e => w_e w = true | K_f => w_f w = true | _ => True end.
(* a name with one of * ? = ~ % # @ , is a list of patterns, otherwise a label *)
Definition isPattern (s : list nat) : Prop := exists c, In c s /\ In c [42; 63; 61; 126; 37; 35; 64; 44].
Definition named (fuel : nat) (env : menv) (name lab : list nat) : Prop :=
  (isPattern name /\ exists f, In f (fields name) /\ matches fuel env lab f 42 63 = Ok true) \/
  (~ isPattern name /\ name = lab).
(* statement k is of a wanted kind, is so named, and is available as a hypothesis of own *)
Definition fits (fuel : nat) (env : menv) (hyps : nat -> list nat) (w : wanted) (name : list nat) (own k : nat) : Prop :=
  exists s, lnth (e_stmts env) k = Some s /\ l_label s <> [] /\ kindWanted w (l_kind s) /\
    named fuel env name (l_label s) /\
    (w_own w = true -> l_kind s = K_e \/ l_kind s = K_f -> In k (hyps own)).
(* the statements from start on and before maxS that fit; own: maxS itself *)
Definition candidate (fuel : nat) (env : menv) (hyps : nat -> list nat) (w : wanted) (name : list nat) (start maxS k : nat) : Prop :=
  start <= k < maxS /\ k <= length (e_stmts env) /\ fits fuel env hyps w name maxS k.
(* statement k has label l *)
Definition labelled (env : menv) (k : nat) (l : list nat) : Prop := exists s, lnth (e_stmts env) k = Some s /\ l_label s = l.
(* labels have the characters of labels; the fuel is enough for the patterns *)
Definition labels_ok (env : menv) (fuel : nat) (name : list nat) : Prop :=
  forall s, In s (e_stmts env) -> isStr (l_label s) /\ ~ In 42 (l_label s) /\
    (length name + length (l_label s)) * (length name + 2) + length name + 1 < fuel.
