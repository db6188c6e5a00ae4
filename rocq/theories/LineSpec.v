(* LineSpec.v -- what breaking a long line may and may not do. *)
From Verif Require Import Base TokModel ParModel VstrModel LineModel.
Open Scope nat_scope.

(* Characters at which a line may be broken: those listed; in the LaTeX style
   (backslash first) only spaces. *)
Definition breakChar (brk : list nat) (c : nat) : Prop :=
  if hdIs 92 brk then c = 32 else In c brk.

(* A line may be broken into a and b, dropping the blanks gap between them:
   - with no break characters: anywhere, dropping nothing;
   - at one space, or at two if there are two, which are dropped;
   - before another break character, which is kept;
   - with '&' first (compressed proofs): after a non-blank when no space follows
     except that of the final " $.", or one character after ") ". *)
Inductive breakAt (brk a gap b : list nat) : Prop :=
| br_any : brk = [] -> gap = [] -> a <> [] -> breakAt brk a gap b
| br_one : breakChar brk 32 \/ hdIs 38 brk = true -> brk <> [] -> gap = [32] -> hd 0 b <> 32 -> breakAt brk a gap b
| br_two : breakChar brk 32 \/ hdIs 38 brk = true -> brk <> [] -> gap = [32; 32] -> breakAt brk a gap b
| br_char : forall c b', breakChar brk c -> c <> 32 -> gap = [] -> b = c :: b' -> a <> [] -> breakAt brk a gap b
| br_compr : forall a' x y, hdIs 38 brk = true -> gap = [] -> a = a' ++ [x; y] -> x <> 32 -> y <> 32 ->
    ~ In 32 (firstn (length b - 3) b) -> b <> [] -> breakAt brk a gap b
| br_paren : forall a' x y, hdIs 38 brk = true -> gap = [] -> a = a' ++ [41; x; y] -> y <> 32 -> b <> [] -> breakAt brk a gap b.

(* what may stand before the part of a line taken from the text t: nothing on the
   first line; on the others the given start, in the tree style with spaces after it.
   Nothing also on a later line where t begins with m characters or more that cannot
   be broken. *)
Definition prefixOk (brk : list nat) (tree : bool) (start : list nat) (m : nat) (first : bool) (t pre : list nat) : Prop :=
  (pre = [] /\ (first = true \/ exists r v, t = r ++ v /\ m <= length r /\ forall c, In c r -> ~ breakChar brk c)) \/
  (first = false /\ exists n, pre = start ++ repeat 32 n /\ (tree = false -> n = 0)).

(* the text t shown as these lines; post = "~" in the tilde style *)
Inductive wrapped (brk : list nat) (tree : bool) (start post : list nat) (m : nat) :
  bool -> list nat -> list (list nat) -> Prop :=
| wr_last f t pre : prefixOk brk tree start m f t pre -> wrapped brk tree start post m f t [pre ++ t]
| wr_more f a gap b pre ls : prefixOk brk tree start m f (a ++ gap ++ b) pre -> breakAt brk a gap b ->
    wrapped brk tree start post m false b ls ->
    wrapped brk tree start post m f (a ++ gap ++ b) ((pre ++ a ++ post) :: ls).

(* the lines of a text *)
Fixpoint joinNl (ls : list (list nat)) : list nat :=
  match ls with
  | [] => []
  | [l] => l
  | l :: r => l ++ 10 :: joinNl r
  end.
Definition linesOf (t : list nat) (ls : list (list nat)) : Prop :=
  Forall (fun l => ~ In 10 l) ls /\ ls <> [] /\ (t = joinNl ls \/ t = joinNl ls ++ [10]).

(* a run of characters that cannot be broken *)
Definition unbreakable (brk : list nat) (t r : list nat) : Prop :=
  (exists u v, t = u ++ r ++ v) /\ forall c, In c r -> ~ breakChar brk c.

(* blank-separated words (newlines and spaces) *)
Definition isBlank (c : nat) : bool := Nat.eqb c 32 || Nat.eqb c 10.
Fixpoint wordsFrom (cur t : list nat) : list (list nat) :=
  match t with
  | [] => match cur with [] => [] | _ => [cur] end
  | c :: r => if isBlank c then (match cur with [] => wordsFrom [] r | _ => cur :: wordsFrom [] r end)
              else wordsFrom (cur ++ [c]) r
  end.
Definition words : list nat -> list (list nat) := wordsFrom [].

(* the non-blank characters, in order *)
Definition ink (t : list nat) : list nat := filter (fun c => negb (isBlank c)) t.

(* the style asked for by the third argument *)
Definition breaksOf (brk : list nat) : list nat :=
  match brk with 1 :: r => 32 :: r | 34 :: r => 32 :: r | _ => brk end.
(* what continuation lines begin with on a screen of width w *)
Definition startOf (w : Z) (start : list nat) : list nat :=
  firstn (Z.to_nat (w - 4)) (if hdIs 126 start then [32] else start).
Definition postOf (start : list nat) : list nat := if hdIs 126 start then [126] else [].
(* columns that are not used *)
Definition reserved (start brk : list nat) : Z := ((if hdIs 126 start then 1 else 0) + (if hdIs 92 brk then 1 else 0))%Z.
(* columns for the text on continuation lines, plus one *)
Definition minRun (w : Z) (start brk : list nat) : nat :=
  Z.to_nat (w - reserved start brk + 1 - Z.of_nat (length (startOf w start))).
(* styles that exclude each other *)
Definition stylesOk (start brk : list nat) : Prop :=
  hdIs 126 start = true -> hdIs 1 brk = false /\ hdIs 92 brk = false.

(* In the HTML style (quote first), spaces in ="..." are protected (code 3). *)
Definition prot (c : nat) : nat := if Nat.eqb c 32 then 3 else c.
Inductive protects : list nat -> list nat -> Prop :=
| pr_nil : protects [] []
| pr_quote v r r' : ~ In 34 v -> protects r r' ->
    protects (61 :: 34 :: v ++ 34 :: r) (61 :: 34 :: map prot v ++ 34 :: r')
| pr_open v : ~ In 34 v -> protects (61 :: 34 :: v) (61 :: 34 :: map prot v)
| pr_char c r r' : ~ (c = 61 /\ hd 0 r = 34) -> protects r r' -> protects (c :: r) (c :: r').

(* a line printed for the text t is no longer than the screen, or t has an unbreakable
   run too long for a continuation line, and the line is no longer than that run needs *)
Definition widthOk (w : Z) (start brk t : list nat) (x : list nat) : Prop :=
  (len x <= w)%Z \/ exists u, unbreakable (breaksOf brk) t u /\
    (w < len u + len (startOf w start) + reserved start brk /\ len x <= len u + len (startOf w start) + reserved start brk)%Z.

(* labels and letters as compressProof writes them *)
Definition okName (n : list nat) : Prop := n <> [] /\ Forall (fun c => labelChar c = true) n.
Definition okLetters (L : list nat) : Prop := L <> [] /\ Forall (fun c => 65 <= c <= 90 \/ c = 63) L.
