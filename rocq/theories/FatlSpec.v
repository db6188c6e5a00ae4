(* FatlSpec.v -- the text a format and its arguments stand for. *)
From Verif Require Import Base FatlModel.
Open Scope nat_scope.

(* l is the decimal representation of n *)
Definition isDecimal (n : N) (l : list nat) : Prop :=
  l <> [] /\ Forall (fun c => 48 <= c <= 57) l /\
  fold_left (fun v c => (10 * v + N.of_nat (c - 48))%N) l 0%N = n /\
  (hd 0 l = 48 -> l = [48]).
Definition str (l : list nat) : Prop := Forall (fun c => c <> 0) l.

(* expands bits f a t: format f with arguments a (possibly more than needed) gives t *)
Inductive expands (bits : nat) : list nat -> list arg -> list nat -> Prop :=
| ex_end : forall a, expands bits [] a []
| ex_char : forall c r a t, c <> 37 -> c <> 0 -> expands bits r a t -> expands bits (c :: r) a (c :: t)
| ex_str : forall s r a t, str s -> expands bits r a t -> expands bits (37 :: 115 :: r) (AStr (Some s) :: a) (s ++ t)
| ex_null : forall r a t, expands bits r a t -> expands bits (37 :: 115 :: r) (AStr None :: a) t
| ex_uns : forall n d r a t, (n < 2 ^ N.of_nat bits)%N -> isDecimal n d -> expands bits r a t ->
    expands bits (37 :: 117 :: r) (AUns n :: a) (d ++ t)
| ex_pct : forall r a t, expands bits r a t -> expands bits (37 :: 37 :: r) a (37 :: t)
| ex_stray : forall r a t, ~ In (hd 0 r) [115; 117; 37] -> expands bits r a t -> expands bits (37 :: r) a (37 :: t).

(* a message m in a buffer of size maxMsg: cut and marked if it does not fit *)
Definition shownText (maxMsg : nat) (ell m : list nat) : list nat :=
  if length m <? maxMsg then m else firstn maxMsg m ++ ell.
(* with a line feed at the end, unless empty *)
Definition ended (m : list nat) : list nat :=
  match m with [] => [] | _ => if last m 0 =? 10 then m else m ++ [10] end.
(* expansions of a list of pushes *)
Fixpoint expandsAll (bits : nat) (l : list (option (list nat) * list arg)) (ts : list (list nat)) : Prop :=
  match l, ts with
  | [], [] => True
  | (None, _) :: r, t :: ts => t = [] /\ expandsAll bits r ts
  | (Some f, a) :: r, t :: ts => expands bits f a t /\ expandsAll bits r ts
  | _, _ => False
  end.
(* does each push report that everything so far fits? *)
Fixpoint flags (maxMsg n : nat) (ts : list (list nat)) : list bool :=
  match ts with [] => [] | t :: r => (n + length t <? maxMsg) :: flags maxMsg (n + length t) r end.

(* the arguments (true: unsigned) that a format asks for *)
Fixpoint asks (f : list nat) : list bool :=
  match f with
  | 37 :: 115 :: r => false :: asks r
  | 37 :: 117 :: r => true :: asks r
  | 37 :: 37 :: r => asks r
  | _ :: r => asks r
  | [] => []
  end.
Definition goodArg (bits : nat) (k : bool) (a : arg) : Prop :=
  match k, a with
  | false, AStr (Some s) => str s
  | false, AStr None => True
  | true, AUns n => (n < 2 ^ N.of_nat bits)%N
  | _, _ => False
  end.
(* where a fatal error happened: file name and line, as far as they are known *)
Definition location (file : option (list nat)) (line : N) (dec : list nat) : list nat :=
  match file with
  | Some (c :: f) => if (0 <? line)%N then [65; 116; 32] ++ (c :: f) ++ [58] ++ dec ++ [10]
                     else [73; 110; 32; 102; 105; 108; 101; 32] ++ (c :: f) ++ [58; 10]
  | _ => if (0 <? line)%N then [73; 110; 32; 108; 105; 110; 101; 32] ++ dec ++ [58; 10] else []
  end.
