(* TokSpec.v -- what white space, comments and tokens are (Metamath language),
   independent of the scanning code.  Texts are lists of character codes. *)
From Coq Require Import List Arith.
Import ListNotations.

Definition graphic (c : nat) : Prop := 33 <= c /\ c <= 126.
Definition dollar := 36.
Definition oneCharToken (c : nat) : Prop := In c [58; 63; 40; 41; 61].   (* : ? ( ) = *)

(* the inside of a comment: no "$)"; a '$' protects the character after it *)
Inductive commentText : list nat -> Prop :=
| ct_nil : commentText []
| ct_char c r : c <> dollar -> commentText r -> commentText (c :: r)
| ct_pair d r : d <> 41 -> commentText r -> commentText (dollar :: d :: r).

(* one piece of skipped text, given what follows it *)
Inductive blank : list nat -> list nat -> Prop :=
| bl_white c rest : ~ graphic c -> blank [c] rest
| bl_comment body rest : commentText body ->
    blank (dollar :: 40 :: body ++ [dollar; 41]) rest          (* $( ... $) *)
| bl_line body rest : ~ In 10 body ->
    blank (dollar :: 33 :: body ++ [10]) rest                  (* $! ... newline *)
| bl_open body : commentText body ->
    blank (dollar :: 40 :: body) [].                           (* unterminated comment *)

Inductive blanks : list nat -> list nat -> Prop :=
| bs_nil rest : blanks [] rest
| bs_cons p q rest : blank p (q ++ rest) -> blanks q rest -> blanks (p ++ q) rest.

(* a text at which white space has ended *)
Definition startsInk (s : list nat) : Prop :=
  s = [] \/
  exists c r, s = c :: r /\ graphic c /\
    (c = dollar -> r = [] \/ exists d r', r = d :: r' /\ d <> 40 /\ d <> 33).

(* math tokens and labels: graphic characters other than '$', or "$$" or "$digit" *)
Inductive tokenText : list nat -> Prop :=
| tt_nil : tokenText []
| tt_char c r : graphic c -> c <> dollar -> tokenText r -> tokenText (c :: r)
| tt_dollar r : tokenText r -> tokenText (dollar :: dollar :: r)
| tt_digit d r : 48 <= d /\ d <= 57 -> tokenText r -> tokenText (dollar :: d :: r).
Definition tokenEnds (s : list nat) : Prop :=
  match s with
  | [] => True
  | c :: r =>
      ~ graphic c \/
      c = dollar /\ match r with [] => True | d :: _ => d <> dollar /\ ~ (48 <= d /\ d <= 57) end
  end.

(* proof tokens *)
Inductive plainText : list nat -> Prop :=
| pt_nil : plainText []
| pt_char c r : graphic c -> c <> dollar -> ~ oneCharToken c -> plainText r -> plainText (c :: r)
| pt_dollar r : plainText r -> plainText (dollar :: dollar :: r).
Definition plainEnds (s : list nat) : Prop :=
  match s with
  | [] => True
  | c :: r =>
      ~ graphic c \/ oneCharToken c \/
      c = dollar /\ match r with [] => True | d :: _ => d <> dollar end
  end.
Definition proofToken (t s : list nat) : Prop :=
  (exists c, t = [c] /\ oneCharToken c) \/ (t <> [] /\ plainText t /\ plainEnds s).
(* no proof token starts here *)
Definition noProofToken (s : list nat) : Prop :=
  match s with
  | [] => True
  | c :: r =>
      ~ graphic c \/
      c = dollar /\ match r with [] => True | d :: _ => d <> dollar end
  end.

(* [tokenised tok stop l ts e]: l is the tokens ts, separated by blanks, then e *)
Inductive tokenised (tok : list nat -> list nat -> Prop) (stop : list nat -> Prop)
  : list nat -> list (list nat) -> list nat -> Prop :=
| tk_end e : stop e -> tokenised tok stop e [] e
| tk_tok t w s ts e :
    tok t (w ++ s) -> blanks w s -> startsInk s ->
    tokenised tok stop s ts e ->
    tokenised tok stop (t ++ w ++ s) (t :: ts) e.
Definition mathToken (t s : list nat) : Prop := t <> [] /\ tokenText t /\ tokenEnds s.
