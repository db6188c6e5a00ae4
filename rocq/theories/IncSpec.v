(* IncSpec.v -- file inclusion in Metamath sources: commands "$[ name $]" and the comments
   "$( Begin $[ name $] $) ... $( End $[ name $] $)" and "$( Skip $[ name $] $)" by which
   the program records them.  Independent of the scanning code. *)
From Verif Require Import Base TokSpec.
Open Scope nat_scope.

Definition white (l : list nat) : Prop := Forall (fun c => ~ graphic c) l.
Definition whites (l : list nat) : Prop := l <> [] /\ white l.
Definition word (w : list nat) : Prop := w <> [] /\ Forall graphic w.
(* what follows a word *)
Definition ended (r : list nat) : Prop := r = [] \/ exists c r', r = c :: r' /\ ~ graphic c.
Definition begins (p w : list nat) : Prop := exists r, w = p ++ r.
Definition fileName (n : list nat) : Prop := word n /\ ~ In dollar n.

Definition tOpen := [dollar; 40].    (* $( *)
Definition tClose := [dollar; 41].   (* $) *)
Definition tLB := [dollar; 91].      (* $[ *)
Definition tRB := [dollar; 93].      (* $] *)
Definition tBegin := [66; 101; 103; 105; 110].
Definition tSkip := [83; 107; 105; 112].
Definition tEnd := [69; 110; 100].
Definition keys := [tBegin; tSkip; tEnd].

(* a comment and its inside: white space at both ends, no "$)" within *)
Definition body (b : list nat) : Prop :=
  (exists c r, b = c :: r /\ ~ graphic c) /\ (exists c r, b = r ++ [c] /\ ~ graphic c) /\
  (forall x y, b <> x ++ tClose ++ y).
Definition comment (b : list nat) : list nat := tOpen ++ b ++ tClose.

(* the inside "  Begin  $[  name  $]  " (or Skip, End), any white space *)
Definition mark (key n b : list nat) : Prop := exists s1 s2 s3 s4 s5,
  whites s1 /\ whites s2 /\ whites s3 /\ whites s4 /\ whites s5 /\ fileName n /\
  b = s1 ++ key ++ s2 ++ tLB ++ s3 ++ n ++ s4 ++ tRB ++ s5.
(* a comment that has nothing to do with inclusion: not such a mark (even with a strange
   name), and not an unfinished one *)
Definition plain (b : list nat) : Prop := body b /\ forall key, In key keys ->
  (forall s1 s2 s3 n s4 s5, whites s1 -> whites s2 -> whites s3 -> whites s4 -> whites s5 -> word n ->
     b <> s1 ++ key ++ s2 ++ tLB ++ s3 ++ n ++ s4 ++ tRB ++ s5) /\
  (forall s1 s2 s3, whites s1 -> whites s2 -> whites s3 -> b <> s1 ++ key ++ s2 ++ tLB ++ s3).

(* words outside comments *)
Inductive Flat : list nat -> list (list nat) -> Prop :=
| fl_nil : Flat [] []
| fl_white c r ws : ~ graphic c -> Flat r ws -> Flat (c :: r) ws
| fl_word w r ws : word w -> ~ begins tOpen w -> ~ begins tLB w -> ended r -> Flat r ws -> Flat (w ++ r) (w :: ws)
| fl_comment b r ws : body b -> ended r -> Flat r ws -> Flat (comment b ++ r) ws.

(* the names of the End marks in a text *)
Inductive Ends : list nat -> list (list nat) -> Prop :=
| en_nil : Ends [] []
| en_white c r es : ~ graphic c -> Ends r es -> Ends (c :: r) es
| en_word w r es : word w -> ~ begins tOpen w -> ended r -> Ends r es -> Ends (w ++ r) es
| en_plain b r es : plain b -> ended r -> Ends r es -> Ends (comment b ++ r) es
| en_mark key n b r es : key = tBegin \/ key = tSkip -> mark key n b -> body b -> ended r -> Ends r es -> Ends (comment b ++ r) es
| en_end n b r es : mark tEnd n b -> body b -> ended r -> Ends r es -> Ends (comment b ++ r) (n :: es).

(* "$[ name $]" *)
Definition command (n t : list nat) : Prop := exists s1 s2, whites s1 /\ whites s2 /\ fileName n /\ t = tLB ++ s1 ++ n ++ s2 ++ tRB.
(* Begin comment and the white space after it, inside, End comment *)
Definition region (n t inner : list nat) : Prop := exists b1 c b2 es,
  mark tBegin n b1 /\ body b1 /\ ~ graphic c /\ mark tEnd n b2 /\ body b2 /\
  Ends inner es /\ (forall m, In m es -> ~ begins m n) /\
  (inner = [] \/ exists d r, inner = r ++ [d] /\ ~ graphic d) /\
  t = comment b1 ++ c :: inner ++ comment b2.

(* comments written by the program *)
Definition sp := [32].
Definition written (key n : list nat) : list nat := comment (sp ++ key ++ sp ++ tLB ++ sp ++ n ++ sp ++ tRB ++ sp).

Section Expansion.
Variable main : list nat.                              (* the name of the main file *)
Variable file : list nat -> list nat -> Prop.          (* name and text of the other files *)

(* [Expands open seen t out ws seen']: reading t, where seen are the files included before
   and open those being included, gives the text out; the words of t, with included files
   in place of the commands, are ws; afterwards seen' have been included.  A file already
   included is not included again. *)
Inductive Expands : list (list nat) -> list (list nat) -> list nat -> list nat -> list (list nat) -> list (list nat) -> Prop :=
| ex_nil open seen : Expands open seen [] [] [] seen
| ex_white open seen c r o ws seen' : ~ graphic c -> Expands open seen r o ws seen' ->
    Expands open seen (c :: r) (c :: o) ws seen'
| ex_word open seen w r o ws seen' : word w -> ~ begins tOpen w -> ~ begins tLB w -> ended r ->
    Expands open seen r o ws seen' -> Expands open seen (w ++ r) (w ++ o) (w :: ws) seen'
| ex_comment open seen b r o ws seen' : plain b -> ended r ->
    Expands open seen r o ws seen' -> Expands open seen (comment b ++ r) (comment b ++ o) ws seen'
  (* the first inclusion of n *)
| ex_first open seen n cmd t o1 ws1 seen1 r o2 ws2 seen2 :
    command n cmd \/ (exists b, mark tSkip n b /\ body b /\ cmd = comment b) ->
    n <> main -> ~ In n seen -> file n t -> (t = [] \/ exists d x, t = x ++ [d] /\ ~ graphic d) -> ended r ->
    Expands (n :: open) (n :: seen) t o1 ws1 seen1 -> Expands open seen1 r o2 ws2 seen2 ->
    Expands open seen (cmd ++ r) (written tBegin n ++ 10 :: o1 ++ written tEnd n ++ o2) (ws1 ++ ws2) seen2
  (* n included before *)
| ex_again open seen n cmd r o ws seen' :
    command n cmd -> n <> main -> In n seen -> ended r ->
    Expands open seen r o ws seen' -> Expands open seen (cmd ++ r) (written tSkip n ++ o) ws seen'
| ex_skip open seen n b r o ws seen' :
    mark tSkip n b -> body b -> n <> main -> In n seen -> ended r ->
    Expands open seen r o ws seen' -> Expands open seen (comment b ++ r) (comment b ++ o) ws seen'
  (* a region Begin ... End written earlier, with nothing left to expand *)
| ex_region open seen n reg inner ws1 seen1 r o2 ws2 seen2 :
    region n reg inner -> n <> main -> ~ In n seen -> ended r ->
    Expands (n :: open) (n :: seen) inner inner ws1 seen1 -> Expands open seen1 r o2 ws2 seen2 ->
    Expands open seen (reg ++ r) (reg ++ o2) (ws1 ++ ws2) seen2
  (* a region of a file included before is dropped *)
| ex_drop open seen n reg inner r o ws seen' :
    region n reg inner -> n <> main -> In n seen -> ~ In n open -> ended r ->
    Expands open seen r o ws seen' -> Expands open seen (reg ++ r) (written tSkip n ++ o) ws seen'.
End Expansion.
