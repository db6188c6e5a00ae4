(* UndoSpec.v -- a linear history with at most lim steps back. *)
From Verif Require Import Base UndoModel.

Section Hist.
  Variables P I : Type.
  Variable noInfo : I.
  (* past: earlier proofs, most recent first, each with the description of the command
     that replaced it; future: undone proofs, next first, each with the description of
     the command that produced it *)
  Record hist := mkHist {
    h_past : list (P * I); h_cur : P; h_future : list (P * I);
    h_lim : nat; h_dropped : bool }.
  Definition edit (p : P) (i : I) (h : hist) : hist :=
    mkHist (firstn (h_lim h) ((h_cur h, i) :: h_past h)) p [] (h_lim h)
           (h_dropped h || (h_lim h <=? length (h_past h))%nat).
  Definition undo (h : hist) : hist * answer I :=
    match h_past h with
    | [] => (h, if h_dropped h then ExceededMax I else NothingToUndo I)
    | (p, i) :: r => (mkHist r p ((h_cur h, i) :: h_future h) (h_lim h) (h_dropped h), Undid I i)
    end.
  Definition redo (h : hist) : hist * answer I :=
    match h_future h with
    | [] => (h, NothingToRedo I)
    | (p, i) :: r => (mkHist ((h_cur h, i) :: h_past h) p r (h_lim h) (h_dropped h), Redid I i)
    end.
  Definition setLim (n : nat) (h : hist) : hist :=
    if Nat.eqb n (h_lim h) then h else mkHist [] (h_cur h) [] n false.
  Definition hstep (h : hist) (c : cmd P I) : hist * answer I :=
    match c with
    | Edit _ _ p i => (edit p i h, Silent I)
    | Undo _ _ => undo h
    | Redo _ _ => redo h
    | SetUndo _ _ n => (setLim (Z.to_nat n) h, Silent I)
    | SaveNew _ _ | SaveOther _ _ => (h, Silent I)
    end.
  Fixpoint hrun (h : hist) (cs : list (cmd P I)) : hist * list (answer I) :=
    match cs with
    | [] => (h, [])
    | c :: r => let (h1, a) := hstep h c in let (h2, l) := hrun h1 r in (h2, a :: l)
    end.
  Definition hstart (p : P) (lim : nat) : hist := mkHist [] p [] lim false.
End Hist.
