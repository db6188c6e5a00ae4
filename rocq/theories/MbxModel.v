(* MbxModel.v -- mathboxes: src/mmwtex.c:5556-5665, and the notice of ASSIGN,
   src/metamath.c:4494-4505.  No proofs here.
   A database here is the list of the label sections (the text before the label) of
   statements 1, 2, ...; the result of lookupLabel("mathbox") (C29) is an argument. *)
From Verif Require Import Base VstrModel.
Open Scope nat_scope.

(* MB_TAG: "Mathbox for " *)
Definition TAG : list nat := [77; 97; 116; 104; 98; 111; 120; 32; 102; 111; 114; 32].
(* 5634-5641: the position of the last tag, 0 if none *)
Fixpoint lastTag (fuel : nat) (comment : list nat) (p : nat) : res nat :=
  match fuel with
  | 0 => Fuel
  | S f =>
      let q := instr (Z.of_nat p + 1) comment TAG in
      if q =? 0 then Ok p else lastTag f comment q
  end.
(* 5630-5653: n statements are left, stmt is the next; the starts and users *)
Fixpoint locLoop (fuel : nat) (sects : list (list nat)) (n stmt : nat) : res (list (nat * list nat)) :=
  match n with
  | 0 => Ok []
  | S n' =>
      do comment <- rget (nth_error sects (stmt - 1));
      do p <- lastTag fuel comment 0;
      if p =? 0 then locLoop fuel sects n' (S stmt)
      else
        let q := instr (Z.of_nat p) comment [10] in
        if q =? 0 then Bug 2350
        else
          do user <- seg comment (Z.of_nat (p + length TAG)) (Z.of_nat q - 1);
          do r <- locLoop fuel sects n' (S stmt);
          Ok ((stmt, user) :: r)
  end.
(* getMathboxLoc, 5618-5665, without the ends *)
Definition mathboxLoc (fuel : nat) (sects : list (list nat)) (mb : nat) : res (list (nat * list nat)) :=
  locLoop fuel sects (length sects - mb) (mb + 1).
(* 5655-5660 *)
Fixpoint mathboxEnds (starts : list nat) (n : nat) : list nat :=
  match starts with
  | [] => []
  | _ :: r => match r with [] => [n] | y :: _ => (y - 1) :: mathboxEnds r n end
  end.
(* assignMathboxInfo, 5600-5613: g_mathboxStmt and the mathboxes *)
Definition mathboxInfo (fuel : nat) (sects : list (list nat)) (found : option nat) : res (nat * list (nat * list nat)) :=
  match found with
  | None => Ok (length sects + 1, [])
  | Some mb => do l <- mathboxLoc fuel sects mb; Ok (mb, l)
  end.
(* getMathboxNum, 5584-5591 *)
Fixpoint mathboxNum (starts : list nat) (stmt : nat) : nat :=
  match starts with
  | [] => 0
  | x :: r => if stmt <? x then 0 else S (mathboxNum r stmt)
  end.
(* reading g_mathboxStart[i - 1], g_mathboxUser[i - 1] *)
Definition at1 {A} (l : list A) (i : nat) : res A := match i with 0 => UB | S j => rget (nth_error l j) end.
(* getMathboxUser, 5573-5578 *)
Definition mathboxUser (boxes : list (nat * list nat)) (stmt : nat) : res (list nat) :=
  let m := mathboxNum (map fst boxes) stmt in
  if m =? 0 then Ok [] else at1 (map snd boxes) m.
(* inDiffMathboxes, 5560-5567 *)
Definition inDiffMathboxes (boxes : list (nat * list nat)) (s1 s2 : nat) : bool :=
  let m1 := mathboxNum (map fst boxes) s1 in
  let m2 := mathboxNum (map fst boxes) s2 in
  if (m1 =? 0) || (m2 =? 0) then false else negb (m1 =? m2).
(* ASSIGN, metamath.c:4494-4505: is statement k, used in the proof of p, "in the mathbox
   for ..."?  (The same code: MINIMIZE_WITH 5442-5449, interactiveUnify mmpfas.c:1872-1880.) *)
Definition assignNotice (mb : nat) (boxes : list (nat * list nat)) (k p : nat) : res (option (list nat)) :=
  if (mb <? k) && (mb <? p) then
    do s <- at1 (map fst boxes) (mathboxNum (map fst boxes) p);
    if k <? s then do u <- at1 (map snd boxes) (mathboxNum (map fst boxes) k); Ok (Some u)
    else Ok None
  else Ok None.
