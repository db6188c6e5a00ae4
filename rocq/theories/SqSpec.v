(* SqSpec.v -- proof trees, their RPN form, and what packed proofs denote.
   Written without reference to the functions of SqModel.v. *)
From Verif Require Import Base VerModel ParModel.
Open Scope nat_scope.

(* A proof tree: a proof-string element with the proofs of its hypotheses.
   Elements: a statement number, '?' (zUnk), or a local reference (zLoc i). *)
Inductive tree := Node (z : Z) (kids : list tree).

Definition rootOf (t : tree) : Z := match t with Node z _ => z end.

(* reverse Polish form *)
Fixpoint rpn (t : tree) : list Z :=
  match t with Node z kids => flat_map rpn kids ++ [z] end.

(* how many hypotheses an element takes; None: not a legal element *)
Definition arity (db : dbase) (z : Z) : option nat :=
  if (z <? 0)%Z then Some 0
  else match nth_error (db_stmts db) (Z.to_nat z) with
       | None => None
       | Some st => match s_type st with
                    | S_e | S_f => Some 0
                    | S_a | S_p => Some (length (s_reqHyps st))
                    | S_other => None
                    end
       end.

Inductive wfTree (db : dbase) : tree -> Prop :=
| wft : forall z kids,
    arity db z = Some (length kids) -> Forall (wfTree db) kids -> wfTree db (Node z kids).

Definition isRef (z : Z) : bool := (z <=? -1000)%Z.
Definition refOf (z : Z) : nat := Z.to_nat (-1000 - z).

(* no local references in the proof string *)
Definition noRefs (p : list Z) : Prop := forall z, In z p -> isRef z = false.

(* What a packed proof denotes.  hist: the tree proved by each step so far; stk:
   the stack of trees, last first.  A reference to step i stands for the tree
   step i proved. *)
Fixpoint prun (db : dbase) (hist stk : list tree) (p : list Z) : option (list tree * list tree) :=
  match p with
  | [] => Some (hist, stk)
  | z :: r =>
      if isRef z then
        match nth_error hist (refOf z) with
        | Some t => prun db (hist ++ [t]) (t :: stk) r
        | None => None
        end
      else
        match arity db z with
        | Some n =>
            if n <=? length stk then
              let t := Node z (rev (firstn n stk)) in
              prun db (hist ++ [t]) (t :: skipn n stk) r
            else None
        | None => None
        end
  end.
(* p is a (packed or not) proof whose unpacked tree is t *)
Definition denotes (db : dbase) (p : list Z) (t : tree) : Prop :=
  exists hist, prun db [] [] p = Some (hist, [t]).

(* step k of rpn t is the root of the subtree u, reached from the root by going
   through the hypotheses listed in path: (statement, number of the hypothesis) *)
Inductive nodeAt : tree -> nat -> list (Z * nat) -> tree -> Prop :=
| na_root : forall t, nodeAt t (length (rpn t) - 1) [] t
| na_kid : forall z kids j c k path u,
    nth_error kids j = Some c -> nodeAt c k path u ->
    nodeAt (Node z kids) (length (flat_map rpn (firstn j kids)) + k) ((z, j) :: path) u.

(* the statement that is hypothesis number j of statement z *)
Definition hypOf (db : dbase) (z : Z) (j : nat) : option nat :=
  match nth_error (db_stmts db) (Z.to_nat z) with
  | Some st => nth_error (s_reqHyps st) j
  | None => None
  end.
Definition isEssHyp (db : dbase) (zj : Z * nat) : Prop :=
  exists h sh, hypOf db (fst zj) (snd zj) = Some h /\ nth_error (db_stmts db) h = Some sh /\
    s_type sh = S_e.

(* seg is a complete subproof (local references count as leaves) *)
Definition completeSub (db : dbase) (seg : list Z) : Prop :=
  exists t, wfTree db t /\ seg = rpn t.
(* the n steps of p ending with step k *)
Definition endingAt (p : list Z) (k n : nat) : list Z := firstn n (skipn (k + 1 - n) p).

(* the statement whose expression a step has to prove: own for the last step of
   the proof, else the hypothesis at the end of the path to it *)
Fixpoint targetOf (db : dbase) (own : nat) (path : list (Z * nat)) : option nat :=
  match path with
  | [] => Some own
  | (z, j) :: r => match hypOf db z j with Some h => targetOf db h r | None => None end
  end.
