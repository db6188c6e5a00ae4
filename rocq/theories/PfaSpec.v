(* PfaSpec.v -- what proof-assistant surgery should do, in terms of proof trees. *)
From Verif Require Import Base MMSpec VerModel VerSpec ParModel SqSpec SqAttr PfaModel.
Open Scope nat_scope.

Definition unknown : tree := Node zUnk [].

(* replacing the subtree reached by path *)
Inductive putAt (v : tree) : tree -> list (Z * nat) -> tree -> Prop :=
| pa_root : forall t, putAt v t [] v
| pa_kid : forall z ks1 k ks2 path k', putAt v k path k' ->
    putAt v (Node z (ks1 ++ k :: ks2)) ((z, length ks1) :: path) (Node z (ks1 ++ k' :: ks2)).

(* a proof in progress: one proof tree without local references; a math string of each
   kind per step; unknown steps have no source *)
Record pipOk (db : dbase) (s : pip) (T : tree) : Prop := {
  po_tree : wfTree db T;
  po_rpn : pf s = rpn T;
  po_norefs : noRefs (rpn T);
  po_tg : length (tg s) = length (pf s);
  po_sr : length (sr s) = length (pf s);
  po_us : length (us s) = length (pf s);
  po_unk : forall k, nth_error (pf s) k = Some zUnk -> nth_error (sr s) k = Some [] }.

(* the list l with the n elements before and including position k replaced by new *)
Definition splice {A} (l : list A) (k n : nat) (new : list A) : list A :=
  firstn (k + 1 - n) l ++ new ++ skipn (k + 1) l.

(* steps are ancestors of k (or k itself): their subproof contains step k *)
Definition contains (T : tree) (a k : nat) : Prop :=
  exists path u, nodeAt T a path u /\ a + 1 - length (rpn u) <= k <= a.

(* hypothesis number j of statement z is a $e statement *)
Definition essAt (db : dbase) (z : Z) (j : nat) : bool :=
  match hypOf db z j with
  | Some h => match nth_error (db_stmts db) h with
              | Some sh => match s_type sh with S_e => true | _ => false end
              | None => false
              end
  | None => false
  end.
(* the tree without the proofs of its $f hypotheses *)
Fixpoint dropFloating (db : dbase) (t : tree) : tree :=
  match t with
  | Node z kids =>
      Node z ((fix go (kids : list tree) (j : nat) :=
                 match kids with
                 | [] => []
                 | k :: ks => (if essAt db z j then dropFloating db k else unknown) :: go ks (S j)
                 end) kids 0)
  end.
(* the numbers that the steps of this tree had in the proof; o = number of the first
   step of t *)
Fixpoint keptSteps (db : dbase) (t : tree) (o : nat) : list nat :=
  match t with
  | Node z kids =>
      (fix go (kids : list tree) (j o : nat) :=
         match kids with
         | [] => [o]
         | k :: ks => (if essAt db z j then keptSteps db k o else [o + length (rpn k) - 1]) ++ go ks (S j) (o + length (rpn k))
         end) kids 0 o
  end.

(* the proof tree s of a theorem with mandatory hypotheses req, with the proofs ks of
   these put in their place; other hypotheses become unknown steps *)
Fixpoint hypAt (req : list nat) (ks : list tree) (z : Z) : option tree :=
  match req, ks with
  | h :: r, k :: ks' => if (Z.of_nat h =? z)%Z then Some k else hypAt r ks' z
  | _, _ => None
  end.
Fixpoint graft (db : dbase) (req : list nat) (ks : list tree) (s : tree) : tree :=
  match s with
  | Node z kids =>
      match nth_error (db_stmts db) (Z.to_nat z) with
      | Some st =>
          if (z <? 0)%Z then Node z kids
          else match s_type st with
               | S_e | S_f => match hypAt req ks z with Some t => t | None => unknown end
               | _ => Node z (map (graft db req ks) kids)
               end
      | None => Node z kids
      end
  end.
(* every use of theorem src replaced by its proof s *)
Fixpoint expanded (db : dbase) (src : nat) (req : list nat) (s t : tree) : tree :=
  match t with
  | Node z kids =>
      let ks := map (expanded db src req s) kids in
      if (z =? Z.of_nat src)%Z then graft db req ks s else Node z ks
  end.

(* ASSIGN: an assertion with unknown steps for its hypotheses *)
Definition premiseNode (n h : nat) : tree := Node (Z.of_nat n) (repeat unknown h).
(* the expression of a statement, and an expression with its variables renamed by m *)
Definition mathAt (db : dbase) (h : nat) : list nat :=
  match nth_error (db_stmts db) h with Some sh => s_math sh | None => [] end.
Definition renamed (db : dbase) (m : nat -> Z) (e : list nat) : list Z :=
  map (fun t => if db_isvar db t then m t else Z.of_nat t) e.

(* a complete proof sp of theorem sts, in terms of its mandatory hypotheses *)
Record completeSource (db : dbase) (sts : stmtRec) (sp : list pstep) : Prop := {
  cs_valid : validProof db sts sp;
  cs_nodummy : forall m sm, In (Stm m) sp -> stmtAt db m sm -> isHyp sm -> In m (s_reqHyps sts);
  cs_floated : forall m sm, In (Stm m) sp -> stmtAt db m sm -> isAssertion sm -> floated db sm;
  cs_disj : forall x y, In (x, y) (s_optDisj sts) -> ~ (In x (s_reqVars sts) /\ In y (s_reqVars sts)) }.

(* one change of the proof in progress (and of the number of dummy variables used so
   far), and a history of changes *)
Inductive surgery (db : dbase) (mt : nat) : pip * nat -> pip * nat -> Prop :=
| su_delete : forall s s' k d, k < length (pf s) -> deleteSubProof db s k = Ok s' -> surgery db mt (s, d) (s', d)
| su_add : forall s s' k v d, nth_error (pf s) k = Some zUnk -> wfTree db v -> noRefs (rpn v) ->
    addSubProof s (rpn v) k = Ok s' -> surgery db mt (s, d) (s', d)
| su_replace : forall s s' k v d, k < length (pf s) -> wfTree db v -> noRefs (rpn v) ->
    replaceSubProof db s (rpn v) k = Ok s' -> surgery db mt (s, d) (s', d)
| su_assign : forall s s' k n st old d d', nth_error (pf s) k = Some zUnk -> nth_error (db_stmts db) n = Some st ->
    isAssertion st \/ (isHyp st /\ s_reqHyps st = []) ->
    assignStatement db mt old s n k d = Ok (s', d') -> surgery db mt (s, d) (s', d')
| su_floating : forall s s' d, legalCodes (pf s) -> deleteFloating db s = Ok s' -> surgery db mt (s, d) (s', d).
Inductive history (db : dbase) (mt : nat) : pip * nat -> pip * nat -> Prop :=
| hi_nil : forall x, history db mt x x
| hi_step : forall x y z, surgery db mt x y -> history db mt y z -> history db mt x z.

