(* SesSpec.v -- sessions with MM-PA, UNDO and REDO included.  The commands are those of AuModel,
   ImpModel and PfaModel; the stack of proofs is that of UndoModel. *)
From Verif Require Import Base MMSpec VerModel VerSpec ParModel SqModel SqSpec SqAttr PfaModel PfaSpec.
From Verif Require Import UniModel HenModel FltModel FltSpec RepSpec AkModel AkSpec AuModel AuSpec ImpModel ImpSpec.
From Verif Require Import UndoModel.
Open Scope nat_scope.

(* PROVE: the state afterwards *)
Inductive opening (E : fenv) (m : list nat) : pst -> Prop :=
| op_unknown : opening E m (mkPip [zUnk] [toZ m] [[]] [[]], 0)
| op_proof : forall p T old c x, proofLike E p T -> partsShow E p -> (exists K, forall fuel, K <= fuel -> initProofStruct fuel E old p m = Ok (c, x)) -> opening E m x.
(* one command that may change the proof: from x to x', b: the congratulations were printed.
   DELETE ALL is DELETE STEP of the last step.  EXPAND builds the proof anew, see C51 for
   what it expands to.  (REPLACE, IMPROVE / 2 and / 3 and MINIMIZE_WITH are missing) *)
Inductive change (E : fenv) (m : list nat) : pst -> pst -> bool -> Prop :=
| ch_order : forall x o old x' b, sensible E x o -> (exists K, forall fuel, K <= fuel -> perform fuel E old x o = Ok (x', b)) -> change E m x x' b
| ch_improve : forall x o n x' b, partsProve E (fst x) -> (exists K, forall fuel, K <= fuel -> improveStep fuel E o x n = Ok (x', b, true)) -> change E m x x' b
| ch_improveAll : forall x o x' b, plainDb E -> unified3 (fst x) -> (exists K, forall fuel, K <= fuel -> improveAll fuel E o x = Ok (x', b, true)) -> change E m x x' b
| ch_floating : forall s dv s', deleteFloating (f_db E) s = Ok s' -> change E m (s, dv) (s', dv) false
| ch_expand : forall x p T old c x', proofLike E p T -> partsShow E p -> (exists K, forall fuel, K <= fuel -> initProofStruct fuel E old p m = Ok (c, x')) -> change E m x x' false.

Definition noProof : pip := mkPip [] [] [] [].
(* UNDO, REDO, SET UNDO, SAVE *)
Definition looking {I} (c : cmd pip I) : Prop := match c with Edit _ _ _ _ => False | _ => True end.
(* A session that was begun with the stack s0: the commands for the stack so far, the state,
   whether the last command printed the congratulations.  A command that changes the proof
   puts it on the stack; one that does not may or may not do so.  UNDO and REDO give back a
   proof; g_pipDummyVars stays as it is *)
Inductive whole (E : fenv) (m : list nat) {I} (noInfo : I) (s0 : sess pip I) (x0 : pst) : list (cmd pip I) -> pst -> bool -> Prop :=
| wh_start : whole E m noInfo s0 x0 [] x0 false
| wh_change : forall cs x b x' b' i, whole E m noInfo s0 x0 cs x b -> change E m x x' b' -> whole E m noInfo s0 x0 (cs ++ [Edit pip I (fst x') i]) x' b'
| wh_quiet : forall cs x b x' b', whole E m noInfo s0 x0 cs x b -> change E m x x' b' -> fst x' = fst x -> whole E m noInfo s0 x0 cs x' b'
| wh_stack : forall cs x b c st a, whole E m noInfo s0 x0 cs x b -> looking c -> run pip I noProof noInfo s0 (cs ++ [c]) = Ok (st, a) ->
    whole E m noInfo s0 x0 (cs ++ [c]) (s_cur pip I st, snd x) false.
(* the session begins with PROVE, at any time in the life of the program *)
Definition begun (E : fenv) (m : list nat) {I} (noInfo : I) (u : UndoModel.ust pip I) (s0 : sess pip I) (x0 : pst) : Prop :=
  idle pip I noProof noInfo u /\ opening E m x0 /\ prove pip I noProof noInfo u (fst x0) = Ok s0.
