(* ImpSpec.v -- what IMPROVE expects of the proof in progress, and sessions with IMPROVE.
   Written without reference to how proofs are searched. *)
From Verif Require Import Base MMSpec VerModel VerSpec ParModel SqModel SqSpec SqAttr PfaModel PfaSpec.
From Verif Require Import UniModel HenModel FltModel FltSpec RepSpec AkModel AkSpec AuModel AuSpec ImpModel.
Open Scope nat_scope.

(* every finished part of the proof shows the expression displayed for it *)
Definition partsProve (E : fenv) (s : pip) : Prop :=
  forall T k path u t, rpn T = pf s -> wfTree (f_db E) T -> nodeAt T k path u -> finished u -> nth_error (tg s) k = Some t ->
    exists y, t = toZ y /\ shows (f_db E) anything u y.
(* the state s' is s with the part u, which ended at step k, replaced by v, which shows the
   expression y displayed for the step; nothing else is changed *)
Record improved (E : fenv) (s : pip) (k : nat) (u v : tree) (y : list nat) (s' : pip) : Prop := {
  im_unfinished : ~ finished u;
  im_target : nth_error (tg s) k = Some (toZ y);
  im_known : noUnknowns (f_db E) y;
  im_shows : shows (f_db E) anything v y;
  im_pf : pf s' = splice (pf s) k (length (rpn u)) (rpn v);
  im_tg : exists l, length l = length (rpn v) /\ tg s' = splice (tg s) k (length (rpn u)) l /\ last l [] = toZ y;
  im_sr : exists l, length l = length (rpn v) /\ sr s' = splice (sr s) k (length (rpn u)) l /\ last l [] = toZ y;
  im_us : us s' = splice (us s) k (length (rpn u)) (repeat [] (length (rpn v) - 1) ++ [nth k (us s) []]) }.

(* sessions with all commands; those of AuSpec.v, and IMPROVE.  Last: whether the last command
   printed the congratulations.  IMPROVE is to be asked for if the finished parts are
   unified, and there was no complaint *)
Inductive session2 (E : fenv) (m : list nat) : pst -> bool -> Prop :=
| s2_session : forall x b, session E m x b -> session2 E m x b
| s2_order : forall x b o old x' b', session2 E m x b -> sensible E x o -> (exists K, forall fuel, K <= fuel -> perform fuel E old x o = Ok (x', b')) -> session2 E m x' b'
| s2_improve : forall x b o n x' b', session2 E m x b -> partsProve E (fst x) -> (exists K, forall fuel, K <= fuel -> improveStep fuel E o x n = Ok (x', b', true)) -> session2 E m x' b'
| s2_all : forall x b o x' b', session2 E m x b -> plainDb E -> unified3 (fst x) -> (exists K, forall fuel, K <= fuel -> improveAll fuel E o x = Ok (x', b', true)) -> session2 E m x' b'.
