(* CmpSpec.v -- what the compressed-proof round trip says. *)
From Coq Require Import Permutation.
From Verif Require Import Base MMSpec VerModel VerSpec TokModel ParModel ParSpec.
Open Scope nat_scope.

(* labels after an error-free READ: distinct, non-empty, made of legal
   characters, and every assertion is in the label table *)
Definition labelled (st : stmtRec) : Prop := isAssertion st \/ isHyp st.
Record uniq_env (env : penv) : Prop := {
  ue_name : forall m1 m2 s1 s2, stmtAt (e_db env) m1 s1 -> stmtAt (e_db env) m2 s2 ->
    labelled s1 -> labelled s2 -> e_name env m1 = e_name env m2 -> m1 = m2;
  ue_keys : forall m sm, stmtAt (e_db env) m sm -> isAssertion sm ->
    In (e_name env m, Z.of_nat m) (e_keys env);
  ue_chars : forall m sm, stmtAt (e_db env) m sm -> labelled sm ->
    e_name env m <> [] /\ Forall (fun c => labelChar c = true) (e_name env m) }.

Definition blanks (w : list nat) : Prop := Forall (fun c => isspace c = true) w.

(* t is s with white space inserted anywhere *)
Inductive spaced : list nat -> list nat -> Prop :=
| spd_nil : spaced [] []
| spd_blank : forall c s t, isspace c = true -> spaced s t -> spaced s (c :: t)
| spd_char : forall c s t, spaced s t -> spaced (c :: s) (c :: t).

(* the labels, each followed by white space, and the closing parenthesis *)
Inductive labelsLaid : list label -> list nat -> Prop :=
| ll_nil : forall w, blanks w -> labelsLaid [] (w ++ [chClose])
| ll_cons : forall w l c ls t, blanks w -> isspace c = true -> labelsLaid ls t ->
    labelsLaid (l :: ls) (w ++ l ++ c :: t).

(* sec is the proof "( labels ) letters" laid out with any white space; tx is the
   part after the label list *)
Definition laidOut (names : list label) (letters sec tx : list nat) : Prop :=
  exists w lt, blanks w /\ labelsLaid names lt /\ spaced letters tx /\
    sec = w ++ chOpen :: lt ++ tx.

(* l lists, each once, the statements a proof uses that are not mandatory
   hypotheses of the theorem: the labels that must be written out *)
Definition explicitLabels (st : stmtRec) (proof : list pstep) (l : list Z) : Prop :=
  NoDup l /\ forall z, In z l <-> exists m, z = Z.of_nat m /\ In (Stm m) proof /\ ~ In m (s_reqHyps st).
(* order rearranges any such list *)
Definition orderOn (order : list Z -> res (list Z)) (st : stmtRec) (proof : list pstep) : Prop :=
  forall l, explicitLabels st proof l -> exists e, order l = Ok e /\ Permutation l e.
