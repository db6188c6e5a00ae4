(* AuSpec.v -- what the strings of a proof in progress mean: each step of the proof is an
   instance of its statement.  Written without reference to how steps are unified. *)
From Verif Require Import Base MMSpec VerModel VerSpec ParModel SqModel SqSpec SqAttr PfaModel PfaSpec.
From Verif Require UniSpec.
From Verif Require Import UniModel HenModel FltModel FltSpec RepSpec AkModel AkSpec AuModel.
Open Scope nat_scope.

(* the targets and sources of the steps of a proof tree.  The source of a step that uses an
   assertion is an instance of the assertion, and the targets of the steps for its
   hypotheses are the same instances of these *)
Definition goalOf (a : list (list Z * list Z)) : list Z := fst (last a ([], [])).
Inductive fits (db : dbase) : tree -> list (list Z * list Z) -> Prop :=
| ft_unk : forall t, fits db unknown [(t, [])]
| ft_hyp : forall h sh t, stmtAt db h sh -> isHyp sh -> fits db (Node (Z.of_nat h) []) [(t, toZ (s_math sh))]
| ft_use : forall n st kids anns t sg, stmtAt db n st -> isAssertion st ->
    Forall2 (fits db) kids anns ->
    Forall2 (fun h a => exists sh, stmtAt db h sh /\ goalOf a = toZ (subst (db_isvar db) sg (s_math sh))) (s_reqHyps st) anns ->
    fits db (Node (Z.of_nat n) kids) (concat anns ++ [(t, toZ (subst (db_isvar db) sg (s_math st)))]).

(* an expression, perhaps with unknowns, as a string of the proof in progress *)
Definition scheme (db : dbase) (x : list Z) : Prop := exists y, x = toZ y /\ expression db y.
(* what a user may enter: any string without separator; it begins with a token of the
   database if unknowns may become empty *)
Definition entry (E : fenv) (x : list Z) : Prop := exists y, x = toZ y /\ y <> [] /\ ~ In (db_sep (f_db E)) y /\
  (1 <= u_min (f_u E) \/ forall c r, y = c :: r -> c < db_sep (f_db E)).
(* the proof in progress T of the expression m *)
Record linked (E : fenv) (m : list nat) (s : pip) (T : tree) : Prop := {
  lk_pip : pipOk (f_db E) s T;
  lk_fits : fits (f_db E) T (combine (tg s) (sr s));
  lk_goal : goalOf (combine (tg s) (sr s)) = toZ m;
  lk_tg : forall x, In x (tg s) -> scheme (f_db E) x;
  lk_sr : forall x, In x (sr s) -> x = [] \/ scheme (f_db E) x;
  lk_us : forall x, In x (us s) -> x = [] \/ entry E x }.

(* s' is s with expressions substituted for unknowns *)
Definition onString (f : nat -> list nat) (x : list Z) : list Z := toZ (UniSpec.app_subst f (ofZ x)).
Record substituted (mt : nat) (f : nat -> list nat) (s s' : pip) : Prop := {
  su_pf : pf s' = pf s;
  su_tg : tg s' = map (onString f) (tg s);
  su_sr : sr s' = map (onString f) (sr s);
  su_us : us s' = map (onString f) (us s);
  su_fixed : forall t, t <= mt -> f t = [t];
  su_sep : forall t, In mt (f t) -> t = mt }.
(* every step is unified: target, source and what the user entered agree, if they exist *)
Definition unified3 (s : pip) : Prop := forall k t r u, nth_error (tg s) k = Some t -> nth_error (sr s) k = Some r -> nth_error (us s) k = Some u ->
  (r <> [] -> r = t) /\ (u <> [] -> u = t).

(* a database as left by READ (statement 0 is not a real one), and flags as set by the callers *)
Record auOk (E : fenv) : Prop := {
  ao_flt : fltOk E None;
  ao_zero : forall st, stmtAt (f_db E) 0 st -> ~ isHyp st /\ ~ isAssertion st;
  ao_hyps : forall n st, stmtAt (f_db E) n st -> isHyp st -> s_reqHyps st = [];
  ao_floated : forall n st, stmtAt (f_db E) n st -> isAssertion st -> floated (f_db E) st }.

(* every finished part of the proof p shows something, with substitutions that the assistant
   would try *)
Definition partsShow (E : fenv) (p : list Z) : Prop :=
  forall T k path u, rpn T = p -> wfTree (f_db E) T -> nodeAt T k path u -> finished u -> exists y, shows (f_db E) (okValue E) u y.
(* what may be asked for: statements to be assigned are hypotheses or assertions; strings
   that are entered have no separator, and strings for steps are not empty.  (A step number
   too large for DELETE STEP is looked up outside the proof, see C35.)  INITIALIZE ALL: if
   the finished parts show something *)
Definition sensible (E : fenv) (x : pst) (o : order) : Prop :=
  match o with
  | O_letVar d w => ~ In (db_sep (f_db E)) w
  | O_letStep n w => entry E (toZ w)
  | O_assign n k _ _ _ => exists st, stmtAt (f_db E) k st /\ (isHyp st \/ isAssertion st)
  | O_delete n => n <= length (pf (fst x)) + 1
  | O_initAll => partsShow E (pf (fst x))
  | _ => True
  end.
(* a proof, perhaps with unknown steps, as parsed and not packed *)
Record proofLike (E : fenv) (p : list Z) (T : tree) : Prop := {
  pl_rpn : p = rpn T; pl_tree : wfTree (f_db E) T; pl_norefs : noRefs (rpn T); pl_legal : legalCodes (rpn T) }.
(* PROVE with an unknown proof or an existing one, and then commands that end: the state, and
   whether the last command printed the congratulations *)
Inductive session (E : fenv) (m : list nat) : pst -> bool -> Prop :=
| se_start : session E m (mkPip [zUnk] [toZ m] [[]] [[]], 0) false
| se_proof : forall p T old c x, proofLike E p T -> partsShow E p -> (exists K, forall fuel, K <= fuel -> initProofStruct fuel E old p m = Ok (c, x)) -> session E m x false
| se_order : forall x b o old x' b', session E m x b -> sensible E x o -> (exists K, forall fuel, K <= fuel -> perform fuel E old x o = Ok (x', b')) -> session E m x' b'.
