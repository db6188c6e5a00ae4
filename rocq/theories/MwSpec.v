(* MwSpec.v -- what MINIMIZE_WITH may use, and what it must not change.  Written without
   reference to how the command works. *)
From Verif Require Import Base MMSpec VerModel VerSpec TokModel ParModel ParSpec SqModel SqSpec SqAttr PfaModel PfaSpec MatchModel UniModel FltModel FltSpec AkModel AkSpec MinModel MinSpec
  TrcModel TrcSpec CmpSpec OrdModel MwModel.
Open Scope nat_scope.

(* ---------- logic and syntax ---------- *)
(* L tells which type codes are those of logical statements (as |- is, in set.mm) *)
Definition logicalSt (L : nat -> bool) (st : stmtRec) : Prop := exists c r, s_math st = c :: r /\ L c = true.
Definition syntaxSt (L : nat -> bool) (st : stmtRec) : Prop := exists c r, s_math st = c :: r /\ L c = false.
(* in a database of the usual kind $e hypotheses are logical, $f hypotheses are not, and
   syntax statements have no $e hypotheses *)
Record separated (L : nat -> bool) (db : dbase) : Prop := {
  sp_e : forall n st, stmtAt db n st -> s_type st = S_e -> logicalSt L st;
  sp_f : forall n st, stmtAt db n st -> s_type st = S_f -> syntaxSt L st;
  sp_syn : forall n st h sh, stmtAt db n st -> isAssertion st -> syntaxSt L st -> In h (s_reqHyps st) -> stmtAt db h sh -> s_type sh = S_f }.
(* syntax statements have no $d requirements *)
Definition syntaxFree (L : nat -> bool) (db : dbase) : Prop := forall n st, stmtAt db n st -> isAssertion st -> syntaxSt L st -> s_reqDisj st = [].
Definition syntaxAt (L : nat -> bool) (db : dbase) (n : nat) : Prop := exists st, stmtAt db n st /\ isAssertion st /\ syntaxSt L st.
Definition logicalAxiom (L : nat -> bool) (db : dbase) (n : nat) : Prop := exists st, stmtAt db n st /\ s_type st = S_a /\ logicalSt L st.
(* syntax theorems are proved from syntax statements *)
Definition syntaxProofs (L : nat -> bool) (te : tenv) : Prop := forall n m, syntaxAt L (t_db te) n -> tracesTo true te n m -> syntaxAt L (t_db te) m.

Section Spec.
  Variable fuel : nat.
  Variable N : menvw.
  Variable o : mopts.
  Notation E := (n_E N).
  Notation db := (f_db (n_E N)).
  Notation te := (n_te N).

  (* statement k is in the list of labels l (C16, C17 tell which ones are) *)
  Definition listed (l : list nat) (k : nat) : Prop := matchesList fuel (n_me N) (t_name te k) l 42 63 = Ok true.

  (* statements that the user permits to be used *)
  Record permitted (k : nat) : Prop := {
    pm_stmt : exists st, stmtAt db k st /\ isAssertion st;
    pm_range : 1 <= k < f_n E;
    pm_match : listed (o_match o) k;
    pm_except : forall l, o_except o = Some l -> ~ listed l k;
    (* neither k nor anything it depends on *)
    pm_forbid : o_forbid o <> [] -> forall m, m = k \/ tracesTo false te k m -> ~ listed (o_forbid o) m;
    pm_disc : o_override o = false -> f_disc E k = false;
    pm_mbox : o_mbox o = false -> k < f_mboxStmt E \/ f_mboxStart E <= k }.

  (* the statements that a proof depends on, through steps that prove $e hypotheses *)
  Definition needs (p : list Z) (m : nat) : Prop := exists z, In (Z.of_nat z) p /\ (m = z \/ tracesTo true te z m).
  (* new axioms that the user allows *)
  Definition newAllowed (m : nat) : Prop := listed (o_allow o) m /\ ~ listed (o_noNew o) m.

  (* the text of proof p is read as a proof that uses nothing else *)
  Definition readsBack (p : list Z) : Prop := forall stn text pr, stmtAt db (f_n E) stn -> compressedText fuel N p = Ok text -> parseTrial fuel N text = Ok pr -> pr_k pr <= 1 ->
    goodProof db (f_n E) stn (pr_proof pr) /\ forall z, In (Stm z) (pr_proof pr) -> In (Z.of_nat z) p.
  (* ... as the packed proof, without errors, if it is read at all *)
  Definition readsSame (p : list Z) : Prop := forall text pr, compressedText fuel N p = Ok text -> parseTrial fuel N text = Ok pr -> pr_k pr <= 1 ->
    squishProof db p = Ok (map encStep (pr_proof pr)) /\ pr_err pr = 0.
End Spec.

(* the tables agree, and are as left by READ *)
Record worldOk (N : menvw) : Prop := {
  wo_min : forall k st, stmtAt (f_db (n_E N)) k st -> isAssertion st -> 1 <= k < f_n (n_E N) -> minOk (n_E N) k st;
  wo_db : t_db (n_te N) = f_db (n_E N);
  wo_te : wf_tenv (n_te N);
  wo_n : exists stn, stmtAt (f_db (n_E N)) (f_n (n_E N)) stn /\ s_type stn = S_p }.

(* labels are looked up as READ left them, and each fits on a line; there are at most 120
   mandatory hypotheses (more, and a text might be taken for the obsolete format) *)
Record tablesOk (N : menvw) : Prop := {
  ta_db : e_db (n_env N) = f_db (n_E N);
  ta_env : wf_env (n_env N);
  ta_uniq : uniq_env (n_env N);
  ta_hyps : forall h, ownHyp (n_E N) h -> h < f_n (n_E N);
  ta_req : forall stn, stmtAt (f_db (n_E N)) (f_n (n_E N)) stn -> length (s_reqHyps stn) <= 120;
  ta_width : forall m sm, stmtAt (f_db (n_E N)) m sm -> labelled sm ->
    (Z.of_nat (length (e_name (n_env N) m)) <= n_width N - Z.of_nat (sourceIndentation (n_back N)) - 2)%Z }.
