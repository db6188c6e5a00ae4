(* MwProps.v -- C68: the command MINIMIZE_WITH *)
From Coq Require Import ZifyBool ZifyNat.
From Verif Require Import Base UniSpec UniModel HenModel.
From Verif Require Import MMSpec VerModel VerSpec VerExample VerProofs TokModel ParModel ParSpec ExpModel SqModel SqSpec SqProofs SqAttr SqValid SqGood CmpSpec ParExample OrdModel LabModel MatchModel PfaModel PfaSpec PfaProofs PfaValid FltModel FltSpec FltProofs AkModel AkSpec AkProofs MinModel MinSpec MinProofs MinMain MinProps
  TrcModel TrcSpec TrcProofs MwModel MwSpec MwTree MwFlags MwProofs MwMain MwDisj MwVal MwRead MwEnd.
Open Scope nat_scope.

(* After MINIMIZE_WITH the proof is still a complete proof of the same expression ($d
   requirements aside), made of what it used before and statements before the one being
   proved.  If no change is reported there is none.  Unless the proof may grow, the
   compressed proof is not longer than before, and the proof is unchanged or has fewer steps. *)
Theorem C68_keeps : forall L N o s T w, worldOk N -> complete (n_E N) s T -> separated L (f_db (n_E N)) ->
  exists K, forall fuel s' changed status, K <= fuel -> minimizeWith w fuel N o s = Ok (s', changed, status) ->
    (exists T', kept (n_E N) s T s' T') /\ (changed = false -> pf s' = pf s) /\
    (o_grow o = false -> exists text text', compressedText fuel N (pf s) = Ok text /\ compressedText fuel N (pf s') = Ok text' /\ length text' <= length text /\
      (changed = false /\ s' = s \/ changed = true /\ length (pf s') < length (pf s))).
Proof. exact keeps_ok. Qed.
Print Assumptions C68_keeps.

(* Every statement the new proof uses was used before, is a hypothesis of the statement
   being proved, an earlier statement about syntax, or one that the user's lists permit. *)
Theorem C68_only_permitted : forall L N o s T w, worldOk N -> complete (n_E N) s T -> separated L (f_db (n_E N)) ->
  exists K, forall fuel s' changed status, K <= fuel -> minimizeWith w fuel N o s = Ok (s', changed, status) ->
    forall z, In z (pf s') -> In z (pf s) \/ exists n, z = Z.of_nat n /\
      (ownHyp (n_E N) n \/ (1 <= n < f_n (n_E N) /\ syntaxAt L (f_db (n_E N)) n) \/ permitted fuel N o n).
Proof. exact permitted_ok. Qed.
Print Assumptions C68_only_permitted.

(* The new proof depends on no logical axiom that the old one did not depend on, unless the
   user allowed it. *)
Theorem C68_no_new_axioms : forall L N o s T w stn p, worldOk N -> tablesOk N -> complete (n_E N) s T -> separated L (f_db (n_E N)) -> syntaxProofs L (n_te N) ->
  stmtAt (f_db (n_E N)) (f_n (n_E N)) stn -> goodProof (f_db (n_E N)) (f_n (n_E N)) stn p -> map encStep p = pf s ->
  exists K, forall fuel s' changed status, K <= fuel -> minimizeWith w fuel N o s = Ok (s', changed, status) ->
    forall m, logicalAxiom L (f_db (n_E N)) m -> needs N (pf s') m -> needs N (pf s) m \/ newAllowed fuel N o m.
Proof. exact axioms_same. Qed.
Print Assumptions C68_no_new_axioms.

(* A valid proof, $d requirements included, becomes a valid proof. *)
Theorem C68_valid : forall L N o s T w stn p, worldOk N -> tablesOk N -> complete (n_E N) s T -> separated L (f_db (n_E N)) -> syntaxFree L (f_db (n_E N)) ->
  stmtAt (f_db (n_E N)) (f_n (n_E N)) stn -> goodProof (f_db (n_E N)) (f_n (n_E N)) stn p -> map encStep p = pf s -> shows (f_db (n_E N)) anything T (s_math stn) ->
  validProof (f_db (n_E N)) stn p ->
  exists K, forall fuel s' changed status, K <= fuel -> minimizeWith w fuel N o s = Ok (s', changed, status) ->
    exists p', map encStep p' = pf s' /\ goodProof (f_db (n_E N)) (f_n (n_E N)) stn p' /\ validProof (f_db (n_E N)) stn p'.
Proof. exact stays_valid. Qed.
Print Assumptions C68_valid.

(* VERIFY PROOF: if every step follows from the steps before, only $d violations can be
   reported, and a proof without such a report is valid. *)
Theorem C68_only_disj : forall db k stp p t sev fuel st ds err, wf_db db -> stmtAt db k stp -> s_type stp = S_p -> sev <= 2 -> denotes db (map encStep p) t -> shows db anything t (s_math stp) ->
  verifyProof fuel db k p sev 0 = Ok (st, ds, err) -> (forall d, In d ds -> ~ isDisj d) -> validProof db stp p.
Proof. intros db k stp p t sev fuel st ds err WD. exact (shown_valid db WD k stp p t sev fuel st ds err). Qed.
Print Assumptions C68_only_disj.

(* ---------- an example ---------- *)
(* the database of MinProps, its statements labelled a1, ..., a8.  0 = 0, proved by symmetry
   from 0 = 0 *)
Definition exW_L : nat -> bool := fun t => t =? 6.
Definition exW_name (n : nat) : list nat := match n with 0 => [] | _ => [97; 48 + n] end.
Definition exW_env : penv := stdEnv exM_db exW_name.
Definition exW_kind (st : stmtRec) : kind := match s_type st with S_f => K_f | S_e => K_e | S_a => K_a | S_p => K_p | _ => K_c end.
Definition exW_me : menv := {| MatchModel.e_stmts := map (fun n => {| l_kind := exW_kind (nth n exM_stmts exM_st8); l_label := exW_name n |}) (seq 1 8);
  MatchModel.e_keys := seq 1 8; e_pink := fun k => Z.of_nat k; e_changed := fun _ => false; e_prove := 8%Z |}.
(* the proof section of a8 is not readable *)
Definition exW_te : tenv := mkTenv exM_db exW_name (fun _ => mkParsed 3 [] 3 1) (fun _ => ([], [36; 46])).
Definition exW_N : menvw := mkN exM_E exW_env exW_me exW_te 79 [] 0.
(* MINIMIZE_WITH a5, MINIMIZE_WITH * and MINIMIZE_WITH * / FORBID a5 *)
Definition exW_o1 : mopts := mkO [97; 53] false None [] [] [] false false.
Definition exW_o2 : mopts := mkO [42] false None [] [] [] false false.
Definition exW_o3 : mopts := mkO [42] false None [] [] [97; 53] false false.

Definition short (r : res (pip * bool * nat)) : option (list Z * bool * nat) := match r with Ok (s, c, t) => Some (pf s, c, t) | _ => None end.
Example ex_C68_run : forall n, short (minimizeWith (20 + n) (100 + n) exW_N exW_o1 exM_s) = Some ([3; 5]%Z, true, 2)
  /\ short (minimizeWith (20 + n) (100 + n) exW_N exW_o2 exM_s) = Some ([3; 5]%Z, true, 2)
  /\ short (minimizeWith (20 + n) (100 + n) exW_N exW_o3 exM_s) = Some (pf exM_s, false, 1).
Proof. intros n. repeat split; vm_compute; reflexivity. Qed.

Lemma exW_world : worldOk exW_N.
Proof.
  constructor; cbn [exW_N n_E n_te exM_E f_db f_n].
  - intros k st S A R. constructor; [exact exM_flt|exact exM_plain| |exact exM_floated|exact S|exact A|cbn [exM_E f_n]; lia|].
    + intros st' S'. injection S' as <-. split; intros [K|K]; discriminate K.
    + clear R. revert k st S A. refine (exM_cases (fun n st => isAssertion st -> forall v, In v (s_reqVars st) -> In v (s_math st) \/ exists h sh, In h (s_reqHyps st) /\ stmtAt exM_db h sh /\ s_type sh = S_e /\ In v (s_math sh)) _).
      intros i st I A v J. left. cbn in I. repeat (destruct I as [I|I]; [injection I as <- <-; cbn in J |- *; tauto|]). destruct I.
  - reflexivity.
  - constructor; cbn [exW_te t_db].
    + apply wf_dbB_ok. vm_compute. reflexivity.
    + intros n st S P R. exfalso. unfold readable in R. cbn in R. lia.
    + refine (fun n st h S => _). revert n st S h. refine (exM_cases (fun n st => forall h, s_type st = S_p -> In h (s_reqHyps st) \/ In h (s_optHyps st) -> h < n) _).
      intros i st I h P J. cbn in I. repeat (destruct I as [I|I]; [injection I as <- <-; first [discriminate P|cbn in J; lia]|]). destruct I.
    + intros st S. injection S as <-. reflexivity.
  - exists exM_st8. split; reflexivity.
Qed.
Lemma exW_tables : tablesOk exW_N.
Proof.
  constructor.
  - reflexivity.
  - apply stdEnv_wf. vm_compute. reflexivity.
  - apply stdEnv_uniq; vm_compute; reflexivity.
  - intros h [st [S I]]. injection S as <-. cbn in I |- *. lia.
  - intros stn S. injection S as <-. cbn. lia.
  - intros m sm S _. revert m sm S. refine (exM_cases (fun m sm => (Z.of_nat (length (exW_name m)) <= 79 - Z.of_nat (sourceIndentation []) - 2)%Z) _).
    intros i st I. cbn in I. repeat (destruct I as [I|I]; [injection I as <- <-; vm_compute; discriminate|]). destruct I.
Qed.
Lemma exW_separated : separated exW_L exM_db.
Proof.
  constructor.
  - refine (exM_cases (fun n st => s_type st = S_e -> logicalSt exW_L st) _). intros i st I P. cbn in I. repeat (destruct I as [I|I]; [injection I as <- <-; first [discriminate P|eexists; eexists; split; reflexivity]|]). destruct I.
  - refine (exM_cases (fun n st => s_type st = S_f -> syntaxSt exW_L st) _). intros i st I P. cbn in I. repeat (destruct I as [I|I]; [injection I as <- <-; first [discriminate P|eexists; eexists; split; reflexivity]|]). destruct I.
  - refine (fun n st h sh S => _). revert n st S h sh. refine (exM_cases (fun n st => forall h sh, isAssertion st -> syntaxSt exW_L st -> In h (s_reqHyps st) -> stmtAt exM_db h sh -> s_type sh = S_f) _).
    intros i st I h sh A [c [r [E LC]]] J S. cbn in I. repeat (destruct I as [I|I]; [injection I as <- <-; cbn in E; first [discriminate E|injection E as <- <-; first [discriminate LC|cbn in J; repeat (destruct J as [<-|J]; [injection S as <-; reflexivity|]); destruct J]]|]). destruct I.
Qed.
Lemma exW_syntaxFree : syntaxFree exW_L exM_db.
Proof. refine (exM_cases (fun n st => isAssertion st -> syntaxSt exW_L st -> s_reqDisj st = []) _). intros i st I _ _. cbn in I. repeat (destruct I as [I|I]; [injection I as <- <-; reflexivity|]). destruct I. Qed.
Lemma exW_syntaxProofs : syntaxProofs exW_L exW_te.
Proof.
  intros n m [st [S [A [c [r [E LC]]]]]] T. exfalso. apply not_theorem in T. destruct T as [st' [S' P]]. unfold stmtAt in S, S'. cbn [exW_te t_db] in S, S'. rewrite S in S'. injection S' as <-.
  revert n st S A c r E LC P. refine (exM_cases (fun n st => isAssertion st -> forall c r, s_math st = c :: r -> exW_L c = false -> s_type st = S_p -> False) _).
  intros i st I A c r E LC P. cbn in I. repeat (destruct I as [I|I]; [injection I as <- <-; first [discriminate P|injection E as <- <-; discriminate LC]|]). destruct I.
Qed.
Definition exW_p : list pstep := [Stm 3; Stm 3; Stm 3; Stm 5; Stm 7].
Lemma exW_good : goodProof exM_db 8 exM_st8 exW_p.
Proof.
  constructor.
  - split; [vm_compute; reflexivity|]. intros k i H. apply nth_error_In in H. repeat (destruct H as [H|H]; [discriminate|]). destruct H.
  - intros k i H. apply nth_error_In in H. repeat (destruct H as [H|H]; [discriminate|]). destruct H.
  - intros m H. repeat (destruct H as [H|H]; [injection H as <-; eexists; (split; [reflexivity|]); left; (split; [left; reflexivity|lia])|]). destruct H.
Qed.
Lemma exW_valid : validProof exM_db exM_st8 exW_p.
Proof.
  assert (DE : denotes exM_db (map encStep exW_p) exM_T).
  { pose proof (co_pip _ _ _ exM_complete) as PO. change (map encStep exW_p) with (pf exM_s). rewrite (po_rpn _ _ _ PO). apply rpn_denotes; [exact (po_tree _ _ _ PO)|exact (po_norefs _ _ _ PO)]. }
  assert (WD : wf_db exM_db) by (apply wf_dbB_ok; vm_compute; reflexivity).
  destruct (verifyProof 100 exM_db 8 exW_p 0 0) as [[[st ds] err]| | |] eqn:V; vm_compute in V; try discriminate V. injection V as <- <- <-.
  refine (C68_only_disj exM_db 8 exM_st8 exW_p exM_T 0 100 _ [] _ WD eq_refl eq_refl (Nat.le_0_l 2) DE exM_7 _ (fun d F => match F with end)). vm_compute. reflexivity.
Qed.
Example ex_C68 o w := conj (C68_keeps exW_L exW_N o exM_s exM_T w exW_world exM_complete exW_separated) (conj
  (C68_only_permitted exW_L exW_N o exM_s exM_T w exW_world exM_complete exW_separated) (conj
  (C68_no_new_axioms exW_L exW_N o exM_s exM_T w exM_st8 exW_p exW_world exW_tables exM_complete exW_separated exW_syntaxProofs eq_refl exW_good eq_refl)
  (C68_valid exW_L exW_N o exM_s exM_T w exM_st8 exW_p exW_world exW_tables exM_complete exW_separated exW_syntaxFree eq_refl exW_good eq_refl exM_7 exW_valid))).
