(* AuProps.v -- property C69 *)
From Verif Require Import Base.
From Verif Require Import UniModel HenModel.
From Verif Require Import MMSpec VerModel VerSpec ParModel SqModel SqSpec SqAttr PfaModel PfaSpec FltModel FltSpec RepSpec AkModel AkSpec MinModel MinSpec MinProps VerProofs AuModel AuSpec AuSess.
From Verif Require AuProofs AuMain AuTop MwProps AkMain VerExample AuInit.
Open Scope nat_scope.

(* autoUnify() ends, without an internal error.  It substitutes expressions for unknowns,
   the same everywhere, and nothing else; the proof stays one where every step is an
   instance of its statement; if it reports no change there is none; and it changes nothing
   if all is unified. *)
Theorem C69_auto_unify : forall E m s T, auOk E -> goal E m -> linked E m s T ->
  exists s' ch nu K, (forall w fuel congrats, K <= w -> K <= fuel -> autoUnify w fuel E congrats s = Ok (s', ch, congrats && nu)) /\
    (exists f, substituted (u_mt (f_u E)) f s s') /\ linked E m s' T /\ (ch = false -> s' = s) /\ (unified3 s -> s' = s /\ ch = false) /\
    (nu = true -> unified3 s' /\ ~ In zUnk (pf s')).
Proof. intros E m s T A G. exact (auto_unify E m A G s T). Qed.
Print Assumptions C69_auto_unify.

(* It congratulates if there is nothing left to do. *)
Theorem C69_says_so : forall E m s T w fuel, linked E m s T -> unified3 s -> ~ In zUnk (pf s) -> autoUnify (S w) fuel E true s = Ok (s, false, true).
Proof. exact says_so. Qed.
Print Assumptions C69_says_so.

(* Whatever the commands of a session with MM-PA were, and in whatever order: if the next is
   sensible it ends, without an internal error. *)
Theorem C69_ends : forall E m x b o old, auOk E -> goal E m -> session E m x b -> sensible E x o ->
  exists x' b' K, forall fuel, K <= fuel -> perform fuel E old x o = Ok (x', b').
Proof. intros E m x b o old A G. exact (session_ends E m A G x b o old). Qed.
Print Assumptions C69_ends.

(* At any time the proof in progress is a tree of the statement to be proved, where every
   step is an instance of its statement. *)
Theorem C69_linked : forall E m x b, auOk E -> goal E m -> session E m x b -> exists T, linked E m (fst x) T.
Proof. intros E m x b A G. exact (session_tree E m A G x b). Qed.
Print Assumptions C69_linked.

(* After the congratulations, the proof has no unknown step, every step is unified and shows
   the expression displayed for it, and the whole shows the statement to be proved. *)
Theorem C69_congratulations : forall E m x, auOk E -> goal E m -> session E m x true ->
  exists T, pf (fst x) = rpn T /\ ~ In zUnk (pf (fst x)) /\ unified3 (fst x) /\ complete E (fst x) T /\ shows (f_db E) anything T m.
Proof. intros E m x A G. exact (congratulations E m A G x). Qed.
Print Assumptions C69_congratulations.

(* VERIFY PROOF of such a proof can report nothing but $d violations, and if it reports none
   the proof is valid. *)
Theorem C69_verifies : forall E m x k stp p sev fuel st ds err, auOk E -> goal E m -> session E m x true ->
  stmtAt (f_db E) k stp -> s_type stp = S_p -> m = s_math stp -> map encStep p = pf (fst x) -> sev <= 2 ->
  verifyProof fuel (f_db E) k p sev 0 = Ok (st, ds, err) -> (forall d, In d ds -> ~ isDisj d) -> validProof (f_db E) stp p.
Proof. intros E m x k stp p sev fuel st ds err A G. exact (verifies E m A G x k stp p sev fuel st ds err). Qed.
Print Assumptions C69_verifies.

(* PROVE of an existing proof whose finished parts show something: it ends, there is no
   complaint, and every step is an instance of its statement. *)
Theorem C69_prove : forall E m p T old, auOk E -> goal E m -> proofLike E p T -> partsShow E p ->
  exists s' dv' K, (forall fuel, K <= fuel -> initProofStruct fuel E old p m = Ok (true, (s', dv'))) /\ linked E m s' T.
Proof. intros E m p T old A G. exact (prove_existing E m A G p T old). Qed.
Print Assumptions C69_prove.
(* The finished parts show something, in a plain database, if everything is unified. *)
Theorem C69_parts : forall E m s T, auOk E -> goal E m -> linked E m s T -> plainDb E -> unified3 s -> partsShow E (pf s).
Proof. intros E m s T A G. exact (parts_show E m A s T). Qed.
Print Assumptions C69_parts.

(* ---------- an example ---------- *)
(* the database of MinProps.  Statement 8, 0 = 0, is proved by transitivity (7), from 0 = 0
   by reflexivity (5); the terms (3) come last *)
Lemma exU_au : auOk exM_E.
Proof.
  constructor.
  - exact exM_flt.
  - intros st S. injection S as <-. split; intros [H|H]; discriminate H.
  - refine (exM_cases (fun n st => isHyp st -> s_reqHyps st = []) _). intros i st I H. cbn in I. repeat (destruct I as [I|I]; [injection I as <- <-; first [reflexivity|destruct H as [H|H]; discriminate H]|]). destruct I.
  - exact exM_floated.
Qed.
Lemma exU_goal : goal exM_E [6; 3; 5; 3].
Proof. split; [discriminate|]. intros t I. repeat (destruct I as [<-|I]; [cbn; lia|]). destruct I. Qed.
Definition exU_none : list hst -> option nat := fun _ => None.
Definition exU_start : pst := (mkPip [zUnk] [toZ [6; 3; 5; 3]] [[]] [[]], 0).
Definition exU_do (o : order) (x : pst) : pst := match perform 60 exM_E (fun _ => 0%Z) x o with Ok r => fst r | _ => x end.
Definition exU_1 := Eval vm_compute in exU_do (O_assign 1 7 false false exU_none) exU_start.
Definition exU_2 := Eval vm_compute in exU_do (O_assign 3 5 false false exU_none) exU_1.
Definition exU_3 := Eval vm_compute in exU_do (O_assign 1 3 false false exU_none) exU_2.
Definition exU_4 := Eval vm_compute in exU_do (O_letVar 3 [3]) exU_3.
Definition exU_5 := Eval vm_compute in exU_do (O_assign 2 3 false false exU_none) exU_4.
Definition exU_6 := Eval vm_compute in exU_do (O_assign 3 3 false false exU_none) exU_5.
Ltac exU_run := let n := fresh in let L := fresh in exists 60; intros n L; replace n with (60 + (n - 60)) by lia; generalize (n - 60); clear; intros n; vm_compute; reflexivity.
Lemma exU_session : session exM_E [6; 3; 5; 3] exU_6 true.
Proof.
  assert (SE : forall x n k, In k [3; 5; 7] -> sensible exM_E x (O_assign n k false false exU_none)).
  { intros x n k I. repeat (destruct I as [<-|I]; [eexists; (split; [reflexivity|]); right; left; reflexivity|]). destruct I. }
  assert (S0 : session exM_E [6; 3; 5; 3] exU_start false) by apply se_start.
  assert (S1 : session exM_E [6; 3; 5; 3] exU_1 false).
  { apply (se_order _ _ exU_start false (O_assign 1 7 false false exU_none) (fun _ => 0%Z) _ _ S0); [apply SE; cbn; auto|exU_run]. }
  assert (S2 : session exM_E [6; 3; 5; 3] exU_2 false).
  { apply (se_order _ _ exU_1 false (O_assign 3 5 false false exU_none) (fun _ => 0%Z) _ _ S1); [apply SE; cbn; auto|exU_run]. }
  assert (S3 : session exM_E [6; 3; 5; 3] exU_3 false).
  { apply (se_order _ _ exU_2 false (O_assign 1 3 false false exU_none) (fun _ => 0%Z) _ _ S2); [apply SE; cbn; auto|exU_run]. }
  assert (S4 : session exM_E [6; 3; 5; 3] exU_4 false).
  { apply (se_order _ _ exU_3 false (O_letVar 3 [3]) (fun _ => 0%Z) _ _ S3); [cbn; intros [H|[]]; discriminate H|exU_run]. }
  assert (S5 : session exM_E [6; 3; 5; 3] exU_5 false).
  { apply (se_order _ _ exU_4 false (O_assign 2 3 false false exU_none) (fun _ => 0%Z) _ _ S4); [apply SE; cbn; auto|exU_run]. }
  apply (se_order _ _ exU_5 false (O_assign 3 3 false false exU_none) (fun _ => 0%Z) _ _ S5); [apply SE; cbn; auto|exU_run].
Qed.
Example ex_C69 := C69_congratulations exM_E [6; 3; 5; 3] exU_6 exU_au exU_goal exU_session.
(* and it is the proof of MinProps *)
Example ex_C69_pf : pf (fst exU_6) = pf exM_s.
Proof. reflexivity. Qed.
Example ex_C69_valid : validProof exM_db exM_st8 [Stm 3; Stm 3; Stm 3; Stm 5; Stm 7].
Proof.
  destruct (verifyProof 100 exM_db 8 [Stm 3; Stm 3; Stm 3; Stm 5; Stm 7] 0 0) as [[[st ds] err]| | |] eqn:V; vm_compute in V; try discriminate V. injection V as <- <- <-.
  refine (C69_verifies exM_E [6; 3; 5; 3] exU_6 8 exM_st8 [Stm 3; Stm 3; Stm 3; Stm 5; Stm 7] 0 100 _ [] _ exU_au exU_goal exU_session eq_refl eq_refl eq_refl eq_refl (Nat.le_0_l 2) _ (fun d F => match F with end)). vm_compute. reflexivity.
Qed.
Example ex_C69_ends o old := C69_ends exM_E [6; 3; 5; 3] exU_6 true o old exU_au exU_goal exU_session.
(* PROVE of that proof, INITIALIZE of everything in turn, UNIFY ALL *)
Definition exU_p : list Z := [3; 3; 3; 5; 7]%Z.
Lemma exU_like : proofLike exM_E exU_p exM_T.
Proof.
  constructor; [reflexivity|repeat constructor| |].
  - intros z I. cbn in I. repeat (destruct I as [<-|I]; [reflexivity|]). destruct I.
  - intros z I. left. cbn in I. lia.
Qed.
Lemma exU_linked : linked exM_E [6; 3; 5; 3] (fst exU_6) exM_T.
Proof.
  destruct (C69_linked _ _ _ _ exU_au exU_goal exU_session) as [T L]. replace exM_T with T; [exact L|].
  pose proof (lk_pip _ _ _ _ L) as PO. apply (SqValid.denotes_fun exM_db exU_p).
  - replace exU_p with (rpn T) by (symmetry; exact (po_rpn _ _ _ PO)). exact (SqValid.rpn_denotes exM_db T (po_tree _ _ _ PO) (po_norefs _ _ _ PO)).
  - exact (SqValid.rpn_denotes exM_db exM_T (pl_tree _ _ _ exU_like) (pl_norefs _ _ _ exU_like)).
Qed.
Lemma exU_parts : partsShow exM_E exU_p.
Proof.
  apply (C69_parts exM_E [6; 3; 5; 3] (fst exU_6) exM_T exU_au exU_goal exU_linked exM_plain).
  destruct (C69_congratulations _ _ _ exU_au exU_goal exU_session) as [T [_ [_ [U _]]]]. exact U.
Qed.
Definition exU_7 : pst := Eval vm_compute in match initProofStruct 60 exM_E (fun _ => 0%Z) exU_p [6; 3; 5; 3] with Ok r => snd r | _ => exU_start end.
Definition exU_8 := Eval vm_compute in exU_do (O_initStep 4) exU_7.
Definition exU_9 := Eval vm_compute in exU_do O_initUser exU_8.
Definition exU_10 := Eval vm_compute in exU_do O_initAll exU_9.
Definition exU_11 := Eval vm_compute in exU_do O_unifyAll exU_10.
Lemma exU_session2 : session exM_E [6; 3; 5; 3] exU_11 true.
Proof.
  assert (S7 : session exM_E [6; 3; 5; 3] exU_7 false) by (apply (se_proof _ _ exU_p exM_T (fun _ => 0%Z) true _ exU_like exU_parts); exU_run).
  assert (S8 : session exM_E [6; 3; 5; 3] exU_8 false) by (apply (se_order _ _ exU_7 false (O_initStep 4) (fun _ => 0%Z) _ _ S7 I); exU_run).
  assert (S9 : session exM_E [6; 3; 5; 3] exU_9 false) by (apply (se_order _ _ exU_8 false O_initUser (fun _ => 0%Z) _ _ S8 I); exU_run).
  assert (S10 : session exM_E [6; 3; 5; 3] exU_10 false) by (apply (se_order _ _ exU_9 false O_initAll (fun _ => 0%Z) _ _ S9 exU_parts); exU_run).
  apply (se_order _ _ exU_10 false O_unifyAll (fun _ => 0%Z) _ _ S10 I); exU_run.
Qed.
Example ex_C69_session2 := C69_congratulations exM_E [6; 3; 5; 3] exU_11 exU_au exU_goal exU_session2.
Example ex_C69_prove := C69_prove exM_E [6; 3; 5; 3] exU_p exM_T (fun _ => 0%Z) exU_au exU_goal exU_like exU_parts.
(* the step that was initialized had its unknowns again *)
Example ex_C69_fresh : nth 3 (sr (fst exU_8)) [] <> nth 3 (tg (fst exU_8)) [].
Proof. vm_compute. discriminate. Qed.

(* ---------- what goes wrong otherwise ---------- *)
(* Without the condition on INITIALIZE ALL the congratulations may be false: a proof that is
   not unified, because of a wrong assignment; INITIALIZE ALL complains ("Zapping targets so
   we can proceed") and makes the targets equal to the sources; UNIFY ALL finds nothing to
   object to. *)
Definition exN_stmts : list stmtRec := [
  mkStmt S_other [] [] [] [] [] [];
  mkStmt S_f [7; 1] [] [] [] [] [];                                   (* 1 $f wff x *)
  mkStmt S_f [7; 2] [] [] [] [] [];                                   (* 2 $f wff y *)
  mkStmt S_f [7; 3] [] [] [] [] [];                                   (* 3 $f wff z *)
  mkStmt S_a [7; 4] [] [] [] [] [];                                   (* 4 $a wff 0 *)
  mkStmt S_a [7; 5] [] [] [] [] [];                                   (* 5 $a wff 1 *)
  mkStmt S_e [6; 1; 1; 1] [] [] [] [] [];                             (* 6 $e |- x x x *)
  mkStmt S_a [6; 1] [1; 6] [] [1] [] [];                              (* 7 $a |- x *)
  mkStmt S_a [6; 2; 3] [2; 3] [] [2; 3] [] [];                        (* 8 $a |- y z *)
  mkStmt S_p [6; 4] [] [] [] [] []].                                  (* 9 $p |- 0 *)
Definition exN_isvar (t : nat) := (t =? 1) || (t =? 2) || (t =? 3).
Definition exN_db : dbase := mkDb exN_isvar 20 exN_stmts.
Definition exN_U : uenv := mkUenv 20 1 1000 (fun t => (t <=? 20) && negb (exN_isvar t)) (fun t => [48 + t])
  (map s_math (filter (fun st => match s_type st with S_a => true | _ => false end) exN_stmts)).
Definition exN_E : fenv := mkF exN_db exN_U 9 0 false 2 (fun _ => false) true 0 10 0 1000 true 0 [] [].
Lemma exN_cases (P : nat -> stmtRec -> Prop) : (forall i st, In (i, st) (combine (seq 0 10) exN_stmts) -> P i st) -> forall n st, stmtAt exN_db n st -> P n st.
Proof. intros H n st S. apply H. do 10 (destruct n as [|n]; [injection S as <-; cbn; intuition congruence|]). unfold stmtAt in S. cbn in S. destruct n; discriminate S. Qed.
Lemma exN_flt : fltOk exN_E None.
Proof.
  constructor.
  - apply VerExample.wf_dbB_ok. vm_compute. reflexivity.
  - reflexivity.
  - intros t. cbn [exN_E f_u f_db u_con exN_U exN_db db_sep]. intros H. apply andb_prop in H. destruct H as [H _]. apply Nat.leb_le. exact H.
  - cbn. lia.
  - intros n st t S K. revert t. revert n st S K. refine (exN_cases (fun n st => isHyp st \/ isAssertion st -> forall t, In t (s_math st) -> t < 20) _).
    intros i st I _ t J. cbn in I. repeat (destruct I as [I|I]; [injection I as <- <-; cbn in J; lia|]). destruct I.
  - intros n st S A NE v I. revert n st S A NE v I. refine (exN_cases (fun n st => isAssertion st -> ~ hasE _ st -> forall v, In v (s_reqVars st) -> In v (s_math st)) _).
    intros i st I _ _ v J. cbn in I. repeat (destruct I as [I|I]; [injection I as <- <-; cbn in J |- *; tauto|]). destruct I.
  - eexists. reflexivity.
  - intros h [stn [S K]]. injection S as <-. cbn in K. destruct K as [[]|[]].
  - cbn. lia.
  - reflexivity.
Qed.
Lemma exN_au : auOk exN_E.
Proof.
  constructor.
  - exact exN_flt.
  - intros st S. injection S as <-. split; intros [H|H]; discriminate H.
  - refine (exN_cases (fun n st => isHyp st -> s_reqHyps st = []) _). intros i st I H. cbn in I. repeat (destruct I as [I|I]; [injection I as <- <-; first [reflexivity|destruct H as [H|H]; discriminate H]|]). destruct I.
  - refine (exN_cases (fun n st => isAssertion st -> floated exN_db st) _). intros i st I A. cbn in I.
    repeat (destruct I as [I|I]; [injection I as <- <-; first [destruct A as [A|A]; discriminate A|intros t J; cbn in J; repeat (destruct J as [<-|J]; [first [exists 1; eexists; exists 7; (split; [cbn; tauto|]); (split; [reflexivity|]); split; reflexivity
      |exists 2; eexists; exists 7; (split; [cbn; tauto|]); (split; [reflexivity|]); split; reflexivity|exists 3; eexists; exists 7; (split; [cbn; tauto|]); (split; [reflexivity|]); split; reflexivity]|]); destruct J]|]). destruct I.
Qed.
Lemma exN_goal : goal exN_E [6; 4].
Proof. split; [discriminate|]. intros t I. repeat (destruct I as [<-|I]; [cbn; lia|]). destruct I. Qed.
Definition exN_do (o : order) (x : pst) : pst := match perform 60 exN_E (fun _ => 0%Z) x o with Ok r => fst r | _ => x end.
Definition exN_start : pst := (mkPip [zUnk] [toZ [6; 4]] [[]] [[]], 0).
Definition exN_1 := Eval vm_compute in exN_do (O_assign 1 7 false true exU_none) exN_start.
Definition exN_2 := Eval vm_compute in exN_do (O_assign 2 8 false true exU_none) exN_1.
Definition exN_3 := Eval vm_compute in exN_do (O_assign 1 4 false true exU_none) exN_2.
Definition exN_4 := Eval vm_compute in exN_do (O_assign 2 5 false true exU_none) exN_3.
Definition exN_5 := Eval vm_compute in exN_do (O_assign 3 5 false true exU_none) exN_4.
Definition exN_6 := Eval vm_compute in exN_do O_initAll exN_5.
Definition exN_7 := Eval vm_compute in exN_do O_unifyAll exN_6.
Ltac exN_run := let n := fresh in let L := fresh in exists 60; intros n L; replace n with (60 + (n - 60)) by lia; generalize (n - 60); clear; intros n; vm_compute; reflexivity.
Lemma exN_session : session exN_E [6; 4] exN_5 false.
Proof.
  assert (SE : forall x n k, In k [4; 5; 7; 8] -> sensible exN_E x (O_assign n k false true exU_none)).
  { intros x n k I. repeat (destruct I as [<-|I]; [eexists; (split; [reflexivity|]); right; left; reflexivity|]). destruct I. }
  assert (S0 : session exN_E [6; 4] exN_start false) by apply se_start.
  assert (S1 : session exN_E [6; 4] exN_1 false) by (apply (se_order _ _ exN_start false (O_assign 1 7 false true exU_none) (fun _ => 0%Z) _ _ S0); [apply SE; cbn; auto|exN_run]).
  assert (S2 : session exN_E [6; 4] exN_2 false) by (apply (se_order _ _ exN_1 false (O_assign 2 8 false true exU_none) (fun _ => 0%Z) _ _ S1); [apply SE; cbn; auto|exN_run]).
  assert (S3 : session exN_E [6; 4] exN_3 false) by (apply (se_order _ _ exN_2 false (O_assign 1 4 false true exU_none) (fun _ => 0%Z) _ _ S2); [apply SE; cbn; auto|exN_run]).
  assert (S4 : session exN_E [6; 4] exN_4 false) by (apply (se_order _ _ exN_3 false (O_assign 2 5 false true exU_none) (fun _ => 0%Z) _ _ S3); [apply SE; cbn; auto|exN_run]).
  apply (se_order _ _ exN_4 false (O_assign 3 5 false true exU_none) (fun _ => 0%Z) _ _ S4); [apply SE; cbn; auto|exN_run].
Qed.
(* nothing of the form ... 8 7 shows |- 0 *)
Lemma exN_wrong : forall T, rpn T = [4; 5; 5; 8; 7]%Z -> wfTree exN_db T -> ~ shows exN_db anything T [6; 4].
Proof.
  intros T ET W H. assert (T = Node 7 [Node 4 []; Node 8 [Node 5 []; Node 5 []]]).
  { apply (SqValid.denotes_fun exN_db [4; 5; 5; 8; 7]%Z).
    - rewrite <- ET. apply SqValid.rpn_denotes; [exact W|]. rewrite ET. intros z I. cbn in I. repeat (destruct I as [<-|I]; [reflexivity|]). destruct I.
    - apply (SqValid.rpn_denotes exN_db (Node 7 [Node 4 []; Node 8 [Node 5 []; Node 5 []]])); [repeat constructor|]. intros z I. cbn in I. repeat (destruct I as [<-|I]; [reflexivity|]). destruct I. }
  subst T. clear ET W.
  assert (X5 : forall x, shows exN_db anything (Node 5 []) x -> x = [7; 5]).
  { intros x K. destruct (AkMain.shows_node _ _ _ _ _ K) as [[h [sh [_ [Z [_ [S [HY ->]]]]]]]|[n [st [xs [sg [_ [Z [S [_ [_ [_ [_ [_ ->]]]]]]]]]]]]].
    - assert (h = 5) by lia. subst h. injection S as <-. destruct HY as [HY|HY]; discriminate HY.
    - assert (n = 5) by lia. subst n. injection S as <-. reflexivity. }
  destruct (AkMain.shows_node _ _ _ _ _ H) as [[h [sh [_ [Z [K _]]]]]|[n [st [xs [sg [_ [Z [S [_ [_ [F [U _]]]]]]]]]]]]; [discriminate K|].
  assert (n = 7) by lia. subst n. injection S as <-. inversion F as [|? x1 ? xs1 F1 F2]; subst. inversion F2 as [|? x2 ? xs2 F3 F4]; subst. inversion F4; subst. clear F F2 F4 F1 H Z.
  inversion U as [|? ? ? ? _ U2]; subst. inversion U2 as [|? ? ? ? [sh [S E2]] _]; subst. injection S as <-. clear U U2.
  destruct (AkMain.shows_node _ _ _ _ _ F3) as [[h [sh [_ [Z [K _]]]]]|[n [st [ys [tau [_ [Z [S [_ [_ [F [U [_ E]]]]]]]]]]]]]; [discriminate K|].
  assert (n = 8) by lia. subst n. injection S as <-. inversion F as [|? y1 ? ys1 G1 G2]; subst. inversion G2 as [|? y2 ? ys2 G3 G4]; subst. inversion G4; subst. apply X5 in G1, G3. subst y1 y2.
  inversion U as [|? ? ? ? [sa [Sa Ea]] U2]; subst. inversion U2 as [|? ? ? ? [sb [Sb Eb]] _]; subst. injection Sa as <-. injection Sb as <-. cbn in Ea, Eb, E. rewrite app_nil_r in Ea, Eb. injection Ea as Ea. injection Eb as Eb. rewrite Ea, Eb in E. cbn in E.
  apply (f_equal (@length nat)) in E. cbn in E. rewrite !app_length in E. cbn in E. lia.
Qed.
Theorem C69_initialize_refuted : exists E m x x1 x2, auOk E /\ goal E m /\ session E m x false /\
  (exists K, forall fuel, K <= fuel -> perform fuel E (fun _ => 0%Z) x O_initAll = Ok (x1, false)) /\
  (exists K, forall fuel, K <= fuel -> perform fuel E (fun _ => 0%Z) x1 O_unifyAll = Ok (x2, true)) /\
  forall T, rpn T = pf (fst x2) -> wfTree (f_db E) T -> ~ shows (f_db E) anything T m.
Proof.
  exists exN_E, [6; 4], exN_5, exN_6, exN_7. split; [exact exN_au|]. split; [exact exN_goal|]. split; [exact exN_session|]. split; [exN_run|]. split; [exN_run|]. exact exN_wrong.
Qed.
Print Assumptions C69_initialize_refuted.
