(* SesProps.v -- property C72 *)
From Verif Require Import Base.
From Verif Require Import UniModel HenModel.
From Verif Require Import MMSpec VerModel VerSpec ParModel SqModel SqSpec SqAttr PfaModel PfaSpec FltModel FltSpec RepSpec AkModel AkSpec MinModel MinSpec MinProps VerProofs AuModel AuSpec AuProps ImpModel ImpSpec ImpProps.
From Verif Require Import UndoModel SesSpec.
From Verif Require SesProofs VerExample.
Open Scope nat_scope.

(* Whatever the commands of a session with MM-PA were, UNDO and REDO included, in whatever
   order: the proof on display is the one on top of the stack, and a tree of the statement to
   be proved, where every step is an instance of its statement. *)
Theorem C72_linked : forall E m I (noInfo : I) u s0 x0 cs x b, auOk E -> goal E m -> begun E m noInfo u s0 x0 -> whole E m noInfo s0 x0 cs x b ->
  (exists st a, run pip I noProof noInfo s0 cs = Ok (st, a) /\ s_cur pip I st = fst x) /\ exists T, linked E m (fst x) T.
Proof.
  intros E m I ni u s0 x0 cs x b A G B W. destruct (SesProofs.whole_ok E A m G I ni u s0 x0 B cs x b W) as [H [_ [T [L _]]]]. split; [exact H|]. exists T. exact L.
Qed.
Print Assumptions C72_linked.

(* The next command ends, without an internal error. *)
Theorem C72_ends : forall E m I (noInfo : I) u s0 x0 cs x b, auOk E -> goal E m -> begun E m noInfo u s0 x0 -> whole E m noInfo s0 x0 cs x b ->
  (forall o old, sensible E x o -> exists x' b' K, forall fuel, K <= fuel -> perform fuel E old x o = Ok (x', b')) /\
  (exists s', deleteFloating (f_db E) (fst x) = Ok s') /\
  (forall c, looking c -> exists st a, run pip I noProof noInfo s0 (cs ++ [c]) = Ok (st, a)).
Proof. intros E m I ni u s0 x0 cs x b A G B. exact (SesProofs.whole_ends E A m G I ni u s0 x0 B cs x b). Qed.
Print Assumptions C72_ends.

(* When the congratulations have been printed, the proof is complete ... *)
Theorem C72_congratulations : forall E m I (noInfo : I) u s0 x0 cs x, auOk E -> goal E m -> begun E m noInfo u s0 x0 -> whole E m noInfo s0 x0 cs x true ->
  exists T, pf (fst x) = rpn T /\ ~ In zUnk (pf (fst x)) /\ unified3 (fst x) /\ complete E (fst x) T /\ shows (f_db E) anything T m.
Proof. intros E m I ni u s0 x0 cs x A G B. exact (SesProofs.whole_done E A m G I ni u s0 x0 B cs x). Qed.
Print Assumptions C72_congratulations.
Theorem C72_verifies : forall E m I (noInfo : I) u s0 x0 cs x k stp p sev fuel st ds err, auOk E -> goal E m -> begun E m noInfo u s0 x0 -> whole E m noInfo s0 x0 cs x true ->
  stmtAt (f_db E) k stp -> s_type stp = S_p -> m = s_math stp -> map encStep p = pf (fst x) -> sev <= 2 ->
  verifyProof fuel (f_db E) k p sev 0 = Ok (st, ds, err) -> (forall d, In d ds -> ~ isDisj d) -> validProof (f_db E) stp p.
Proof. intros E m I ni u s0 x0 cs x k stp p sev fuel st ds err A G B. exact (SesProofs.whole_verifies E A m G I ni u s0 x0 B cs x k stp p sev fuel st ds err). Qed.
Print Assumptions C72_verifies.
(* ... and it is that proof again after any changes (no more than SET UNDO allows) and as many
   UNDOs. *)
Theorem C72_back : forall E m I (noInfo : I) u s0 x0 cs x b es st a, auOk E -> goal E m -> begun E m noInfo u s0 x0 -> whole E m noInfo s0 x0 cs x b ->
  run pip I noProof noInfo s0 cs = Ok (st, a) -> (Z.of_nat (length es) <= u_size pip I (s_u pip I st) - 1)%Z ->
  exists st' a', run pip I noProof noInfo st (map (fun e => Edit pip I (fst e) (snd e)) es ++ repeat (Undo pip I) (length es)) = Ok (st', a') /\ s_cur pip I st' = fst x.
Proof. intros E m I ni u s0 x0 cs x b es st a A G B. exact (SesProofs.whole_back E A m G I ni u s0 x0 B cs x b es st a). Qed.
Print Assumptions C72_back.

(* ---------- an example ---------- *)
(* P, Q variables (1, 2); 3 "->", 4, 5, 8 "A", "B", "C", 6 "|-", 7 "wff" *)
Definition exD_stmts : list stmtRec := [
  mkStmt S_other [] [] [] [] [] [];
  mkStmt S_f [7; 1] [] [] [] [] [];                                   (* 1 $f wff P *)
  mkStmt S_f [7; 2] [] [] [] [] [];                                   (* 2 $f wff Q *)
  mkStmt S_a [7; 3; 1; 2] [1; 2] [] [1; 2] [] [];                     (* 3 $a wff -> P Q *)
  mkStmt S_a [7; 4] [] [] [] [] [];                                   (* 4 $a wff A *)
  mkStmt S_a [7; 5] [] [] [] [] [];                                   (* 5 $a wff B *)
  mkStmt S_a [7; 8] [] [] [] [] [];                                   (* 6 $a wff C *)
  mkStmt S_e [6; 1] [] [] [] [] [];                                   (* 7 $e |- P *)
  mkStmt S_e [6; 3; 1; 2] [] [] [] [] [];                             (* 8 $e |- -> P Q *)
  mkStmt S_a [6; 2] [1; 2; 7; 8] [] [1; 2] [] [];                     (* 9 $a |- Q *)
  mkStmt S_a [6; 4] [] [] [] [] [];                                   (* 10 $a |- A *)
  mkStmt S_a [6; 3; 4; 5] [] [] [] [] [];                             (* 11 $a |- -> A B *)
  mkStmt S_a [6; 3; 5; 8] [] [] [] [] [];                             (* 12 $a |- -> B C *)
  mkStmt S_p [6; 8] [] [] [] [] []].                                  (* 13 $p |- C *)
Definition exD_isvar (t : nat) := (t =? 1) || (t =? 2).
Definition exD_db : dbase := mkDb exD_isvar 20 exD_stmts.
Definition exD_U : uenv := mkUenv 20 1 1000 (fun t => (t <=? 20) && negb (exD_isvar t)) (fun t => [48 + t])
  (map s_math (filter (fun st => match s_type st with S_a => true | _ => false end) exD_stmts)).
Definition exD_E : fenv := mkF exD_db exD_U 13 0 false 2 (fun _ => false) true 0 14 0 1000 true 0 [] [].
Lemma exD_cases (P : nat -> stmtRec -> Prop) : (forall i st, In (i, st) (combine (seq 0 14) exD_stmts) -> P i st) -> forall n st, stmtAt exD_db n st -> P n st.
Proof. intros H n st S. apply H. do 14 (destruct n as [|n]; [injection S as <-; cbn; intuition congruence|]). unfold stmtAt in S. cbn in S. destruct n; discriminate S. Qed.
Lemma exD_flt : fltOk exD_E None.
Proof.
  constructor.
  - apply VerExample.wf_dbB_ok. vm_compute. reflexivity.
  - reflexivity.
  - intros t. cbn [exD_E f_u f_db u_con exD_U exD_db db_sep]. intros H. apply andb_prop in H. destruct H as [H _]. apply Nat.leb_le. exact H.
  - cbn. lia.
  - intros n st t S K. revert t. revert n st S K. refine (exD_cases (fun n st => isHyp st \/ isAssertion st -> forall t, In t (s_math st) -> t < 20) _).
    intros i st I _ t J. cbn in I. repeat (destruct I as [I|I]; [injection I as <- <-; cbn in J; lia|]). destruct I.
  - intros n st S A NE v I. revert n st S A NE v I. refine (exD_cases (fun n st => isAssertion st -> ~ hasE _ st -> forall v, In v (s_reqVars st) -> In v (s_math st)) _).
    intros i st I _ NE v J. cbn in I. repeat (destruct I as [I|I]; [injection I as <- <-; first [cbn in J |- *; tauto|exfalso; apply NE; exists 7; eexists; (split; [cbn; tauto|]); (split; [reflexivity|]); reflexivity]|]). destruct I.
  - eexists. reflexivity.
  - intros h [stn [S K]]. injection S as <-. cbn in K. destruct K as [[]|[]].
  - cbn. lia.
  - reflexivity.
Qed.
Lemma exD_au : auOk exD_E.
Proof.
  constructor.
  - exact exD_flt.
  - intros st S. injection S as <-. split; intros [H|H]; discriminate H.
  - refine (exD_cases (fun n st => isHyp st -> s_reqHyps st = []) _). intros i st I H. cbn in I. repeat (destruct I as [I|I]; [injection I as <- <-; first [reflexivity|destruct H as [H|H]; discriminate H]|]). destruct I.
  - refine (exD_cases (fun n st => isAssertion st -> floated exD_db st) _). intros i st I A. cbn in I.
    repeat (destruct I as [I|I]; [injection I as <- <-; first [destruct A as [A|A]; discriminate A|intros t J; cbn in J; repeat (destruct J as [<-|J]; [first [exists 1; eexists; exists 7; (split; [cbn; tauto|]); (split; [reflexivity|]); split; reflexivity
      |exists 2; eexists; exists 7; (split; [cbn; tauto|]); (split; [reflexivity|]); split; reflexivity]|]); destruct J]|]). destruct I.
Qed.
Lemma exD_goal : goal exD_E [6; 8].
Proof. split; [discriminate|]. intros t I. repeat (destruct I as [<-|I]; [cbn; lia|]). destruct I. Qed.

(* PROVE; ASSIGN 1 9 (modus ponens); DELETE ALL; ASSIGN 1 9; INITIALIZE ALL; UNDO *)
Definition exD_u : ust pip nat := uinit pip nat 20.
Definition exD_0 : pst := (mkPip [zUnk] [toZ [6; 8]] [[]] [[]], 0).
Definition exD_s0 : sess pip nat := Eval vm_compute in match prove pip nat noProof 0 exD_u (fst exD_0) with Ok s => s | _ => mkSess pip nat exD_u noProof false false noProof end.
Lemma exD_begun : begun exD_E [6; 8] 0 exD_u exD_s0 exD_0.
Proof. split; [apply idle_start|]. split; [apply op_unknown|reflexivity]. Qed.
Definition exD_do (o : order) (x : pst) : pst := match perform 60 exD_E (fun _ => 0%Z) x o with Ok r => fst r | _ => x end.
Definition exD_as n k := O_assign n k false false exU_none.
Definition exD_1 := Eval vm_compute in exD_do (exD_as 1 9) exD_0.
Definition exD_2 := Eval vm_compute in exD_do (O_delete 5) exD_1.
Definition exD_3 := Eval vm_compute in exD_do (exD_as 1 9) exD_2.
Definition exD_4 := Eval vm_compute in exD_do O_initAll exD_3.
Definition exD_5 : pst := (fst exD_3, snd exD_4).
Ltac exD_run := let n := fresh in let L := fresh in exists 60; intros n L; replace n with (60 + (n - 60)) by lia; generalize (n - 60); clear; intros n; vm_compute; reflexivity.
Definition exD_edit (x : pst) : cmd pip nat := Edit pip nat (fst x) 0.
Lemma exD_sense : forall x n k, In k [4; 5; 6; 9; 10; 11; 12] -> sensible exD_E x (exD_as n k).
Proof. intros x n k I. repeat (destruct I as [<-|I]; [eexists; (split; [reflexivity|]); right; left; reflexivity|]). destruct I. Qed.
Lemma exD_step cs x b o x' b' : whole exD_E [6; 8] 0 exD_s0 exD_0 cs x b -> sensible exD_E x o -> (exists K, forall fuel, K <= fuel -> perform fuel exD_E (fun _ => 0%Z) x o = Ok (x', b')) ->
  whole exD_E [6; 8] 0 exD_s0 exD_0 (cs ++ [exD_edit x']) x' b'.
Proof. intros W S P. exact (wh_change _ _ _ _ _ cs x b x' b' 0 W (ch_order _ _ x o _ x' b' S P)). Qed.
Lemma exD_w3 : whole exD_E [6; 8] 0 exD_s0 exD_0 [exD_edit exD_1; exD_edit exD_2; exD_edit exD_3] exD_3 false.
Proof.
  pose proof (wh_start exD_E [6; 8] 0 exD_s0 exD_0) as W0.
  assert (W1 : whole exD_E [6; 8] 0 exD_s0 exD_0 ([] ++ [exD_edit exD_1]) exD_1 false) by (apply (exD_step _ _ _ (exD_as 1 9) _ _ W0); [apply exD_sense; cbn; tauto|exD_run]).
  assert (W2 : whole exD_E [6; 8] 0 exD_s0 exD_0 (([] ++ [exD_edit exD_1]) ++ [exD_edit exD_2]) exD_2 false) by (apply (exD_step _ _ _ (O_delete 5) _ _ W1); [cbn; lia|exD_run]).
  apply (exD_step _ _ _ (exD_as 1 9) _ _ W2); [apply exD_sense; cbn; tauto|exD_run].
Qed.
Lemma exD_parts : partsShow exD_E (pf (fst exD_3)).
Proof.
  destruct (C72_linked _ _ _ _ _ _ _ _ _ _ exD_au exD_goal exD_begun exD_w3) as [_ [T L]]. pose proof (lk_pip _ _ _ _ L) as PO.
  intros T' k path u E1 W N F. exfalso.
  assert (T' = Node 9 [Node zUnk []; Node zUnk []; Node zUnk []; Node zUnk []]).
  { apply (SqValid.denotes_fun exD_db (pf (fst exD_3))).
    - rewrite <- E1. apply SqValid.rpn_denotes; [exact W|]. rewrite E1. intros z I. cbn in I. repeat (destruct I as [<-|I]; [reflexivity|]). destruct I.
    - apply (SqValid.rpn_denotes exD_db (Node 9 [Node zUnk []; Node zUnk []; Node zUnk []; Node zUnk []])); [repeat constructor|]. intros z I. cbn in I. repeat (destruct I as [<-|I]; [reflexivity|]). destruct I. }
  subst T'. apply F. inversion N as [|? ? j c ? ? ? NJ NC]; subst; [cbn; tauto|].
  assert (c = unknown) by (do 4 (destruct j as [|j]; [injection NJ as <-; reflexivity|]); destruct j; discriminate NJ). subst c.
  inversion NC as [|? ? j' c' ? ? ? NJ' _]; subst; [cbn; tauto|]. destruct j'; discriminate NJ'.
Qed.
Lemma exD_w4 : whole exD_E [6; 8] 0 exD_s0 exD_0 [exD_edit exD_1; exD_edit exD_2; exD_edit exD_3; exD_edit exD_4] exD_4 false.
Proof. apply (exD_step [exD_edit exD_1; exD_edit exD_2; exD_edit exD_3] exD_3 false O_initAll _ _ exD_w3); [exact exD_parts|exD_run]. Qed.
Lemma exD_w5 : whole exD_E [6; 8] 0 exD_s0 exD_0 [exD_edit exD_1; exD_edit exD_2; exD_edit exD_3; exD_edit exD_4; Undo pip nat] exD_5 false.
Proof.
  pose (r := match run pip nat noProof 0 exD_s0 [exD_edit exD_1; exD_edit exD_2; exD_edit exD_3; exD_edit exD_4; Undo pip nat] with Ok q => q | _ => (exD_s0, []) end).
  assert (R : run pip nat noProof 0 exD_s0 [exD_edit exD_1; exD_edit exD_2; exD_edit exD_3; exD_edit exD_4; Undo pip nat] = Ok (fst r, snd r)) by (vm_compute; reflexivity).
  exact (wh_stack _ _ _ _ _ _ exD_4 false (Undo pip nat) (fst r) (snd r) exD_w4 Logic.I R).
Qed.
(* a session that is finished: from there on without INITIALIZE ALL *)
Definition exD_f1 := Eval vm_compute in exD_do (exD_as 3 9) exD_3.
Lemma exD_g1 : whole exD_E [6; 8] 0 exD_s0 exD_0 ([exD_edit exD_1; exD_edit exD_2; exD_edit exD_3] ++ [exD_edit exD_f1]) exD_f1 false.
Proof. apply (exD_step _ exD_3 false (exD_as 3 9) _ _ exD_w3); [apply exD_sense; cbn; tauto|exD_run]. Qed.
Definition exD_f2 := Eval vm_compute in exD_do (exD_as 5 10) exD_f1.
Lemma exD_g2 : whole exD_E [6; 8] 0 exD_s0 exD_0 (([exD_edit exD_1; exD_edit exD_2; exD_edit exD_3] ++ [exD_edit exD_f1]) ++ [exD_edit exD_f2]) exD_f2 false.
Proof. apply (exD_step _ exD_f1 false (exD_as 5 10) _ _ exD_g1); [apply exD_sense; cbn; tauto|exD_run]. Qed.
Definition exD_f3 := Eval vm_compute in exD_do (exD_as 6 11) exD_f2.
Lemma exD_g3 : whole exD_E [6; 8] 0 exD_s0 exD_0 ((([exD_edit exD_1; exD_edit exD_2; exD_edit exD_3] ++ [exD_edit exD_f1]) ++ [exD_edit exD_f2]) ++ [exD_edit exD_f3]) exD_f3 false.
Proof. apply (exD_step _ exD_f2 false (exD_as 6 11) _ _ exD_g2); [apply exD_sense; cbn; tauto|exD_run]. Qed.
Definition exD_f4 := Eval vm_compute in exD_do (exD_as 8 12) exD_f3.
Lemma exD_g4 : whole exD_E [6; 8] 0 exD_s0 exD_0 (((([exD_edit exD_1; exD_edit exD_2; exD_edit exD_3] ++ [exD_edit exD_f1]) ++ [exD_edit exD_f2]) ++ [exD_edit exD_f3]) ++ [exD_edit exD_f4]) exD_f4 false.
Proof. apply (exD_step _ exD_f3 false (exD_as 8 12) _ _ exD_g3); [apply exD_sense; cbn; tauto|exD_run]. Qed.
Definition exD_f5 := Eval vm_compute in exD_do (exD_as 4 5) exD_f4.
Lemma exD_g5 : whole exD_E [6; 8] 0 exD_s0 exD_0 ((((([exD_edit exD_1; exD_edit exD_2; exD_edit exD_3] ++ [exD_edit exD_f1]) ++ [exD_edit exD_f2]) ++ [exD_edit exD_f3]) ++ [exD_edit exD_f4]) ++ [exD_edit exD_f5]) exD_f5 false.
Proof. apply (exD_step _ exD_f4 false (exD_as 4 5) _ _ exD_g4); [apply exD_sense; cbn; tauto|exD_run]. Qed.
Definition exD_f6 := Eval vm_compute in exD_do (exD_as 3 4) exD_f5.
Lemma exD_g6 : whole exD_E [6; 8] 0 exD_s0 exD_0 (((((([exD_edit exD_1; exD_edit exD_2; exD_edit exD_3] ++ [exD_edit exD_f1]) ++ [exD_edit exD_f2]) ++ [exD_edit exD_f3]) ++ [exD_edit exD_f4]) ++ [exD_edit exD_f5]) ++ [exD_edit exD_f6]) exD_f6 false.
Proof. apply (exD_step _ exD_f5 false (exD_as 3 4) _ _ exD_g5); [apply exD_sense; cbn; tauto|exD_run]. Qed.
Definition exD_f7 := Eval vm_compute in exD_do (exD_as 2 6) exD_f6.
Lemma exD_g7 : whole exD_E [6; 8] 0 exD_s0 exD_0 ((((((([exD_edit exD_1; exD_edit exD_2; exD_edit exD_3] ++ [exD_edit exD_f1]) ++ [exD_edit exD_f2]) ++ [exD_edit exD_f3]) ++ [exD_edit exD_f4]) ++ [exD_edit exD_f5]) ++ [exD_edit exD_f6]) ++ [exD_edit exD_f7]) exD_f7 false.
Proof. apply (exD_step _ exD_f6 false (exD_as 2 6) _ _ exD_g6); [apply exD_sense; cbn; tauto|exD_run]. Qed.
Definition exD_f8 := Eval vm_compute in exD_do (exD_as 1 5) exD_f7.
Lemma exD_g8 : whole exD_E [6; 8] 0 exD_s0 exD_0 (((((((([exD_edit exD_1; exD_edit exD_2; exD_edit exD_3] ++ [exD_edit exD_f1]) ++ [exD_edit exD_f2]) ++ [exD_edit exD_f3]) ++ [exD_edit exD_f4]) ++ [exD_edit exD_f5]) ++ [exD_edit exD_f6]) ++ [exD_edit exD_f7]) ++ [exD_edit exD_f8]) exD_f8 true.
Proof. apply (exD_step _ exD_f7 false (exD_as 1 5) _ _ exD_g7); [apply exD_sense; cbn; tauto|exD_run]. Qed.
Example ex_C72 := C72_congratulations _ _ _ _ _ _ _ _ _ exD_au exD_goal exD_begun exD_g8.
(* then DELETE FLOATING_HYPOTHESES, and UNDO: the complete proof is back *)
Definition exD_del : pip := Eval vm_compute in match deleteFloating exD_db (fst exD_f8) with Ok s => s | _ => noProof end.
Example ex_C72_del : pf exD_del = [zUnk; zUnk; zUnk; zUnk; 10; 11; 9; 12; 9]%Z.
Proof. reflexivity. Qed.
Lemma exD_g9 : whole exD_E [6; 8] 0 exD_s0 exD_0 ((((((((([exD_edit exD_1; exD_edit exD_2; exD_edit exD_3] ++ [exD_edit exD_f1]) ++ [exD_edit exD_f2]) ++ [exD_edit exD_f3]) ++ [exD_edit exD_f4]) ++ [exD_edit exD_f5]) ++ [exD_edit exD_f6]) ++ [exD_edit exD_f7]) ++ [exD_edit exD_f8]) ++ [exD_edit (exD_del, snd exD_f8)]) (exD_del, snd exD_f8) false.
Proof. exact (wh_change _ _ _ _ _ _ exD_f8 true (exD_del, snd exD_f8) false 0 exD_g8 (ch_floating exD_E [6; 8] (fst exD_f8) (snd exD_f8) exD_del eq_refl)). Qed.
Lemma exD_g10 : exists cs, whole exD_E [6; 8] 0 exD_s0 exD_0 cs exD_f8 false.
Proof.
  exists (((((((((([exD_edit exD_1; exD_edit exD_2; exD_edit exD_3] ++ [exD_edit exD_f1]) ++ [exD_edit exD_f2]) ++ [exD_edit exD_f3]) ++ [exD_edit exD_f4]) ++ [exD_edit exD_f5]) ++ [exD_edit exD_f6]) ++ [exD_edit exD_f7]) ++ [exD_edit exD_f8]) ++ [exD_edit (exD_del, snd exD_f8)]) ++ [Undo pip nat]).
  pose (r := match run pip nat noProof 0 exD_s0 (((((((((([exD_edit exD_1; exD_edit exD_2; exD_edit exD_3] ++ [exD_edit exD_f1]) ++ [exD_edit exD_f2]) ++ [exD_edit exD_f3]) ++ [exD_edit exD_f4]) ++ [exD_edit exD_f5]) ++ [exD_edit exD_f6]) ++ [exD_edit exD_f7]) ++ [exD_edit exD_f8]) ++ [exD_edit (exD_del, snd exD_f8)]) ++ [Undo pip nat]) with Ok q => q | _ => (exD_s0, []) end).
  assert (R : run pip nat noProof 0 exD_s0 (((((((((([exD_edit exD_1; exD_edit exD_2; exD_edit exD_3] ++ [exD_edit exD_f1]) ++ [exD_edit exD_f2]) ++ [exD_edit exD_f3]) ++ [exD_edit exD_f4]) ++ [exD_edit exD_f5]) ++ [exD_edit exD_f6]) ++ [exD_edit exD_f7]) ++ [exD_edit exD_f8]) ++ [exD_edit (exD_del, snd exD_f8)]) ++ [Undo pip nat]) = Ok (fst r, snd r)) by (vm_compute; reflexivity).
  exact (wh_stack _ _ _ _ _ _ _ false (Undo pip nat) (fst r) (snd r) exD_g9 Logic.I R).
Qed.
(* the commands that finish the proof *)
Definition exD_rest := [exD_as 3 9; exD_as 5 10; exD_as 6 11; exD_as 8 12; exD_as 4 5; exD_as 3 4; exD_as 2 6; exD_as 1 5].
Fixpoint performs (fuel : nat) (E : fenv) (old : nat -> Z) (x : pst) (b : bool) (os : list order) : res (pst * bool) :=
  match os with [] => Ok (x, b) | o :: r => do q <- perform fuel E old x o; performs fuel E old (fst q) (snd q) r end.
(* UNDO brings back the proof but not the number of the working variables: those that the
   next ASSIGN introduces may be in use elsewhere in the proof.  The same commands that finish
   the proof before INITIALIZE ALL do not finish it after UNDO of INITIALIZE ALL. *)
Theorem C72_undo_exact_refuted : exists E m (s0 : sess pip nat) u x0 cs x cs' x' os,
  auOk E /\ goal E m /\ begun E m 0 u s0 x0 /\ whole E m 0 s0 x0 cs x false /\
  whole E m 0 s0 x0 (cs ++ cs') x' false /\ (exists e, cs' = [Edit pip nat e 0; Undo pip nat]) /\
  fst x' = fst x /\
  (exists y, exists K, forall fuel, K <= fuel -> performs fuel E (fun _ => 0%Z) x false os = Ok (y, true)) /\
  (exists y', In zUnk (pf (fst y')) /\ exists K, forall fuel, K <= fuel -> performs fuel E (fun _ => 0%Z) x' false os = Ok (y', false)).
Proof.
  exists exD_E, [6; 8], exD_s0, exD_u, exD_0, [exD_edit exD_1; exD_edit exD_2; exD_edit exD_3], exD_3, [exD_edit exD_4; Undo pip nat], exD_5, exD_rest.
  split; [exact exD_au|]. split; [exact exD_goal|]. split; [exact exD_begun|]. split; [exact exD_w3|]. split; [exact exD_w5|]. split; [eexists; reflexivity|]. split; [reflexivity|].
  split; [eexists; exD_run|]. pose (r := match performs 60 exD_E (fun _ => 0%Z) exD_5 false exD_rest with Ok q => fst q | _ => exD_0 end). vm_compute in r.
  exists r. split; [unfold r; cbn; tauto|]. unfold r. exD_run.
Qed.
Print Assumptions C72_undo_exact_refuted.
