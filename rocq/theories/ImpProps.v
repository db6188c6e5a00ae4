(* ImpProps.v -- property C71 *)
From Verif Require Import Base.
From Verif Require Import UniModel HenModel.
From Verif Require Import MMSpec VerModel VerSpec ParModel SqModel SqSpec SqAttr PfaModel PfaSpec FltModel FltSpec RepSpec AkModel AkSpec MinModel MinSpec MinProps VerProofs AuModel AuSpec AuProps ImpModel ImpSpec.
From Verif Require FltProps ImpMain ImpProofs.
Open Scope nat_scope.

(* What IMPROVE looks at: if all that has an expression is unified, every finished part of
   the proof shows the expression displayed for it.  *)
Theorem C71_parts : forall E m s T, auOk E -> goal E m -> linked E m s T -> unified3 s -> partsProve E s.
Proof. intros E m s T A G. exact (ImpMain.unified_prove E A m G s T). Qed.
Print Assumptions C71_parts.

(* IMPROVE of one step ends, without an internal error.  If it changes something, the part of
   the proof that ended at the step was not finished, and is replaced by a proof of what is
   displayed for the step, which uses only statements that may be used, and finished parts
   of the proof itself.  If it does not, the part was finished, or what is displayed has
   unknowns, or there is no such proof (unless the search was abandoned with a message). *)
Theorem C71_step : forall E m o s T k dv, auOk E -> goal E m -> linked E m s T -> partsProve E s -> k < length (pf s) ->
  exists r K, (forall fuel, K <= fuel -> improveAt fuel E o s dv k = Ok r) /\ exists path u, nodeAt T k path u /\
    match r with
    | None => finished u \/ (exists t, nth_error (tg s) k = Some t /\ hasDummy (u_mt (f_u E)) t = true) \/
        exists y msgs, nth_error (tg s) k = Some (toZ y) /\ FltProps.answers (impEnv E o s dv) y ([], msgs) /\ (msgs = [] -> ~ derivable_at (impEnv E o s dv) 1 y)
    | Some (s', b) => (plainDb E -> b = true) /\
        (b = true -> exists y v T', improved E s k u v y s' /\ proves (impEnv E o s dv) (Some T) v y /\ linked E m s' T' /\ putAt v T path T')
    end.
Proof. intros E m o s T k dv A G. exact (ImpMain.step_found E A m G o s T k dv). Qed.
Print Assumptions C71_step.

(* IMPROVE STEP, whatever is typed for the step: it ends, in a plain database without a
   complaint, and congratulates only if nothing is left to do. *)
Theorem C71_improve_step : forall E m o s dv n T, auOk E -> goal E m -> linked E m s T -> partsProve E s -> plainDb E ->
  exists s' dv' b T' K, (forall fuel, K <= fuel -> improveStep fuel E o (s, dv) n = Ok (s', dv', b, true)) /\ linked E m s' T' /\
    (b = true -> unified3 s' /\ ~ In zUnk (pf s')).
Proof.
  intros E m o s dv n T A G LK PP PL. destruct (ImpMain.step_improves E A m G o s dv n T LK PP) as [ok [K [X [_ Y]]]]. destruct (X (Y PL)) as [[s' dv'] [b [T' [H [L [D _]]]]]].
  exists s', dv', b, T', K. rewrite (Y PL) in *. split; [exact H|]. split; [exact L|]. exact D.
Qed.
Print Assumptions C71_improve_step.

(* IMPROVE ALL of a proof where all is unified, in a plain database: it ends, without a
   complaint; what was unified remains so, and it congratulates if and only if it left
   nothing to do. *)
Theorem C71_all : forall E m o s dv T, auOk E -> goal E m -> plainDb E -> linked E m s T -> unified3 s -> In zUnk (pf s) ->
  exists s' b T' K, (forall fuel, K <= fuel -> improveAll fuel E o (s, dv) = Ok (s', dv, b, true)) /\ linked E m s' T' /\ unified3 s' /\ (b = true <-> ~ In zUnk (pf s')).
Proof. intros E m o s dv T A G PL. exact (ImpMain.all_improves E A m G PL o s dv T). Qed.
Print Assumptions C71_all.
(* It does nothing to a complete proof. *)
Theorem C71_complete : forall E o s dv fuel, ~ In zUnk (pf s) -> improveAll fuel E o (s, dv) = Ok (s, dv, false, true).
Proof. exact ImpMain.all_complete. Qed.
Print Assumptions C71_complete.

(* Sessions with IMPROVE among the commands: at any time every step is an instance of its
   statement ... *)
Theorem C71_linked : forall E m x b, auOk E -> goal E m -> session2 E m x b -> exists T, linked E m (fst x) T.
Proof. intros E m x b A G S. destruct (ImpMain.session2_linked E A m G x b S) as [T [L _]]. exists T. exact L. Qed.
Print Assumptions C71_linked.
(* ... and the congratulations are true. *)
Theorem C71_congratulations : forall E m x, auOk E -> goal E m -> session2 E m x true ->
  exists T, pf (fst x) = rpn T /\ ~ In zUnk (pf (fst x)) /\ unified3 (fst x) /\ complete E (fst x) T /\ shows (f_db E) anything T m.
Proof. intros E m x A G. exact (ImpMain.congratulations2 E A m G x). Qed.
Print Assumptions C71_congratulations.
Theorem C71_verifies : forall E m x k stp p sev fuel st ds err, auOk E -> goal E m -> session2 E m x true ->
  stmtAt (f_db E) k stp -> s_type stp = S_p -> m = s_math stp -> map encStep p = pf (fst x) -> sev <= 2 ->
  verifyProof fuel (f_db E) k p sev 0 = Ok (st, ds, err) -> (forall d, In d ds -> ~ isDisj d) -> validProof (f_db E) stp p.
Proof. intros E m x k stp p sev fuel st ds err A G. exact (ImpMain.verifies2 E A m G x k stp p sev fuel st ds err). Qed.
Print Assumptions C71_verifies.

(* ---------- an example ---------- *)
(* the session of C69 up to the fourth command, then IMPROVE STEP 3, IMPROVE ALL *)
Definition exV_o : impOpts := mkOpts 0 false false true.
Definition exV_st (n : nat) (x : pst) : pst := match improveStep 60 exM_E exV_o x n with Ok (y, _, _) => y | _ => x end.
Definition exV_1 := Eval vm_compute in exV_st 3 exU_4.
Definition exV_2 := Eval vm_compute in match improveAll 60 exM_E exV_o exV_1 with Ok (y, _, _) => y | _ => exV_1 end.
Lemma exV_session4 : session exM_E [6; 3; 5; 3] exU_4 false.
Proof.
  assert (SE : forall x n k, In k [3; 5; 7] -> sensible exM_E x (O_assign n k false false exU_none)).
  { intros x n k I. repeat (destruct I as [<-|I]; [eexists; (split; [reflexivity|]); right; left; reflexivity|]). destruct I. }
  assert (S0 : session exM_E [6; 3; 5; 3] exU_start false) by apply se_start.
  assert (S1 : session exM_E [6; 3; 5; 3] exU_1 false).
  { apply (se_order _ _ exU_start false (O_assign 1 7 false false exU_none) (fun _ => 0%Z) _ _ S0); [apply SE; cbn; auto|exU_run]. }
  assert (S2 : session exM_E [6; 3; 5; 3] exU_2 false).
  { apply (se_order _ _ exU_1 false (O_assign 3 5 false false exU_none) (fun _ => 0%Z) _ _ S1); [apply SE; cbn; auto|exU_run]. }
  assert (S3 : session exM_E [6; 3; 5; 3] exU_3 false).
  { apply (se_order _ _ exU_2 false (O_assign 1 3 false false exU_none) (fun _ => 0%Z) _ _ S2); [apply SE; cbn; auto|exU_run]. }
  apply (se_order _ _ exU_3 false (O_letVar 3 [3]) (fun _ => 0%Z) _ _ S3); [cbn; intros [H|[]]; discriminate H|exU_run].
Qed.
Lemma exV_unified s : combine (tg s) (combine (sr s) (us s)) <> [] -> forallb (fun q => (match fst (snd q) with [] => true | _ => strEqb (fst (snd q)) (fst q) end) && (match snd (snd q) with [] => true | _ => false end)) (combine (tg s) (combine (sr s) (us s))) = true -> unified3 s.
Proof.
  intros _ H i t r u QT QR QU. assert (I : In (t, (r, u)) (combine (tg s) (combine (sr s) (us s)))).
  { revert QT QR QU. clear. generalize (us s), (sr s), (tg s). intros c b a. revert b c i. induction a as [|x a IH]; intros [|y b] [|z c] [|i] Q1 Q2 Q3; try discriminate; cbn in *; [injection Q1 as <-; injection Q2 as <-; injection Q3 as <-; left; reflexivity|right; exact (IH b c i Q1 Q2 Q3)]. }
  rewrite forallb_forall in H. specialize (H _ I). cbn in H. apply andb_prop in H. destruct H as [H1 H2]. split.
  - intros NE. destruct r as [|r0 r]; [congruence|]. exact (proj1 (AuProofs.strEqb_eq _ _) H1).
  - intros NE. destruct u; [congruence|discriminate H2].
Qed.
Lemma exV_u4 : unified3 (fst exU_4).
Proof. apply exV_unified; [discriminate|reflexivity]. Qed.
Lemma exV_u1 : unified3 (fst exV_1).
Proof. apply exV_unified; [discriminate|reflexivity]. Qed.
Lemma exV_session1 : session2 exM_E [6; 3; 5; 3] exV_1 false.
Proof.
  pose proof (s2_session _ _ _ _ exV_session4) as S4. destruct (C71_linked _ _ _ _ exU_au exU_goal S4) as [T L].
  refine (s2_improve _ _ exU_4 false exV_o 3 _ _ S4 (C71_parts _ _ _ T exU_au exU_goal L exV_u4) _). exU_run.
Qed.
Lemma exV_session : session2 exM_E [6; 3; 5; 3] exV_2 true.
Proof. refine (s2_all _ _ exV_1 false exV_o _ _ exV_session1 exM_plain exV_u1 _). exU_run. Qed.
Example ex_C71 := C71_congratulations exM_E [6; 3; 5; 3] exV_2 exU_au exU_goal exV_session.
(* the three commands leave three different proofs *)
Example ex_C71_pf : pf (fst exU_4) = [3; zUnk; zUnk; 5; 7]%Z /\ pf (fst exV_1) = [3; zUnk; 3; 5; 7]%Z /\ pf (fst exV_2) = [3; 3; 3; 5; 7]%Z.
Proof. repeat split. Qed.
Example ex_C71_all : exists T, linked exM_E [6; 3; 5; 3] (fst exV_1) T /\ unified3 (fst exV_1) /\ In zUnk (pf (fst exV_1)).
Proof. destruct (C71_linked _ _ _ _ exU_au exU_goal exV_session1) as [T L]. exists T. split; [exact L|]. split; [exact exV_u1|]. cbn. tauto. Qed.
Example ex_C71_valid : validProof exM_db exM_st8 [Stm 3; Stm 3; Stm 3; Stm 5; Stm 7].
Proof.
  destruct (verifyProof 100 exM_db 8 [Stm 3; Stm 3; Stm 3; Stm 5; Stm 7] 0 0) as [[[st ds] err]| | |] eqn:V; vm_compute in V; try discriminate V. injection V as <- <- <-.
  refine (C71_verifies exM_E [6; 3; 5; 3] exV_2 8 exM_st8 [Stm 3; Stm 3; Stm 3; Stm 5; Stm 7] 0 100 _ [] _ exU_au exU_goal exV_session eq_refl eq_refl eq_refl eq_refl (Nat.le_0_l 2) _ (fun d F => match F with end)). vm_compute. reflexivity.
Qed.
(* IMPROVE of the last step replaces the part that ends there, even if some of it was there *)
Example ex_C71_replaces : exists s', improveAt 60 exM_E exV_o (fst exU_start) 0 0 = Ok (Some (s', true)) /\ pf s' = [3; 5]%Z.
Proof. eexists. split; [vm_compute; reflexivity|reflexivity]. Qed.
(* the hypotheses of C71_step *)
Example ex_C71_step : exists T k, linked exM_E [6; 3; 5; 3] (fst exU_4) T /\ partsProve exM_E (fst exU_4) /\ k < length (pf (fst exU_4)).
Proof.
  destruct (C69_linked _ _ _ _ exU_au exU_goal exV_session4) as [T L]. exists T, 4. split; [exact L|]. split; [exact (C71_parts _ _ _ T exU_au exU_goal L exV_u4)|cbn; lia].
Qed.
