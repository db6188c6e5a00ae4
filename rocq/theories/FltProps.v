(* FltProps.v -- C61: searching a proof without new variables (IMPROVE) *)
From Coq Require Import ZifyBool ZifyNat.
From Verif Require Import Base MMSpec VerModel VerSpec VerExample ParModel SqModel SqSpec SqAttr SqValid PfaProps UniSpec UniModel UniFilter FltModel FltSpec FltProofs FltMain FltVal.
Open Scope nat_scope.

(* the answer of the search, with the complaints it prints *)
Definition answers (E : fenv) (m : list nat) (q : list Z * list fmsg) : Prop := exists K, forall fuel, K <= fuel -> proveFloating fuel E m = Ok q.

(* There is always an answer: the search ends, without bug() and without reading outside
   an array. *)
Theorem C61_ends : forall E T m, fltOk E T -> goal E m -> exists q, answers E m q.
Proof. intros E T m FO GM. destruct (float_ok E T FO m GM) as [q [k [_ R]]]. exists q, k. exact R. Qed.
Print Assumptions C61_ends.

Lemma same_answer E m q q' k : answers E m q' -> (forall fuel, k <= fuel -> proveFloating fuel E m = Ok q) -> q' = q.
Proof. intros [K H] R. specialize (H (K + k) ltac:(lia)). rewrite (R (K + k)) in H by lia. apply Ok_inj in H. auto. Qed.

(* If it is a proof, then of the expression asked for, from the hypotheses in force, earlier
   usable statements, and finished parts of the proof in progress. *)
Theorem C61_sound : forall E T m p msgs, fltOk E T -> goal E m -> answers E m (p, msgs) -> p <> [] -> exists t, p = rpn t /\ proves E T t m.
Proof.
  intros E T m p msgs FO GM A NE. destruct (float_ok E T FO m GM) as [q [k [[Q _] R]]]. pose proof (same_answer E m q _ k A R) as X. subst q. exact (Q NE).
Qed.
Print Assumptions C61_sound.

(* Such a proof is accepted by the rules of the language, when statements with $d
   requirements were excluded. *)
Theorem C61_valid : forall E T stn m p msgs, fltOk E T -> goal E m -> stmtAt (f_db E) (f_n E) stn ->
  (forall z, In z (f_pf E) -> (0 <= z)%Z \/ z = zUnk) ->
  (forall s st, usable E s st -> floated (f_db E) st) ->
  (forall t k path u e, T = Some t -> nodeAt t k path u -> ~ In zUnk (rpn u) -> nth_error (f_tg E) k = Some e -> tval (f_db E) stn u e) ->
  f_noDist E = true ->
  answers E m (p, msgs) -> p <> [] ->
  exists q vals, p = map encStep q /\ rpnRun (f_db E) stn [] [] q vals [m].
Proof.
  intros E T stn m p msgs FO GM HN CO FL KN ND A NE. destruct (C61_sound E T m p msgs FO GM A NE) as [t [-> P]]. exact (proves_run E T stn FO CO FL KN ND t m P).
Qed.
Print Assumptions C61_valid.

(* If there is neither a proof nor a complaint about a limit, then there is none to be
   found. *)
Theorem C61_complete : forall E T m, fltOk E T -> goal E m -> answers E m ([], []) -> ~ derivable_at E 1 m.
Proof.
  intros E T m FO GM A. destruct (float_ok E T FO m GM) as [q [k [[_ Q] R]]]. pose proof (same_answer E m q _ k A R) as X. subst q. destruct (Q eq_refl) as [Y|Y]; [destruct (Y eq_refl)|exact Y].
Qed.
Print Assumptions C61_complete.

(* The quick test of a statement rejects nothing that can be matched. *)
Theorem C61_filter : forall db st sg m, isAssertion st -> m <> [] -> s_math st <> [] -> MMSpec.subst (db_isvar db) sg (s_math st) = m -> quickMatchFilter db st m = Ok true.
Proof. intros db st sg m A N1 N2 H. exact (filter_complete db st sg m H A N1 N2). Qed.
Print Assumptions C61_filter.

(* ---------- examples ---------- *)
(* statement 11 of the database of C51; token names 48.. ; unknowns above 20 *)
Definition exFU : uenv := mkUenv 20 1 1000 (fun t => (t <=? 20) && negb (ex_isvar t)) (fun t => [48 + t])
  (map s_math (filter (fun st => match s_type st with S_a => true | _ => false end) ex51_stmts)).
Definition exFG (disc : nat -> bool) (maxE : nat) (pf : list Z) (tg : list (list nat)) : fenv := mkF ex51_db exFU 11 maxE true 0 disc false 0 0 0 1000 true 0 pf tg.
Definition exFE := exFG (fun _ => false).
Definition exFD := exFG (fun s => s =? 10).      (* statement 10 is not to be used *)
Lemma exF_stmt (P : nat -> stmtRec -> Prop) : (forall i st, In (i, st) (combine (seq 0 12) ex51_stmts) -> P i st) -> forall n st, stmtAt ex51_db n st -> P n st.
Proof.
  intros H n st S. apply H. do 12 (destruct n as [|n]; [injection S as <-; cbn; intuition congruence|]). unfold stmtAt in S. cbn in S. destruct n; discriminate S.
Qed.
Definition badVars (st : stmtRec) : bool :=
  match s_type st with S_a | S_p => existsb (fun v => negb (memb v (s_math st))) (s_reqVars st) | _ => false end.
Lemma exF_ok disc maxE pf tg T : match T with None => pf = [] | Some t => wfTree ex51_db t /\ pf = rpn t /\ length tg = length pf end -> fltOk (exFG disc maxE pf tg) T.
Proof.
  intros HP. constructor.
  - exact ex51_wf.
  - reflexivity.
  - intros t. cbn [exFG f_u f_db u_con exFU ex51_db db_sep]. lia.
  - cbn. lia.
  - intros n st t S K. revert t. revert n st S K. refine (exF_stmt (fun n st => isHyp st \/ isAssertion st -> forall t, In t (s_math st) -> t < 20) _).
    intros i st I _ t J. cbn in I. repeat (destruct I as [I|I]; [injection I as <- <-; cbn in J; lia|]). destruct I.
  - intros n st S A NE v I. revert n st S A NE v I. refine (exF_stmt (fun n st => isAssertion st -> ~ hasE _ st -> forall v, In v (s_reqVars st) -> In v (s_math st)) _).
    intros i st I _ _ v J. apply memb_in. cbn in I. repeat (destruct I as [I|I]; [injection I as <- <-; cbn in J; repeat (destruct J as [<-|J]; [reflexivity|]); destruct J|]). destruct I.
  - eexists. reflexivity.
  - intros h [stn [S K]]. injection S as <-. cbn in K. destruct K as [[]|[<-|[<-|[]]]]; eexists; (split; [reflexivity|right; reflexivity]).
  - cbn. lia.
  - exact HP.
Qed.
Definition exMsgs {A B} (r : res (A * B)) : option (A * B) := match r with Ok x => Some x | _ => None end.
(* term 0 + 0: found;  |- 0 = 0: found;  "term =": no proof, no complaint *)
Example ex_floating : forall maxE, exMsgs (proveFloating 60 (exFE maxE [] []) [7; 3; 4; 3]) = Some ([3; 3; 4]%Z, []) /\
  goal (exFE maxE [] []) [7; 3; 4; 3] /\ fltOk (exFE maxE [] []) None.
Proof.
  intros maxE. split; [vm_compute; reflexivity|]. split; [|apply exF_ok; reflexivity]. split; [discriminate|]. intros t H. cbn in H |- *. lia.
Qed.
Example ex_asserted : exMsgs (proveFloating 60 (exFE 0 [] []) [6; 3; 5; 3]) = Some ([3; 8]%Z, []) /\
  exMsgs (proveFloating 60 (exFE 2 [] []) [6; 3; 5; 3]) = Some ([3; 8; 10; 10]%Z, []).
Proof. split; vm_compute; reflexivity. Qed.
Example ex_none : exMsgs (proveFloating 60 (exFE 0 [] []) [7; 5]) = Some ([], []) /\ ~ derivable_at (exFE 0 [] []) 1 [7; 5].
Proof.
  assert (G : goal (exFE 0 [] []) [7; 5]) by (split; [discriminate|]; intros t H; cbn in H |- *; lia).
  split; [vm_compute; reflexivity|]. intros D. inversion D as [d0 h sh O1 O2 O3 O4|d0 sn st sg U HE OV KD O3 O4]; subst.
  - destruct O1 as [stn [S K]]. injection S as <-. cbn in K. destruct K as [[]|[<-|[<-|[]]]]; injection O2 as <-; discriminate O4.
  - pose proof (us_stmt _ _ _ U) as S. pose proof (us_type _ _ _ U) as A. pose proof (filter_complete ex51_db st sg [7; 5] O4 A ltac:(discriminate)) as F.
    clear -S A F. revert sn st S A F. refine (exF_stmt (fun n st => isAssertion st -> (s_math st <> [] -> quickMatchFilter ex51_db st [7; 5] = Ok true) -> False) _).
    intros i st I A F. cbn in I. repeat (destruct I as [I|I]; [injection I as <- <-; first [destruct A as [A|A]; discriminate A|specialize (F ltac:(discriminate)); vm_compute in F; discriminate F]|]). destruct I.
Qed.
(* a finished part of the proof in progress is used: 0 + ? with target "term 0" *)
Example ex_known : exMsgs (proveFloating 60 (exFE 0 [3; zUnk; 4]%Z [[7; 3]; [7; 3]; [7; 3; 4; 3]]) [7; 3]) = Some ([3]%Z, []) /\
  fltOk (exFE 0 [3; zUnk; 4]%Z [[7; 3]; [7; 3]; [7; 3; 4; 3]]) (Some (Node 4 [Node 3 []; Node zUnk []])).
Proof.
  split; [vm_compute; reflexivity|]. apply exF_ok. split; [|split; reflexivity]. repeat (constructor; try reflexivity).
Qed.
(* what C61_valid asks of the statements *)
Lemma ex_floated : forall s st, usable (exFD 0 [] []) s st -> floated ex51_db st.
Proof.
  intros s st U. assert (N : s <> 10) by (intros ->; discriminate (us_disc _ _ _ U eq_refl)). pose proof (us_stmt _ _ _ U) as S. pose proof (us_type _ _ _ U) as A. clear U. revert s st S N A.
  refine (exF_stmt (fun s st => s <> 10 -> isAssertion st -> floated ex51_db st) _). intros i st I N A. cbn in I.
  repeat (destruct I as [I|I]; [injection I as <- <-; first [lia|destruct A as [A|A]; discriminate A|
    intros t J; cbn in J; repeat (destruct J as [<-|J]; [first [exists 1; eexists; exists 7; split; [solve [cbn; auto]|split; [reflexivity|split; reflexivity]]|exists 2; eexists; exists 7; split; [solve [cbn; auto]|split; [reflexivity|split; reflexivity]]]|]); destruct J]|]). destruct I.
Qed.
Example ex_valid : answers (exFD 0 [] []) [6; 3; 5; 3] ([3; 8]%Z, []) /\
  exists q vals, [3; 8]%Z = map encStep q /\ rpnRun ex51_db ex51_st [] [] q vals [[6; 3; 5; 3]].
Proof.
  assert (G : goal (exFD 0 [] []) [6; 3; 5; 3]) by (split; [discriminate|]; intros t H; cbn in H |- *; lia).
  assert (O : fltOk (exFD 0 [] []) None) by (apply exF_ok; reflexivity).
  assert (A : answers (exFD 0 [] []) [6; 3; 5; 3] ([3; 8]%Z, [])).
  { exists 60. intros fuel L. replace fuel with (60 + (fuel - 60)) by lia. generalize (fuel - 60). intros n. vm_compute. reflexivity. }
  split; [exact A|]. apply (C61_valid (exFD 0 [] []) None ex51_st [6; 3; 5; 3] [3; 8]%Z [] O G); [reflexivity|intros z []|exact ex_floated|discriminate|reflexivity|exact A|discriminate].
Qed.
