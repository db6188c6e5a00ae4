(* OrdProps.v -- C23, C24, and C11/C44 for the label order in use. *)
From Coq Require Import Permutation.
From Verif Require Import Base MMSpec VerModel VerSpec VerExample TokModel ParModel ParSpec ParExample SqModel CmpModel CmpSpec
  CmpProofs CmpRound OrdModel OrdSpec OrdKnap OrdProofs OrdBest OrdCmp ParWit ParProps SqProps.
Open Scope nat_scope.

(* ---------------- C23 ---------------- *)
(* knapsack01 stops without trap or out-of-range access; the items it marks fit,
   their worth is the worth it returns, and no choice that fits is worth more. *)
Theorem C23_knapsack_optimal : forall size worth cap,
  length worth = length size -> (forall s, In s size -> (1 <= s)%Z) -> (0 <= cap)%Z ->
  exists best chosen, knapsack01 size worth cap = Ok (best, chosen) /\
    fits size cap chosen /\ total chosen worth = best /\
    forall other, fits size cap other -> (total other worth <= best)%Z.
Proof. exact knapsack_optimal. Qed.

(* Sizes must be positive: with an item of size 0 the marked items need not be
   worth what is returned. *)
Theorem C23_zero_size_refuted : exists size worth cap best chosen,
  length worth = length size /\ (forall s, In s size -> (0 <= s)%Z) /\ (0 <= cap)%Z /\
  knapsack01 size worth cap = Ok (best, chosen) /\ total chosen worth <> best.
Proof.
  exists [0%Z], [5%Z], 0%Z, 5%Z, [false]. repeat split; try lia.
  - intros s [<-|[]]. lia.
  - vm_compute. discriminate.
Qed.

(* ---------------- C24 ---------------- *)
(* The labels written are exactly the labels used, each once, when each of them
   fits on a line of its own; no trap is reached and every loop stops after at
   most length expl + 2 rounds.  Moreover a label used more often never gets a
   longer code than one used less often. *)
Theorem C24_label_order_partial : forall fuel n nreq nameLen width ind proof expl,
  NoDup expl ->
  (forall z, In z expl -> (0 < z)%Z /\ In z proof /\ 1 <= nameLen z) ->
  (forall z, In z proof -> (z < Z.of_nat n)%Z) ->
  (forall z, In z expl -> (Z.of_nat (nameLen z) <= width - Z.of_nat ind - 2)%Z) ->
  length expl + 1 < fuel ->
  exists e, orderLabels fuel n nreq nameLen width ind proof expl = Ok e /\ Permutation expl e /\
    (forall p q zp zq, nth_error e p = Some zp -> nth_error e q = Some zq -> uses zq proof < uses zp proof ->
       length (encodeLabel (nreq + p)) <= length (encodeLabel (nreq + q))) /\
    (forall e', Permutation expl e' ->
       letters (fun k => length (encodeLabel k)) proof nreq e <= letters (fun k => length (encodeLabel k)) proof nreq e').
Proof. exact order_all. Qed.

(* The layout loop does not terminate if a label does not fit: for every bound on
   the number of rounds, the bound is reached. *)
Theorem C24_long_label_refuted : forall n nreq nameLen width ind proof expl,
  (forall z, In z expl -> (0 < z)%Z /\ In z proof) -> (forall z, In z proof -> (z < Z.of_nat n)%Z) ->
  (Z.of_nat ind + 3 <= width)%Z ->
  (exists z, In z expl /\ (width - Z.of_nat ind - 2 < Z.of_nat (nameLen z))%Z) ->
  forall fuel, orderLabels fuel n nreq nameLen width ind proof expl = Fuel.
Proof. intros n nreq nl width ind proof expl H1 H2 H3 H4 fuel. exact (order_stuck fuel n nreq nl width ind proof expl H1 H2 H3 H4). Qed.

(* ---------------- C11, C44 with the new order ---------------- *)
Theorem C11_new_order_partial : forall env n st proof fuel width back,
  wf_env env -> uniq_env env -> stmtAt (e_db env) n st -> s_type st = S_p ->
  goodProof (e_db env) n st proof ->
  (forall i, In (Loc i) proof -> exists m sm, nth_error proof i = Some (Stm m) /\
     stmtAt (e_db env) m sm /\ isAssertion sm) ->
  (forall h, In h (s_reqHyps st) \/ In h (s_optHyps st) -> h < n) ->
  (forall m, In (Stm m) proof -> ~ In m (s_reqHyps st) ->
     (Z.of_nat (length (e_name env m)) <= width - Z.of_nat (sourceIndentation back) - 2)%Z) ->
  length proof + 1 < fuel ->
  exists expl text, compressProofNew fuel env n width back (map encStep proof) = Ok (expl, text) /\
    explicitLabels st proof expl /\
    forall section tx rest prev fuel,
      laidOut (map (fun z => e_name env (Z.to_nat z)) expl) text section tx ->
      (Z.of_nat (wrkMax prev st section) <= maxLong)%Z ->
      length (section ++ chDollar :: chDot :: rest) < fuel ->
      (length (s_reqHyps st) + length expl + numLoc proof <= 120 \/
       hasPair2 85 85 tx = true \/ hasPair2 85 86 section = false) ->
      parseText fuel env n (wrkMax prev st section) section (chDollar :: chDot :: rest) =
        Ok (Some ((if hasUnk proof then 1 else 0), map encStep proof, 0)).
Proof. exact compress_new. Qed.

(* SAVE PROOF /COMPRESSED as it runs today, every label fitting on a line *)
Theorem C44_save_new_order_partial : forall env n st p width back,
  wf_db (e_db env) -> wf_env env -> uniq_env env -> stmtAt (e_db env) n st -> s_type st = S_p ->
  goodProof (e_db env) n st p ->
  (forall h, In h (s_reqHyps st) \/ In h (s_optHyps st) -> h < n) ->
  (forall m sm, stmtAt (e_db env) m sm -> labelled sm ->
     (Z.of_nat (length (e_name env m)) <= width - Z.of_nat (sourceIndentation back) - 2)%Z) ->
  exists u q expl text,
    (forall fuel, 2 * length u < fuel -> unsquishProof fuel (e_db env) (map encStep p) = Ok (map encStep u)) /\
    squishProof (e_db env) (map encStep u) = Ok (map encStep q) /\
    compressProofNew (length q + 2) env n width back (map encStep q) = Ok (expl, text) /\
    (validProof (e_db env) st q <-> validProof (e_db env) st p) /\ goodProof (e_db env) n st q /\
    forall section tx rest prev fuel,
      laidOut (map (fun z => e_name env (Z.to_nat z)) expl) text section tx ->
      (Z.of_nat (wrkMax prev st section) <= maxLong)%Z ->
      length (section ++ chDollar :: chDot :: rest) < fuel ->
      (length (s_reqHyps st) + length expl + numLoc q <= 120 \/
       hasPair2 85 85 tx = true \/ hasPair2 85 86 section = false) ->
      exists k, parseText fuel env n (wrkMax prev st section) section (chDollar :: chDot :: rest) =
        Ok (Some (k, map encStep q, 0)) /\ (k = 1 /\ In Unk p \/ k = 0 /\ ~ In Unk p).
Proof. exact save_new. Qed.

(* ---------------- examples ---------------- *)
(* greedy by position or by worth per size would not find this *)
Example ex_C23 : knapsack01 [5; 4; 3; 6]%Z [5; 4; 3; -1]%Z 7 = Ok (7%Z, [false; true; true; false]).
Proof. vm_compute. reflexivity. Qed.
Example ex_C23_app := C23_knapsack_optimal [5; 4; 3; 6]%Z [5; 4; 3; -1]%Z 7 eq_refl
  ltac:(intros s H; repeat (destruct H as [<-|H]; [lia|]); destruct H) ltac:(lia).

(* 20 required hypotheses leave no one-letter codes but these: label 3 is used
   most and moves to the front *)
Example ex_C24 : orderLabels 9 10 19 (fun z => Z.to_nat z + 2) 20 2 [1; 2; 3; -63; 3; 4; -1001; 4; 3]%Z [1; 2; 3; 4]%Z = Ok [3; 1; 2; 4]%Z.
Proof. vm_compute. reflexivity. Qed.
Example ex_C24_app := C24_label_order_partial 9 10 19 (fun z => Z.to_nat z + 2) 20%Z 2 [1; 2; 3; -63; 3; 4; -1001; 4; 3]%Z [1; 2; 3; 4]%Z
  ltac:(repeat constructor; cbn; intuition discriminate)
  ltac:(intros z H; repeat (destruct H as [<-|H]; [cbn; repeat split; try lia; tauto|]); destruct H)
  ltac:(intros z H; repeat (destruct H as [<-|H]; [lia|]); destruct H)
  ltac:(intros z H; repeat (destruct H as [<-|H]; [cbn; lia|]); destruct H) ltac:(cbn; lia).
(* a 78-character label on an 79-column screen: no bound is enough *)
Example ex_C24_loop : forall fuel, orderLabels fuel 10 1 (fun _ => 78) 79 2 [5]%Z [5]%Z = Fuel.
Proof.
  apply C24_long_label_refuted.
  - intros z [<-|[]]. split; [lia|left; auto].
  - intros z [<-|[]]. lia.
  - lia.
  - exists 5%Z. split; [left; auto|lia].
Qed.

Example ex_indent : sourceIndentation [32; 112; 36; 32; 98; 97; 32; 32; 10; 32] = 2.
Proof. reflexivity. Qed.
Lemma ex_names_short : forall m sm, stmtAt (e_db ex_env) m sm -> labelled sm ->
  (Z.of_nat (length (e_name ex_env m)) <= 79 - Z.of_nat (sourceIndentation []) - 2)%Z.
Proof.
  intros m sm H _. assert (m < 20).
  { assert (m < length (db_stmts (e_db ex_env))) by (apply nth_error_Some; unfold stmtAt in H; congruence).
    vm_compute in H0. lia. }
  do 20 (destruct m as [|m]; [vm_compute; discriminate|]). lia.
Qed.
Lemma ex_hyps_before : forall h, In h (s_reqHyps (nth 7 ex_stmts (mkStmt S_other [] [] [] [] [] []))) \/
  In h (s_optHyps (nth 7 ex_stmts (mkStmt S_other [] [] [] [] [] []))) -> h < 7.
Proof. intros h H. vm_compute in H. intuition lia. Qed.
Example ex_C44_app := C44_save_new_order_partial ex_env 7 _ ex_p 79%Z [] ex_db_wf ex_env_wf ex_env_uniq
  eq_refl eq_refl ex_p_good ex_hyps_before ex_names_short.
Example ex_C11_app := C11_new_order_partial ex_env 7 _ ex_p 20 79%Z [] ex_env_wf ex_env_uniq
  eq_refl eq_refl ex_p_good (fun i H => False_ind _ (ex_p_noloc i H)) ex_hyps_before.
From Coq Require Import String.
Example ex_C44_new : compressProofNew 8 ex_env 7 79 [] [3; 3; 4; -1002; 4; 5]%Z = Ok ([3; 4; 5]%Z, codes "AABZDBC").
Proof. vm_compute. reflexivity. Qed.

Print Assumptions C23_knapsack_optimal.
Print Assumptions C23_zero_size_refuted.
Print Assumptions C24_label_order_partial.
Print Assumptions C24_long_label_refuted.
Print Assumptions C11_new_order_partial.
Print Assumptions C44_save_new_order_partial.
