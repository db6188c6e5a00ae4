(* SqProps.v -- properties of proof trees: packing (C13), subproof lengths (C14),
   display attributes (C15), and re-saving a proof in compressed form (C44). *)
From Verif Require Import Base MMSpec VerModel VerSpec VerExample TokModel ParModel ParSpec CmpModel CmpSpec
  CmpProofs CmpRound ParExample ParWit ParProps SqModel SqSpec SqProofs SqPack SqValid SqAttr SqGood.
From Coq Require Import String Permutation.
Open Scope nat_scope.

(* ---------------- C13 ---------------- *)
(* Packing a proof without local references and unpacking the result gives the
   proof back; the packed proof is again acceptable, not longer, and valid exactly
   when the original is.  (The C loops terminate: any large enough fuel.) *)
Theorem C13_pack_unpack : forall db n st p,
  wf_db db -> goodProof db n st p -> (forall i, ~ In (Loc i) p) ->
  exists q, squishProof db (map encStep p) = Ok (map encStep q) /\
    (forall fuel, 2 * List.length p < fuel -> unsquishProof fuel db (map encStep q) = Ok (map encStep p)) /\
    goodProof db n st q /\ List.length q <= List.length p /\
    (validProof db st q <-> validProof db st p).
Proof. exact pack_unpack. Qed.

(* Unpacking any acceptable proof removes all local references and keeps the
   proof acceptable and its validity; packing that again does too, and unpacks to
   the same proof. *)
Theorem C13_unpack_repack : forall db n st p,
  wf_db db -> goodProof db n st p ->
  exists u q,
    (forall fuel, 2 * List.length u < fuel -> unsquishProof fuel db (map encStep p) = Ok (map encStep u)) /\
    squishProof db (map encStep u) = Ok (map encStep q) /\
    (forall fuel, 2 * List.length u < fuel -> unsquishProof fuel db (map encStep q) = Ok (map encStep u)) /\
    goodProof db n st u /\ goodProof db n st q /\ (forall i, ~ In (Loc i) u) /\
    List.length q <= List.length u /\
    (forall i, In (Loc i) q -> exists m sm, nth_error q i = Some (Stm m) /\ stmtAt db m sm /\ isAssertion sm) /\
    (In Unk u <-> In Unk p) /\ (In Unk q <-> In Unk p) /\
    (validProof db st u <-> validProof db st p) /\ (validProof db st q <-> validProof db st p).
Proof. exact repack_valid. Qed.

(* The packed and the unpacked proof have the same proof tree, written without
   references in the unpacked one. *)
Theorem C13_same_tree : forall db n st p, goodProof db n st p ->
  exists t, denotes db (map encStep p) t /\ wfTree db t /\ noRefs (rpn t) /\
    forall fuel, 2 * List.length (rpn t) < fuel -> unsquishProof fuel db (map encStep p) = Ok (rpn t).
Proof. exact unpack_tree. Qed.

(* ---------------- C14 ---------------- *)
Theorem C14_subproof_length : forall db p k,
  wf_proof db p -> k < List.length p ->
  exists n, getSubproofLen db (map encStep p) k = Ok n /\ subproofLen db (map encStep p) k = Ok n /\
    1 <= n <= k + 1 /\ completeSub db (endingAt (map encStep p) k n) /\
    forall n', 1 <= n' <= k + 1 -> completeSub db (endingAt (map encStep p) k n') -> n' = n.
Proof. exact sub_len_proof. Qed.

(* ---------------- C15 ---------------- *)
Theorem C15_display : forall db p own lvl, wf_db db -> wf_proof db p ->
  exists T ind ess tgt, wfTree db T /\ map encStep p = rpn T /\
    (forall fuel, List.length p <= fuel ->
       getIndentation fuel db (map encStep p) lvl = Ok ind /\
       getEssential fuel db (map encStep p) = Ok ess /\
       getTargetHyp fuel db (map encStep p) own = Ok tgt) /\
    List.length ind = List.length p /\ List.length ess = List.length p /\ List.length tgt = List.length p /\
    forall k, k < List.length p -> exists path u, nodeAt T k path u /\
      (forall path' u', nodeAt T k path' u' -> path' = path /\ u' = u) /\
      nth_error ind k = Some (lvl + Z.of_nat (List.length path))%Z /\
      (nth_error ess k = Some 1%Z /\ Forall (isEssHyp db) path \/
       nth_error ess k = Some 0%Z /\ ~ Forall (isEssHyp db) path) /\
      exists h, targetOf db own path = Some h /\ nth_error tgt k = Some (Z.of_nat h).
Proof. exact display_ok. Qed.

(* ---------------- C44 ---------------- *)
(* SAVE PROOF /COMPRESSED: unpack, pack, compress; the text, laid out in any way
   (subject to the limits of C11), is read back without error as a proof that is
   valid exactly when the saved one is, and is incomplete exactly when that is. *)
Theorem C44_save_compressed_partial : forall env n st p order,
  wf_db (e_db env) -> wf_env env -> uniq_env env -> stmtAt (e_db env) n st -> s_type st = S_p ->
  goodProof (e_db env) n st p ->
  (forall q, goodProof (e_db env) n st q -> orderOn (order (map encStep q)) st q) ->
  exists u q expl text,
    (forall fuel, 2 * List.length u < fuel -> unsquishProof fuel (e_db env) (map encStep p) = Ok (map encStep u)) /\
    squishProof (e_db env) (map encStep u) = Ok (map encStep q) /\
    compressProof (order (map encStep q)) (e_db env) n (map encStep q) = Ok (expl, text) /\
    (validProof (e_db env) st q <-> validProof (e_db env) st p) /\ goodProof (e_db env) n st q /\
    forall section tx rest prev fuel,
      laidOut (map (fun z => e_name env (Z.to_nat z)) expl) text section tx ->
      (Z.of_nat (wrkMax prev st section) <= maxLong)%Z ->
      List.length (section ++ chDollar :: chDot :: rest) < fuel ->
      (List.length (s_reqHyps st) + List.length expl + numLoc q <= 120 \/
       hasPair2 85 85 tx = true \/ hasPair2 85 86 section = false) ->
      exists k, parseText fuel env n (wrkMax prev st section) section (chDollar :: chDot :: rest) =
        Ok (Some (k, map encStep q, 0)) /\ (k = 1 /\ In Unk p \/ k = 0 /\ ~ In Unk p).
Proof. exact save_compressed. Qed.

(* ---------------- examples ---------------- *)
Definition ex_p : list pstep := [Stm 3; Stm 3; Stm 4; Stm 3; Stm 3; Stm 4; Stm 4; Stm 5].
Example ex_p_good : goodProof ex_db 7 (nth 7 ex_stmts (mkStmt S_other [] [] [] [] [] [])) ex_p.
Proof.
  destruct (C09_parsed_good 1000 ex_env 7 _ 100 (codes " tze tze tpl tze tze tpl tpl eqid ") ex_end 0 (map encStep ex_p) 0
    ex_env_wf eq_refl eq_refl ltac:(vm_compute; reflexivity) (Nat.le_0_l 1)) as [proof [E [G _]]].
  replace ex_p with proof; [exact G|].
  apply (f_equal (map codeOf)) in E. rewrite !map_map in E.
  rewrite (map_ext _ (fun x => x) codeOf_enc) in E at 1. rewrite map_id in E.
  rewrite (map_ext _ (fun x => x) codeOf_enc) in E. rewrite map_id in E. symmetry. exact E.
Qed.
Example ex_p_noloc : forall i, ~ In (Loc i) ex_p.
Proof. intros i H. repeat (destruct H as [H|H]; [discriminate|]). exact H. Qed.
Example ex_C13_hyps := C13_pack_unpack ex_db 7 _ ex_p ex_db_wf ex_p_good ex_p_noloc.
Example ex_C13_pack : squishProof ex_db (map encStep ex_p) = Ok [3; 3; 4; -1002; 4; 5]%Z.
Proof. vm_compute. reflexivity. Qed.
Example ex_C13_unpack : unsquishProof 20 ex_db [3; 3; 4; -1002; 4; 5]%Z = Ok (map encStep ex_p).
Proof. vm_compute. reflexivity. Qed.
Example ex_C14_hyps : exists n, getSubproofLen ex_db (map encStep ex_p) 6 = Ok n /\ n = 7.
Proof. exists 7. split; vm_compute; reflexivity. Qed.
Example ex_C14_app := C14_subproof_length ex_db ex_p 6 (gp_wf _ _ _ _ ex_p_good) ltac:(cbn; lia).
Example ex_C15_app := C15_display ex_db ex_p 7 0%Z ex_db_wf (gp_wf _ _ _ _ ex_p_good).
(* sym (statement 10) has an essential hypothesis (statement 9) *)
Example ex_C15_run :
  getEssential 9 ex_db [3; 3; 4; 5; 10]%Z = Ok [0; 0; 0; 1; 1]%Z /\
  getIndentation 9 ex_db [3; 3; 4; 5; 10]%Z 0 = Ok [3; 3; 2; 1; 0]%Z /\
  getTargetHyp 9 ex_db [3; 3; 4; 5; 10]%Z 7 = Ok [1; 2; 1; 9; 7]%Z.
Proof. vm_compute. auto. Qed.
Lemma order_id st q : orderOn (fun l => Ok l) st q.
Proof. intros l _. exists l. split; auto. Qed.
Example ex_C44_hyps := C44_save_compressed_partial ex_env 7 _ ex_p (fun _ l => Ok l) ex_db_wf ex_env_wf ex_env_uniq
  eq_refl eq_refl ex_p_good (fun q _ => order_id _ q).
Example ex_C44_text : compressProof (fun l => Ok l) ex_db 7 [3; 3; 4; -1002; 4; 5]%Z =
  Ok ([3; 4; 5]%Z, codes "AABZDBC").
Proof. vm_compute. reflexivity. Qed.

Print Assumptions C13_pack_unpack.
Print Assumptions C13_unpack_repack.
Print Assumptions C13_same_tree.
Print Assumptions C14_subproof_length.
Print Assumptions C15_display.
Print Assumptions C44_save_compressed_partial.
