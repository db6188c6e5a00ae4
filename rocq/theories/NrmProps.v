(* NrmProps.v -- C56: SAVE PROOF /NORMAL and /PACKED. *)
From Coq Require Import String List.
From Verif Require Import Base MMSpec VerModel VerSpec VerExample TokModel ParModel ParSpec ParExample FatlSpec CmpSpec ParProps
  SqModel SqSpec SqProps CmpCodec CmpRound SqValid DateModel DateProofs OrdModel SavModel NrmModel NrmSpec NrmProofs NrmText.
Import ListNotations.
Open Scope nat_scope.

(* ---------------- C56 ---------------- *)
(* From an acceptable proof, on a screen of width 5 or more, the command stores a section
   which, followed by "$.", is read back without error as a proof with the same tree
   (for /NORMAL its unpacked form, for /PACKED its packed form), hence with the same
   validity, and incomplete exactly when the original was.  The only other outcome is
   that the text overruns the string allocated for it; this needs a label that is a
   number, or a '?' together with a label of more than 100 characters. *)
Theorem C56_saved_section_reads_back : forall packed env n st p w back, (5 <= w)%Z ->
  wf_db (e_db env) -> wf_env env -> uniq_env env -> stmtAt (e_db env) n st -> s_type st = S_p ->
  goodProof (e_db env) n st p ->
  exists bound,
  (~ (noNumericLabel env /\ (~ In Unk p \/ shortLabels env)) /\
   forall fuel, bound < fuel -> saveNormal packed fuel env w back (map encStep p) = UB) \/
  exists q sec t,
    (forall fuel, bound < fuel -> saveNormal packed fuel env w back (map encStep p) = Ok sec) /\
    denotes (e_db env) (map encStep p) t /\ denotes (e_db env) (map encStep q) t /\
    (packed = false -> map encStep q = rpn t) /\
    (packed = true -> squishProof (e_db env) (rpn t) = Ok (map encStep q)) /\
    goodProof (e_db env) n st q /\ (validProof (e_db env) st q <-> validProof (e_db env) st p) /\
    forall rest fuel max, exists k,
      parseText fuel env n max sec (chDollar :: chDot :: rest) = Ok (Some (k, map encStep q, 0)) /\
      (k = 1 /\ In Unk p \/ k = 0 /\ ~ In Unk p).
Proof. exact saved_normal. Qed.

(* local labels: each is a new number, different from every label of the database *)
Theorem C56_local_labels_new : forall env next, exists k,
  freeNumber (S (List.length (allLabels env))) env next = Ok k /\ next <= k /\
  ~ (exists m sm, stmtAt (e_db env) m sm /\ labelled sm /\ e_name env m = num k) /\
  forall j, next <= j < k -> exists m sm, stmtAt (e_db env) m sm /\ labelled sm /\ e_name env m = num j.
Proof.
  intros env next. destruct (free_ok env next) as (k & A & B & C & D). exists k. split; [exact A|]. split; [exact B|].
  split; [intros H; apply C, in_allLabels, H|]. intros j J. apply in_allLabels, D, J.
Qed.

(* ---------------- witnesses ---------------- *)
(* /PACKED: labels 1 to 99 are taken; h, d (one hypothesis), r (four).  The text
   "h 100:d 101:d 102:d 100 101 102 r " has 34 characters, the string 32. *)
Definition nl_stmts : list stmtRec :=
  mkStmt S_other [] [] [] [] [] [] ::
  List.map (fun _ => mkStmt S_e [150] [] [] [] [] []) (seq 1 4) ++
  [ mkStmt S_a [150] [1] [] [] [] []; mkStmt S_a [150] [1; 2; 3; 4] [] [] [] [] ] ++
  List.map (fun _ => mkStmt S_a [150] [] [] [] [] []) (seq 1 99) ++
  [ mkStmt S_p [150] [1] [] [] [] [] ].
Definition nl_db : dbase := mkDb (fun _ => false) 151 nl_stmts.
Definition nl_name (m : nat) : label :=
  match m with
  | 1 => codes "h" | 2 => codes "i" | 3 => codes "j" | 4 => codes "k" | 5 => codes "d" | 6 => codes "r"
  | _ => if m =? 106 then codes "th" else str (Z.of_nat (m - 6))
  end.
Definition nl_env : penv := stdEnv nl_db nl_name.
Definition nl_p : list pstep := [Stm 1; Stm 5; Stm 5; Stm 5; Stm 1; Stm 5; Stm 1; Stm 5; Stm 5; Stm 1; Stm 5; Stm 5; Stm 5; Stm 6].
Ltac good_proof env n text p wf := 
  let proof := fresh in let E := fresh in let G := fresh in
  destruct (C09_parsed_good 1000 env n _ 100 text ParExample.ex_end 0 (map encStep p) 0
    wf eq_refl eq_refl ltac:(vm_compute; reflexivity) (Nat.le_0_l 1)) as [proof [E [G _]]];
  replace p with proof; [exact G|];
  apply (f_equal (map codeOf)) in E; rewrite !map_map in E;
  rewrite (map_ext _ (fun x => x) codeOf_enc) in E at 1; rewrite map_id in E;
  rewrite (map_ext _ (fun x => x) codeOf_enc) in E; rewrite map_id in E; symmetry; exact E.
Lemma nl_wf : wf_db nl_db. Proof. apply wf_dbB_ok. vm_compute. reflexivity. Qed.
Lemma nl_env_wf : wf_env nl_env. Proof. apply stdEnv_wf. vm_compute. reflexivity. Qed.
Lemma nl_env_uniq : uniq_env nl_env. Proof. apply stdEnv_uniq; vm_compute; reflexivity. Qed.
Lemma nl_good : goodProof nl_db 106 (nth 106 nl_stmts (mkStmt S_other [] [] [] [] [] [])) nl_p.
Proof. good_proof nl_env 106 (codes " h d d d h d h d d h d d d r ") nl_p nl_env_wf. Qed.
Theorem C56_numeric_labels_refuted : exists env n st p,
  wf_db (e_db env) /\ wf_env env /\ uniq_env env /\ stmtAt (e_db env) n st /\ s_type st = S_p /\ goodProof (e_db env) n st p /\
  ~ In Unk p /\ saveNormal true 1000 env 79 [] (map encStep p) = UB.
Proof.
  exists nl_env, 106, (nth 106 nl_stmts (mkStmt S_other [] [] [] [] [] [])), nl_p.
  split; [exact nl_wf|]. split; [exact nl_env_wf|]. split; [exact nl_env_uniq|]. split; [reflexivity|]. split; [reflexivity|]. split; [exact nl_good|].
  split; [intros H; repeat (destruct H as [H|H]; [discriminate|]); exact H|]. vm_compute. reflexivity.
Qed.

(* /NORMAL: "h h ? r" where h has 300 characters; after the '?' a string for labels of
   100 characters is allocated *)
Definition ll_stmts : list stmtRec :=
  mkStmt S_other [] [] [] [] [] [] ::
  List.map (fun _ => mkStmt S_e [150] [] [] [] [] []) (seq 1 3) ++
  [ mkStmt S_a [150] [1; 2; 3] [] [] [] []; mkStmt S_p [150] [1] [] [] [] [] ].
Definition ll_db : dbase := mkDb (fun _ => false) 151 ll_stmts.
Definition ll_name (m : nat) : label :=
  match m with 1 => List.repeat 104 300 | 2 => codes "i" | 3 => codes "j" | 4 => codes "r" | _ => codes "th" end.
Definition ll_env : penv := stdEnv ll_db ll_name.
Definition ll_p : list pstep := [Stm 1; Stm 1; Unk; Stm 4].
Lemma ll_wf : wf_db ll_db. Proof. apply wf_dbB_ok. vm_compute. reflexivity. Qed.
Lemma ll_env_wf : wf_env ll_env. Proof. apply stdEnv_wf. vm_compute. reflexivity. Qed.
Lemma ll_env_uniq : uniq_env ll_env. Proof. apply stdEnv_uniq; vm_compute; reflexivity. Qed.
Lemma ll_good : goodProof ll_db 5 (nth 5 ll_stmts (mkStmt S_other [] [] [] [] [] [])) ll_p.
Proof.
  constructor.
  - split; [vm_compute; reflexivity|]. intros k i H. apply nth_error_In in H. repeat (destruct H as [H|H]; [discriminate|]). destruct H.
  - intros k i H. apply nth_error_In in H. repeat (destruct H as [H|H]; [discriminate|]). destruct H.
  - intros m H. destruct H as [H|[H|[H|[H|[]]]]]; try discriminate; injection H as <-; eexists; (split; [reflexivity|]).
    + right. split; [now left|]. left. now left.
    + right. split; [now left|]. left. now left.
    + left. split; [now left|]. lia.
Qed.
Theorem C56_long_label_refuted : exists env n st p,
  wf_db (e_db env) /\ wf_env env /\ uniq_env env /\ stmtAt (e_db env) n st /\ s_type st = S_p /\ goodProof (e_db env) n st p /\
  noNumericLabel env /\ saveNormal false 1000 env 79 [] (map encStep p) = UB.
Proof.
  exists ll_env, 5, (nth 5 ll_stmts (mkStmt S_other [] [] [] [] [] [])), ll_p.
  split; [exact ll_wf|]. split; [exact ll_env_wf|]. split; [exact ll_env_uniq|]. split; [reflexivity|]. split; [reflexivity|]. split; [exact ll_good|].
  split; [|vm_compute; reflexivity].
  intros m sm k A L K D. destruct D as (_ & F & _).
  assert (X : exists c r, e_name ll_env m = c :: r /\ 57 < c).
  { do 5 (destruct m as [|m]; [first [eexists _, _; split; [reflexivity|]; vm_compute; lia]|]). eexists _, _. split; [reflexivity|]. vm_compute. lia. }
  destruct X as (c & r & E & C). rewrite E in F. inversion F; subst. lia.
Qed.

(* ---------------- examples ---------------- *)
Lemma ex_noNumeric : noNumericLabel ex_env.
Proof.
  intros m sm k A L K D. destruct D as (_ & F & _).
  assert (X : exists c r, e_name ex_env m = c :: r /\ 57 < c).
  { do 11 (destruct m as [|m]; [eexists _, _; split; [reflexivity|]; vm_compute; lia|]). eexists _, _. split; [reflexivity|]. vm_compute. lia. }
  destruct X as (c & r & E & C). rewrite E in F. inversion F; subst. lia.
Qed.
Example ex_C56_app := fun b => C56_saved_section_reads_back b ex_env 7 _ ex_p 79%Z [] ltac:(lia) ex_db_wf ex_env_wf ex_env_uniq eq_refl eq_refl ex_p_good.
Example ex_C56_noUnk : ~ In Unk ex_p.
Proof. intros H. repeat (destruct H as [H|H]; [discriminate|]). exact H. Qed.
Example ex_C56_normal : saveNormal false 100 ex_env 79 [] (map encStep ex_p) = Ok (10 :: codes "  tze tze tpl tze tze tpl tpl eqid ").
Proof. vm_compute. reflexivity. Qed.
Example ex_C56_packed : saveNormal true 100 ex_env 79 [] (map encStep ex_p) = Ok (10 :: codes "  tze tze 1:tpl 1 tpl eqid ").
Proof. vm_compute. reflexivity. Qed.
Example ex_C56_wrap : saveNormal true 100 ex_env 14 [] (map encStep ex_p) = Ok (10 :: codes "  tze tze" ++ 10 :: codes "  1:tpl 1 tpl" ++ 10 :: codes "  eqid ").
Proof. vm_compute. reflexivity. Qed.
Example ex_C56_read : parseText 100 ex_env 7 100 (10 :: codes "  tze tze 1:tpl 1 tpl eqid ") ParExample.ex_end = Ok (Some (0, [3; 3; 4; -1002; 4; 5]%Z, 0)).
Proof. vm_compute. reflexivity. Qed.

Print Assumptions C56_saved_section_reads_back.
Print Assumptions C56_local_labels_new.
Print Assumptions C56_numeric_labels_refuted.
Print Assumptions C56_long_label_refuted.
