(* SxpProps.v -- C66: SAVE PROOF /EXPLICIT.  Statements only; proofs in SxpMain.v. *)
From Coq Require Import String List.
From Verif Require Import Base MMSpec VerModel VerSpec VerExample TokModel ParModel ParSpec ParExample FatlSpec CmpSpec ParProps
  SqModel SqSpec SqProps CmpCodec CmpRound SqValid DateModel DateProofs OrdModel SavModel NrmModel NrmSpec NrmProps ExpModel ExpSpec ExpProps
  SxpModel SxpSpec SxpMain.
Import ListNotations.
Open Scope nat_scope.

(* From an acceptable proof, on a screen of width 5 or more, SAVE PROOF /EXPLICIT (packed or
   not) stores a section which, followed by "$.", is read back without error as a proof with
   the same tree, incomplete exactly when the original was.  The only other outcome is that
   the text overruns the string allocated for it; this needs a label that is a number, or a
   '?' together with a label of more than 100 characters. *)
Theorem C66_saved_explicit_reads_back : forall packed env n st p w back, (5 <= w)%Z ->
  wf_db (e_db env) -> wf_env env -> uniq_env env -> hypLabels env -> fromOne env -> stmtAt (e_db env) n st -> s_type st = S_p ->
  goodProof (e_db env) n st p ->
  exists bound,
  (~ (noNumericLabel env /\ (~ In Unk p \/ shortLabels env)) /\
   forall fuel, bound < fuel -> saveExplicit packed fuel env n w back (map encStep p) = UB) \/
  exists sec t,
    (forall fuel, bound < fuel -> saveExplicit packed fuel env n w back (map encStep p) = Ok sec) /\
    denotes (e_db env) (map encStep p) t /\
    forall rest, exists K q flag,
      (forall fuel max, K <= fuel -> parseProofText fuel env n max sec (chDollar :: chDot :: rest) = Ok (flag, q, 0)) /\
      denotes (e_db env) q t /\ (flag = 1 /\ In Unk p \/ flag = 0 /\ ~ In Unk p).
Proof. exact saved_explicit. Qed.
Print Assumptions C66_saved_explicit_reads_back.

(* the string is too short: labels of 300 characters and a '?' *)
Theorem C66_long_label_refuted : exists env n st p,
  wf_db (e_db env) /\ wf_env env /\ uniq_env env /\ fromOne env /\ stmtAt (e_db env) n st /\ s_type st = S_p /\ goodProof (e_db env) n st p /\
  saveExplicit false 1000 env n 79 [] (map encStep p) = UB.
Proof.
  exists ll_env, 5, (nth 5 ll_stmts (mkStmt S_other [] [] [] [] [] [])), ll_p.
  split; [exact ll_wf|]. split; [exact ll_env_wf|]. split; [exact ll_env_uniq|].
  split; [intros m sm A B; destruct m; [injection A as <-; destruct B as [[B|B]|[B|B]]; discriminate B|lia]|].
  split; [reflexivity|]. split; [reflexivity|]. split; [exact ll_good|]. vm_compute. reflexivity.
Qed.
Print Assumptions C66_long_label_refuted.

(* ---------------- examples ---------------- *)
Lemma ex_fromOne : fromOne ex_env.
Proof. intros m sm A B. destruct m; [injection A as <-; destruct B as [[B|B]|[B|B]]; discriminate B|lia]. Qed.
Example ex_C66_app := fun b => C66_saved_explicit_reads_back b ex_env 7 _ ex_p 79%Z [] ltac:(lia) ex_db_wf ex_env_wf ex_env_uniq ex_labels ex_fromOne eq_refl eq_refl ex_p_good.
Example ex_C66_noUnk : ~ In Unk ex_p := ex_C56_noUnk.
Example ex_C66_noNumeric : noNumericLabel ex_env := ex_noNumeric.
Definition ex_C66_sec : list nat := 10 :: codes "  tt=tze tr=tze 1:tt=tpl tr=1 tt=tpl th1=eqid "%string.
Example ex_C66_packed : saveExplicit true 100 ex_env 7 79 [] (map encStep ex_p) = Ok ex_C66_sec.
Proof. vm_compute. reflexivity. Qed.
Example ex_C66_normal : saveExplicit false 100 ex_env 7 79 [] (map encStep ex_p) = Ok (10 :: codes "  tt=tze tr=tze tt=tpl tt=tze tr=tze tr=tpl tt=tpl th1=eqid "%string).
Proof. vm_compute. reflexivity. Qed.
Example ex_C66_read : parseProofText 100 ex_env 7 100 ex_C66_sec ParExample.ex_end = Ok (0, [3; 3; 4; -1002; 4; 5]%Z, 0).
Proof. vm_compute. reflexivity. Qed.
