(* ExpProps.v -- C65: proofs in /EXPLICIT format.  Statements only; proofs in ExpMain.v and
   ExpText.v. *)
From Verif Require Import Base MMSpec VerModel VerSpec VerExample TokModel TokSpec ParModel ParSpec ParExample SqModel SqSpec CmpSpec ExpModel ExpSpec ExpMain ExpText.
From Coq Require Import String.
Open Scope nat_scope.

(* Steps given with targets, hypotheses in any order, are read without error as a proof string
   that denotes the tree they mean; the parser ends. *)
Theorem C65_explicit : forall env n st l T,
  wf_env env -> uniq_env env -> hypLabels env -> stmtAt (e_db env) n st -> s_type st = S_p ->
  localsOk env n st l -> explicitProof env n st l T ->
  exists K q flag, (forall fuel, K <= fuel -> parseExplicit fuel env n (etoks l) = Ok (flag, q, 0)) /\
    denotes (e_db env) q T /\ (flag = 1 /\ hasUnknown l \/ flag = 0 /\ ~ hasUnknown l).
Proof. exact explicit_ok. Qed.
Print Assumptions C65_explicit.

(* The same from the text of the proof. *)
Theorem C65_explicit_text : forall env n st l T section rest w s,
  wf_env env -> uniq_env env -> hypLabels env -> stmtAt (e_db env) n st -> s_type st = S_p ->
  localsOk env n st l -> explicitProof env n st l T ->
  section ++ rest = w ++ s -> TokSpec.blanks w s -> startsInk s -> tokenised proofToken noProofToken s (etoks l) rest ->
  exists K q flag, (forall fuel max, K <= fuel -> parseProofText fuel env n max section rest = Ok (flag, q, 0)) /\
    denotes (e_db env) q T /\ (flag = 1 /\ hasUnknown l \/ flag = 0 /\ ~ hasUnknown l).
Proof. exact explicit_text. Qed.
Print Assumptions C65_explicit_text.

(* ---------- an example: two hypotheses exchanged, so that a reference comes first ---------- *)
Definition step (locs : list string) (target name : string) : estep := mkE (map codes locs) (codes target) (codes name).
Definition exL : list estep := [step ["a"] "tr" "tze"; step [] "tt" "a"; step [] "tt" "tpl"; step [] "th1" "eqid"]%string.
Definition exT : tree := Node 5 [Node 4 [Node 3 []; Node 3 []]]%Z.
Example ex_labels : hypLabels ex_env.
Proof.
  intros j sj A B. unfold stmtAt in A. cbn in A. do 11 (destruct j as [|j]; [injection A as <-; try (destruct B; discriminate); cbn; repeat constructor; cbn; intuition discriminate|]). destruct j; discriminate A.
Qed.
Definition st7 : stmtRec := mkStmt S_p [6; 3; 4; 3; 5; 3; 4; 3] [] [1; 2] [] [] [].
Example ex_locals : localsOk ex_env 7 st7 exL.
Proof.
  assert (LOC : forall s a, In s exL -> In a (x_locals s) -> a = codes "a") by (intros s a [<-|[<-|[<-|[<-|[]]]]] A; cbn in A; try contradiction; destruct A as [<-|[]]; reflexivity).
  constructor.
  - intros s a I A. rewrite (LOC s a I A). split; [discriminate|repeat constructor].
  - cbn. repeat constructor. intros [].
  - intros s a m sm I A B C L. rewrite (LOC s a I A). do 8 (destruct m as [|m]; [cbn; discriminate|]). lia.
  - intros s a h I A [H|H]; cbn in H; [contradiction|]. rewrite (LOC s a I A). destruct H as [<-|[<-|[]]]; cbn; discriminate.
  - intros s [<-|[<-|[<-|[<-|[]]]]]; (split; [discriminate|repeat constructor]).
Qed.
Example ex_means : explicitProof ex_env 7 st7 exL exT.
Proof.
  exists (codes "th1"). unfold exL. set (ze := Node 3%Z []).
  eapply me_cons. { apply (sm_use _ _ _ _ _ _ 3 (mkStmt S_a [7; 3] [] [1; 2] [] [] []) [] []); [reflexivity|now left|lia|reflexivity|reflexivity|reflexivity|constructor]. }
  eapply me_cons. { apply (sm_ref _ _ _ _ _ _ ze); [left; reflexivity|reflexivity]. }
  eapply me_cons. { apply (sm_use _ _ _ _ _ _ 4 (mkStmt S_a [7; 1; 4; 2] [1; 2] [] [1; 2] [] []) [(codes "tr", ze); (codes "tt", ze)] [] [ze; ze]); [reflexivity|now left|lia|reflexivity|reflexivity|reflexivity|].
    constructor; [right; left; reflexivity|constructor; [left; reflexivity|constructor]]. }
  eapply me_cons. { apply (sm_use _ _ _ _ _ _ 5 (mkStmt S_a [6; 1; 5; 1] [1] [2] [1] [] []) [(codes "tt", Node 4%Z [ze; ze])] [] [Node 4%Z [ze; ze]]); [reflexivity|now left|lia|reflexivity|reflexivity|reflexivity|].
    constructor; [left; reflexivity|constructor]. }
  apply me_nil.
Qed.
Example ex_C65 : exists K q flag, (forall fuel, K <= fuel -> parseExplicit fuel ex_env 7 (etoks exL) = Ok (flag, q, 0)) /\ denotes ex_db q exT /\ (flag = 1 /\ hasUnknown exL \/ flag = 0 /\ ~ hasUnknown exL).
Proof. exact (C65_explicit ex_env 7 st7 exL exT ex_env_wf ex_env_uniq ex_labels eq_refl eq_refl ex_locals ex_means). Qed.
Example ex_C65_run : parseExplicit 5 ex_env 7 (etoks exL) = Ok (0, [3; -1000; 4; 5]%Z, 0).
Proof. vm_compute. reflexivity. Qed.
Example ex_C65_text : parseProofText 50 ex_env 7 100 (codes " a : tr = tze tt = a tt = tpl th1 = eqid ") ex_end = Ok (0, [3; -1000; 4; 5]%Z, 0).
Proof. vm_compute. reflexivity. Qed.
Example ex_C65_unknown : parseExplicit 5 ex_env 7 (etoks [step ["a"] "tr" "?"; step [] "tt" "a"; step [] "tt" "tpl"; step [] "th1" "eqid"]%string) = Ok (1, [-63; -1000; 4; 5]%Z, 0).
Proof. vm_compute. reflexivity. Qed.
Example ex_C65_mismatch : parseExplicit 5 ex_env 7 (etoks [step [] "tr" "tze"; step [] "tr" "tze"; step [] "tt" "tpl"; step [] "th1" "eqid"]%string) = Ok (2, [3; 3; 4; 5]%Z, 1).
Proof. vm_compute. reflexivity. Qed.

(* Errors in a proof are not always only reported.  A step without target: writing to a
   string literal. *)
Theorem C65_missing_target_refuted : exists env n toks, wf_env env /\ uniq_env env /\ hypLabels env /\
  forall fuel, parseExplicit fuel env n toks = UB.
Proof.
  exists ex_env, 7, (map codes ["tze"; "tr"; "="; "tze"; "tpl"; "eqid"]%string).
  split; [exact ex_env_wf|]. split; [exact ex_env_uniq|]. split; [exact ex_labels|]. intros fuel. vm_compute. reflexivity.
Qed.
Print Assumptions C65_missing_target_refuted.
(* A local label on a reference is an error; if the hypotheses are exchanged as well, an
   internal error follows. *)
Theorem C65_label_on_reference_refuted : exists env n l, wf_env env /\ uniq_env env /\ hypLabels env /\
  forall fuel, 0 < fuel -> parseExplicit fuel env n (etoks l) = Bug 1738.
Proof.
  exists ex_env, 7, [step ["a"] "tr" "tze"; step ["b"] "tt" "a"; step [] "tt" "tpl"; step [] "tr" "b"; step [] "tt" "tpl"; step [] "th1" "eqid"]%string.
  split; [exact ex_env_wf|]. split; [exact ex_env_uniq|]. split; [exact ex_labels|]. intros [|fuel] L; [lia|]. vm_compute. reflexivity.
Qed.
Print Assumptions C65_label_on_reference_refuted.
