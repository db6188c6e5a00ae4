(* RvxProofs.v -- proofs about RvxModel *)
From Coq Require Import Permutation Sorted.
From Verif Require Import Base TokModel LabModel LabSpec LabProofs SrcModel StmModel TokSpec SrcSpec StmSpec TokProofs SrcProofs SrcFinal
  StmTab StmScope StmMain MMSpec VerModel VerSpec VerProofs ParModel ParSpec ParText ParProps CmpSpec
  ReadModel ReadOut ReadSpec ReadWf ReadTok ReadSec ReadWords ReadMain CheckMain ExpModel ExpSpec ExsMain RvxModel.
Open Scope nat_scope.

(* parse n is what parseProof leaves, in whatever format *)
Definition textsTo (env : penv) (texts : nat -> list nat * list nat) (parse : nat -> parsed) : Prop :=
  forall n st, stmtAt (e_db env) n st -> s_type st = S_p ->
  exists fuel prev k zs ec,
    parseProofText fuel env n (wrkMax prev st (fst (texts n))) (fst (texts n)) (snd (texts n)) = Ok (k, zs, ec) /\
    pr_k (parse n) = k /\ pr_sev (parse n) = k /\ pr_err (parse n) = ec /\ (k <= 1 -> decodes zs (pr_proof (parse n))).
Lemma textsTo_ok env texts parse : wf_env env -> hypLabels env -> textsTo env texts parse ->
  forall n st, stmtAt (e_db env) n st -> s_type st = S_p -> VerProofs.parse_ok (e_db env) n (parse n).
Proof.
  intros WE HL HP n st Hn Hp Hk0. destruct (HP n st Hn Hp) as [fuel [prev [k [zs [ec [H [E1 [E2 [E3 E4]]]]]]]]].
  rewrite E1 in Hk0. subst k.
  destruct (parseProofText_good _ _ _ _ _ _ _ _ _ _ WE HL Hn Hp H (Nat.le_0_l 1)) as [proof [-> [HG [HU HE]]]].
  apply decodes_enc in E4; [|lia]. rewrite E4. split; [|split; [|split; [|split]]].
  - intros C. apply HU in C. discriminate.
  - intros j i Hj. apply (gp_loc _ _ _ _ HG j i Hj).
  - intros m sm Hm Hs Ha. destruct (gp_ref _ _ _ _ HG m Hm) as [sm' [Hs' [[_ Hlt]|[Hh _]]]]; auto.
    exfalso. unfold stmtAt in *. assert (sm' = sm) by congruence. subst. destruct Ha, Hh; congruence.
  - intros m sm st' Hm Hs Hh Hst'. assert (st' = st) by (unfold stmtAt in *; congruence). subst st'.
    destruct (gp_ref _ _ _ _ HG m Hm) as [sm' [Hs' [[Ha _]|[_ Hx]]]]; auto.
    exfalso. unfold stmtAt in *. assert (sm' = sm) by congruence. subst. destruct Ha, Hh; congruence.
  - rewrite E3. apply HE. reflexivity.
Qed.

Lemma parseEvery_ok fuel env src ks : forall cnt n prev l, parseEvery fuel env src ks n cnt prev = Ok l ->
  forall j st, j < cnt -> stmtAt (e_db env) (n + j) st -> s_type st = S_p ->
  exists prev' k zs ec p, parseProofText fuel env (n + j) (wrkMax prev' st (fst (proofText src ks (n + j))))
      (fst (proofText src ks (n + j))) (snd (proofText src ks (n + j))) = Ok (k, zs, ec) /\
    nth j l (mkParsed 4 [] 4 0) = mkParsed k p k ec /\ (k <= 1 -> decodes zs p).
Proof.
  induction cnt as [|cnt IH]; intros n prev l H j st Hj HS HT; [lia|]. cbn [parseEvery] in H. apply rbind_ok in H. destruct H as [st0 [E0 H]].
  assert (E0' : stmtAt (e_db env) n st0) by (unfold stmtAt; destruct (nth_error _ n); cbn in E0; [congruence|discriminate]).
  assert (REST : forall prev1 l1 x, parseEvery fuel env src ks (S n) cnt prev1 = Ok l1 -> forall j1, j = S j1 ->
    exists prev' k zs ec p, parseProofText fuel env (n + j) (wrkMax prev' st (fst (proofText src ks (n + j))))
      (fst (proofText src ks (n + j))) (snd (proofText src ks (n + j))) = Ok (k, zs, ec) /\
    nth j (x :: l1) (mkParsed 4 [] 4 0) = mkParsed k p k ec /\ (k <= 1 -> decodes zs p)).
  { intros prev1 l1 x H1 j1 ->. specialize (IH (S n) prev1 l1 H1 j1 st). replace (S n + j1) with (n + S j1) in IH by lia. apply IH; auto. lia. }
  destruct (s_type st0) eqn:T0.
  2:{ apply rbind_ok in H. destruct H as [[[k zs] ec] [E H]]. apply rbind_ok in H. destruct H as [p [DC H]]. apply rbind_ok in H. destruct H as [l1 [E1 H]]. apply Ok_inj in H. subst l. destruct j as [|j].
      - rewrite Nat.add_0_r in *. assert (st0 = st) by (unfold stmtAt in *; congruence). subst st0.
        exists prev, k, zs, ec, p. split; [exact E|]. split; [reflexivity|]. intros HK. apply decAll_ok.
        destruct (decAll zs) as [q|]; [congruence|]. destruct (k <? 2) eqn:EK; [discriminate|]. apply Nat.ltb_ge in EK. lia.
      - eapply REST; eauto. }
  all: apply rbind_ok in H; destruct H as [l1 [E1 H]]; apply Ok_inj in H; subst l;
    (destruct j as [|j]; [exfalso; rewrite Nat.add_0_r in HS; assert (st0 = st) by (unfold stmtAt in *; congruence); congruence|eapply REST; eauto]).
Qed.

(* proofs in the other formats are read as before *)
Lemma every_all fuel env src ks : forall cnt n prev l, parseAll fuel env src ks n cnt prev = Ok (Some l) -> parseEvery fuel env src ks n cnt prev = Ok l.
Proof.
  induction cnt as [|cnt IH]; intros n prev l H; cbn [parseAll parseEvery] in *; [apply Ok_inj in H; injection H as <-; reflexivity|].
  apply rbind_ok in H. destruct H as [st0 [E0 H]]. rewrite E0. cbn [rbind]. destruct (s_type st0).
  2:{ apply rbind_ok in H. destruct H as [o [E H]]. destruct o as [[[k zs] ec]|]; [|discriminate H]. apply rbind_ok in H. destruct H as [p [DC H]]. apply rbind_ok in H. destruct H as [l1 [E1 H]]. apply Ok_inj in H. destruct l1 as [l1|]; [|discriminate H]. cbn [option_map] in H. injection H as <-.
      unfold parseProofText. rewrite E. cbn [rbind]. rewrite DC. cbn [rbind]. rewrite (IH _ _ _ E1). reflexivity. }
  all: apply rbind_ok in H; destruct H as [l1 [E1 H]]; apply Ok_inj in H; destruct l1 as [l1|]; [|discriminate H]; cbn [option_map] in H; injection H as <-; rewrite (IH _ _ _ E1); reflexivity.
Qed.
Lemma verify_same lsort msort find minSub prev fuel src x : readVerify lsort msort find minSub prev fuel src = Ok (Some x) -> readVerifyAll lsort msort find minSub prev fuel src = Ok x.
Proof.
  unfold readVerify, readVerifyAll. intros H. apply rbind_ok in H. destruct H as [[errs r] [H1 H]]. rewrite H1. cbn [rbind]. apply rbind_ok in H. destruct H as [o [H2 H]]. destruct o as [l|]; [|discriminate H]. rewrite (every_all _ _ _ _ _ _ _ _ H2). cbn [rbind].
  apply rbind_ok in H. destruct H as [v [H3 H]]. rewrite H3. cbn [rbind]. apply Ok_inj in H. injection H as <-. reflexivity.
Qed.

Section Read.
  Variable lsort : list lstmt -> list nat.
  Variable msort : list (list nat) -> list nat.
  Hypothesis LS : forall l, qsorted l (lsort l).
  Hypothesis MS : forall l, mqsorted l (msort l).
  Variables (minSub : nat) (src : list nat) (r : rdb).
  Hypothesis H : readText lsort msort minSub src = Ok ([], r).
  Variable find : list (label * Z) -> label -> option Z.
  Hypothesis FS : forall tab l j, find tab l = Some j -> In (l, j) tab.
  Hypothesis FN : forall tab l, find tab l = None -> forall j, ~ In (l, j) tab.
  Let env := envOf find r.
  Let sts := rd_sts r.

  Lemma ok_hypLabels : hypLabels env.
  Proof.
    intros j sj A B. destruct (ok_out lsort msort MS minSub src r H) as (O1 & O2 & O3 & O4).
    destruct (db_asrt sts (rd_out r) O1 O2 O4 (dbOf r) (ok_db lsort msort minSub src r H) j sj A B) as (i & o & Hi & -> & G & K & F & _).
    cbn [toStmt s_reqHyps]. pose proof (gf_hyps_sorted _ _ _ _ F) as SS.
    assert (ALL : forall h, In h (o_reqHyps o) -> exists sh, stmtAt (e_db env) h sh /\ isHyp sh).
    { intros h I. apply (wf_hyps _ (ok_wf lsort msort MS minSub src r H) j _ h A B). exact I. }
    revert ALL. clear F. generalize (o_reqHyps o) SS. intros l SL. induction SL as [|h l SL IH FA]; intros ALL; [constructor|]. cbn [map]. constructor; [|apply IH; intros h' I; apply ALL; right; exact I].
    intros I. apply in_map_iff in I. destruct I as [h' [E I]]. destruct (ALL h (or_introl eq_refl)) as [sh [S1 S2]]. destruct (ALL h' (or_intror I)) as [sh' [S3 S4]].
    assert (h' = h) by (apply (ue_name _ (ok_uniq lsort msort LS MS minSub src r H find) h' h sh' sh); auto; right; assumption). subst h'. rewrite Forall_forall in FA. specialize (FA h I). lia.
  Qed.
  Lemma ok_texts fuel prev l : parseEvery fuel env src (rd_ks r) 1 (length (db_stmts (dbOf r)) - 1) prev = Ok l -> textsTo env (proofText src (rd_ks r)) (parsedAt l).
  Proof.
    intros HP n st HS HT. destruct n as [|n]; [exfalso; apply (db0 lsort msort MS minSub src r H) in HS; congruence|]. cbn [env envOf e_db] in HS. assert (L : S n < length (db_stmts (dbOf r))) by (apply nth_error_Some; unfold stmtAt in HS; congruence).
    destruct (parseEvery_ok _ _ _ _ _ _ _ _ HP n st ltac:(lia) HS HT) as (prev' & k & zs & ec & p & P1 & P2 & P3).
    exists fuel, prev', k, zs, ec. cbn [plus] in *. split; [exact P1|]. cbn [parsedAt]. rewrite P2. cbn [pr_k pr_sev pr_err pr_proof]. auto.
  Qed.
  Lemma all_formats fuel prev l : parseEvery fuel env src (rd_ks r) 1 (length (db_stmts (dbOf r)) - 1) prev = Ok l ->
    verifyProofs fuel (dbOf r) (parsedAt l) = Ok (true, []) -> forall n, kindAt sts n K_p -> theorem sts n.
  Proof.
    intros HP HV. destruct (ok_out lsort msort MS minSub src r H) as (A & B & C & D).
    apply (all_theorems sts (rd_out r) (proj1 (ok_legal lsort msort MS minSub src r H)) A B C D (dbOf r) (ok_db lsort msort minSub src r H) (fun n => pr_proof (parsedAt l n))).
    intros n st Hn HS HT.
    exact (verifyProofs_clean (dbOf r) (parsedAt l) fuel (ok_wf lsort msort MS minSub src r H)
      (textsTo_ok env (proofText src (rd_ks r)) (parsedAt l) (ok_env lsort msort LS MS minSub src r H find FS FN) ok_hypLabels (ok_texts _ _ _ HP)) HV n st Hn HS HT).
  Qed.
End Read.
