(* MwEnd.v -- proofs about MwModel: the theorems *)
From Coq Require Import ZifyBool ZifyNat Relations Relation_Operators Operators_Properties.
From Verif Require Import Base.
From Verif Require Import UniModel HenModel.
From Verif Require Import MMSpec VerModel VerSpec VerProofs TokModel ParModel ParSpec ExpModel SqModel SqSpec SqProofs SqAttr SqPack SqValid SqGood PfaModel PfaSpec PfaProofs PfaMore PfaValid PfaHist FltModel FltSpec FltProofs FltMain FltVal RepModel RepSpec RepProofs RepMain AkModel AkSpec AkProofs AkMain AkTop MinModel MinSpec MinProofs MinMain
  TrcModel TrcSpec TrcProofs MwModel MwSpec MwTree MwFlags MwProofs MwMain MwDisj MwVal MwRead.
Open Scope nat_scope.

Lemma mw_plain L N o s T w : worldOk N -> complete (n_E N) s T -> separated L (f_db (n_E N)) ->
  exists K, forall fuel s' ch st, K <= fuel -> minimizeWith w fuel N o s = Ok (s', ch, st) -> Good L N o s T (fun _ => True) fuel s' /\ (ch = false -> pf s' = pf s) /\
    (o_grow o = false -> exists text text', compressedText fuel N (pf s) = Ok text /\ compressedText fuel N (pf s') = Ok text' /\ length text' <= length text /\
      (ch = false /\ s' = s \/ ch = true /\ length (pf s') < length (pf s))).
Proof. intros WO CO SP. apply (mw_ok L N o s T w WO CO SP (fun _ => True)); auto. intros; exists 0; auto. Qed.
Lemma keeps_ok L N o s T w : worldOk N -> complete (n_E N) s T -> separated L (f_db (n_E N)) ->
  exists K, forall fuel s' ch st, K <= fuel -> minimizeWith w fuel N o s = Ok (s', ch, st) ->
    (exists T', kept (n_E N) s T s' T') /\ (ch = false -> pf s' = pf s) /\
    (o_grow o = false -> exists text text', compressedText fuel N (pf s) = Ok text /\ compressedText fuel N (pf s') = Ok text' /\ length text' <= length text /\
      (ch = false /\ s' = s \/ ch = true /\ length (pf s') < length (pf s))).
Proof. intros WO CO SP. destruct (mw_plain L N o s T w WO CO SP) as [K H]. exists K. intros fuel s' ch st LF R. destruct (H fuel s' ch st LF R) as [[T' [KP _]] X]. split; [eauto|exact X]. Qed.
Lemma permitted_ok L N o s T w : worldOk N -> complete (n_E N) s T -> separated L (f_db (n_E N)) ->
  exists K, forall fuel s' ch st, K <= fuel -> minimizeWith w fuel N o s = Ok (s', ch, st) ->
    forall z, In z (pf s') -> In z (pf s) \/ exists n, z = Z.of_nat n /\
      (ownHyp (n_E N) n \/ (1 <= n < f_n (n_E N) /\ syntaxAt L (f_db (n_E N)) n) \/ permitted fuel N o n).
Proof.
  intros WO CO SP. destruct (mw_plain L N o s T w WO CO SP) as [K H]. exists K. intros fuel s' ch st LF R z I. destruct (H fuel s' ch st LF R) as [[T' [_ [OR _]]] _].
  destruct (OR z I) as [X|[n [X [Y|[Y|[Y _]]]]]]; [left; exact X|right; exists n; auto..].
Qed.
Lemma not_theorem te n m : tracesTo true te n m -> theorem te n.
Proof. intros H. apply clos_trans_t1n_iff in H. destruct H as [y [[X _] _]|y z [[X _] _] _]; exact X. Qed.
Lemma axioms_same L N o s T w stn p : worldOk N -> tablesOk N -> complete (n_E N) s T -> separated L (f_db (n_E N)) -> syntaxProofs L (n_te N) ->
  stmtAt (f_db (n_E N)) (f_n (n_E N)) stn -> goodProof (f_db (n_E N)) (f_n (n_E N)) stn p -> map encStep p = pf s ->
  exists K, forall fuel s' ch st, K <= fuel -> minimizeWith w fuel N o s = Ok (s', ch, st) ->
    forall m, logicalAxiom L (f_db (n_E N)) m -> needs N (pf s') m -> needs N (pf s) m \/ newAllowed fuel N o m.
Proof.
  intros WO TA CO SP SYN SN GP EP. destruct (wo_n N WO) as [stn' [SN' PN]]. unfold stmtAt in SN, SN'. rewrite SN in SN'. injection SN' as <-.
  destruct (mw_plain L N o s T w WO CO SP) as [K H]. exists (Nat.max K (length (pf s) + 2)). intros fuel s' ch st LF R m [sm [SM [AM LM]]] [z [IZ D]].
  destruct (H fuel s' ch st ltac:(lia) R) as [[T' [_ [OR _]]] _].
  destruct (kept_reads N s T stn p TA SN PN GP EP s T fuel (kept_refl _ _ _ CO) ltac:(lia)) as [_ RB].
  destruct (OR _ IZ) as [X|[n [X [Y|[Y|[PM Y]]]]]]; [left; exists z; auto|apply Nat2Z.inj in X; subst n..].
  - exfalso. assert (HY : exists sh, stmtAt (f_db (n_E N)) z sh /\ isHyp sh).
    { destruct Y as [st' [S1 I]]. unfold stmtAt in S1. rewrite SN in S1. injection S1 as <-. pose proof SN as SE. rewrite <- (ta_db N TA) in SE. destruct (we_hyps _ (ta_env N TA) (f_n (n_E N)) stn z SE PN I) as [_ [sh [S2 HS]]]. rewrite (ta_db N TA) in S2. eauto. }
    destruct HY as [sh [S1 HS]]. destruct D as [->|D].
    + unfold stmtAt in SM, S1. rewrite SM in S1. injection S1 as <-. destruct HS; congruence.
    + apply not_theorem in D. destruct D as [s1 [S2 P2]]. rewrite (wo_db N WO) in S2. unfold stmtAt in S2, S1. rewrite S2 in S1. injection S1 as <-. destruct HS; congruence.
  - exfalso. assert (SY : syntaxAt L (f_db (n_E N)) m).
    { destruct D as [->|D]; [exact (proj2 Y)|]. rewrite <- (wo_db N WO). apply (SYN z m); [rewrite (wo_db N WO); exact (proj2 Y)|exact D]. }
    destruct SY as [s1 [S1 [_ [c [r [E1 E2]]]]]]. destruct LM as [c' [r' [E3 E4]]]. unfold stmtAt in SM, S1. rewrite SM in S1. injection S1 as <-. rewrite E1 in E3. injection E3 as <- <-. congruence.
  - exact (Y RB m sm SM AM D).
Qed.
Lemma stays_valid L N o s T w stn p : worldOk N -> tablesOk N -> complete (n_E N) s T -> separated L (f_db (n_E N)) -> syntaxFree L (f_db (n_E N)) ->
  stmtAt (f_db (n_E N)) (f_n (n_E N)) stn -> goodProof (f_db (n_E N)) (f_n (n_E N)) stn p -> map encStep p = pf s -> shows (f_db (n_E N)) anything T (s_math stn) ->
  validProof (f_db (n_E N)) stn p ->
  exists K, forall fuel s' ch st, K <= fuel -> minimizeWith w fuel N o s = Ok (s', ch, st) ->
    exists p', map encStep p' = pf s' /\ goodProof (f_db (n_E N)) (f_n (n_E N)) stn p' /\ validProof (f_db (n_E N)) stn p'.
Proof.
  intros WO TA CO SP SF SN GP EP SH VP. destruct (wo_n N WO) as [stn' [SN' PN]]. unfold stmtAt in SN, SN'. rewrite SN in SN'. injection SN' as <-.
  assert (WD : wf_db (f_db (n_E N))) by (rewrite <- (wo_db N WO); exact (wt_db _ (wo_te N WO))).
  assert (DEN : forall s T, complete (n_E N) s T -> denotes (f_db (n_E N)) (pf s) T).
  { intros a A C. pose proof (co_pip _ _ _ C) as PO. rewrite (po_rpn _ _ _ PO). apply rpn_denotes; [exact (po_tree _ _ _ PO)|exact (po_norefs _ _ _ PO)]. }
  destruct (mw_ok L N o s T w WO CO SP (fun t => tval (f_db (n_E N)) stn t (s_math stn))) as [K H].
  - apply (valid_tval _ stn WD p T); [rewrite EP; exact (DEN s T CO)|exact VP].
  - intros k st a A b B MO ND CA CB SW VA. exact (val_step L (n_E N) k st MO SP SF ND stn a A b B _ CA SW VA).
  - intros a A KP. exists (length (pf a) + 2). intros fuel text LF HT HD. destruct (kept_reads N s T stn p TA SN PN GP EP a A fuel KP LF) as [RS _].
    exact (val_disj N stn a A fuel text WD SN PN (kp_complete _ _ _ _ _ KP) (kp_same _ _ _ _ _ KP _ SH) RS HT HD).
  - exists K. intros fuel s' ch st LF R. destruct (H fuel s' ch st LF R) as [[T' [KP [_ VT]]] _]. destruct (kept_good N s T stn p TA SN PN GP EP s' T' KP) as [p' [E' [G' _]]]. exists p'. split; [congruence|]. split; [exact G'|].
    apply (valid_tval _ stn WD p' T'); [rewrite <- E'; exact (DEN s' T' (kp_complete _ _ _ _ _ KP))|exact VT].
Qed.
