(* PfaHist.v -- proofs about PfaModel: histories of surgery, and validity *)
From Coq Require Import ZifyBool ZifyNat.
From Verif Require Import SrcProofs Base MMSpec VerModel VerSpec ParModel ParSpec SqModel SqSpec SqProofs SqAttr SqPack SqValid SqGood TrcWork StmScope StmTab VerStep VerProofs NmbProofs PfaModel PfaSpec PfaProofs PfaMore PfaFloat PfaAssign.
Open Scope nat_scope.

(* replacing a subproof by one that proves the same thing *)
Lemma put_val db stp v T path T' : putAt v T path T' -> forall k u eu e, nodeAt T k path u ->
  tval db stp u eu -> tval db stp v eu -> wf_db db -> tval db stp T e -> tval db stp T' e.
Proof.
  induction 1 as [t|z ks1 kd ks2 path k' P IH]; intros k u eu e N U V WD Te.
  - inversion N; subst. rewrite <- (tval_det db stp WD _ _ _ U Te). exact V.
  - inversion N as [|? ? ? c0 k0 ? ? Nc Q]; subst. rewrite nth_error_app2, Nat.sub_diag in Nc by lia. injection Nc as <-.
    inversion Te as [? ? es ? F R]; subst. apply tv_node with (es := es); [|exact R].
    apply Forall2_app_inv_l in F. destruct F as [e1 [e2 [F1 [F2 ->]]]]. inversion F2 as [|? ek ? ? G1 G2]; subst.
    apply Forall2_app; [exact F1|]. constructor; [|exact G2]. eapply IH; eassumption.
Qed.
(* deleting and adding back, adding and deleting *)
Lemma put_same T k path u : nodeAt T k path u -> putAt u T path T.
Proof.
  induction 1 as [t|z kids j c k path u N Q IH]; [constructor|]. apply nth_error_split in N. destruct N as [k1 [k2 [-> <-]]]. constructor. exact IH.
Qed.
Lemma put_det v T path T1 : putAt v T path T1 -> forall T2, putAt v T path T2 -> T1 = T2.
Proof.
  induction 1 as [t|z ks1 kd ks2 path k' P IH]; intros T2 Q.
  - inversion Q; subst. reflexivity.
  - remember (Node z (ks1 ++ kd :: ks2)) as tt eqn:Et. remember ((z, length ks1) :: path) as pp eqn:Ep.
    destruct Q as [?|z0 k1 k0 k2 p0 k0' Q']; [discriminate|]. injection Et as -> E1. injection Ep as L ->.
    assert (X : k1 = ks1 /\ k0 :: k2 = kd :: ks2).
    { clear -E1 L. revert ks1 E1 L. induction k1 as [|x k1 IH]; intros [|y ks1] E L; try discriminate; [auto|].
      simpl in *. injection E as -> E. destruct (IH ks1 E) as [-> ->]; auto. }
    destruct X as [-> X]. injection X as -> ->. f_equal. f_equal. f_equal. apply IH, Q'.
Qed.
Theorem delete_add_back db s T k path u : pipOk db s T -> nodeAt T k path u ->
  exists s', replaceSubProof db s (rpn u) k = Ok s' /\ pf s' = pf s /\ pipOk db s' T.
Proof.
  intros P N. pose proof P as [P1 P2 P3 P4 P5 P6 P7].
  destruct (replace_ok db s T k path u u P N (node_wf _ _ _ _ _ P1 N) (node_norefs _ _ _ _ N P3)) as [s' [T' [A1 [A2 [A3 _]]]]].
  exists s'. split; [exact A1|]. assert (T' = T) by (eapply put_det; [exact A3|eapply put_same; exact N]). subst T'.
  split; [|exact A2]. rewrite P2. apply (po_rpn _ _ _ A2).
Qed.

Lemma splice_last {A} (l : list A) k n new d : k < length l ->
  last (splice l k n (new ++ [nth k l d])) d = last l d.
Proof.
  intros H. unfold splice. rewrite <- app_assoc, app_assoc. cbn [app].
  destruct (nth_error l k) as [x|] eqn:E; [|apply nth_error_None in E; lia].
  rewrite <- (nth_skipn_cons l k x d E). assert (NE : skipn k l <> []) by (rewrite (nth_skipn_cons l k x d E); discriminate).
  assert (LA : forall (a b : list A), b <> [] -> last (a ++ b) d = last b d).
  { clear. induction a as [|y a IH]; intros b N; [reflexivity|]. cbn [app last]. rewrite IH by exact N.
    destruct (a ++ b) eqn:E; [|reflexivity]. apply app_eq_nil in E. destruct E. contradiction. }
  rewrite LA by exact NE. rewrite <- (firstn_skipn k l) at 2. rewrite LA by exact NE. reflexivity.
Qed.
Lemma unk_node db s T k : pipOk db s T -> nth_error (pf s) k = Some zUnk -> exists path, nodeAt T k path unknown.
Proof.
  intros [P1 P2 P3 P4 P5 P6 P7] N. rewrite P2 in N. assert (B : k < sz T) by (apply nth_error_Some; congruence).
  destruct (nodeAt_total T k B) as [path [u M]]. pose proof (nodeAt_root _ _ _ _ M) as R. rewrite N in R. injection R as R.
  pose proof (node_wf _ _ _ _ _ P1 M) as Wu. destruct u as [z kids]. cbn [rootOf] in R. subst z.
  apply wf_node in Wu. destruct Wu as [A _]. cbn in A. injection A as A. destruct kids; [|discriminate]. exists path. exact M.
Qed.
Lemma last_app_ne {A} (a b : list A) d : b <> [] -> last (a ++ b) d = last b d.
Proof.
  induction a as [|y a IH]; intros N; [reflexivity|]. cbn [app last]. rewrite IH by exact N.
  destruct (a ++ b) eqn:E; [|reflexivity]. apply app_eq_nil in E. destruct E. contradiction.
Qed.
Lemma last_nth {A} (l : list A) d : last l d = nth (length l - 1) l d.
Proof.
  induction l as [|x l IH]; [reflexivity|]. destruct l as [|y l]; [reflexivity|]. cbn [last] in *. rewrite IH. cbn [length].
  replace (S (S (length l)) - 1) with (S (length l)) by lia. replace (S (length l) - 1) with (length l) by lia. reflexivity.
Qed.

Theorem surgery_ok db mt x y T : wf_db db -> pipOk db (fst x) T -> surgery db mt x y ->
  snd x <= snd y /\ last (tg (fst y)) [] = last (tg (fst x)) [] /\ exists T', pipOk db (fst y) T'.
Proof.
  intros WD P S. destruct S as [s s' k d Hk E|s s' k v d Hk Wv Nv E|s s' k v d Hk Wv Nv E|s s' k n st old d d' Hk Es Ht E|s s' d LC E];
    cbn [fst snd] in *; pose proof P as [P1 P2 P3 P4 P5 P6 P7].
  - split; [lia|]. rewrite P2 in Hk. destruct (nodeAt_total T k Hk) as [path [u N]].
    destruct (Z.eq_dec (rootOf u) zUnk) as [Ez|Ez].
    + pose proof (nodeAt_root _ _ _ _ N) as R. rewrite Ez, <- P2 in R. unfold deleteSubProof in E. rewrite R in E. cbn [rget rbind] in E.
      rewrite Z.eqb_refl in E. injection E as <-. split; [reflexivity|]. exists T. exact P.
    + destruct (delete_ok db s T k path u P N) as [s1 [T1 [D1 [D2 [_ [_ [_ [D6 _]]]]]]]].
      { rewrite P2, (nodeAt_root _ _ _ _ N). congruence. }
      rewrite D1 in E. injection E as <-. split; [|exists T1; exact D2]. rewrite D6.
      apply (splice_last (tg s) k (sz u) [] []). rewrite P4, P2. exact Hk.
  - split; [lia|]. destruct (unk_node db s T k P Hk) as [path N].
    destruct (add_ok db s T k path unknown v P N Hk Wv Nv) as [s1 [T1 [D1 [D2 [_ [_ [_ [D6 _]]]]]]]].
    rewrite D1 in E. injection E as <-. split; [|exists T1; exact D2]. rewrite D6. apply splice_last.
    rewrite P4, P2. eapply nodeAt_bound. exact N.
  - split; [lia|]. rewrite P2 in Hk. destruct (nodeAt_total T k Hk) as [path [u N]].
    destruct (replace_ok db s T k path u v P N Wv Nv) as [s1 [T1 [D1 [D2 [_ [_ [D6 _]]]]]]].
    rewrite D1 in E. injection E as <-. split; [|exists T1; exact D2]. rewrite D6. apply splice_last. rewrite P4, P2. exact Hk.
  - destruct (unk_node db s T k P Hk) as [path N]. pose proof (nodeAt_bound _ _ _ _ N) as B. destruct Ht as [Ht|[Ht Hr]].
    + destruct (assign_ok db mt old s T k path n st d WD P N Es Ht) as [s1 [T1 [m [D1 [D2 [_ [_ [_ [_ [D6 _]]]]]]]]]].
      rewrite D1 in E. injection E as <- <-. split; [lia|]. split; [|exists T1; exact D2]. rewrite D6. apply splice_last. rewrite P4, P2. exact B.
    + destruct (assign_hyp_ok db mt old s T k path n st d P N Es Ht Hr) as [s1 [T1 [D1 [D2 [_ [_ [_ [D6 _]]]]]]]].
      rewrite D1 in E. injection E as <- <-. split; [lia|]. split; [|exists T1; exact D2]. rewrite D6. reflexivity.
  - split; [lia|]. rewrite P2 in LC. destruct (delete_floating_ok db s T WD P LC) as [s1 [D1 [D2 [D3 _]]]].
    rewrite D1 in E. injection E as <-. split; [|eexists; exact D2]. rewrite D3. destruct T as [z kids]. rewrite kept_eq, map_app, last_app_ne by discriminate.
    cbn [map last plus]. rewrite last_nth, P4, P2, sz_node. f_equal. lia.
Qed.
Theorem history_ok db mt x y : wf_db db -> history db mt x y -> forall T, pipOk db (fst x) T ->
  snd x <= snd y /\ last (tg (fst y)) [] = last (tg (fst x)) [] /\ exists T', pipOk db (fst y) T'.
Proof.
  intros WD H. induction H as [x|x y z S H IH]; intros T P; [split; [lia|]; split; [reflexivity|]; exists T; exact P|].
  destruct (surgery_ok db mt x y T WD P S) as [A1 [A2 [T1 A3]]]. destruct (IH T1 A3) as [B1 [B2 B3]].
  split; [lia|]. split; [congruence|exact B3].
Qed.

Theorem replace_valid db stp s T k path u v e p s' p' : wf_db db -> pipOk db s T -> nodeAt T k path u ->
  wfTree db v -> noRefs (rpn v) -> tval db stp u e -> tval db stp v e ->
  pf s = map encStep p -> replaceSubProof db s (rpn v) k = Ok s' -> pf s' = map encStep p' ->
  validProof db stp p -> validProof db stp p'.
Proof.
  intros WD P N Wv Nv Uu Uv E1 R E2 V.
  destruct (replace_ok db s T k path u v P N Wv Nv) as [s1 [T' [A1 [A2 [A3 _]]]]]. rewrite A1 in R. injection R as <-.
  apply (valid_tval db stp WD p T) in V; [|rewrite <- E1, (po_rpn _ _ _ P); apply rpn_denotes; [apply (po_tree _ _ _ P)|apply (po_norefs _ _ _ P)]].
  apply (valid_tval db stp WD p' T'); [rewrite <- E2, (po_rpn _ _ _ A2); apply rpn_denotes; [apply (po_tree _ _ _ A2)|apply (po_norefs _ _ _ A2)]|].
  eapply put_val; eassumption.
Qed.
