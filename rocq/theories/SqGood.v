(* SqGood.v -- repacking keeps a proof string acceptable to the verifier *)
From Verif Require Import Base MMSpec VerModel VerSpec TokModel ParModel ParSpec CmpModel CmpSpec CmpProofs CmpRound ParWit SqModel SqSpec SqProofs SqPack SqValid SqAttr.
From Coq Require Import Lia.
Open Scope nat_scope.

Lemma prun_all db (P : Z -> Prop) p : forall H S H' S', prun db H S p = Some (H', S') ->
  (forall z, In z p -> isRef z = false -> P z) ->
  Forall (fun t => Forall P (rpn t)) H -> Forall (fun t => Forall P (rpn t)) S ->
  Forall (fun t => Forall P (rpn t)) S'.
Proof.
  induction p as [|z p IH]; intros H S H' S' E HP FH FS; simpl in E; [inversion E; subst; auto|].
  assert (HP' : forall y, In y p -> isRef y = false -> P y) by (intros; apply HP; [right|]; assumption).
  destruct (isRef z) eqn:R.
  - destruct (nth_error H (refOf z)) as [t|] eqn:N; [|discriminate].
    assert (Forall P (rpn t)) by (rewrite Forall_forall in FH; apply FH; eapply nth_error_In; exact N).
    eapply IH; [exact E|exact HP'|apply Forall_app; auto|constructor; auto].
  - destruct (arity db z) as [n|]; [|discriminate]. destruct (n <=? length S); [|discriminate].
    assert (PT : Forall P (rpn (Node z (rev (firstn n S))))).
    { simpl. apply Forall_app. split; [|constructor; [apply HP; [left; reflexivity|exact R]|constructor]].
      assert (FK : Forall (fun t => Forall P (rpn t)) (rev (firstn n S))) by (apply Forall_rev, Forall_firstn', FS).
      rewrite Forall_forall in FK |- *. intros y Hy. apply in_flat_map in Hy. destruct Hy as [k [K1 K2]].
      specialize (FK k K1). rewrite Forall_forall in FK. auto. }
    eapply IH; [exact E|exact HP'|apply Forall_app; auto|constructor; [exact PT|apply Forall_skipn', FS]].
Qed.

Lemma subT_in u t : subT u t -> forall z, In z (rpn u) -> In z (rpn t).
Proof.
  induction 1 as [t|u k z kids Hk _ IH]; intros y Hy; [exact Hy|].
  simpl. apply in_or_app. left. apply in_flat_map. exists k. auto.
Qed.
Lemma rpn_root t : In (rootOf t) (rpn t).
Proof. destruct t. simpl. apply in_or_app. right. left. reflexivity. Qed.

Lemma prun_cover db p : forall H S H' S', prun db H S p = Some (H', S') ->
  forall z, In z p -> isRef z = false -> exists v, In v S' /\ In z (rpn v).
Proof.
  induction p as [|y p IH]; intros H S H' S' E z Hz R; [destruct Hz|]. simpl in E.
  destruct (isRef y) eqn:RY.
  - destruct (nth_error H (refOf y)) as [t|]; [|discriminate].
    destruct Hz as [->|Hz]; [congruence|]. eapply IH; eassumption.
  - destruct (arity db y) as [n|]; [|discriminate]. destruct (n <=? length S); [|discriminate].
    destruct Hz as [->|Hz]; [|eapply IH; eassumption].
    destruct (prun_sub db p _ _ _ _ E (Node z (rev (firstn n S))) (or_introl eq_refl)) as [v [V1 V2]].
    exists v. split; [exact V1|]. eapply subT_in; [exact V2|]. apply (rpn_root (Node z (rev (firstn n S)))).
Qed.

(* the non-reference elements of a packed proof are those of its tree *)
Lemma denotes_elems db p t : denotes db p t ->
  forall z, In z (rpn t) <-> In z p /\ isRef z = false.
Proof.
  intros [H E] z. split.
  - intros Hz.
    assert (F := prun_all db (fun y => In y p /\ isRef y = false) p [] [] H [t] E
                   (fun y A B => conj A B) (Forall_nil _) (Forall_nil _)).
    inversion F as [|? ? F1 _]; subst. rewrite Forall_forall in F1. auto.
  - intros [A B]. destruct (prun_cover db p _ _ _ _ E z A B) as [v [[<-|[]] V]]. exact V.
Qed.

Lemma prun_balanced db q : forall H S H' S', prun db H S (map encStep q) = Some (H', S') ->
  balanced db q (length S) = Some (length S') /\
  (forall k i, nth_error q k = Some (Loc i) -> i < length H + k).
Proof.
  induction q as [|x q IH]; intros H S H' S' E.
  - inversion E; subst. split; [reflexivity|]. intros [|k] i N; discriminate.
  - cbn [map prun] in E. rewrite encStep_ref in E.
    assert (G : forall t S1 P, prun db (H ++ [t]) S1 (map encStep q) = Some (H', S') ->
       (forall i, x = Loc i -> i < length H) -> balanced db (x :: q) (length S) = balanced db q (length S1) ->
       P = balanced db (x :: q) (length S) -> P = Some (length S') /\
       (forall k i, nth_error (x :: q) k = Some (Loc i) -> i < length H + k)).
    { intros t S1 P E1 HX HB ->. destruct (IH _ _ _ _ E1) as [I1 I2]. split; [congruence|].
      intros [|k] i N; simpl in N.
      - inversion N. specialize (HX i ltac:(assumption)). lia.
      - specialize (I2 k i N). rewrite app_length in I2. simpl in I2. lia. }
    destruct x as [|i|n].
    + eapply (G _ _ _ E); [intros i Hi; discriminate| |reflexivity]. reflexivity.
    + rewrite refOf_loc in E. destruct (nth_error H i) as [t|] eqn:N; [|discriminate].
      eapply (G _ _ _ E); [|reflexivity|reflexivity]. intros i' Hi. inversion Hi; subst.
      apply nth_error_Some. congruence.
    + rewrite arity_stm in E. simpl balanced in *.
      destruct (nth_error (db_stmts db) n) as [st|]; [|discriminate].
      destruct (s_type st); try discriminate.
      * destruct (length (s_reqHyps st) <=? length S) eqn:L; [|discriminate].
        eapply (G _ _ _ E); [intros i Hi; discriminate| |reflexivity].
        simpl length. rewrite skipn_length. reflexivity.
      * destruct (length (s_reqHyps st) <=? length S) eqn:L; [|discriminate].
        eapply (G _ _ _ E); [intros i Hi; discriminate| |reflexivity].
        simpl length. rewrite skipn_length. reflexivity.
      * simpl in E. eapply (G _ _ _ E); [intros i Hi; discriminate| |reflexivity]. reflexivity.
      * simpl in E. eapply (G _ _ _ E); [intros i Hi; discriminate| |reflexivity]. reflexivity.
Qed.

Lemma good_refsNonref db n st p : goodProof db n st p -> refsNonref (map encStep p).
Proof.
  intros G z Hz R. apply in_map_iff in Hz. destruct Hz as [x [E Hx]].
  rewrite <- E, encStep_ref in R. destruct x as [|i|m]; try discriminate.
  apply In_nth_error in Hx. destruct Hx as [k Hk].
  rewrite <- E, refOf_loc. destruct (gp_loc _ _ _ _ G k i Hk) as [_ [A|[m [sm [A _]]]]].
  - exists (encStep Unk). rewrite nth_error_map, A. split; reflexivity.
  - exists (encStep (Stm m)). rewrite nth_error_map, A. split; [reflexivity|]. apply encStep_ref.
Qed.

Lemma good_legal db n st p t : goodProof db n st p -> denotes db (map encStep p) t -> legalCodes (rpn t).
Proof.
  intros G D z Hz. apply (denotes_elems db _ _ D) in Hz. destruct Hz as [Hz R].
  apply in_map_iff in Hz. destruct Hz as [x [<- _]]. destruct x; cbn [encStep]; [right; left; reflexivity|
    right; right; apply encStep_ref with (x := Loc i)|left; lia].
Qed.

Definition refsInner (db : dbase) (zq : list Z) : Prop :=
  forall z, In z zq -> isRef z = true -> exists y, nth_error zq (refOf z) = Some y /\ inner db y.

(* any other packing of the tree of a good proof is a good proof *)
Lemma good_transport db n st p t zq : goodProof db n st p -> denotes db (map encStep p) t ->
  denotes db zq t -> refsInner db zq ->
  exists q, zq = map encStep q /\ goodProof db n st q /\
    (forall i, In (Loc i) q -> exists m sm, nth_error q i = Some (Stm m) /\ stmtAt db m sm /\ isAssertion sm) /\
    (In Unk q <-> In Unk p).
Proof.
  intros G D D' R.
  assert (EL : forall z, In z zq -> isRef z = false -> exists x, In x p /\ z = encStep x /\ notLoc x).
  { intros z Hz Rz. assert (In z (rpn t)) as Hr by (apply (denotes_elems db zq t D'); auto).
    apply (denotes_elems db _ t D) in Hr. destruct Hr as [Hr _]. apply in_map_iff in Hr.
    destruct Hr as [x [E Hx]]. exists x. split; [exact Hx|]. split; [auto|].
    rewrite <- E, encStep_ref in Rz. destruct x; [exact I|discriminate|exact I]. }
  assert (EQ : zq = map encStep (map codeOf zq)).
  { rewrite map_map. rewrite <- (map_id zq) at 1. apply map_ext_in. intros z Hz.
    destruct (isRef z) eqn:Rz.
    - unfold codeOf. replace (z =? zUnk)%Z with false
        by (symmetry; apply Z.eqb_neq; intros ->; discriminate).
      rewrite Rz. cbn [encStep]. symmetry. apply refOf_self, Rz.
    - destruct (EL z Hz Rz) as [x [_ [-> _]]]. rewrite codeOf_enc. reflexivity. }
  exists (map codeOf zq). split; [exact EQ|].
  assert (D2 := D'). rewrite EQ in D2. destruct D2 as [H2 D2].
  destruct (prun_balanced db _ _ _ _ _ D2) as [B1 B2].
  assert (LOC : forall i, In (Loc i) (map codeOf zq) ->
    exists m sm, nth_error (map codeOf zq) i = Some (Stm m) /\ stmtAt db m sm /\ isAssertion sm).
  { intros i Hi. apply in_map_iff in Hi. destruct Hi as [z [E Hz]].
    destruct (isRef z) eqn:Rz.
    2:{ exfalso. destruct (EL z Hz Rz) as [x [_ [-> NL]]]. rewrite codeOf_enc in E. subst x. exact NL. }
    destruct (R z Hz Rz) as [y [Y1 [Y2 Y3]]].
    assert (RI : refOf z = i).
    { unfold codeOf in E. rewrite Rz in E. destruct (z =? zUnk)%Z; congruence. }
    rewrite RI in Y1.
    assert (Ry : isRef y = false) by (unfold isRef; apply Z.leb_gt; lia).
    assert (Hy : In y (rpn t)).
    { apply (denotes_elems db zq t D'). split; [eapply nth_error_In; exact Y1|exact Ry]. }
    destruct (EL y (nth_error_In _ _ Y1) Ry) as [x [_ [-> NL]]].
    destruct x as [|i'|m]; [cbn in Y2; unfold zUnk in Y2; lia|destruct NL|].
    exists m. rewrite arity_stm in Y3.
    destruct (gp_ref _ _ _ _ G m) as [sm [S1 S2]].
    { apply (denotes_elems db _ t D) in Hy. destruct Hy as [Hy _]. apply in_map_iff in Hy.
      destruct Hy as [x [E1 Hx]]. apply (f_equal codeOf) in E1. rewrite !codeOf_enc in E1. subst x. exact Hx. }
    exists sm. split; [rewrite nth_error_map, Y1; cbn [option_map]; rewrite codeOf_enc; reflexivity|].
    split; [exact S1|]. destruct S2 as [[S2 _]|[S2 _]]; [exact S2|].
    exfalso. unfold stmtAt in S1. rewrite S1 in Y3. destruct S2 as [S2|S2]; rewrite S2 in Y3; apply Y3; reflexivity. }
  assert (STM : forall m, In (Stm m) (map codeOf zq) -> In (Stm m) p).
  { intros m Hm. apply in_map_iff in Hm. destruct Hm as [z [E Hz]]. destruct (isRef z) eqn:Rz.
    - unfold codeOf in E. rewrite Rz in E. destruct (z =? zUnk)%Z; discriminate.
    - destruct (EL z Hz Rz) as [x [Hx [-> _]]]. rewrite codeOf_enc in E. subst x. exact Hx. }
  split; [|split].
  - constructor.
    + split; [exact B1|]. intros k i N. specialize (B2 k i N). simpl in B2. exact B2.
    + intros k i N. split; [specialize (B2 k i N); simpl in B2; exact B2|]. right. apply LOC.
      eapply nth_error_In. exact N.
    + intros m Hm. apply (gp_ref _ _ _ _ G). apply STM, Hm.
  - exact LOC.
  - split; intros Hu.
    + apply in_map_iff in Hu. destruct Hu as [z [E Hz]]. destruct (isRef z) eqn:Rz.
      * unfold codeOf in E. rewrite Rz in E. destruct (z =? zUnk)%Z eqn:EU; [|discriminate].
        apply Z.eqb_eq in EU. subst z. discriminate.
      * destruct (EL z Hz Rz) as [x [Hx [-> _]]]. rewrite codeOf_enc in E. subst x. exact Hx.
    + assert (In zUnk (rpn t)).
      { apply (denotes_elems db _ t D). split; [apply in_map_iff; exists Unk; auto|reflexivity]. }
      apply (denotes_elems db zq t D') in H. destruct H as [H _].
      apply in_map_iff. exists zUnk. split; [reflexivity|exact H].
Qed.

(* SAVE PROOF: unpack, then (for /COMPRESSED and /PACKED) pack again *)
Lemma repack_good db n st p : goodProof db n st p ->
  exists t, denotes db (map encStep p) t /\
  exists u q,
    (forall fuel, 2 * length (map encStep u) < fuel -> unsquishProof fuel db (map encStep p) = Ok (map encStep u)) /\
    squishProof db (map encStep u) = Ok (map encStep q) /\
    rpn t = map encStep u /\ denotes db (map encStep q) t /\
    goodProof db n st u /\ goodProof db n st q /\
    (forall i, ~ In (Loc i) u) /\
    (forall i, In (Loc i) q -> exists m sm, nth_error q i = Some (Stm m) /\ stmtAt db m sm /\ isAssertion sm) /\
    (In Unk u <-> In Unk p) /\ (In Unk q <-> In Unk p) /\ length q <= length u.
Proof.
  intros G. destruct (wf_denotes db p (gp_wf _ _ _ _ G)) as [t D]. exists t. split; [exact D|].
  destruct (denotes_pure db _ t D) as [W N].
  assert (DU := rpn_denotes db t W N).
  destruct (good_transport db n st p t (rpn t) G D DU) as [u [EU [GU [LU UU]]]].
  { intros z Hz Rz. rewrite (N z Hz) in Rz. discriminate. }
  destruct (squish_ok db t W N) as [zq [SQ [DQ [RQ LQ]]]].
  destruct (good_transport db n st p t zq G D DQ RQ) as [q [EQ [GQ [LQ' UQ]]]].
  exists u, q. rewrite <- EU, <- EQ.
  split; [intros fuel Hf; apply unsquish_ok; [exact D|eapply good_refsNonref; exact G|exact Hf]|].
  split; [exact SQ|]. split; [reflexivity|]. split; [exact DQ|]. split; [exact GU|]. split; [exact GQ|].
  split.
  { intros i Hi. assert (In (encStep (Loc i)) (rpn t)) as Hz by (rewrite EU; apply in_map; exact Hi).
    apply N in Hz. rewrite encStep_ref in Hz. discriminate. }
  split; [exact LQ'|]. split; [exact UU|]. split; [exact UQ|].
  rewrite <- (map_length encStep q), <- (map_length encStep u), <- EQ, <- EU. exact LQ.
Qed.

(* ---------- C14 ---------- *)
Lemma skipn_add {A} a b (l : list A) : skipn a (skipn b l) = skipn (b + a) l.
Proof. revert l. induction b as [|b IH]; intros l; [reflexivity|]. destruct l; [rewrite !skipn_nil; reflexivity|apply IH]. Qed.

Lemma wf_shape db p : wf_proof db p -> exists T, wfTree db T /\ map encStep p = rpn T.
Proof.
  intros W. destruct (wf_denotes db p W) as [t [H D]].
  destruct (prun_srun0 db _ H [t] D) as [sh [S1 [S2 _]]].
  destruct sh as [|U [|? ?]]; try discriminate. apply srun_top_cons in S1.
  destruct S1 as [WU [_ EB]]. simpl in EB. exists U. auto.
Qed.

Lemma srun_prefix db p : forall s r s', srun db s (p ++ r) = Some s' -> exists s1, srun db s p = Some s1.
Proof. intros s r s' E. rewrite srun_app in E. destruct (srun db s p); [eauto|discriminate]. Qed.

Lemma sub_len_exact db T k : wfTree db T -> k < length (rpn T) ->
  exists n, getSubproofLen db (rpn T) k = Ok n /\ subproofLen db (rpn T) k = Ok n /\
    1 <= n <= k + 1 /\ completeSub db (endingAt (rpn T) k n) /\
    forall n', 1 <= n' <= k + 1 -> completeSub db (endingAt (rpn T) k n') -> n' = n.
Proof.
  intros W L. set (p := rpn T) in *.
  assert (E : p = firstn (k + 1) p ++ skipn (k + 1) p) by (symmetry; apply firstn_skipn).
  assert (SR : exists s, srun db [] p = Some s) by (exists [T]; rewrite <- (app_nil_r p); unfold p; rewrite (srun_rpn db T W [] []); reflexivity).
  destruct SR as [s SR]. rewrite E in SR. destruct (srun_prefix _ _ _ _ _ SR) as [s1 S1].
  assert (L1 : length (firstn (k + 1) p) = k + 1) by (rewrite firstn_length; lia).
  destruct s1 as [|t s1].
  { exfalso. eapply srun_nonempty; [exact S1| |reflexivity]. destruct (firstn (k+1) p); [simpl in L1; lia|discriminate]. }
  destruct (getSubproofLen_top db _ s1 t (skipn (k + 1) p) S1) as [G1 G2].
  pose proof (subproofLen_top db _ s1 t (skipn (k + 1) p) S1) as G3.
  rewrite L1 in G1, G2, G3. replace (k + 1 - 1) with k in G1, G3 by lia. rewrite <- E in G1, G3.
  destruct (srun_top_cons db _ _ _ S1) as [Wt [_ EB]].
  exists (length (rpn t)). split; [exact G1|]. split; [exact G3|].
  pose proof (sz_pos t). split; [lia|].
  assert (EA : endingAt p k (length (rpn t)) = rpn t).
  { unfold endingAt. rewrite E at 1. rewrite EB. rewrite EB in L1. rewrite app_length in L1.
    rewrite <- app_assoc. replace (k + 1 - length (rpn t)) with (length (flat_map rpn (rev s1))) by lia.
    rewrite skipn_app_exact, firstn_app_exact. reflexivity. }
  split; [exists t; split; [exact Wt|exact EA]|].
  intros n' Hn [t' [W' E']].
  assert (Ln : length (rpn t') = n').
  { rewrite <- E'. unfold endingAt. rewrite firstn_length, skipn_length. lia. }
  assert (EP : p = firstn (k + 1 - n') p ++ rpn t' ++ skipn (k + 1) p).
  { rewrite <- E'. unfold endingAt. rewrite <- (firstn_skipn (k + 1 - n') p) at 1. f_equal.
    rewrite <- (firstn_skipn n' (skipn (k + 1 - n') p)) at 1. f_equal.
    rewrite skipn_add. f_equal. lia. }
  assert (LP : length (firstn (k + 1 - n') p) = k + 1 - n') by (rewrite firstn_length; lia).
  pose proof (subLen_tree db t' W' (S (S k)) (firstn (k + 1 - n') p) (skipn (k + 1) p)) as SL.
  rewrite <- EP in SL. rewrite app_length, LP in SL.
  unfold getSubproofLen in G1.
  replace (k + 1 - n' + length (rpn t')) with (S k) in SL by lia.
  rewrite SL in G1 by lia. congruence.
Qed.

(* ---------- C15 ---------- *)
Lemma wf_root_nonref db p T : wf_proof db p -> wfTree db T -> map encStep p = rpn T -> isRef (rootOf T) = false.
Proof.
  intros [B R] W E. destruct (isRef (rootOf T)) eqn:RR; [|reflexivity]. exfalso.
  destruct T as [z kids]. inversion W as [? ? A F]; subst. simpl in RR.
  apply (isRef_arity db z _ RR) in A. destruct kids; [|discriminate]. simpl in E.
  destruct p as [|x [|? ?]]; try discriminate. simpl in E. inversion E as [E1].
  rewrite <- E1, encStep_ref in RR. destruct x as [|i|]; try discriminate.
  specialize (R 0 i eq_refl). lia.
Qed.
Lemma enc_legal p : legalCodes (map encStep p).
Proof.
  intros z Hz. apply in_map_iff in Hz. destruct Hz as [x [<- _]].
  destruct x; cbn [encStep]; [right; left; reflexivity|right; right; apply encStep_ref with (x := Loc i)|left; lia].
Qed.

Lemma display_ok db p own lvl : wf_db db -> wf_proof db p ->
  exists T ind ess tgt, wfTree db T /\ map encStep p = rpn T /\
    (forall fuel, length p <= fuel ->
       getIndentation fuel db (map encStep p) lvl = Ok ind /\
       getEssential fuel db (map encStep p) = Ok ess /\
       getTargetHyp fuel db (map encStep p) own = Ok tgt) /\
    length ind = length p /\ length ess = length p /\ length tgt = length p /\
    forall k, k < length p -> exists path u, nodeAt T k path u /\
      (forall path' u', nodeAt T k path' u' -> path' = path /\ u' = u) /\
      nth_error ind k = Some (lvl + Z.of_nat (length path))%Z /\
      (nth_error ess k = Some 1%Z /\ Forall (isEssHyp db) path \/
       nth_error ess k = Some 0%Z /\ ~ Forall (isEssHyp db) path) /\
      exists h, targetOf db own path = Some h /\ nth_error tgt k = Some (Z.of_nat h).
Proof.
  intros WD W. destruct (wf_shape db p W) as [T [WT E]].
  exists T, (depths T lvl), (essl db T), (targets db T own).
  assert (RR := wf_root_nonref db p T W WT E).
  assert (LC := enc_legal p). rewrite E in *.
  assert (LP : length p = length (rpn T)) by (rewrite <- E, map_length; reflexivity). rewrite LP.
  split; [exact WT|]. split; [reflexivity|]. split.
  { intros fuel Hf. split; [apply indentation_ok; assumption|].
    split; [apply essential_ok; assumption|apply targetHyp_ok; assumption]. }
  split; [apply depths_len|]. split; [apply essl_len, WT|]. split; [apply targets_len, WT|].
  intros k Hk. destruct (nodeAt_total T k Hk) as [path [u N]]. exists path, u. split; [exact N|].
  split.
  { intros path' u' N'. destruct (nodeAt_unique T k path u N path' u' N'); auto. }
  split; [apply (depths_at T k path u N)|]. split; [apply (essl_at db T k path u N WT)|].
  apply (targets_at db T k path u N WT).
Qed.

(* ---------- validity ---------- *)
Lemma repack_valid db n st p : wf_db db -> goodProof db n st p ->
  exists u q,
    (forall fuel, 2 * length u < fuel -> unsquishProof fuel db (map encStep p) = Ok (map encStep u)) /\
    squishProof db (map encStep u) = Ok (map encStep q) /\
    (forall fuel, 2 * length u < fuel -> unsquishProof fuel db (map encStep q) = Ok (map encStep u)) /\
    goodProof db n st u /\ goodProof db n st q /\ (forall i, ~ In (Loc i) u) /\ length q <= length u /\
    (forall i, In (Loc i) q -> exists m sm, nth_error q i = Some (Stm m) /\ stmtAt db m sm /\ isAssertion sm) /\
    (In Unk u <-> In Unk p) /\ (In Unk q <-> In Unk p) /\
    (validProof db st u <-> validProof db st p) /\ (validProof db st q <-> validProof db st p).
Proof.
  intros WD G. destruct (repack_good db n st p G) as
    [t [D [u [q [A1 [A2 [A3 [A4 [A5 [A6 [A7 [A8 [A9 [A10 A11]]]]]]]]]]]]]].
  exists u, q. rewrite map_length in A1. split; [exact A1|]. split; [exact A2|]. split.
  { intros fuel Hf. rewrite <- A3. apply unsquish_ok; [exact A4|eapply good_refsNonref; exact A6|].
    rewrite A3, map_length. exact Hf. }
  split; [exact A5|]. split; [exact A6|]. split; [exact A7|]. split; [exact A11|]. split; [exact A8|].
  split; [exact A9|]. split; [exact A10|].
  destruct (denotes_pure db _ t D) as [W N].
  assert (DU := rpn_denotes db t W N). rewrite A3 in DU.
  split; eapply same_tree_same_validity; eassumption.
Qed.

Lemma pack_unpack db n st p : wf_db db -> goodProof db n st p -> (forall i, ~ In (Loc i) p) ->
  exists q, squishProof db (map encStep p) = Ok (map encStep q) /\
    (forall fuel, 2 * length p < fuel -> unsquishProof fuel db (map encStep q) = Ok (map encStep p)) /\
    goodProof db n st q /\ length q <= length p /\ (validProof db st q <-> validProof db st p).
Proof.
  intros WD G NL. destruct (repack_good db n st p G) as [t [D [u [q [A1 [A2 [A3 [A4 [A5 [A6 _]]]]]]]]]].
  destruct (repack_valid db n st p WD G) as [u' [q' [B1 [B2 [B3 [B4 [B5 [B6 [B7 [B8 [B9 [B10 [B11 B12]]]]]]]]]]]]].
  assert (EU : map encStep u' = map encStep p).
  { destruct (denotes_pure db _ t D) as [W N].
    assert (EP : rpn t = map encStep p).
    { destruct D as [H D]. destruct (prun_srun0 db _ H [t] D) as [sh [S1 [S2 _]]].
      destruct sh as [|U [|? ?]]; try discriminate. apply srun_top_cons in S1.
      destruct S1 as [_ [_ EB]]. simpl in EB. simpl in S2.
      assert (NU : noRefs (rpn U)).
      { rewrite <- EB. intros z Hz. apply in_map_iff in Hz. destruct Hz as [x [<- Hx]].
        rewrite encStep_ref. destruct x; try reflexivity. exfalso. eapply NL. exact Hx. }
      assert (ET : t = U) by (rewrite expand_noRefs in S2 by exact NU; congruence). subst U. symmetry. exact EB. }
    rewrite map_length in A1.
    specialize (B1 (S (2 * length u' + 2 * length u))).
    rewrite A1 in B1 by lia. specialize (B1 ltac:(lia)).
    rewrite A3 in EP. congruence. }
  assert (LU : length u' = length p) by (rewrite <- (map_length encStep u'), EU, map_length; reflexivity).
  exists q'. rewrite <- EU. split; [exact B2|]. split; [rewrite <- LU; exact B3|].
  split; [exact B5|]. split; [lia|exact B12].
Qed.

Lemma unpack_tree db n st p : goodProof db n st p ->
  exists t, denotes db (map encStep p) t /\ wfTree db t /\ noRefs (rpn t) /\
    forall fuel, 2 * length (rpn t) < fuel -> unsquishProof fuel db (map encStep p) = Ok (rpn t).
Proof.
  intros G. destruct (wf_denotes db p (gp_wf _ _ _ _ G)) as [t D]. exists t. split; [exact D|].
  destruct (denotes_pure db _ t D) as [W N]. split; [exact W|]. split; [exact N|].
  intros fuel Hf. apply unsquish_ok; [exact D|eapply good_refsNonref; exact G|exact Hf].
Qed.

Lemma sub_len_proof db p k : wf_proof db p -> k < length p ->
  exists n, getSubproofLen db (map encStep p) k = Ok n /\ subproofLen db (map encStep p) k = Ok n /\
    1 <= n <= k + 1 /\ completeSub db (endingAt (map encStep p) k n) /\
    forall n', 1 <= n' <= k + 1 -> completeSub db (endingAt (map encStep p) k n') -> n' = n.
Proof.
  intros W L. destruct (wf_shape db p W) as [T [WT E]]. rewrite E. apply sub_len_exact; [exact WT|].
  rewrite <- E, map_length. exact L.
Qed.

Lemma hasUnk_iff l : hasUnk l = true <-> In Unk l.
Proof.
  unfold hasUnk. rewrite existsb_exists. split.
  - intros [x [H E]]. destruct x; try discriminate. exact H.
  - intros H. exists Unk. auto.
Qed.

Lemma save_compressed env n st p order :
  wf_db (e_db env) -> wf_env env -> uniq_env env -> stmtAt (e_db env) n st -> s_type st = S_p ->
  goodProof (e_db env) n st p ->
  (forall q, goodProof (e_db env) n st q -> orderOn (order (map encStep q)) st q) ->
  exists u q expl text,
    (forall fuel, 2 * length u < fuel -> unsquishProof fuel (e_db env) (map encStep p) = Ok (map encStep u)) /\
    squishProof (e_db env) (map encStep u) = Ok (map encStep q) /\
    compressProof (order (map encStep q)) (e_db env) n (map encStep q) = Ok (expl, text) /\
    (validProof (e_db env) st q <-> validProof (e_db env) st p) /\ goodProof (e_db env) n st q /\
    forall section tx rest prev fuel,
      laidOut (map (fun z => e_name env (Z.to_nat z)) expl) text section tx ->
      (Z.of_nat (wrkMax prev st section) <= maxLong)%Z ->
      length (section ++ chDollar :: chDot :: rest) < fuel ->
      (length (s_reqHyps st) + length expl + numLoc q <= 120 \/
       hasPair2 85 85 tx = true \/ hasPair2 85 86 section = false) ->
      exists k, parseText fuel env n (wrkMax prev st section) section (chDollar :: chDot :: rest) =
        Ok (Some (k, map encStep q, 0)) /\ (k = 1 /\ In Unk p \/ k = 0 /\ ~ In Unk p).
Proof.
  intros WD WE UE Hs Ht G O.
  destruct (repack_valid (e_db env) n st p WD G) as [u [q [B1 [B2 [B3 [B4 [B5 [B6 [B7 [B8 [B9 [B10 [B11 B12]]]]]]]]]]]]].
  destruct (roundtrip_wrk env n st q (order (map encStep q)) WE UE Hs Ht B5 B8 (O q B5)) as [expl [text [C1 C2]]].
  exists u, q, expl, text. split; [exact B1|]. split; [exact B2|]. split; [exact C1|]. split; [exact B12|].
  split; [exact B5|]. intros section tx rest prev fuel L1 L2 L3 L4.
  eexists. split; [apply (C2 section tx rest prev fuel L1 L2 L3 L4)|].
  destruct (hasUnk q) eqn:U.
  - left. split; [reflexivity|]. apply B10, hasUnk_iff, U.
  - right. split; [reflexivity|]. intros Hu. apply B10, hasUnk_iff in Hu. congruence.
Qed.
