(* MwRead.v -- proofs about MwModel: the text of a trial proof is read back *)
From Coq Require Import ZifyBool ZifyNat.
From Verif Require Import Base.
From Verif Require Import UniModel HenModel.
From Verif Require Import MMSpec VerModel VerSpec VerProofs TokModel ParModel ParSpec ExpModel ReadModel ReadMain CmpModel CmpSpec CmpProofs CmpRound OrdModel OrdCmp LabModel LineSpec SavModel SqModel SqSpec SqProofs SqAttr SqPack SqValid SqGood PfaModel PfaSpec PfaProofs PfaMore PfaHist FltModel FltSpec FltProofs FltMain FltVal RepModel RepSpec RepProofs RepMain AkModel AkSpec AkProofs AkMain AkTop MinModel MinSpec MinProofs MinMain
  TrcModel TrcSpec MwModel MwSpec.
Open Scope nat_scope.

(* more fuel *)
Lemma comprLoop_more env max bg : forall f l s r, comprLoop f env max bg l s = Ok r -> forall f', f <= f' -> comprLoop f' env max bg l s = Ok r.
Proof.
  induction f as [|f IH]; intros l s r H f' LF; [discriminate H|]. destruct f' as [|f']; [lia|]. assert (LF' : f <= f') by lia. cbn [comprLoop] in H |- *.
  destruct l as [|c t]; [discriminate H|]. destruct (128 <=? c); [discriminate H|].
  destruct ((65 <=? c) && (c <=? 84)).
  { apply rbind_ok in H. destruct H as [[s1 a] [H1 H2]]. rewrite H1. cbn [rbind]. exact (IH _ _ _ H2 f' LF'). }
  destruct ((85 <=? c) && (c <=? 89)).
  { apply rbind_ok in H. destruct H as [s1 [H1 H2]]. rewrite H1. cbn [rbind]. exact (IH _ _ _ H2 f' LF'). }
  destruct (c =? 90).
  { apply rbind_ok in H. destruct H as [s1 [H1 H2]]. rewrite H1. cbn [rbind]. exact (IH _ _ _ H2 f' LF'). }
  destruct (isspace c); [exact (IH _ _ _ H f' LF')|].
  destruct (c =? 36).
  { destruct t as [|d t']; [exact (IH _ _ _ H f' LF')|]. destruct (d =? 46); [exact H|]. destruct ((d =? 40) || (d =? 33)); [|exact (IH _ _ _ H f' LF')].
    apply rbind_ok in H. destruct H as [s1 [H1 H2]]. rewrite H1. cbn [rbind]. exact (IH _ _ _ H2 f' LF'). }
  destruct (c =? 63); [|exact (IH _ _ _ H f' LF')].
  apply rbind_ok in H. destruct H as [s1 [H1 H2]]. rewrite H1. cbn [rbind]. exact (IH _ _ _ H2 f' LF').
Qed.
Lemma parseText_more f f' env n max sec rest r : parseText f env n max sec rest = Ok r -> f <= f' -> parseText f' env n max sec rest = Ok r.
Proof.
  intros H LF. unfold parseText in *. destruct (sec ++ rest); [exact H|]. apply rbind_ok in H. destruct H as [w [HW H]]. rewrite HW. cbn [rbind]. destruct (isTok chOpen w); [|exact H].
  apply rbind_ok in H. destruct H as [[[ls cl] text] [HL H]]. rewrite HL. cbn [rbind]. apply rbind_ok in H. destruct H as [q [HQ H]]. unfold parseCompressed in *.
  apply rbind_ok in HQ. destruct HQ as [st [HS HQ]]. rewrite HS. cbn [rbind]. apply rbind_ok in HQ. destruct HQ as [[codes e2] [HC HQ]]. rewrite HC. cbn [rbind]. destruct (_ <? _); [discriminate HQ|].
  apply rbind_ok in HQ. destruct HQ as [s [HL2 HQ]]. rewrite (comprLoop_more _ _ _ _ _ _ _ HL2 f' LF). cbn [rbind]. cbn zeta in HQ |- *. rewrite HQ. cbn [rbind]. exact H.
Qed.

(* the layout of the text *)
Lemma labels_laid names : forall w, blanks w -> labelsLaid names (w ++ joinSp names ++ [32; 41]).
Proof.
  induction names as [|a names IH]; intros w W.
  - cbn [joinSp app]. change (w ++ [32; 41]) with (w ++ [32] ++ [chClose]). rewrite app_assoc. constructor. apply Forall_app. split; [exact W|repeat constructor].
  - destruct names as [|b names].
    + change (joinSp [a]) with a. change (a ++ [32; 41]) with (a ++ 32 :: [chClose]). apply ll_cons; [exact W|reflexivity|]. apply (ll_nil []). constructor.
    + change (joinSp (a :: b :: names)) with (a ++ 32 :: joinSp (b :: names)). rewrite <- app_assoc. cbn [app]. apply ll_cons; [exact W|reflexivity|]. apply (IH []). constructor.
Qed.
Lemma spaced_same l t : spaced [] t -> spaced l (l ++ t).
Proof. intros H. induction l as [|c l IH]; [exact H|]. cbn [app]. apply spd_char. exact IH. Qed.
Lemma text_laid names L : laidOut names L (32 :: ([40; 32] ++ joinSp names ++ [32; 41; 32] ++ L) ++ [32]) (32 :: L ++ [32]).
Proof.
  exists [32], ([32] ++ joinSp names ++ [32; 41]). split; [repeat constructor|]. split; [apply labels_laid; repeat constructor|]. split.
  - apply spd_blank; [reflexivity|]. apply spaced_same. apply spd_blank; [reflexivity|constructor].
  - cbn [app]. rewrite <- !app_assoc. cbn [app]. reflexivity.
Qed.
Lemma pair_end a b : forall l, b <> 32 -> hasPair2 a b (l ++ [32]) = hasPair2 a b l.
Proof.
  intros l NB. induction l as [|x l IH]; [reflexivity|]. destruct l as [|y l]; [cbn [app hasPair2]; replace (32 =? b) with false by (symmetry; apply Nat.eqb_neq; congruence); rewrite andb_false_r; reflexivity|].
  cbn [app] in *. change (hasPair2 a b (x :: y :: l ++ [32])) with ((x =? a) && (y =? b) || hasPair2 a b (y :: l ++ [32])). rewrite IH. reflexivity.
Qed.
Lemma pair_start a b l : a <> 32 -> hasPair2 a b (32 :: l) = hasPair2 a b l.
Proof. intros NA. destruct l as [|y l]; [reflexivity|]. change (hasPair2 a b (32 :: y :: l)) with ((32 =? a) && (y =? b) || hasPair2 a b (y :: l)). replace (32 =? a) with false by (symmetry; apply Nat.eqb_neq; congruence). reflexivity. Qed.
Section Read.
  Variables (N : menvw) (s0 : pip) (T0 : tree) (stn : stmtRec) (p0 : list pstep).
  Notation E := (n_E N).
  Notation db := (f_db (n_E N)).
  Hypothesis TA : tablesOk N.
  Hypothesis SN : stmtAt db (f_n E) stn.
  Hypothesis PN : s_type stn = S_p.
  Hypothesis G0 : goodProof db (f_n E) stn p0.
  Hypothesis E0 : map encStep p0 = pf s0.

  (* a proof made from a good proof is good *)
  Lemma kept_good s T : kept E s0 T0 s T -> exists p, pf s = map encStep p /\ goodProof db (f_n E) stn p /\ (forall i, ~ In (Loc i) p) /\ ~ In Unk p.
  Proof.
    intros [CO _ OE]. pose proof (co_pip _ _ _ CO) as PO. pose proof (rpn_denotes db T (po_tree _ _ _ PO) (po_norefs _ _ _ PO)) as DE. rewrite <- (po_rpn _ _ _ PO) in DE.
    assert (POS : forall z, In z (pf s) -> (0 <= z)%Z) by (intros z I; rewrite (po_rpn _ _ _ PO) in I; exact (codes_nat E s T CO z I)).
    set (p := map (fun z => Stm (Z.to_nat z)) (pf s)).
    assert (EP : pf s = map encStep p). { unfold p. rewrite map_map. rewrite <- (map_id (pf s)) at 1. apply map_ext_in. intros z I. cbn [encStep]. pose proof (POS z I). lia. }
    assert (NS : forall x, In x p -> exists n, x = Stm n /\ In (Z.of_nat n) (pf s)).
    { intros x I. apply in_map_iff in I. destruct I as [z [<- I]]. exists (Z.to_nat z). split; [reflexivity|]. rewrite Z2Nat.id by exact (POS z I). exact I. }
    exists p. split; [exact EP|].
    assert (NL : forall i, ~ In (Loc i) p) by (intros i I; destruct (NS _ I) as [n [X _]]; discriminate X).
    split; [|split; [exact NL|intros I; destruct (NS _ I) as [n [X _]]; discriminate X]]. rewrite EP in DE. destruct DE as [H DE]. destruct (prun_balanced db _ _ _ _ _ DE) as [B _]. cbn [length] in B. constructor.
    - split; [exact B|]. intros k i X. destruct (NL i (nth_error_In _ _ X)).
    - intros k i X. destruct (NL i (nth_error_In _ _ X)).
    - intros m I. destruct (NS _ I) as [n [X IZ]]. injection X as <-. destruct (OE _ IZ) as [I0|[n [EN [OH|[R [sm [S1 A]]]]]]].
      + rewrite <- E0 in I0. apply in_map_iff in I0. destruct I0 as [x [X I0]]. destruct x as [|i|n]; cbn [encStep] in X; [unfold zUnk in X; lia|unfold zLoc in X; lia|]. apply Nat2Z.inj in X. subst n. exact (gp_ref _ _ _ _ G0 m I0).
      + apply Nat2Z.inj in EN. subst n. destruct OH as [st' [S1 IH]]. unfold stmtAt in S1, SN. rewrite SN in S1. injection S1 as <-.
        pose proof SN as SN'. rewrite <- (ta_db N TA) in SN'. destruct (we_hyps _ (ta_env N TA) (f_n E) stn m SN' PN IH) as [_ [sh [S2 HS]]]. rewrite (ta_db N TA) in S2. exists sh. split; [exact S2|]. right. split; [exact HS|exact IH].
      + apply Nat2Z.inj in EN. subst n. exists sm. split; [exact S1|]. left. split; [exact A|lia].
  Qed.

  Lemma kept_reads s T fuel : kept E s0 T0 s T -> length (pf s) + 2 <= fuel -> readsSame fuel N (pf s) /\ readsBack fuel N (pf s).
  Proof.
    intros KP LF. destruct (kept_good s T KP) as [p [EP [GP [NL NU]]]]. pose proof (co_pip _ _ _ (kp_complete _ _ _ _ _ KP)) as PO.
    pose proof (rpn_denotes db T (po_tree _ _ _ PO) (po_norefs _ _ _ PO)) as DE. rewrite <- (po_rpn _ _ _ PO), EP in DE.
    destruct (squish_ok db T (po_tree _ _ _ PO) (po_norefs _ _ _ PO)) as [zq [SQ [DQ [RQ LQ]]]]. rewrite <- (po_rpn _ _ _ PO) in SQ.
    destruct (good_transport db (f_n E) stn p T zq GP DE DQ RQ) as [q [-> [GQ [LOC UQ]]]].
    assert (LEN : length q <= length (pf s)) by (rewrite (po_rpn _ _ _ PO), <- (map_length encStep q); exact LQ).
    pose proof SN as SN'. rewrite <- (ta_db N TA) in SN', GQ, LOC.
    assert (HH : forall h, In h (s_reqHyps stn) \/ In h (s_optHyps stn) -> h < f_n E) by (intros h I; apply (ta_hyps N TA); exists stn; auto).
    assert (HW : forall m, In (Stm m) q -> ~ In m (s_reqHyps stn) -> (Z.of_nat (length (e_name (n_env N) m)) <= n_width N - Z.of_nat (sourceIndentation (n_back N)) - 2)%Z).
    { intros m I _. destruct (gp_ref _ _ _ _ GQ m I) as [sm [S1 K]]. rewrite (ta_db N TA) in S1. apply (ta_width N TA m sm S1). unfold CmpSpec.labelled. destruct K as [[K _]|[K _]]; auto. }
    pose proof (new_orderOn (n_env N) (f_n E) stn q fuel (n_width N) (sourceIndentation (n_back N)) (ta_env N TA) (ta_uniq N TA) SN' PN GQ HH HW ltac:(lia)) as OO.
    destruct (roundtrip_gen (n_env N) (f_n E) stn q _ (ta_env N TA) (ta_uniq N TA) SN' PN GQ LOC OO) as [expl [fl [letters [C1 [LO [EM C3]]]]]].
    rewrite <- (compressNew_eq fuel (n_env N) (f_n E) stn (n_width N) (n_back N) (map encStep q) SN') in C1.
    set (text := [40; 32] ++ joinSp (map (fun z => e_name (n_env N) (Z.to_nat z)) expl) ++ [32; 41; 32] ++ letters).
    assert (CT : compressedText fuel N (pf s) = Ok text) by (unfold compressedText; rewrite SQ; cbn [rbind]; rewrite C1; cbn [rbind fst snd]; reflexivity).
    assert (KEY : forall text' pr, compressedText fuel N (pf s) = Ok text' -> parseTrial fuel N text' = Ok pr -> pr_proof pr = q /\ pr_err pr = 0).
    { intros text' pr X HP. rewrite CT in X. apply Ok_inj in X. subst text'. unfold parseTrial in HP. pose proof SN as SN2. unfold stmtAt in SN2. rewrite SN2 in HP. cbn [rget rbind] in HP. set (sec := 32 :: text ++ [32]) in *.
      set (max := wrkMax (n_prev N) stn sec) in *. destruct (Z.ltb_spec maxLong (Z.of_nat max)) as [|MX]; [discriminate HP|].
      apply rbind_ok in HP. destruct HP as [[[k zs] ec] [HP HQ]]. unfold parseProofText in HP. apply rbind_ok in HP. destruct HP as [o [HP HO]].
      set (big := Nat.max fuel (S (length (sec ++ [36; 46])))).
      assert (LM : length sec + length (s_reqHyps stn) <= max) by (unfold max, wrkMax; destruct (Nat.ltb_spec (n_prev N) (length sec + length (s_reqHyps stn) + length (s_optHyps stn))); lia).
      assert (UU : length (s_reqHyps stn) + length expl + numLoc q <= 120 \/ hasPair2 85 85 (32 :: letters ++ [32]) = true \/ hasPair2 85 86 sec = false).
      { destruct (Nat.le_gt_cases (length (s_reqHyps stn) + length expl + numLoc q) 120) as [LE|GT]; [left; exact LE|right; left].
        rewrite pair_start, pair_end by discriminate. apply (uu_occurs stn q expl fl letters LO); [exact (fun k i X => proj1 (gp_loc _ _ _ _ GQ k i X))|exact EM|exact (ta_req N TA stn SN)|exact GT]. }
      specialize (C3 sec (32 :: letters ++ [32]) [] max big (text_laid _ _) LM MX (Nat.le_max_r fuel (S (length (sec ++ [36; 46])))) UU).
      change (chDollar :: chDot :: []) with [36; 46] in C3. rewrite (parseText_more _ big _ _ _ _ _ _ HP ltac:(unfold big; lia)) in C3. apply Ok_inj in C3.
      subst o. apply Ok_inj in HO. injection HO as <- <- <-. apply rbind_ok in HQ. destruct HQ as [pp [HD HQ]]. apply Ok_inj in HQ. subst pr. cbn [pr_proof pr_err]. split; [|reflexivity].
      destruct (decAll (map encStep q)) as [p'|] eqn:DA.
      - apply Ok_inj in HD. subst pp. apply decAll_ok in DA. exact (ParText.decodes_enc q p' DA).
      - destruct (hasUnk q); discriminate HD. }
    rewrite (ta_db N TA) in GQ. split.
    - intros text' pr X HP _. destruct (KEY _ _ X HP) as [-> K2]. split; [exact SQ|exact K2].
    - intros stn' text' pr SN2 X HP _. destruct (KEY _ _ X HP) as [K1 _]. rewrite K1. unfold stmtAt in SN, SN2. rewrite SN in SN2. injection SN2 as <-. split; [exact GQ|]. intros z I.
      assert (IZ : In (Z.of_nat z) (rpn T)). { apply (denotes_elems db _ T DQ). split; [apply in_map_iff; exists (Stm z); auto|unfold isRef; lia]. }
      rewrite (po_rpn _ _ _ PO). exact IZ.
  Qed.
End Read.
