(* SavProofs.v -- the section stored by SAVE PROOF /COMPRESSED *)
From Coq Require Import ZifyBool ZifyNat Permutation.
From Verif Require Import Base MMSpec VerModel VerSpec TokModel ParModel ParSpec CmpModel CmpSpec CmpProofs CmpRound
  SqModel SqSpec SqProofs SqPack SqValid SqGood OrdModel OrdCmp VstrModel CmdModel CmdProofs
  LineModel LineSpec LineProofs LineText SavModel LineCmp.
Open Scope nat_scope.

Lemma digits_letters : forall f j, Forall (fun c => 65 <= c <= 90) (encDigits f j).
Proof.
  induction f as [|f IH]; intros j; cbn [encDigits]; [constructor|]. destruct (j =? 0); [constructor|].
  apply Forall_app. split; [apply IH|]. constructor; [|constructor].
  pose proof (Nat.mod_upper_bound (j - 1) 5 ltac:(lia)). remember ((j-1) mod 5) as m. lia.
Qed.
Lemma encode_letters lab : Forall (fun c => 65 <= c <= 90) (encodeLabel lab) /\ encodeLabel lab <> [].
Proof.
  unfold encodeLabel. split.
  - apply Forall_app. split; [apply digits_letters|]. constructor; [|constructor].
    pose proof (Nat.mod_upper_bound lab 20 ltac:(lia)). remember (lab mod 20) as m. lia.
  - intros E. apply app_eq_nil in E. destruct E; discriminate.
Qed.
Lemma emit_letters labels fl : forall l k t, emitSteps labels fl k l = Ok t ->
  Forall (fun c => 65 <= c <= 90 \/ c = 63) t /\ (l <> [] -> t <> []).
Proof.
  induction l as [|z l IH]; intros k t E; cbn [emitSteps] in E.
  - apply Ok_inj in E. subst t. split; [constructor|congruence].
  - destruct (z =? zUnk)%Z.
    + apply rbind_ok in E. destruct E as [t' [E1 E2]]. apply Ok_inj in E2. subst t. destruct (IH _ _ E1) as [A _].
      split; [|discriminate]. constructor; [right; reflexivity|exact A].
    + destruct (zindex z labels) as [lab|]; [|discriminate].
      apply rbind_ok in E. destruct E as [t' [E1 E2]]. apply Ok_inj in E2. subst t. destruct (IH _ _ E1) as [A _].
      destruct (encode_letters lab) as [B NB]. split.
      * apply Forall_app. split; [eapply Forall_impl; [|exact B]; intros c H; left; exact H|].
        apply Forall_app. split; [|exact A]. destruct (flagged fl k); repeat constructor; lia.
      * intros _ X. apply app_eq_nil in X. tauto.
Qed.
Lemma compress_letters order db n p expl text : compressProof order db n p = Ok (expl, text) -> p <> [] -> okLetters text.
Proof.
  intros E NE. unfold compressProof in E. apply rbind_ok in E. destruct E as [st [_ E]].
  destruct (s_type st); try discriminate. cbv zeta in E.
  apply rbind_ok in E. destruct E as [s [_ E]]. destruct (negb _); [discriminate|].
  apply rbind_ok in E. destruct E as [ex [_ E]]. apply rbind_ok in E. destruct E as [t [E1 E]].
  apply Ok_inj in E. assert (t = text) by congruence. subst t. destruct (emit_letters _ _ _ _ _ E1). split; auto.
Qed.

Lemma printed_join ls : ls <> [] -> printed ls = joinNl ls ++ [10].
Proof.
  induction ls as [|x ls IH]; [congruence|]. intros _. destruct ls as [|y ls].
  - unfold printed. cbn [map concat joinNl]. apply app_nil_r.
  - change (printed (x :: y :: ls)) with ((x ++ [10]) ++ printed (y :: ls)).
    change (joinNl (x :: y :: ls)) with (x ++ 10 :: joinNl (y :: ls)).
    rewrite IH by discriminate. rewrite <- !app_assoc. reflexivity.
Qed.
Lemma section_ok out K : joinNl out = K ++ [32; 36; 46] -> section out = Ok (10 :: K ++ [32]).
Proof.
  intros E. unfold section. assert (NE : out <> []) by (intros ->; destruct K; discriminate).
  rewrite (printed_join _ NE), E.
  assert (X : 10 :: (K ++ [32; 36; 46]) ++ [10] = (10 :: K) ++ [32; 36; 46; 10]) by (rewrite <- app_assoc; reflexivity).
  rewrite X. cbv zeta. rewrite app_length. cbn [length].
  replace (S (length K) + 4 - 4) with (length (10 :: K)) by (simpl; lia).
  rewrite skipn_app, skipn_all, Nat.sub_diag. change ([] ++ skipn 0 [32; 36; 46; 10]) with [32; 36; 46; 10].
  replace (seqb [32; 36; 46; 10] [32; 36; 46; 10]) with true by reflexivity.
  replace (S (length K) + 4 - 3) with (length ((10 :: K) ++ [32])) by (rewrite app_length; simpl; lia).
  change [32; 36; 46; 10] with ([32] ++ [36; 46; 10]). rewrite app_assoc.
  rewrite firstn_app, firstn_all, Nat.sub_diag, firstn_O, app_nil_r. reflexivity.
Qed.

Lemma laidOut_nl names L sec tx : laidOut names L sec tx -> laidOut names L (10 :: sec) tx.
Proof.
  intros [w [lt [A [B [C ->]]]]]. exists (10 :: w), lt. split; [constructor; [reflexivity|exact A]|]. auto.
Qed.

Lemma saved env n st p w back : (5 <= w)%Z ->
  wf_db (e_db env) -> wf_env env -> uniq_env env -> stmtAt (e_db env) n st -> s_type st = S_p ->
  goodProof (e_db env) n st p ->
  (forall h, In h (s_reqHyps st) \/ In h (s_optHyps st) -> h < n) ->
  (forall m sm, stmtAt (e_db env) m sm -> labelled sm ->
     (Z.of_nat (length (e_name env m)) <= w - Z.of_nat (sourceIndentation back) - 2)%Z) ->
  exists bound q sec names letters tx,
    (forall fuel, bound < fuel -> saveCompressed fuel env n w back (map encStep p) = Ok sec) /\
    laidOut names letters sec tx /\
    goodProof (e_db env) n st q /\ (validProof (e_db env) st q <-> validProof (e_db env) st p) /\
    forall rest prev fuel,
      (Z.of_nat (wrkMax prev st sec) <= maxLong)%Z -> length (sec ++ chDollar :: chDot :: rest) < fuel ->
      (length (s_reqHyps st) + length names + numLoc q <= 120 \/ hasPair2 85 85 tx = true \/ hasPair2 85 86 sec = false) ->
      exists k, parseText fuel env n (wrkMax prev st sec) sec (chDollar :: chDot :: rest) =
        Ok (Some (k, map encStep q, 0)) /\ (k = 1 /\ In Unk p \/ k = 0 /\ ~ In Unk p).
Proof.
  intros W WD WE UE Hn Hp HG HH HF.
  destruct (repack_valid (e_db env) n st p WD HG) as [u [q [B1 [B2 [B3 [B4 [B5 [B6 [B7 [B8 [B9 [B10 [B11 B12]]]]]]]]]]]]].
  assert (HFq : forall m, In (Stm m) q -> ~ In m (s_reqHyps st) ->
     (Z.of_nat (length (e_name env m)) <= w - Z.of_nat (sourceIndentation back) - 2)%Z).
  { intros m Hm _. destruct (gp_ref _ _ _ _ B5 m Hm) as [sm [Hs Hk]].
    apply (HF m sm Hs). destruct Hk as [[K _]|[K _]]; [left|right]; auto. }
  destruct (compress_new env n st q (length q + 2) w back WE UE Hn Hp B5 B8 HH HFq ltac:(lia)) as [expl [text [C1 [C2 C3]]]].
  set (names := map (fun z => e_name env (Z.to_nat z)) expl) in *.
  set (ind := 2 + sourceIndentation back).
  assert (ON : Forall okName names).
  { apply Forall_forall. intros x I. apply in_map_iff in I. destruct I as [z [<- I]].
    apply (proj2 C2) in I. destruct I as [m [-> [I _]]]. rewrite Nat2Z.id.
    destruct (gp_ref _ _ _ _ B5 m I) as [sm [Hs Hk]]. destruct (ue_chars env UE m sm Hs) as [X Y].
    - destruct Hk as [[K _]|[K _]]; [left|right]; exact K.
    - split; assumption. }
  assert (NQ : map encStep q <> []).
  { destruct q; [|discriminate]. exfalso. destruct (wf_shape _ _ (gp_wf _ _ _ _ B5)) as [T [_ E]].
    destruct (rpn T) eqn:R; [|discriminate]. apply (f_equal (@length Z)) in R. pose proof (sz_pos T). simpl in R. lia. }
  assert (OL : okLetters text).
  { unfold compressProofNew in C1. apply rbind_ok in C1. destruct C1 as [st' [_ C1]]. exact (compress_letters _ _ _ _ _ _ C1 NQ). }
  destruct (pll_compressed (2 * length (proofText ind names text) + 3) w ind names text ltac:(lia) ON OL) as [out [sec [tx [P1 [P2 [P3 P4]]]]]].
  { unfold len. lia. }
  destruct (P4 W ltac:(unfold ind; lia)) as [K EK].
  exists (2 * length u), q, (10 :: sec), names, text, tx.
  split; [|split; [apply laidOut_nl, P3|split; [exact B5|split; [exact B12|]]]].
  - intros fuel Hf. unfold saveCompressed. fold ind. rewrite (B1 fuel Hf). cbn [rbind]. rewrite B2. cbn [rbind].
    rewrite map_length, C1. cbn [rbind fst snd]. fold names. rewrite P1. cbn [rbind].
    rewrite EK in P2. rewrite <- app_assoc in P2. cbn [app] in P2. rewrite (section_ok _ _ P2). rewrite EK. reflexivity.
  - intros rest prev fuel L1 L2 L3. eexists. split.
    + eapply C3; [apply laidOut_nl, P3|exact L1|exact L2|]. unfold names in L3. rewrite map_length in L3. exact L3.
    + destruct (hasUnk q) eqn:U.
      * left. split; [reflexivity|]. apply B10, hasUnk_iff, U.
      * right. split; [reflexivity|]. intros Hu. apply B10, hasUnk_iff in Hu. congruence.
Qed.
