(* SxpMain.v -- SAVE PROOF /EXPLICIT: the round trip. *)
From Coq Require Import ZifyBool ZifyNat.
From Verif Require Import Base TokSpec MMSpec VerModel VerSpec TokModel TokProofs ParModel ParSpec CmpSpec CheckPar VstrModel VstrSpec CmdModel CmdProofs
  SqModel SqSpec SqProofs SqPack SqAttr SqValid SqGood OrdModel LineModel LineSpec LineProofs LineText SavModel LineCmp SavProofs ReadWords
  NrmModel NrmSpec NrmProofs NrmParse NrmText ExpModel ExpSpec ExpMain ExpText SxpModel SxpSpec SxpProofs SxpMean SxpText.
Open Scope nat_scope.

Section Stored.
  Variable env : penv.
  Hypothesis WD : wf_db (e_db env).
  Hypothesis WE : wf_env env.
  Hypothesis UE : uniq_env env.
  Hypothesis HL : hypLabels env.
  Hypothesis FO : fromOne env.
  Variable n : nat.
  Variable st : stmtRec.
  Hypothesis HS : stmtAt (e_db env) n st.
  Hypothesis HT : s_type st = S_p.
  Let db := e_db env.

  Lemma storedX q t : goodProof db n st q -> denotes db (map encStep q) t ->
    (forall i, In (Loc i) q -> exists m sm, nth_error q i = Some (Stm m) /\ stmtAt db m sm /\ isAssertion sm) ->
    forall w ind, (5 <= w)%Z -> 0 < ind ->
    (~ (noNumericLabel env /\ (~ In Unk q \/ shortLabels env)) /\ forall fuel, length q <= fuel -> cvtX fuel env n (map encStep q) = UB) \/
    exists s out sec, (forall fuel, length q <= fuel -> cvtX fuel env n (map encStep q) = Ok s) /\
      printLongLine (2 * length (normalText ind s) + 3) w (normalText ind s) (repeat 32 ind) [32] = Ok out /\
      section out = Ok sec /\
      forall rest, exists K q' flag, (forall fuel max, K <= fuel -> parseProofText fuel env n max sec (chDollar :: chDot :: rest) = Ok (flag, q', 0)) /\
        denotes db q' t /\ (flag = 1 /\ In Unk q \/ flag = 0 /\ ~ In Unk q).
  Proof.
    intros G D LA w ind W I0.
    destruct (wf_shape db q (gp_wf _ _ _ _ G)) as (U & WU & EU).
    assert (RF : forall m, In (Stm m) q -> refersTo env n st m) by (intros m H; exact (gp_ref _ _ _ _ G m H)).
    assert (LB : forall k i, nth_error q k = Some (Loc i) -> i < k) by (intros k i H; apply (gp_loc _ _ _ _ G k i H)).
    assert (NE : q <> []) by (intros ->; destruct (gp_wf _ _ _ _ G) as [B _]; discriminate B).
    assert (SO : forall m, In (Stm m) q -> stmOk env m).
    { intros m H. destruct (RF m H) as (sm & A & K). assert (LM : labelled sm) by (destruct K as [[K _]|[K _]]; [now left|now right]).
      split; [exact (FO m sm A LM)|]. exists sm. split; [exact A|exact LM]. }
    destruct (pieces_ok env q SO LB LA q [] 1 (repeat 0 (length q)) eq_refl (repeat_length _ _)) as (nm & P & _ & C1 & C2 & C3). cbn [length] in P.
    assert (NL : forall i, In (Loc i) q -> ~ In (num (nm i)) (allLabels env)) by (intros i I; apply (C1 i (Nat.le_0_l _) I)).
    assert (NI : forall i j, In (Loc i) q -> In (Loc j) q -> nm i = nm j -> i = j).
    { intros i j I J E. destruct (Nat.lt_trichotomy i j) as [H|[H|H]]; [|exact H|];
        [pose proof (C2 i j (Nat.le_0_l _) H I J)|pose proof (C2 j i (Nat.le_0_l _) H J I)]; lia. }
    set (tg := targets db U n).
    assert (TG : Forall (tgOk env) tg) by (apply (tg_ok env WD FO n st HS HT U WU)).
    assert (TL : length tg = length q) by (apply (tg_len env n q U WU EU)).
    set (cs := chunksX env q nm 0 q tg).
    pose proof (piecesX_ok env q SO nm q 0 [] tg 1 (repeat 0 (length q)) (fun m H => H) eq_refl TL TG P) as PX. cbn [app] in PX. fold cs in PX.
    destruct (maxX_ok env q SO nm q 0 [] tg 0 0 SO eq_refl TL TG) as (a & b & MX & MB). cbn [app] in MX.
    assert (CV : forall fuel, length q <= fuel -> cvtX fuel env n (map encStep q) =
       if length q * (2 + a + (b + 1) + digitCount (S (length q)) (length q)) <? length (concat cs) + length cs then UB else Ok (joinSp cs)).
    { intros fuel F. unfold cvtX. rewrite map_length. assert (N0 : (n =? 0) = false) by (apply Nat.eqb_neq; intros ->; pose proof (FO 0 st HS ltac:(left; now right)); lia). rewrite N0.
      assert (TH : getTargetHyp fuel (e_db env) (map encStep q) n = Ok tg).
      { rewrite EU. apply targetHyp_ok; [exact WU|rewrite <- EU; apply enc_legal|eapply wf_root_nonref; [exact (gp_wf _ _ _ _ G)|exact WU|exact EU]|].
        rewrite <- EU, map_length. exact F. }
      rewrite TH. cbn [rbind]. rewrite MX. cbn [rbind fst snd]. rewrite PX. cbn [rbind]. reflexivity. }
    destruct (Nat.ltb_spec (length q * (2 + a + (b + 1) + digitCount (S (length q)) (length q))) (length (concat cs) + length cs)) as [LT|GE]; [left|right].
    - split; [|exact CV]. intros [NN SL]. unfold cs in LT. rewrite chunksX_len in LT by exact TL.
      assert (NB : forall j, 0 < j -> ~ In (num j) (allLabels env)).
      { intros j J I. apply in_allLabels in I. destruct I as (m & sm & X & Y & E). apply (NN m sm (N.of_nat j) X Y ltac:(lia)). rewrite E. apply num_dec. }
      destruct MB as (_ & _ & MB); [destruct SL as [SL|SL]; [now left|right; split; [lia|]; split; [lia|exact SL]]|].
      assert (LE := chunksX_fit env q SO nm a b (digitCount (S (length q)) (length q))). specialize (LE ltac:(intros i I;
          destruct (C1 i (Nat.le_0_l _) I); pose proof (C3 NB (le_n _) (le_n _) i (Nat.le_0_l _) I);
          destruct (LA i I) as (m & sm & X & _); assert (i < length q) by (apply nth_error_Some; congruence); apply num_len; lia) q 0 tg TL MB (fun i H => H)).
      fold cs in LE, LT. lia.
    - set (es := esteps env q nm 0 q tg).
      assert (CE : cs = map (@concat nat) (map stepToks es)) by (apply chunks_toks; exact TL).
      assert (GL : forall s, In s es -> glued (stepToks s) /\ forall c, In c (concat (stepToks s)) -> 45 <= c <= 122).
      { intros s I. eapply es_glued; eassumption. }
      assert (LK : localsOk env n st es) by (eapply es_localsOk; eassumption).
      assert (EP : explicitProof env n st es t) by (eapply es_means; eassumption).
      assert (CN : cs <> []).
      { intros E. apply NE. apply length_zero_iff_nil. rewrite <- (chunksX_len env q nm 0 q tg TL). fold cs. rewrite E. reflexivity. }
      assert (CI : forall x, In x cs -> exists s, In s es /\ x = concat (stepToks s)).
      { intros x I. rewrite CE, map_map in I. apply in_map_iff in I. destruct I as (s & E & I). eauto. }
      destruct (pll_normal (2 * length (normalText ind (joinSp cs)) + 3) w ind cs W I0 CN) as (out & K & PL & EJ & EW).
      { intros x c I J. destruct (CI x I) as (s & Is & ->). apply (GL s Is), J. }
      { intros x I. destruct (CI x I) as (s & Is & ->). destruct (GL s Is) as [Gs _]. intros E. destruct (glued_ink _ [] Gs) as [X|(c & r & X & _)].
        - pose proof (lk_target _ _ _ _ LK s Is) as [T _]. apply T. unfold stepToks in E. rewrite concat_app in E. apply app_eq_nil in E. destruct E as [_ E]. cbn in E. apply app_eq_nil in E. apply E.
        - rewrite E in X. discriminate. }
      { unfold len. lia. }
      assert (W10 : LineSpec.words (10 :: K) = map (@concat nat) (map stepToks es)) by (rewrite <- CE, <- EW; apply (words_blanks [10] K); repeat constructor).
      assert (GF : Forall glued (map stepToks es)) by (apply Forall_forall; intros x I; apply in_map_iff in I; destruct I as (s & <- & I); apply (GL s I)).
      assert (CT : concat (map stepToks es) = etoks es) by (unfold etoks; rewrite flat_map_concat_map; reflexivity).
      assert (RD : forall rest, exists wb s, (10 :: K ++ [32]) ++ (chDollar :: chDot :: rest) = wb ++ s /\ TokSpec.blanks wb s /\ startsInk s /\ tokenised proofToken noProofToken s (etoks es) (chDollar :: chDot :: rest)).
      { intros rest. set (rs := chDollar :: chDot :: rest).
        assert (SR : stops rs). { right. exists chDot, rest. unfold rs, chDot, dollar. split; [reflexivity|]. lia. }
        destruct (glued_words rs SR ltac:(discriminate) _ GF (10 :: K) W10) as (wb & s & E & BL & SI & TK).
        rewrite CT in TK. exists wb, s. split; [rewrite <- E; cbn [app]; f_equal; rewrite <- app_assoc; reflexivity|]. auto. }
      exists (joinSp cs), out, (10 :: K ++ [32]). split; [exact CV|]. split; [exact PL|]. split; [apply section_ok, EJ|].
      intros rest. destruct (RD rest) as (wb & s & E & BL & SI & TK).
      destruct (explicit_text env n st es t _ _ wb s WE UE HL HS HT LK EP E BL SI TK) as (K1 & q1 & flag1 & R1 & D1 & F1).
      assert (UN : hasUnknown es <-> In Unk q) by (eapply es_unknown; eassumption).
      exists K1, q1, flag1. split; [exact R1|]. split; [exact D1|]. destruct F1 as [[X Y]|[X Y]]; [left|right]; (split; [exact X|]); [apply UN, Y|intros Z; apply Y, UN, Z].
  Qed.
End Stored.

Lemma saved_explicit packed env n st p w back : (5 <= w)%Z ->
  wf_db (e_db env) -> wf_env env -> uniq_env env -> hypLabels env -> fromOne env -> stmtAt (e_db env) n st -> s_type st = S_p ->
  goodProof (e_db env) n st p ->
  exists bound,
  (~ (noNumericLabel env /\ (~ In Unk p \/ shortLabels env)) /\
   forall fuel, bound < fuel -> saveExplicit packed fuel env n w back (map encStep p) = UB) \/
  exists sec t,
    (forall fuel, bound < fuel -> saveExplicit packed fuel env n w back (map encStep p) = Ok sec) /\
    denotes (e_db env) (map encStep p) t /\
    forall rest, exists K q flag,
      (forall fuel max, K <= fuel -> parseProofText fuel env n max sec (chDollar :: chDot :: rest) = Ok (flag, q, 0)) /\
      denotes (e_db env) q t /\ (flag = 1 /\ In Unk p \/ flag = 0 /\ ~ In Unk p).
Proof.
  intros W WD WE UE HL FO HS HT G.
  destruct (repack_good (e_db env) n st p G) as [t [D [u [q [A1 [A2 [A3 [A4 [A5 [A6 [A7 [A8 [A9 [A10 A11]]]]]]]]]]]]]].
  destruct (denotes_pure (e_db env) _ t D) as [WT N]. assert (DU := rpn_denotes (e_db env) t WT N).
  exists (2 * length (map encStep u)).
  set (r := if packed then q else u).
  assert (GR : goodProof (e_db env) n st r) by (unfold r; destruct packed; assumption).
  assert (LR : forall i, In (Loc i) r -> exists m sm, nth_error r i = Some (Stm m) /\ stmtAt (e_db env) m sm /\ isAssertion sm).
  { unfold r. destruct packed; [exact A8|]. intros i I. exfalso. exact (A7 i I). }
  assert (UR : In Unk r <-> In Unk p) by (unfold r; destruct packed; assumption).
  assert (LE : length r <= length u) by (unfold r; destruct packed; [exact A11|lia]).
  assert (DR : denotes (e_db env) (map encStep r) t) by (unfold r; destruct packed; [exact A4|rewrite <- A3; exact DU]).
  assert (SV : forall fuel, 2 * length (map encStep u) < fuel -> saveExplicit packed fuel env n w back (map encStep p) =
     (do s <- cvtX fuel env n (map encStep r); let line := normalText (2 + sourceIndentation back) s in
      do out <- printLongLine (2 * length line + 3) w line (repeat 32 (2 + sourceIndentation back)) [32]; section out)).
  { intros fuel F. unfold saveExplicit. rewrite (A1 fuel F). cbn [rbind]. unfold r. destruct packed; [rewrite A2|]; reflexivity. }
  destruct (storedX env WD WE UE HL FO n st HS HT r t GR DR LR w (2 + sourceIndentation back) W ltac:(lia)) as [[NC C]|(s & out & sec & C & P & S & R)].
  - left. split; [intros [H1 H2]; apply NC; split; [exact H1|]; destruct H2 as [H2|H2]; [left; intros H; apply H2, UR, H|right; exact H2]|].
    intros fuel F. rewrite (SV fuel F), C; [reflexivity|]. rewrite map_length in F. lia.
  - right. exists sec, t. split; [intros fuel F; rewrite (SV fuel F), C by (rewrite map_length in F; lia); cbn [rbind]; cbv zeta; rewrite P; cbn [rbind]; exact S|].
    split; [exact D|]. intros rest. destruct (R rest) as (K & q' & flag & R1 & R2 & R3). exists K, q', flag. split; [exact R1|]. split; [exact R2|].
    destruct R3 as [[X Y]|[X Y]]; [left|right]; (split; [exact X|]); [apply UR, Y|intros Z; apply Y, UR, Z].
Qed.
