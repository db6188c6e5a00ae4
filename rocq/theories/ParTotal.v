(* ParTotal.v -- the proof parsers terminate and never reach an internal trap. *)
From Verif Require Import Base MMSpec VerModel VerSpec TokModel ParModel ParSpec ParProofs ParCompr.
Open Scope nat_scope.
Arguments Nat.max : simpl never.

Definition endsNL (l : list nat) : Prop := exists p, l = p ++ [chNL].
(* s is what is left of l after skipping something *)
Definition suffixOf (s l : list nat) : Prop := exists p, l = p ++ s.

Lemma suffix_refl l : suffixOf l l.
Proof. exists []; auto. Qed.
Lemma suffix_cons c r : suffixOf r (c :: r).
Proof. exists [c]; auto. Qed.
Lemma suffix_trans a b c : suffixOf a b -> suffixOf b c -> suffixOf a c.
Proof. intros [p ->] [q ->]. exists (q ++ p). rewrite app_assoc. auto. Qed.
Lemma suffix_len a b : suffixOf a b -> length a <= length b.
Proof. intros [p ->]. rewrite app_length. lia. Qed.
Lemma suffix_nil l : suffixOf [] l.
Proof. exists l. rewrite app_nil_r. auto. Qed.
Lemma suffix_skipn k (l : list nat) : suffixOf (skipn k l) l.
Proof. exists (firstn k l). symmetry. apply firstn_skipn. Qed.

Lemma endsNL_suffix s l : endsNL l -> suffixOf s l -> s = [] \/ endsNL s.
Proof.
  intros [p E] [q ->]. destruct s as [|x s] using rev_ind; [auto|]. right.
  rewrite app_assoc in E. apply app_inj_tail in E. destruct E as [_ ->]. exists s. auto.
Qed.
Lemma endsNL_In l : endsNL l -> In chNL l.
Proof. intros [p ->]. apply in_or_app. right. left. auto. Qed.

Lemma strchr_some c : forall l, In c l -> exists s, strchr c l = Some (c :: s) /\ suffixOf (c :: s) l.
Proof.
  induction l as [|x l IH]; intros H; [destruct H|]. simpl. destruct (Nat.eqb_spec x c) as [->|Hne].
  - exists l. split; auto. apply suffix_refl.
  - destruct H as [H|H]; [congruence|]. destruct (IH H) as [s [E S]]. exists s. split; auto.
    eapply suffix_trans; [exact S|apply suffix_cons].
Qed.
Lemma strchr_inv c l r : strchr c l = Some r -> exists s, r = c :: s /\ suffixOf (c :: s) l.
Proof.
  revert r; induction l as [|x l IH]; intros r H; [discriminate|]. simpl in H.
  destruct (Nat.eqb_spec x c) as [->|Hne].
  - injection H as <-. exists l. split; auto. apply suffix_refl.
  - destruct (IH _ H) as [s [E S]]. exists s. split; auto. eapply suffix_trans; [exact S|apply suffix_cons].
Qed.

Ltac esuf := match goal with
  | He : endsNL ?l, S : suffixOf ?s ?l |- ?s = [] \/ endsNL ?s => exact (endsNL_suffix s l He S)
  end.

Lemma skipComment_total : forall n l, length l < n -> l = [] \/ endsNL l ->
  exists s, skipComment n l = Ok s /\ suffixOf s l.
Proof.
  induction n as [|n IH]; intros l Hl He; [lia|]. cbn [skipComment].
  destruct (strchr chDollar l) as [r|] eqn:E.
  - destruct (strchr_inv _ _ _ E) as [s [-> S]].
    destruct He as [->|He]; [discriminate|].
    destruct (endsNL_suffix _ _ He S) as [?|He']; [discriminate|].
    destruct s as [|c s'].
    { exfalso. destruct He' as [p E']. destruct p as [|? p]; [discriminate|]. destruct p; discriminate. }
    destruct (c =? chClose).
    + exists s'. split; auto. eapply suffix_trans; [|exact S]. exists [chDollar; c]. auto.
    + assert (S2 : suffixOf s' l) by (eapply suffix_trans; [|exact S]; exists [chDollar; c]; auto).
      destruct (IH s') as [s2 [E2 S3]].
      * apply suffix_len in S. simpl in S. lia.
      * esuf.
      * exists s2. split; auto. eapply suffix_trans; eauto.
  - exists []. split; auto. apply suffix_nil.
Qed.

Lemma skipWs_total : forall n l, length l < n -> l = [] \/ endsNL l ->
  exists s, skipWs n l = Ok s /\ suffixOf s l.
Proof.
  induction n as [|n IH]; intros l Hl He; [lia|]. cbn [skipWs].
  destruct l as [|c r]; [exists []; split; auto; apply suffix_refl|].
  destruct He as [He|He]; [discriminate|].
  destruct (c =? chDollar) eqn:Ec.
  - destruct r as [|d r']; [exists [c]; split; auto; apply suffix_refl|].
    assert (S1 : suffixOf r' (c :: d :: r')) by (exists [c; d]; auto).
    destruct (d =? chOpen).
    { destruct (skipComment_total (S (length r')) r') as [s [E S]]; [lia|esuf|].
      rewrite E. cbn [rbind]. assert (S2 : suffixOf s (c :: d :: r')) by (eapply suffix_trans; eauto).
      destruct (IH s) as [s2 [E2 S3]].
      - apply suffix_len in S. simpl in Hl. lia.
      - esuf.
      - exists s2. split; auto. eapply suffix_trans; eauto. }
    destruct (d =? chBang) eqn:Ed.
    { assert (In chNL r') as Hin.
      { destruct He as [p E']. destruct p as [|x p].
        - discriminate.
        - injection E' as <- E'. destruct p as [|y p].
          + injection E' as -> ->. discriminate.
          + injection E' as <- ->. apply in_or_app. right. left. auto. }
      destruct (strchr_some _ _ Hin) as [s [E S]]. rewrite E.
      assert (S2 : suffixOf s (c :: d :: r')).
      { eapply suffix_trans; [|exact S1]. eapply suffix_trans; [apply suffix_cons|exact S]. }
      destruct (IH s) as [s2 [E2 S3]].
      - apply suffix_len in S. simpl in Hl, S. lia.
      - esuf.
      - exists s2. split; auto. eapply suffix_trans; eauto. }
    exists (c :: d :: r'). split; auto. apply suffix_refl.
  - destruct (isgraph c); [exists (c :: r); split; auto; apply suffix_refl|].
    destruct (IH r) as [s2 [E2 S3]].
    + simpl in Hl. lia.
    + eapply endsNL_suffix; [exact He|apply suffix_cons].
    + exists s2. split; auto. eapply suffix_trans; [exact S3|apply suffix_cons].
Qed.

Lemma whiteSpace_total l : l = [] \/ endsNL l -> exists s, whiteSpace l = Ok s /\ suffixOf s l.
Proof. intros. apply skipWs_total; auto. Qed.

Lemma proofTokenLen_le l : proofTokenLen l <= length l.
Proof.
  assert (G : forall k l, length l <= k -> proofTokenGo l <= length l).
  { induction k as [|k IH]; intros [|c r] Hk; simpl in *; try lia.
    destruct (c =? chDollar).
    - destruct r as [|d r']; [lia|]. destruct (d =? chDollar); [|lia].
      specialize (IH r'). simpl in *. lia.
    - destruct (isgraph c); simpl; [|lia]. destruct (proofSpecial c); [lia|]. specialize (IH r). lia. }
  destruct l as [|c r]; [simpl; lia|]. unfold proofTokenLen. destruct (proofSpecial c); [simpl; lia|]. apply (G (S (length r)) (c :: r)). auto.
Qed.

Lemma proofTokens_total : forall n l, length l < n -> l = [] \/ endsNL l ->
  exists r, proofTokens n l = Ok r.
Proof.
  induction n as [|n IH]; intros l Hl He; [lia|]. cbn [proofTokens].
  destruct (proofTokenLen l) as [|k] eqn:Ek; [eauto|].
  assert (S1 : suffixOf (skipn (S k) l) l) by apply suffix_skipn.
  assert (He1 : skipn (S k) l = [] \/ endsNL (skipn (S k) l)).
  { destruct He as [->|He]; [discriminate|]. esuf. }
  destruct (whiteSpace_total _ He1) as [s [E S]]. rewrite E. cbn [rbind].
  destruct (IH s) as [[ts e] E2].
  - apply suffix_len in S. rewrite skipn_length in S. pose proof (proofTokenLen_le l). lia.
  - destruct He1 as [He1|He1]; [|esuf].
    rewrite He1 in S. destruct S as [p Ep]. destruct p, s; try discriminate. auto.
  - rewrite E2. cbn [rbind]. eauto.
Qed.

Lemma labelList_total : forall n l, length l < n -> l = [] \/ endsNL l ->
  exists ls c e, labelList n l = Ok (ls, c, e) /\ suffixOf e l.
Proof.
  induction n as [|n IH]; intros l Hl He; [lia|]. cbn [labelList].
  destruct (whiteSpace_total _ He) as [s [E SS]]. rewrite E. cbn [rbind].
  destruct (proofTokenLen s) as [|k] eqn:Ek.
  { exists [], false, s. auto. }
  destruct (isTok chClose s).
  { exists [], true, (tl s). split; auto. eapply suffix_trans; [|exact SS]. destruct s; [apply suffix_refl|apply suffix_cons]. }
  assert (S1 : suffixOf (skipn (S k) s) s) by apply suffix_skipn.
  assert (S2 : suffixOf (skipn (S k) s) l) by (eapply suffix_trans; eauto).
  destruct (IH (skipn (S k) s)) as [ls [c [e [E2 S3]]]].
  - apply suffix_len in SS. rewrite skipn_length. pose proof (proofTokenLen_le s). lia.
  - destruct He as [->|He]; [|esuf].
    left. destruct S2 as [p Ep]. destruct p, (skipn (S k) s); try discriminate; auto.
  - rewrite E2. cbn [rbind]. exists ((firstn (S k) s, s) :: ls), c, e. split; auto. eapply suffix_trans; eauto.
Qed.

(* Ok or undefined behaviour; neither a trap nor an endless loop *)
Definition okOrUB {A} (r : res A) : Prop := r = UB \/ exists a, r = Ok a.

Lemma okOrUB_rget {A} (o : option A) : okOrUB (rget o).
Proof. destruct o as [a|]; [right; exists a; reflexivity|left; reflexivity]. Qed.
Lemma okOrUB_bind {A B} (r : res A) (f : A -> res B) :
  okOrUB r -> (forall a, r = Ok a -> okOrUB (f a)) -> okOrUB (rbind r f).
Proof. intros [->|[a ->]] H; [left; auto|]. simpl. auto. Qed.
Lemma okOrUB_ok {A} (a : A) : okOrUB (Ok a).
Proof. right; eauto. Qed.
Lemma okOrUB_ub {A} : okOrUB (@UB A).
Proof. left; auto. Qed.
#[local] Hint Resolve okOrUB_rget okOrUB_ok okOrUB_ub : core.

Section T.
  Variable env : penv.
  Hypothesis WE : wf_env env.

  Lemma isLeaf_total z : okOrUB (isLeaf env z).
  Proof.
    unfold isLeaf. destruct (z <? 0)%Z; auto. apply okOrUB_bind; auto. intros st _. destruct (s_type st); auto.
  Qed.

  Lemma letterStep_total max w s : okOrUB (letterStep env max w s).
  Proof.
    unfold letterStep. destruct (_ <? _)%Z; auto. apply okOrUB_bind; auto. intros z _.
    destruct (_ <=? _); auto. apply okOrUB_bind; [apply isLeaf_total|]. intros [sm|] _.
    - destruct (_ <? _); destruct (_ <=? _); auto.
    - destruct (_ <=? _); auto.
  Qed.
  Lemma letterStep_stay max w s s' : letterStep env max w s = Ok (s', false) ->
    c_cnt s < max /\ c_cnt s' = S (c_cnt s).
  Proof.
    unfold letterStep. intros H. destruct (_ <? _)%Z; [discriminate|].
    apply rbind_ok in H. destruct H as [z [_ H]]. destruct (_ <=? _); [discriminate|].
    apply rbind_ok in H. destruct H as [[sm|] [_ H]].
    - destruct (_ <? _).
      + destruct (max <=? c_cnt s) eqn:E; [discriminate|]. apply Nat.leb_gt in E.
        injection H as <-. auto.
      + destruct (_ <=? _); discriminate.
    - destruct (_ <=? _); discriminate.
  Qed.
  Lemma zStep_total max s : okOrUB (zStep env max s).
  Proof.
    unfold zStep. destruct (_ <=? _); auto. destruct (rev _); auto.
    apply okOrUB_bind; [apply isLeaf_total|]. auto.
  Qed.
  Lemma qStep_total max s : okOrUB (qStep max s).
  Proof. unfold qStep. destruct (_ || _); auto. Qed.
  Lemma digitStep_total bg w s : okOrUB (digitStep bg w s).
  Proof. unfold digitStep. destruct (_ <? _)%Z; auto. Qed.

  Lemma comprLoop_total max bg : forall fuel l s, l = [] \/ endsNL l ->
    length l * (max + 2) + (max - c_cnt s) < fuel -> okOrUB (comprLoop fuel env max bg l s).
  Proof.
    induction fuel as [|f IH]; intros l s He Hf; [lia|]. cbn [comprLoop].
    destruct l as [|c r]; auto. destruct He as [He|He]; [discriminate|].
    destruct (128 <=? c); auto.
    assert (Sr : r = [] \/ endsNL r) by (eapply endsNL_suffix; [exact He|apply suffix_cons]).
    simpl length in Hf.
    assert (K : forall s', okOrUB (comprLoop f env max bg r s')).
    { intros s'. apply IH; auto. lia. }
    destruct ((65 <=? c) && (c <=? 84)).
    { apply okOrUB_bind; [apply letterStep_total|]. intros [s' [|]] E; auto.
      apply letterStep_stay in E. apply IH; auto. simpl length. lia. }
    destruct ((85 <=? c) && (c <=? 89)); [apply okOrUB_bind; [apply digitStep_total|]; auto|].
    destruct (c =? 90); [apply okOrUB_bind; [apply zStep_total|]; auto|].
    destruct (isspace c); auto.
    destruct (c =? 36) eqn:E36.
    { destruct r as [|d r']; auto. destruct (d =? 46); auto.
      destruct ((d =? 40) || (d =? 33)) eqn:Ed; auto.
      destruct (whiteSpace_total (c :: d :: r') (or_intror He)) as [l' [E SS]]. rewrite E. cbn [rbind].
      apply IH.
      - esuf.
      - (* at least the comment opener is skipped *)
        assert (length l' <= length r').
        { revert E. unfold whiteSpace. cbn [skipWs]. change chDollar with 36. rewrite E36.
          destruct (d =? chOpen) eqn:E1.
          - intros E. apply rbind_ok in E. destruct E as [s1 [E2 E3]].
            assert (He' : r' = [] \/ endsNL r').
            { eapply endsNL_suffix; [exact He|]. exists [c; d]; auto. }
            destruct (skipComment_total (S (length r')) r') as [s2 [E4 S4]]; auto. assert (s1 = s2) by congruence. subst s2.
            destruct (skipWs_total (length (c :: d :: r')) s1) as [s3 [E5 S5]].
            + apply suffix_len in S4. simpl. lia.
            + destruct He' as [->|He']; [|esuf].
              left. destruct S4 as [p Ep]. destruct p, s1; try discriminate; auto.
            + assert (l' = s3) by congruence. subst s3. apply suffix_len in S4, S5. lia.
          - destruct (d =? chBang) eqn:E2.
            + intros E. destruct (strchr chNL r') as [t|] eqn:E3; [|discriminate].
              destruct (strchr_inv _ _ _ E3) as [s1 [-> S1]].
              destruct (skipWs_total (length (c :: d :: r')) s1) as [s3 [E5 S5]].
              * apply suffix_len in S1. simpl in *. lia.
              * eapply endsNL_suffix; [exact He|].
                eapply suffix_trans; [apply suffix_cons|]. eapply suffix_trans; [exact S1|]. exists [c; d]; auto.
              * assert (l' = s3) by congruence. subst s3. apply suffix_len in S1, S5. simpl in S1. lia.
            + exfalso. change chOpen with 40 in E1. change chBang with 33 in E2. rewrite E1, E2 in Ed. discriminate. }
        simpl length in Hf. nia. }
    destruct (c =? 63); auto. apply okOrUB_bind; [apply qStep_total|]; auto.
  Qed.

  Lemma finish_total p c e : okOrUB (finish p c e).
  Proof. unfold finish. destruct (_ =? _); auto. destruct p; auto. Qed.

  Variable n : nat.
  Variable st : stmtRec.
  Hypothesis Hn : stmtAt (e_db env) n st.
  Hypothesis Hp : s_type st = S_p.

  Lemma labelCode_total t e :
    okOrUB (labelCode env n (entries env Z.of_nat (s_optHyps st)
             ++ entries env (fun h => (-1000 - Z.of_nat h)%Z) (s_reqHyps st)) t e).
  Proof.
    unfold labelCode. destruct (e_find env _ t) as [j|] eqn:Ef.
    - apply (we_some env WE) in Ef. apply (ctab_In env WE n st Hn Hp) in Ef. destruct Ef as [h [Hh0 [_ Ez]]].
      destruct (j <? 0)%Z eqn:Ej.
      + apply Z.ltb_lt in Ej. destruct Ez as [Ez|[Ez _]]; [lia|].
        destruct (Z.leb_spec (-1000 - j) 0); auto. lia.
      + apply Z.ltb_ge in Ej. destruct (Z.leb_spec j 0); auto. lia.
    - destruct (e_find env (e_keys env) t) as [j|] eqn:Ek; auto.
      apply (we_some env WE) in Ek. apply (we_keys env WE) in Ek.
      destruct Ek as [m [sm [_ [-> [Hm [Ha _]]]]]]. rewrite Nat2Z.id. unfold stmtAt in Hm. rewrite Hm.
      cbn [rget rbind]. destruct Ha as [T|T]; rewrite T; auto.
  Qed.

  Lemma labelCodes_total : forall ts e,
    okOrUB (labelCodes env n (entries env Z.of_nat (s_optHyps st)
             ++ entries env (fun h => (-1000 - Z.of_nat h)%Z) (s_reqHyps st)) ts e).
  Proof.
    induction ts as [|t ts IH]; intros e; cbn [labelCodes]; auto.
    apply okOrUB_bind; [apply labelCode_total|]. intros [z e1] _. apply okOrUB_bind; auto.
    intros [zs e2] _. auto.
  Qed.

  Lemma parseCompressed_total fuel max labels closed bg text : text = [] \/ endsNL text ->
    length text * (max + 2) + max < fuel ->
    okOrUB (parseCompressed fuel env n max labels closed bg text).
  Proof.
    intros He Hf. unfold parseCompressed. apply okOrUB_bind; auto. intros st' E.
    assert (st' = st). { unfold stmtAt in Hn. rewrite Hn in E. injection E as <-. auto. } subst st'.
    apply okOrUB_bind; [apply labelCodes_total|]. intros [codes e2] _. destruct (_ <? _); auto.
    apply okOrUB_bind. { apply comprLoop_total; auto. simpl. lia. }
    intros s _. destruct (c_proof s).
    - destruct (_ || _); auto. apply finish_total.
    - destruct (_ <=? _); auto. apply finish_total.
  Qed.

  (* normal format *)
  Lemma scanToks_total tab : forall toks prev s, okOrUB (scanToks env n tab prev toks s).
  Proof.
    induction toks as [|t toks IH]; intros prev s; cbn [scanToks]; auto.
    destruct (isTok chEq t); auto. destruct (isTok chColon t); auto.
    apply okOrUB_bind; auto. unfold colonTok. destruct (ns_steps s); auto. destruct (e_find env tab prev); auto.
  Qed.

  Lemma scanToks_loc tab : forall toks prev s s', scanToks env n tab prev toks s = Ok s' ->
    (forall l z, In (l, z) (ns_loc s) -> exists i, z = zLoc (Z.of_nat i)) ->
    forall l z, In (l, z) (ns_loc s') -> exists i, z = zLoc (Z.of_nat i).
  Proof.
    induction toks as [|t toks IH]; intros prev s s' H HI; cbn [scanToks] in H.
    - injection H as <-. auto.
    - destruct (isTok chEq t); [eauto|]. destruct (isTok chColon t); [|eapply IH; eauto].
      apply rbind_ok in H. destruct H as [s1 [H1 H2]]. eapply IH; [exact H2|].
      unfold colonTok in H1. destruct (ns_steps s) as [|y ys]; [discriminate|].
      destruct (e_find env tab prev); injection H1 as <-; cbn [ns_loc]; auto.
      intros l z Hin. apply in_app_or in Hin. destruct Hin as [Hin|[E|[]]]; [eauto|].
      injection E as _ <-. eauto.
  Qed.

  Let hypTab := entries env Z.of_nat (s_optHyps st) ++ entries env Z.of_nat (s_reqHyps st).

  Lemma buildStep_total loc s x : (forall l z, In (l, z) loc -> exists i, z = zLoc (Z.of_nat i)) ->
    okOrUB (buildStep env n (hypTab ++ loc) s x).
  Proof.
    intros HL. unfold buildStep. destruct x as [t lf]. destruct (isTok chQ t); auto.
    destruct (e_find env (hypTab ++ loc) t) as [j|] eqn:Ef.
    - apply (we_some env WE) in Ef. apply in_app_or in Ef.
      assert (Hj : (exists h, j = Z.of_nat h /\ 0 < h) \/ exists i, j = zLoc (Z.of_nat i)).
      { destruct Ef as [Ef|Ef]; [|right; eauto]. left.
        apply (hypTab_In env WE n st Hn Hp) in Ef. destruct Ef as [h [E1 [E2 _]]]. eauto. }
      unfold zLoc in Hj. destruct (Z.ltb_spec j 0).
      + destruct (Z.ltb_spec (-1000 - j) 0); auto. destruct Hj as [[h [E1 E2]]|[i Ei]]; lia.
      + destruct (Z.leb_spec j 0); auto. destruct Hj as [[h [E1 E2]]|[i Ei]]; lia.
    - destruct (e_find env (e_keys env) t) as [j|] eqn:Ek; auto.
      apply (we_some env WE) in Ek. apply (we_keys env WE) in Ek.
      destruct Ek as [m [sm [_ [-> [Hm [Ha _]]]]]]. rewrite Nat2Z.id. unfold stmtAt in Hm. rewrite Hm.
      cbn [rget rbind]. destruct Ha as [T|T]; rewrite T; destruct (_ <? _); auto.
  Qed.

  Lemma buildSteps_total loc : (forall l z, In (l, z) loc -> exists i, z = zLoc (Z.of_nat i)) ->
    forall l s, okOrUB (buildSteps env n (hypTab ++ loc) s l).
  Proof.
    intros HL. induction l as [|x l IH]; intros s; cbn [buildSteps]; auto.
    apply okOrUB_bind; [apply buildStep_total; auto|]. auto.
  Qed.

  Lemma parseNormal_total toks : okOrUB (parseNormal env n toks).
  Proof.
    unfold parseNormal. apply okOrUB_bind; auto. intros st' E.
    assert (st' = st). { unfold stmtAt in Hn. rewrite Hn in E. injection E as <-. auto. } subst st'.
    destruct (match toks with [] => _ | _ => _ end) as [toks1 e1].
    destruct (match toks1 with [] => _ | _ => _ end) as [toks2 e2].
    destruct (if isTok chColon (last toks2 []) then _ else _) as [toks3 e3].
    apply okOrUB_bind; [apply scanToks_total|]. intros s Hs. destruct (dupZero _); auto.
    apply okOrUB_bind.
    - apply buildSteps_total. eapply scanToks_loc; [exact Hs|]. intros l z [].
    - intros b _. apply finish_total.
  Qed.

  Lemma parseText_total fuel max section rest : endsNL (section ++ rest) ->
    length (section ++ rest) * (max + 2) + max < fuel ->
    okOrUB (parseText fuel env n max section rest).
  Proof.
    intros He Hf. unfold parseText. set (full := section ++ rest) in *.
    destruct full as [|f0 fr] eqn:Ef; auto. rewrite <- Ef in *. clear Ef f0 fr.
    destruct (whiteSpace_total full (or_intror He)) as [l [E SS]]. rewrite E. cbn [rbind].
    assert (Hl : l = [] \/ endsNL l) by (esuf).
    assert (Ht : suffixOf (tl l) l) by (destruct l; [apply suffix_refl|apply suffix_cons]).
    destruct (isTok chOpen l).
    - assert (Htl : tl l = [] \/ endsNL (tl l)).
      { destruct Hl as [->|Hl]; auto. esuf. }
      destruct (labelList_total (S (length l)) (tl l)) as [ls [c [e [E2 S2]]]]; auto.
      { apply suffix_len in Ht. lia. }
      rewrite E2. cbn [rbind]. apply okOrUB_bind; auto. apply parseCompressed_total.
      + destruct Htl as [Htl|Htl]; [|esuf].
        left. rewrite Htl in S2. destruct S2 as [p Ep]. destruct p, e; try discriminate; auto.
      + apply suffix_len in SS, Ht, S2. assert (length e <= length full) by lia. nia.
    - destruct (proofTokens_total (S (length l)) l) as [[toks e] E2]; auto. rewrite E2. cbn [rbind].
      destruct (isExplicit _); auto. apply okOrUB_bind; auto. apply parseNormal_total.
  Qed.
End T.
