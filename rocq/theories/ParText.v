(* ParText.v -- proof text level: what a result of parseText guarantees, unknown
   steps are never lost, and inputs on which no memory error is possible. *)
From Verif Require Import Base MMSpec VerModel VerSpec VerProofs TokModel ParModel ParSpec ParProofs ParCompr
  ParTotal CmpModel CmpSpec CmpProofs.
Open Scope nat_scope.
Arguments Nat.max : simpl never.

Lemma parseText_good fuel env n st max sec rest k zs ec :
  wf_env env -> stmtAt (e_db env) n st -> s_type st = S_p ->
  parseText fuel env n max sec rest = Ok (Some (k, zs, ec)) -> k <= 1 ->
  exists proof, zs = map encStep proof /\ goodProof (e_db env) n st proof /\
    (In Unk proof -> k = 1) /\ (k = 0 -> ec = 0).
Proof.
  intros WE Hn Hp H Hk. unfold parseText in H. destruct (sec ++ rest) as [|c0 f0].
  { apply Ok_inj in H. injection H as <- _ _. lia. }
  apply rbind_ok in H. destruct H as [l [_ H]]. destruct (isTok chOpen l).
  - apply rbind_ok in H. destruct H as [[[ls closed] text] [_ H]].
    apply rbind_ok in H. destruct H as [o [H1 H2]]. apply Ok_inj in H2. injection H2 as ->.
    eapply parseCompressed_good; eauto.
  - apply rbind_ok in H. destruct H as [[toks e0] [_ H]].
    destruct (isExplicit _); [discriminate|].
    apply rbind_ok in H. destruct H as [o [H1 H2]]. apply Ok_inj in H2. injection H2 as ->.
    destruct (parseNormal_good _ _ _ _ _ _ _ WE Hn Hp H1 Hk) as [pr [A [B [C D]]]].
    exists pr. split; auto. split; auto. split; auto. apply C.
Qed.

Lemma goodProof_decodes env n st proof : wf_env env -> stmtAt (e_db env) n st -> s_type st = S_p ->
  (forall s0, stmtAt (e_db env) 0 s0 -> ~ isAssertion s0) ->
  goodProof (e_db env) n st proof -> decodes (map encStep proof) proof.
Proof.
  intros WE Hn Hp H0 HG. unfold decodes. rewrite map_map. apply map_ext_in. intros x Hx.
  pose proof (encStep_dec x) as E. destruct x as [|i|m]; auto. destruct m as [|m]; auto.
  exfalso. destruct (gp_ref _ _ _ _ HG 0 Hx) as [sm [Hs [[Ha _]|[_ Hh]]]].
  - eapply H0; eauto.
  - destruct (we_hyps env WE n st 0 Hn Hp Hh). lia.
Qed.

(* ---------- unknown steps in the text ---------- *)
Lemma isTok_labelChar c t : labelChar c = false -> isTok c t = true ->
  1 <= length (filter (fun c => negb (labelChar c)) t).
Proof.
  intros Hc. unfold isTok, firstChar. destruct t as [|x t]; [discriminate|]. cbn [nth_error].
  intros E. apply Nat.eqb_eq in E. subst x. cbn [filter]. rewrite Hc. cbn [negb length]. lia.
Qed.
Lemma raiseN_ge n s e : 1 <= n -> s <= p_flag (raiseN n s e).
Proof. destruct n; [lia|]. intros _. cbn [raiseN raise p_flag]. lia. Qed.

Lemma scanToks_mono env n tab : forall toks prev s s', scanToks env n tab prev toks s = Ok s' ->
  p_flag (ns_err s) <= p_flag (ns_err s').
Proof. intros toks prev s s' H. destruct (scanToks_ok env n _ _ _ _ _ H). auto. Qed.

(* prev is the last token read: the newest step, or "=" or ":" *)
Definition prevOk (prev : label) (s : nscan) : Prop :=
  isTok chEq prev = true \/ isTok chColon prev = true \/ prev = [] /\ ns_steps s = [] \/
  exists b r, ns_steps s = (prev, b) :: r.
Definition qSeen (s : nscan) : Prop :=
  1 <= p_flag (ns_err s) \/ exists t b, In (t, b) (ns_steps s) /\ isTok chQ t = true.

Lemma scan_q env n tab : forall toks prev s s', scanToks env n tab prev toks s = Ok s' ->
  prevOk prev s -> (qSeen s \/ exists t, In t toks /\ isTok chQ t = true) -> qSeen s'.
Proof.
  induction toks as [|t toks IH]; intros prev s s' H HP HQ; cbn [scanToks] in H.
  - apply Ok_inj in H. subst s'. destruct HQ as [HQ|[t [[] _]]]. auto.
  - destruct (isTok chEq t) eqn:Et.
    + apply (IH _ _ _ H); [left; auto|]. destruct HQ as [HQ|[t' [[<-|Ht'] Hq]]]; [left; auto| |right; eauto].
      exfalso. unfold isTok, firstChar in *. destruct (nth_error t 0); [|discriminate].
      apply Nat.eqb_eq in Et, Hq. subst. discriminate.
    + destruct (isTok chColon t) eqn:Ec.
      * apply rbind_ok in H. destruct H as [s1 [H1 H2]]. apply (IH _ _ _ H2); [right; left; auto|].
        destruct HQ as [HQ|[t' [[<-|Ht'] Hq]]]; [| |right; eauto].
        2:{ exfalso. unfold isTok, firstChar in *. destruct (nth_error t 0); [|discriminate].
            apply Nat.eqb_eq in Ec, Hq. subst. discriminate. }
        left. unfold colonTok in H1. destruct (ns_steps s) as [|x0 steps'] eqn:Es; [discriminate|].
        set (e1 := raiseN _ 2 (ns_err s)) in *.
        assert (L1 : p_flag (ns_err s) <= p_flag e1) by apply raiseN_le.
        set (e2 := match e_find env (e_keys env) prev with Some _ => _ | None => _ end) in *.
        assert (L2 : p_flag e1 <= p_flag e2).
        { unfold e2. destruct (e_find env (e_keys env) prev); auto. destruct (_ <=? _)%Z; auto. cbn [raise p_flag]. lia. }
        assert (K : ns_steps s1 = steps' /\ p_flag e2 <= p_flag (ns_err s1)).
        { destruct (e_find env tab prev); apply Ok_inj in H1; subst s1; cbn [ns_steps ns_err]; split; auto.
          cbn [raise p_flag]. lia. }
        destruct K as [K1 K2].
        destruct HQ as [HQ|[t' [b [Ht' Hq]]]]; [left; lia|].
        rewrite Es in Ht'. destruct Ht' as [->|Ht'].
        2:{ right. exists t', b. rewrite K1. auto. }
        left. enough (2 <= p_flag e1) by lia. unfold e1. apply raiseN_ge.
        destruct HP as [HP|[HP|[[_ HP]|[b' [r' HP]]]]].
        -- eapply isTok_labelChar; [|exact HP]. reflexivity.
        -- eapply isTok_labelChar; [|exact HP]. reflexivity.
        -- congruence.
        -- rewrite Es in HP. injection HP as -> _ _. eapply isTok_labelChar; [|exact Hq]. reflexivity.
      * apply (IH _ _ _ H).
        { right. right. right. eexists. eexists. reflexivity. }
        destruct HQ as [[HQ|[t' [b [Ht' Hq]]]]|[t' [[<-|Ht'] Hq]]].
        -- left. left. auto.
        -- left. right. exists t', b. cbn [ns_steps]. split; [right; auto|auto].
        -- left. right. exists t, (ns_lf s). cbn [ns_steps]. split; [left; auto|auto].
        -- right. eauto.
Qed.

Lemma buildSteps_mono env n st tab' s l s' :
  buildSteps env n ((entries env Z.of_nat (s_optHyps st) ++ entries env Z.of_nat (s_reqHyps st)) ++ tab') s l = Ok s' ->
  p_flag (b_err s) <= p_flag (b_err s').
Proof. intros H. destruct (buildSteps_flag env n st tab' _ _ _ H). auto. Qed.

Lemma build_q env n st tab' : forall l s s',
  buildSteps env n ((entries env Z.of_nat (s_optHyps st) ++ entries env Z.of_nat (s_reqHyps st)) ++ tab') s l = Ok s' ->
  (1 <= p_flag (b_err s) \/ exists t b, In (t, b) l /\ isTok chQ t = true) -> 1 <= p_flag (b_err s').
Proof.
  induction l as [|[t b] l IH]; intros s s' H HQ.
  - cbn [buildSteps] in H. apply Ok_inj in H. subst. destruct HQ as [HQ|[t' [b' [[] _]]]]; auto.
  - pose proof (buildSteps_mono _ _ _ _ _ _ _ H) as M. destruct HQ as [HQ|[t' [b' [[E|Ht'] Hq]]]]; [lia| |].
    + injection E as -> ->. cbn [buildSteps] in H. apply rbind_ok in H. destruct H as [s1 [H1 H2]].
      apply (IH _ _ H2). left. unfold buildStep in H1. rewrite Hq in H1. apply Ok_inj in H1. subst s1.
      cbn [b_err atLeast p_flag]. lia.
    + cbn [buildSteps] in H. apply rbind_ok in H. destruct H as [s1 [H1 H2]]. apply (IH _ _ H2). right. eauto.
Qed.

Lemma finish_flag proof cnt e k zs ec : finish proof cnt e = Ok (k, zs, ec) -> p_flag e <= k.
Proof.
  unfold finish. destruct (cnt =? 1).
  - intros H. apply Ok_inj in H. injection H as <- _ _. auto.
  - destruct proof; [discriminate|]. intros H. apply Ok_inj in H. injection H as <- _ _. cbn [raise p_flag]. lia.
Qed.

Lemma parseNormal_q env n toks k zs ec : parseNormal env n toks = Ok (k, zs, ec) ->
  toks = [] \/ (exists t, In t toks /\ isTok chQ t = true) -> 1 <= k.
Proof.
  intros H HQ. unfold parseNormal in H. apply rbind_ok in H. destruct H as [st [Hst H]].
  destruct (match toks with [] => _ | _ => _ end) as [toks1 e1] eqn:E1.
  destruct (match toks1 with [] => _ | _ => _ end) as [toks2 e2] eqn:E2.
  destruct (if isTok chColon (last toks2 []) then _ else _) as [toks3 e3] eqn:E3.
  apply rbind_ok in H. destruct H as [s [Hs H]]. destruct (dupZero (ns_loc s)); [discriminate|].
  apply rbind_ok in H. destruct H as [b [Hb H]]. apply finish_flag in H.
  set (e4 := raiseN _ 2 (ns_err s)) in *.
  assert (L4 : p_flag (ns_err s) <= p_flag e4) by apply raiseN_le.
  assert (K1 : 1 <= p_flag e1 \/ exists t, In t toks1 /\ isTok chQ t = true).
  { destruct toks; injection E1 as <- <-; [left; cbn; lia|]. destruct HQ as [HQ|HQ]; [discriminate|auto]. }
  assert (K2 : 1 <= p_flag e2 \/ exists t, In t toks2 /\ isTok chQ t = true).
  { destruct toks1 as [|t1 r1]; [injection E2 as <- <-; auto|].
    destruct (isTok chColon t1); injection E2 as <- <-; [left; cbn [raise p_flag]; lia|auto]. }
  assert (K3 : 1 <= p_flag e3 \/ exists t, In t toks3 /\ isTok chQ t = true).
  { destruct (isTok chColon (last toks2 [])); injection E3 as <- <-; [left; cbn [raise p_flag]; lia|auto]. }
  assert (Q : qSeen s).
  { apply (scan_q _ _ _ _ _ _ _ Hs).
    - right. right. left. split; auto.
    - destruct K3 as [K3|K3]; [left; left; exact K3|right; auto]. }
  enough (1 <= p_flag (b_err b)) by lia. apply (build_q _ _ _ _ _ _ _ Hb). cbn [b_err].
  destruct Q as [Q|[t [bb [Q1 Q2]]]]; [left; lia|]. right. exists t, bb. split; auto. apply in_rev in Q1. auto.
Qed.

(* compressed format: '?' anywhere among the letters *)
Lemma comprLoop_mono env max bg : forall fuel l s s', comprLoop fuel env max bg l s = Ok s' ->
  p_flag (c_err s) <= p_flag (c_err s').
Proof.
  induction fuel as [|f IH]; intros l s s' H; [discriminate|]. cbn [comprLoop] in H.
  destruct l as [|c r]; [discriminate|]. destruct (128 <=? c); [discriminate|].
  destruct ((65 <=? c) && (c <=? 84)).
  { apply rbind_ok in H. destruct H as [[s1 a] [H1 H2]]. apply letterStep_flag in H1. apply IH in H2. lia. }
  destruct ((85 <=? c) && (c <=? 89)).
  { apply rbind_ok in H. destruct H as [s1 [H1 H2]]. apply IH in H2. unfold digitStep in H1.
    destruct (_ <? _)%Z; [discriminate|]. apply Ok_inj in H1. subst s1. exact H2. }
  destruct (c =? 90).
  { apply rbind_ok in H. destruct H as [s1 [H1 H2]]. apply IH in H2. unfold zStep in H1.
    destruct (_ <=? _); [discriminate|]. destruct (rev (c_proof s)).
    - apply Ok_inj in H1. subst s1. cbn [c_err] in H2. revert H2. destruct (_ =? _)%Z; cbn [raise p_flag]; lia.
    - apply rbind_ok in H1. destruct H1 as [lf [_ H1]]. apply Ok_inj in H1. subst s1. cbn [c_err] in H2.
      revert H2. destruct lf; destruct (_ =? _)%Z; cbn [raise p_flag]; lia. }
  destruct (isspace c); [eauto|].
  destruct (c =? 36).
  { destruct r as [|d r'].
    - apply IH in H. cbn [c_err raise p_flag] in H. lia.
    - destruct (d =? 46); [apply Ok_inj in H; subst; lia|].
      destruct ((d =? 40) || (d =? 33)).
      + apply rbind_ok in H. destruct H as [l' [_ H2]]. apply IH in H2. auto.
      + apply IH in H. cbn [c_err raise p_flag] in H. lia. }
  destruct (c =? 63).
  { apply rbind_ok in H. destruct H as [s1 [H1 H2]]. apply IH in H2. unfold qStep in H1.
    destruct (_ || _); [discriminate|]. apply Ok_inj in H1. subst s1. cbn [c_err] in H2.
    revert H2. destruct (_ =? _)%Z; cbn [raise atLeast p_flag]; lia. }
  apply IH in H. cbn [c_err raise p_flag] in H. lia.
Qed.

Lemma comprLoop_q env max bg : forall fuel a b s s', ~ In chDollar a ->
  comprLoop fuel env max bg (a ++ chQ :: b) s = Ok s' -> 1 <= p_flag (c_err s').
Proof.
  induction fuel as [|f IH]; intros a b s s' Ha H; [discriminate|].
  destruct a as [|c a].
  - cbn [app comprLoop chQ] in H. cbn [Nat.leb andb] in H. cbn in H.
    apply rbind_ok in H. destruct H as [s1 [H1 H2]]. apply comprLoop_mono in H2. unfold qStep in H1.
    destruct (_ || _); [discriminate|]. apply Ok_inj in H1. subst s1. cbn [c_err atLeast p_flag] in H2. lia.
  - assert (Ha' : ~ In chDollar a) by (intros C; apply Ha; right; auto).
    assert (Hc : c <> 36) by (intros C; apply Ha; left; auto).
    cbn [app comprLoop] in H. destruct (128 <=? c); [discriminate|].
    destruct ((65 <=? c) && (c <=? 84)).
    { apply rbind_ok in H. destruct H as [[s1 [|]] [H1 H2]]; [exact (IH _ _ _ _ Ha' H2)|exact (IH (c :: a) _ _ _ Ha H2)]. }
    destruct ((85 <=? c) && (c <=? 89)).
    { apply rbind_ok in H. destruct H as [s1 [H1 H2]]. exact (IH _ _ _ _ Ha' H2). }
    destruct (c =? 90).
    { apply rbind_ok in H. destruct H as [s1 [H1 H2]]. exact (IH _ _ _ _ Ha' H2). }
    destruct (isspace c); [exact (IH _ _ _ _ Ha' H)|].
    destruct (Nat.eqb_spec c 36); [contradiction|].
    destruct (c =? 63).
    { apply rbind_ok in H. destruct H as [s1 [H1 H2]]. exact (IH _ _ _ _ Ha' H2). }
    exact (IH _ _ _ _ Ha' H).
Qed.

Lemma parseCompressed_q fuel env n max labels closed bg a b k zs ec : ~ In chDollar a ->
  parseCompressed fuel env n max labels closed bg (a ++ chQ :: b) = Ok (k, zs, ec) -> 1 <= k.
Proof.
  intros Ha H. unfold parseCompressed in H. apply rbind_ok in H. destruct H as [st [_ H]].
  apply rbind_ok in H. destruct H as [[codes e2] [_ H]]. destruct (_ <? _); [discriminate|].
  apply rbind_ok in H. destruct H as [s [H1 H]]. apply comprLoop_q in H1; auto.
  set (e3 := if (_ =? 0)%Z then _ else _) in *.
  assert (1 <= p_flag e3) by (unfold e3; destruct (_ =? 0)%Z; cbn [raise p_flag]; lia).
  destruct (c_proof s).
  - destruct (_ || _); [discriminate|]. apply finish_flag in H. cbn [raise p_flag] in H. lia.
  - destruct (_ <=? _); [discriminate|]. apply finish_flag in H. lia.
Qed.

Lemma parseText_q_compr fuel env n max w names lt a b rest k zs ec :
  blanks w -> labelsLaid names lt ->
  (forall l, In l names -> l <> [] /\ Forall (fun c => labelChar c = true) l) ->
  ~ In chDollar a ->
  parseText fuel env n max (w ++ chOpen :: lt ++ a ++ chQ :: b) rest = Ok (Some (k, zs, ec)) -> 1 <= k.
Proof.
  intros Hw Hlt HN Ha H. unfold parseText in H.
  replace ((w ++ chOpen :: lt ++ a ++ chQ :: b) ++ rest) with (w ++ chOpen :: lt ++ (a ++ chQ :: b ++ rest)) in H
    by (rewrite <- app_assoc; cbn [app]; rewrite <- app_assoc; cbn [app]; rewrite <- app_assoc; reflexivity).
  destruct (w ++ chOpen :: lt ++ a ++ chQ :: b ++ rest) as [|f0 fr] eqn:Ef; [destruct w; discriminate|].
  rewrite <- Ef in H. clear Ef f0 fr.
  rewrite whiteSpace_blanks in H by (auto; discriminate). cbn [rbind] in H.
  change (isTok chOpen (chOpen :: lt ++ a ++ chQ :: b ++ rest)) with true in H. cbn iota in H. cbn [tl] in H.
  destruct (labelList_laid names lt (a ++ chQ :: b ++ rest) Hlt HN (S (length (chOpen :: lt ++ a ++ chQ :: b ++ rest)))) as
    [ls [E1 [E2 _]]].
  { cbn [length]. lia. }
  rewrite E1 in H. cbn [rbind] in H.
  apply rbind_ok in H. destruct H as [o [H1 H2]]. apply Ok_inj in H2. injection H2 as ->.
  eapply parseCompressed_q; eauto.
Qed.

(* ---------- discharging the verifier's assumption on the parser ---------- *)
Lemma decodes_enc proof pr : decodes (map encStep proof) pr -> pr = proof.
Proof.
  unfold decodes. rewrite map_map. revert pr. induction proof as [|x l IH]; intros [|y pr] H; cbn [map] in H; try discriminate; auto.
  pose proof (encStep_dec x) as E.
  assert (E1 : decStep (encStep x) = Some y) by (injection H; auto).
  assert (E2 : map (fun x => decStep (encStep x)) l = map Some pr) by (injection H; auto).
  f_equal; [|apply IH; auto]. destruct x as [|i|[|m]]; [congruence|congruence|discriminate|congruence].
Qed.

Lemma parsesTo_ok env texts parse : wf_env env -> parsesTo env texts parse ->
  forall n st, stmtAt (e_db env) n st -> s_type st = S_p -> VerProofs.parse_ok (e_db env) n (parse n).
Proof.
  intros WE HP n st Hn Hp Hk0. destruct (HP n st Hn Hp) as [fuel [prev [k [zs [ec [H [E1 [E2 [E3 E4]]]]]]]]].
  rewrite E1 in Hk0. subst k.
  destruct (parseText_good _ _ _ _ _ _ _ _ _ _ WE Hn Hp H (Nat.le_0_l 1)) as [proof [-> [HG [HU HE]]]].
  apply decodes_enc in E4; [|lia]. rewrite E4. split; [|split; [|split; [|split]]].
  - intros C. apply HU in C. discriminate.
  - intros j i Hj. apply (gp_loc _ _ _ _ HG j i Hj).
  - intros m sm Hm Hs Ha. destruct (gp_ref _ _ _ _ HG m Hm) as [sm' [Hs' [[_ Hlt]|[Hh _]]]]; auto.
    exfalso. unfold stmtAt in *. assert (sm' = sm) by congruence. subst. destruct Ha, Hh; congruence.
  - intros m sm st' Hm Hs Hh Hst'. assert (st' = st) by (unfold stmtAt in *; congruence). subst st'.
    destruct (gp_ref _ _ _ _ HG m Hm) as [sm' [Hs' [[Ha _]|[_ Hx]]]]; auto.
    exfalso. unfold stmtAt in *. assert (sm' = sm) by congruence. subst. destruct Ha, Hh; congruence.
  - rewrite E3. apply HE. reflexivity.
Qed.
