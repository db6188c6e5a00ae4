(* ParCompr.v -- proofs about parseCompressedProof. *)
From Verif Require Import Base MMSpec VerModel VerSpec TokModel ParModel ParSpec ParProofs.
Open Scope nat_scope.
Arguments Nat.max : simpl never.

Ltac okpair H := apply Ok_inj in H; 
  let A := fresh in let B := fresh in
  pose proof (f_equal fst H) as A; pose proof (f_equal snd H) as B; cbn [fst snd] in A, B; clear H; subst.

Ltac flagle := repeat match goal with
  | |- context [if ?b then _ else _] => destruct b
  end; cbn [raise atLeast p_flag p_count]; try lia.

Section Compr.
  Variable env : penv.
  Hypothesis WE : wf_env env.
  Variable n : nat.
  Variable st : stmtRec.
  Hypothesis Hn : stmtAt (e_db env) n st.
  Hypothesis Hp : s_type st = S_p.
  Let db := e_db env.

  Definition refOk (m : nat) : Prop := exists sm, stmtAt db m sm /\
    ((isAssertion sm /\ m < n) \/
     (isHyp sm /\ (In m (s_reqHyps st) \/ In m (s_optHyps st)))).

  (* what a label map entry may be, when the proof so far is pr *)
  Definition entryOk (pr : list pstep) (z : Z) : Prop :=
    (exists m, z = Z.of_nat m /\ refOk m) \/
    (exists i m sm, z = zLoc (Z.of_nat i) /\ i < length pr /\
       nth_error pr i = Some (Stm m) /\ stmtAt db m sm /\ isAssertion sm).

  Lemma entryOk_app pr x z : entryOk pr z -> entryOk (pr ++ [x]) z.
  Proof.
    intros [H|[i [m [sm [H1 [H2 [H3 H4]]]]]]]; [left; auto|].
    right. exists i, m, sm. rewrite app_length, nth_error_app1 by auto. simpl. repeat split; try tauto. lia.
  Qed.

  Record CInv (s : cst) (pr : list pstep) : Prop := {
    ci_enc : c_proof s = map encStep pr;
    ci_pre : prefixOk db n st pr (c_cnt s);
    ci_map : Forall (entryOk pr) (c_map s);
    ci_unk : In Unk pr -> 1 <= p_flag (c_err s) }.

  Lemma letterStep_flag max w s s' a : letterStep env max w s = Ok (s', a) ->
    p_flag (c_err s) <= p_flag (c_err s') /\ (eOk (c_err s) -> eOk (c_err s')).
  Proof.
    unfold letterStep. intros H. destruct (_ <? _)%Z; [discriminate|].
    set (e1 := if (_ <=? _)%Z then raise 2 (c_err s) else _) in *.
    assert (L : p_flag (c_err s) <= p_flag e1) by (unfold e1; flagle).
    assert (O : eOk (c_err s) -> eOk e1).
    { unfold e1. destruct (_ <=? _)%Z; auto. intros; apply eOk_raise; auto. }
    apply rbind_ok in H. destruct H as [z [_ H]]. destruct (_ <=? _); [discriminate|].
    apply rbind_ok in H. destruct H as [lf [_ H]].
    destruct lf as [sm|].
    - destruct (c_cnt s <? _).
      + destruct (_ <=? _); [discriminate|]. injection H as <- <-. cbn [c_err].
        split; [cbn [raise p_flag]; lia|]. intros; apply eOk_raise; auto.
      + destruct (_ <=? _); [discriminate|]. injection H as <- <-. cbn [c_err]. split; auto.
    - destruct (_ <=? _); [discriminate|]. injection H as <- <-. cbn [c_err]. split; auto.
  Qed.

  Lemma zLoc_not_nat i m : zLoc (Z.of_nat i) = Z.of_nat m -> False.
  Proof. unfold zLoc. lia. Qed.

  Lemma refOk_leaf m : refOk m ->
    exists sm, stmtAt db m sm /\
      ((isHyp sm /\ isLeaf env (Z.of_nat m) = Ok None) \/
       (isAssertion sm /\ isLeaf env (Z.of_nat m) = Ok (Some sm))).
  Proof.
    intros [sm [Hm Hr]]. exists sm. split; auto. unfold isLeaf.
    assert (E : (Z.of_nat m <? 0)%Z = false) by (apply Z.ltb_ge; lia). rewrite E, Nat2Z.id.
    unfold stmtAt, db in Hm. rewrite Hm. cbn [rget rbind].
    destruct Hr as [[Ha _]|[Hh _]].
    - right. split; auto. destruct Ha as [T|T]; rewrite T; auto.
    - left. split; auto. destruct Hh as [T|T]; rewrite T; auto.
  Qed.

  Lemma letterStep_ok max w s s' a pr : letterStep env max w s = Ok (s', a) -> CInv s pr ->
    p_flag (c_err s') <= 1 -> a = true /\ exists y, CInv s' (pr ++ [y]).
  Proof.
    intros H I B. unfold letterStep in H. destruct (_ <? _)%Z; [discriminate|].
    destruct (Z.of_nat (length (c_map s)) <=? _)%Z eqn:Eo.
    { exfalso. apply rbind_ok in H. destruct H as [z [_ H]]. destruct (_ <=? _); [discriminate|].
      apply rbind_ok in H. destruct H as [lf [_ H]].
      destruct lf as [sm|].
      - destruct (c_cnt s <? _); destruct (_ <=? _); try discriminate; injection H as <- <-;
          cbn [c_err raise p_flag] in B; lia.
      - destruct (_ <=? _); [discriminate|]. injection H as <- <-. cbn [c_err raise p_flag] in B. lia. }
    apply rbind_ok in H. destruct H as [z [Hz H]]. destruct (_ <=? _); [discriminate|].
    assert (Hz' : entryOk pr z).
    { destruct (nth_error (c_map s) _) eqn:E in Hz; [|discriminate]. injection Hz as <-.
      pose proof (ci_map _ _ I) as F. rewrite Forall_forall in F. apply F. eapply nth_error_In; eauto. }
    assert (ADD : forall y cnt' e, encStep y = z -> y <> Unk -> p_flag e = p_flag (c_err s) ->
      balanced db [y] (c_cnt s) = Some cnt' ->
      (forall i, y = Loc i -> i < length pr /\
        (nth_error pr i = Some Unk \/
         exists m sm, nth_error pr i = Some (Stm m) /\ stmtAt db m sm /\ isAssertion sm)) ->
      (forall m, y = Stm m -> refOk m) ->
      CInv (mkCst 0 (c_map s) (c_proof s ++ [z]) cnt' e) (pr ++ [y])).
    { intros y cnt' e E1 E2 E3 E4 E5 E6. constructor; cbn [c_proof c_cnt c_map c_err].
      - rewrite map_app, <- E1, (ci_enc _ _ I). reflexivity.
      - eapply prefix_snoc; eauto. exact (ci_pre _ _ I).
      - eapply Forall_impl; [|exact (ci_map _ _ I)]. intros. apply entryOk_app; auto.
      - intros Hin. apply in_app_or in Hin. rewrite E3. destruct Hin as [Hin|[Hin|[]]]; [|congruence].
        apply (ci_unk _ _ I); auto. }
    destruct Hz' as [[m [-> Hm]]|[i [m [sm [-> [Hi [Hm [Hs Ha]]]]]]]].
    - destruct (refOk_leaf m Hm) as [sm [Hs [[Hh El]|[Ha El]]]]; rewrite El in H; cbn [rbind] in H.
      + destruct (_ <=? _); [discriminate|]. injection H as <- <-. split; auto.
        exists (Stm m). apply ADD; auto; try discriminate.
        * eapply balanced_leaf; eauto.
        * intros m' E. injection E as <-. auto.
      + destruct (c_cnt s <? length (s_reqHyps sm)) eqn:Ec.
        { exfalso. destruct (_ <=? _); [discriminate|]. injection H as <- <-.
          cbn [c_err raise p_flag] in B. lia. }
        apply Nat.ltb_ge in Ec. destruct (_ <=? _); [discriminate|]. injection H as <- <-. split; auto.
        exists (Stm m). apply ADD; auto; try discriminate.
        * apply balanced_assert; auto.
        * intros m' E. injection E as <-. auto.
    - assert (El : isLeaf env (zLoc (Z.of_nat i)) = Ok None).
      { unfold isLeaf. destruct (Z.ltb_spec (zLoc (Z.of_nat i)) 0); auto. unfold zLoc in *. lia. }
      rewrite El in H. cbn [rbind] in H. destruct (_ <=? _); [discriminate|]. injection H as <- <-. split; auto.
      exists (Loc i). apply ADD; auto; try discriminate.
      + intros i' E. injection E as <-. split; auto. right. eauto.
  Qed.

  Lemma zStep_flag max s s' : zStep env max s = Ok s' ->
    p_flag (c_err s) <= p_flag (c_err s') /\ (eOk (c_err s) -> eOk (c_err s')).
  Proof.
    unfold zStep. intros H. destruct (_ <=? _); [discriminate|].
    set (e1 := if (_ =? _)%Z then c_err s else _) in *.
    assert (L : p_flag (c_err s) <= p_flag e1) by (unfold e1; flagle).
    assert (O : eOk (c_err s) -> eOk e1).
    { unfold e1. destruct (_ =? _)%Z; auto. intros; apply eOk_raise; auto. }
    destruct (rev (c_proof s)) as [|z r].
    - injection H as <-. cbn [c_err]. split; [cbn [raise p_flag]; lia|]. intros; apply eOk_raise; auto.
    - apply rbind_ok in H. destruct H as [lf [_ H]]. injection H as <-. cbn [c_err].
      destruct lf; split; auto. + cbn [raise p_flag]; lia. + intros; apply eOk_raise; auto.
  Qed.

  Lemma zStep_ok max s s' pr : zStep env max s = Ok s' -> CInv s pr ->
    p_flag (c_err s') <= 1 -> CInv s' pr.
  Proof.
    intros H I B. unfold zStep in H. destruct (_ <=? _); [discriminate|].
    set (e1 := if (_ =? _)%Z then c_err s else _) in *.
    pose proof (ci_enc _ _ I) as Henc.
    destruct (rev (c_proof s)) as [|z r] eqn:Er.
    { exfalso. injection H as <-. cbn [c_err raise p_flag] in B. lia. }
    apply rbind_ok in H. destruct H as [lf [Hlf H]]. destruct lf as [sm|].
    2:{ exfalso. injection H as <-. cbn [c_err raise p_flag] in B. lia. }
    apply Ok_inj in H. subst s'. cbn [c_err] in B.
    assert (E1 : p_flag e1 = p_flag (c_err s)).
    { unfold e1 in *. destruct (_ =? _)%Z; auto. cbn [raise p_flag] in B. lia. }
    (* the last step *)
    assert (Ep : c_proof s = rev r ++ [z]).
    { rewrite <- (rev_involutive (c_proof s)), Er. reflexivity. }
    assert (exists pr0 y, pr = pr0 ++ [y] /\ encStep y = z) as [pr0 [y [-> Ey]]].
    { destruct pr as [|y0 pr0'] using rev_ind.
      - rewrite Henc in Ep. destruct (rev r); discriminate.
      - rewrite Henc, map_app in Ep. apply app_inj_tail in Ep. destruct Ep as [_ Ep]. eauto. }
    assert (Hy : exists m, y = Stm m /\ stmtAt db m sm /\ isAssertion sm).
    { unfold isLeaf in Hlf. destruct (z <? 0)%Z eqn:Ez; [discriminate|]. apply Z.ltb_ge in Ez.
      destruct y as [|i|m]; simpl in Ey; try (unfold zUnk, zLoc in *; lia).
      exists m. split; auto. subst z. rewrite Nat2Z.id in Hlf. unfold stmtAt, db.
      destruct (nth_error (db_stmts (e_db env)) m) as [sm'|]; [|discriminate]. cbn [rget rbind] in Hlf.
      destruct (s_type sm') eqn:T; try discriminate; injection Hlf as <-; split; auto; [left|right]; auto. }
    destruct Hy as [m [-> [Hs Ha]]].
    assert (Hl : length (c_proof s) = S (length pr0)).
    { rewrite Henc, map_length, app_length. simpl. lia. }
    constructor; cbn [c_proof c_cnt c_map c_err].
    - exact Henc.
    - exact (ci_pre _ _ I).
    - apply Forall_app. split; [exact (ci_map _ _ I)|]. constructor; [|constructor].
      right. exists (length pr0), m, sm. rewrite app_length, nth_error_app2, Nat.sub_diag by auto.
      split; [rewrite Hl; unfold zLoc; lia|]. split; [simpl; lia|]. split; [reflexivity|]. split; auto.
    - rewrite E1. exact (ci_unk _ _ I).
  Qed.

  Lemma qStep_flag max s s' : qStep max s = Ok s' ->
    p_flag (c_err s) <= p_flag (c_err s') /\ (eOk (c_err s) -> eOk (c_err s')).
  Proof.
    unfold qStep. intros H. destruct (_ || _); [discriminate|]. injection H as <-. cbn [c_err].
    split; [flagle|]. intros O. apply eOk_atLeast. destruct (_ =? _)%Z; auto. apply eOk_raise; auto.
  Qed.

  Lemma qStep_ok max s s' pr : qStep max s = Ok s' -> CInv s pr ->
    p_flag (c_err s') <= 1 -> CInv s' (pr ++ [Unk]).
  Proof.
    unfold qStep. intros H I B. destruct (_ || _); [discriminate|]. injection H as <-.
    constructor; cbn [c_proof c_cnt c_map c_err].
    - rewrite map_app, (ci_enc _ _ I). reflexivity.
    - eapply prefix_snoc; [exact (ci_pre _ _ I)|reflexivity|discriminate|discriminate].
    - eapply Forall_impl; [|exact (ci_map _ _ I)]. intros. apply entryOk_app; auto.
    - cbn [atLeast p_flag]. lia.
  Qed.

  Lemma digitStep_same bg w s s' : digitStep bg w s = Ok s' ->
    c_map s' = c_map s /\ c_proof s' = c_proof s /\ c_cnt s' = c_cnt s /\ c_err s' = c_err s.
  Proof. unfold digitStep. destruct (_ <? _)%Z; [discriminate|]. intros H. injection H as <-. auto. Qed.

  Lemma CInv_same s s' pr : c_map s' = c_map s -> c_proof s' = c_proof s -> c_cnt s' = c_cnt s ->
    p_flag (c_err s') = p_flag (c_err s) -> CInv s pr -> CInv s' pr.
  Proof.
    intros E1 E2 E3 E4 I. constructor; [rewrite E2|rewrite E3|rewrite E1|rewrite E4]; apply I.
  Qed.

  Lemma comprLoop_flag max bg : forall f l s s', comprLoop f env max bg l s = Ok s' ->
    p_flag (c_err s) <= p_flag (c_err s') /\ (eOk (c_err s) -> eOk (c_err s')).
  Proof.
    induction f as [|f IH]; intros l s s' H; cbn [comprLoop] in H; [discriminate|].
    destruct l as [|c r]; [discriminate|].
    destruct (128 <=? c); [discriminate|].
    assert (RR : forall l, comprLoop f env max bg l
        (mkCst (c_idx s) (c_map s) (c_proof s) (c_cnt s) (raise 2 (c_err s))) = Ok s' ->
        p_flag (c_err s) <= p_flag (c_err s') /\ (eOk (c_err s) -> eOk (c_err s'))).
    { intros l K. apply IH in K. cbn [c_err raise p_flag] in K. destruct K as [K1 K2].
      split; [lia|]. intros _. apply K2. apply eOk_raise; auto. }
    destruct ((65 <=? c) && (c <=? 84)).
    { apply rbind_ok in H. destruct H as [[s1 a] [H1 H2]]. apply letterStep_flag in H1. apply IH in H2.
      destruct H1, H2. split; [lia|auto]. }
    destruct ((85 <=? c) && (c <=? 89)).
    { apply rbind_ok in H. destruct H as [s1 [H1 H2]]. apply digitStep_same in H1. apply IH in H2.
      destruct H1 as [_ [_ [_ E]]]. rewrite E in H2. auto. }
    destruct (c =? 90).
    { apply rbind_ok in H. destruct H as [s1 [H1 H2]]. apply zStep_flag in H1. apply IH in H2.
      destruct H1, H2. split; [lia|auto]. }
    destruct (isspace c); [eauto|].
    destruct (c =? 36).
    { destruct r as [|d r']; [exact (RR _ H)|]. destruct (d =? 46); [injection H as <-; split; auto|].
      destruct ((d =? 40) || (d =? 33)); [|exact (RR _ H)].
      apply rbind_ok in H. destruct H as [l' [_ H]]. eauto. }
    destruct (c =? 63); [|exact (RR _ H)].
    apply rbind_ok in H. destruct H as [s1 [H1 H2]]. apply qStep_flag in H1. apply IH in H2.
    destruct H1, H2. split; [lia|auto].
  Qed.

  Lemma comprLoop_ok max bg : forall f l s s' pr, comprLoop f env max bg l s = Ok s' -> CInv s pr ->
    p_flag (c_err s') <= 1 -> exists pr', CInv s' pr'.
  Proof.
    induction f as [|f IH]; intros l s s' pr H I B; cbn [comprLoop] in H; [discriminate|].
    destruct l as [|c r]; [discriminate|].
    destruct (128 <=? c); [discriminate|].
    assert (RR : forall l, comprLoop f env max bg l
        (mkCst (c_idx s) (c_map s) (c_proof s) (c_cnt s) (raise 2 (c_err s))) = Ok s' -> False).
    { intros l K. apply comprLoop_flag in K. cbn [c_err raise p_flag] in K. lia. }
    destruct ((65 <=? c) && (c <=? 84)).
    { apply rbind_ok in H. destruct H as [[s1 a] [H1 H2]].
      pose proof (comprLoop_flag _ _ _ _ _ _ H2) as [L _].
      destruct (letterStep_ok _ _ _ _ _ _ H1 I) as [_ [y I1]]; [lia|]. eauto. }
    destruct ((85 <=? c) && (c <=? 89)).
    { apply rbind_ok in H. destruct H as [s1 [H1 H2]]. apply digitStep_same in H1.
      destruct H1 as [E1 [E2 [E3 E4]]]. eapply IH; [exact H2| |auto]. eapply CInv_same; eauto. congruence. }
    destruct (c =? 90).
    { apply rbind_ok in H. destruct H as [s1 [H1 H2]].
      pose proof (comprLoop_flag _ _ _ _ _ _ H2) as [L _].
      apply zStep_ok with (pr := pr) in H1; auto; [eauto|lia]. }
    destruct (isspace c); [eauto|].
    destruct (c =? 36).
    { destruct r as [|d r']; [exfalso; eauto|]. destruct (d =? 46); [injection H as <-; eauto|].
      destruct ((d =? 40) || (d =? 33)); [|exfalso; eauto].
      apply rbind_ok in H. destruct H as [l' [_ H]]. eauto. }
    destruct (c =? 63); [|exfalso; eauto].
    apply rbind_ok in H. destruct H as [s1 [H1 H2]].
    pose proof (comprLoop_flag _ _ _ _ _ _ H2) as [L _].
    apply qStep_ok with (pr := pr) in H1; auto; [eauto|lia].
  Qed.

  Let ctab := entries env Z.of_nat (s_optHyps st)
             ++ entries env (fun h => (-1000 - Z.of_nat h)%Z) (s_reqHyps st).

  Lemma ctab_In l z : In (l, z) ctab -> exists h, 0 < h /\ refOk h /\
    (z = Z.of_nat h \/ (z = (-1000 - Z.of_nat h)%Z /\ In h (s_reqHyps st))).
  Proof.
    intros H. assert (K : exists h, (In h (s_reqHyps st) \/ In h (s_optHyps st)) /\
      (z = Z.of_nat h \/ (z = (-1000 - Z.of_nat h)%Z /\ In h (s_reqHyps st)))).
    { apply in_app_or in H. unfold entries in H.
      destruct H as [H|H]; apply in_map_iff in H; destruct H as [h [E Hh]]; injection E as _ <-;
        exists h; split; auto. }
    destruct K as [h [Hh E]]. destruct (we_hyps env WE n st h Hn Hp Hh) as [H0 [sh [Hs1 Hs2]]].
    exists h. split; auto. split; [|auto]. exists sh. auto.
  Qed.

  Lemma labelCode_ok t e z e' : labelCode env n ctab t e = Ok (z, e') ->
    p_flag e <= p_flag e' /\ (eOk e -> eOk e') /\ (p_flag e' <= 1 -> exists m, z = Z.of_nat m /\ refOk m).
  Proof.
    unfold labelCode. intros H. destruct (e_find env ctab t) as [j|] eqn:Ef.
    - apply (we_some env WE) in Ef. apply ctab_In in Ef. destruct Ef as [h [Hh0 [Hh Ez]]].
      destruct (j <? 0)%Z eqn:Ej.
      + apply Z.ltb_lt in Ej. destruct Ez as [Ez|[Ez _]]; [lia|].
        destruct (_ <=? 0)%Z; [discriminate|]. okpair H. split; [cbn [raise p_flag]; lia|].
        split; [intros; apply eOk_raise; auto|]. intros _. exists h. split; auto. lia.
      + apply Z.ltb_ge in Ej. destruct (_ <=? 0)%Z; [discriminate|]. okpair H. split; auto.
        split; auto. intros _. exists h. split; auto. lia.
    - destruct (e_find env (e_keys env) t) as [j|] eqn:Ek.
      + apply (we_some env WE) in Ek. apply (we_keys env WE) in Ek.
        destruct Ek as [m [sm [Hm0 [-> [Hm [Ha _]]]]]]. rewrite Nat2Z.id in H. unfold stmtAt in Hm.
        rewrite Hm in H. cbn [rget rbind] in H.
        assert (Q : Ok (Z.of_nat m, if (Z.of_nat n <=? Z.of_nat m)%Z then raise 2 e else e) = Ok (z, e')).
        { destruct Ha as [T|T]; rewrite T in H; exact H. }
        injection Q as <- <-. split; [flagle|]. split.
        { destruct (_ <=? _)%Z; auto. intros; apply eOk_raise; auto. }
        destruct (Z.leb_spec (Z.of_nat n) (Z.of_nat m)); cbn [raise p_flag]; [lia|].
        intros _. exists m. split; auto. exists sm. split; auto. left. split; auto. lia.
      + okpair H. split; [cbn [raise p_flag]; lia|].
        split; [intros; apply eOk_raise; auto|]. cbn [raise p_flag]; lia.
  Qed.

  Lemma labelCodes_ok : forall ts e zs e', labelCodes env n ctab ts e = Ok (zs, e') ->
    p_flag e <= p_flag e' /\ (eOk e -> eOk e') /\
    (p_flag e' <= 1 -> Forall (entryOk []) zs).
  Proof.
    induction ts as [|t ts IH]; intros e zs e' H; cbn [labelCodes] in H.
    - injection H as <- <-. auto.
    - apply rbind_ok in H. destruct H as [[z e1] [H1 H]]. apply rbind_ok in H. destruct H as [[zs' e2] [H2 H]].
      injection H as <- <-. apply labelCode_ok in H1. apply IH in H2. destruct H1 as [A1 [A2 A3]], H2 as [B1 [B2 B3]].
      split; [lia|]. split; auto. intros B. constructor; auto. left. apply A3. lia.
  Qed.

  Lemma parseCompressed_good_aux fuel max labels closed bg text k zs ec :
    parseCompressed fuel env n max labels closed bg text = Ok (k, zs, ec) -> k <= 1 ->
    exists proof, zs = map encStep proof /\ goodProof db n st proof /\
      (In Unk proof -> k = 1) /\ (k = 0 -> ec = 0).
  Proof.
    unfold parseCompressed. intros H Hk. unfold stmtAt in Hn. rewrite Hn in H. cbn [rget rbind] in H.
    apply rbind_ok in H. destruct H as [[codes e2] [H1 H]]. destruct (max <? _); [discriminate|].
    apply rbind_ok in H. destruct H as [s [H2 H]].
    set (e3 := if (c_idx s =? 0)%Z then _ else _) in *.
    assert (L3 : p_flag (c_err s) <= p_flag e3) by (unfold e3; flagle).
    pose proof (comprLoop_flag _ _ _ _ _ _ H2) as [L2 O2]. cbn [c_err] in L2, O2.
    destruct (labelCodes_ok _ _ _ _ H1) as [L1 [O1 F1]].
    assert (O3 : eOk e3).
    { assert (eOk (c_err s)).
      { apply O2, O1. destruct closed; [intros _; reflexivity|apply eOk_raise; auto]. }
      unfold e3. destruct (_ =? _)%Z; auto. apply eOk_raise; auto. }
    assert (MAIN : p_flag e3 <= 1 -> exists pr, CInv s pr).
    { intros B. eapply comprLoop_ok with (pr := []); [exact H2| |lia]. constructor; cbn; auto.
      - apply prefix_nil.
      - apply Forall_app. split; [|apply F1; lia]. apply Forall_forall. intros z Hz.
        apply in_map_iff in Hz. destruct Hz as [h [<- Hh]]. left. exists h. split; auto.
        destruct (we_hyps env WE n st h Hn Hp (or_introl Hh)) as [_ [sh [Hs1 Hs2]]]. exists sh. auto.
      - intros []. }
    destruct (c_proof s) as [|z0 zr] eqn:Ep.
    - destruct (_ || _); [discriminate|]. destruct (finish_ok _ _ _ _ _ _ H Hk) as [Hc [-> [-> ->]]].
      exists [Unk]. split; auto. split; [|split; auto].
      + apply prefix_good. apply (prefix_snoc db n st [] 0 Unk 1); auto; try discriminate. apply prefix_nil.
      + intros _. cbn [raise p_flag] in *. lia.
      + cbn [raise p_flag]. lia.
    - destruct (_ <=? _); [discriminate|]. destruct (finish_ok _ _ _ _ _ _ H Hk) as [Hc [-> [-> ->]]].
      destruct MAIN as [pr I]; [auto|]. exists pr. split; [rewrite <- Ep; apply (ci_enc _ _ I)|].
      split; [|split; auto].
      + apply prefix_good. rewrite <- Hc. apply I.
      + intros Hin. apply (ci_unk _ _ I) in Hin. lia.
  Qed.
End Compr.

Lemma parseCompressed_good fuel env n st max labels closed bg text k zs ec :
  wf_env env -> stmtAt (e_db env) n st -> s_type st = S_p ->
  parseCompressed fuel env n max labels closed bg text = Ok (k, zs, ec) -> k <= 1 ->
  exists proof, zs = map encStep proof /\ goodProof (e_db env) n st proof /\
    (In Unk proof -> k = 1) /\ (k = 0 -> ec = 0).
Proof. intros. eapply parseCompressed_good_aux; eauto. Qed.
