(* StmDecl.v -- "$c" and "$v". *)
From Verif Require Import Base LabModel StmModel StmSpec StmTab StmScope StmLook StmFlags StmBlock.
From Coq Require Import Permutation Sorted.
Open Scope nat_scope.

Lemma foldErr_ext (f : pst -> nat -> bool) e : forall g s, ext s (fold_left (fun s j => errIf (f s j) e s) g s).
Proof.
  induction g as [|j g IH]; intros s; cbn [fold_left]; [apply ext_refl|]. eapply ext_trans; [apply ext_errIf|apply IH].
Qed.
Lemma foldErr_nil (f : pst -> nat -> bool) e : forall g s, p_err (fold_left (fun s j => errIf (f s j) e s) g s) = [] ->
  fold_left (fun s j => errIf (f s j) e s) g s = s /\ forall j, In j g -> f s j = false.
Proof.
  induction g as [|j g IH]; intros s H; cbn [fold_left] in *; [split; [reflexivity|intros j []]|].
  pose proof (ext_nil _ _ (foldErr_ext f e g _) H) as H1. apply errIf_nil in H1. destruct H1 as [H1 H2].
  rewrite H2 in H |- *. destruct (IH _ H) as [E F]. split; [exact E|]. intros u [ <- |Hu]; auto.
Qed.
Lemma foldErr_ok (f : pst -> nat -> bool) e : forall g s, (forall j, In j g -> f s j = false) ->
  fold_left (fun s j => errIf (f s j) e s) g s = s.
Proof.
  induction g as [|j g IH]; intros s H; cbn [fold_left]; [reflexivity|]. rewrite (H j) by (now left). cbn [errIf].
  apply IH. intros u Hu. apply H. now right.
Qed.

Definition declared (vr : bool) (t : nat) (s : pst) : pst :=
  if vr then
    mkP (upd (p_active s) t true) (upd (p_scope s) t (p_cur s)) (upd (p_tmp s) t (p_vptr s)) (p_c s)
          (upd (p_v s) (p_vptr s) (Some (mkV t (p_cur s) 0))) (S (p_vptr s))
          (p_e s) (p_f s) (p_d s) (p_cur s) (p_begin s) (p_undecl s) (p_min s) (p_err s) (p_out s)
  else
    mkP (upd (p_active s) t true) (upd (p_scope s) t (p_cur s)) (p_tmp s) ((t, p_cur s) :: p_c s) (p_v s) (p_vptr s)
          (p_e s) (p_f s) (p_d s) (p_cur s) (p_begin s) (p_undecl s) (p_min s) (p_err s) (p_out s).
Lemma declOne_ext T n vr t s s' : declOne T n vr t s = Ok s' -> ext s s'.
Proof.
  unfold declOne. intros H. apply rbind_ok in H. destruct H as (ki & _ & H). apply rbind_ok in H. destruct H as (sa & _ & H).
  apply rbind_ok in H. destruct H as (s1 & H1 & H).
  assert (ext s s1).
  { destruct (Nat.eqb sa 0); [apply Ok_inj in H1; subst; apply ext_refl|]. apply rbind_ok in H1. destruct H1 as (g & _ & H1).
    apply Ok_inj in H1. subst s1. eapply ext_trans; [apply foldErr_ext|apply ext_errIf]. }
  eapply ext_trans; [exact H0|]. destruct vr; apply Ok_inj in H; subst s'; now apply ext_eq.
Qed.
Lemma declAll_ext T n vr : forall ts s s', declAll T n vr ts s = Ok s' -> ext s s'.
Proof.
  induction ts as [|t r IH]; intros s s' H; cbn [declAll] in H; [apply Ok_inj in H; subst; apply ext_refl|].
  apply rbind_ok in H. destruct H as (s1 & H1 & H). eapply ext_trans; [apply (declOne_ext _ _ _ _ _ _ H1)|eauto].
Qed.

Section Decl.
  Variable sts : list sinp.
  Variable key : list nat.
  Notation toks := (declTokens 1 sts).
  Hypothesis HQ : mqsorted (map mt_name toks) key.
  Notation T := (mkTenv toks key).
  Notation depth := (depth sts).
  Notation stAt := (stAt sts).
  Notation inScope := (inScope sts).
  Notation denotes := (denotes sts toks).
  Notation kindAt := (kindAt sts).
  Notation hasTok := (hasTok sts).
  Notation live := (live sts).
  Notation dDepth := (dDepth sts).
  Notation Inv := (Inv sts).
  Notation hypStack := (hypStack sts).
  Notation disjStack := (disjStack sts).
  Notation oldOf := (oldOf sts).

  (* no token with the name of t is active, and all have its type *)
  Definition fresh (t : nat) (s : pst) : Prop :=
    forall u, u < length toks -> tkName toks u = tkName toks t -> p_active s u = false /\ tkVar toks u = tkVar toks t.

  Lemma declOne_fresh n vr t s : t < length toks -> fresh t s -> declOne T n vr t s = Ok (declared vr t s).
  Proof.
    intros Ht HF. unfold declOne.
    destruct (posOf_ok t key) as (ki & E1 & E2); [now apply (key_in toks key HQ)|].
    cbn [mkTenv tk_key tk_same tk_toks]. rewrite E1. cbn [rget rbind].
    destruct (sa_at toks key HQ ki t E2) as (sa & Hsa). rewrite Hsa. cbn [rget rbind].
    destruct (Nat.eqb_spec sa 0) as [Z0|NZ]; cbn [rbind]; [now destruct vr|].
    destruct (group_ok toks key HQ ki t sa E2 Hsa NZ) as (g & G1 & G2 & G3). rewrite G1. cbn [rbind].
    rewrite foldErr_ok.
    2:{ intros j Hj. apply G3 in Hj. destruct (HF j) as [ -> _]; tauto. }
    assert (EE : existsb (fun j => negb (tkVar toks j)) g && tkVar toks t
                 || existsb (fun j => tkVar toks j) g && negb (tkVar toks t) = false).
    { destruct (tkVar toks t) eqn:ET; cbn [negb]; rewrite ?andb_true_r, ?andb_false_r, ?orb_false_r, ?orb_false_l; cbn [orb].
      - destruct (existsb _ g) eqn:EX; [|reflexivity]. apply existsb_exists in EX. destruct EX as (j & Hj & HX).
        apply G3 in Hj. destruct (HF j) as [_ E]; try tauto. rewrite E, ET in HX. discriminate.
      - destruct (existsb _ g) eqn:EX; [|reflexivity]. apply existsb_exists in EX. destruct EX as (j & Hj & HX).
        apply G3 in Hj. destruct (HF j) as [_ E]; try tauto. rewrite E, ET in HX. discriminate. }
    rewrite EE. cbn [errIf]. now destruct vr.
  Qed.
  Lemma declOne_inv n vr t s s' : t < length toks -> p_active s t = false ->
    (forall u, p_active s u = true -> (p_scope s u <= p_cur s)%Z) ->
    declOne T n vr t s = Ok s' -> p_err s' = [] -> fresh t s /\ s' = declared vr t s.
  Proof.
    intros Ht HA HS H HE. assert (HF : fresh t s); [|split; [exact HF|rewrite (declOne_fresh n vr t s Ht HF) in H; congruence]].
    unfold declOne in H.
    destruct (posOf_ok t key) as (ki & E1 & E2); [now apply (key_in toks key HQ)|].
    cbn [mkTenv tk_key tk_same tk_toks] in H. rewrite E1 in H. cbn [rget rbind] in H.
    destruct (sa_at toks key HQ ki t E2) as (sa & Hsa). rewrite Hsa in H. cbn [rget rbind] in H.
    revert H. destruct (Nat.eqb_spec sa 0) as [Z0|NZ]; intros H.
    { rewrite Z0 in Hsa. intros u Hu HN. assert (u = t) by (apply (uniq_zero toks key HQ ki t E2 Hsa u Hu); exact HN). now subst u. }
    destruct (group_ok toks key HQ ki t sa E2 Hsa NZ) as (g & G1 & G2 & G3). rewrite G1 in H. cbn [rbind] in H.
    match type of H with context [errIf ?b ?e ?x] => set (B := b) in H; set (X := x) in H end.
    assert (HB : p_err (errIf B (EBoth n) X) = []) by (destruct vr; apply Ok_inj in H; subst s'; exact HE).
    apply errIf_nil in HB. destruct HB as [HB HX]. rewrite HX in H.
    assert (HX0 : p_err X = []) by (destruct vr; apply Ok_inj in H; subst s'; exact HE).
    apply (foldErr_nil (fun s j => p_active s j && (p_scope s j <=? p_cur s)%Z)) in HX0. destruct HX0 as [_ HG].
    intros u Hu HN. assert (Gu : In u g) by (apply G3; auto). split.
    - specialize (HG u Gu). destruct (p_active s u) eqn:EA; [|reflexivity]. cbn in HG. apply Z.leb_gt in HG.
      specialize (HS u EA). lia.
    - unfold B in HB. clear -HB Gu. apply orb_false_iff in HB. destruct HB as [H1 H2].
      destruct (tkVar toks u) eqn:EU, (tkVar toks t) eqn:ET; try reflexivity; cbn [negb] in *.
      + rewrite andb_true_r in H2. assert (X : existsb (fun j => tkVar toks j) g = true) by (apply existsb_exists; eauto). congruence.
      + rewrite andb_true_r in H1. assert (X : existsb (fun j => negb (tkVar toks j)) g = true).
        { apply existsb_exists. exists u. split; [exact Gu|now rewrite EU]. } congruence.
  Qed.

  (* ---- in the middle of a declaration ---- *)
  Section Mid.
    Variables (n : nat) (i : sinp) (s0 : pst) (vl0 : list nat) (vr : bool).
    Hypothesis HI : Inv n s0 vl0.
    Hypothesis Hi : stAt n i.
    Hypothesis HK : si_kind i = if vr then K_v else K_c.

    Definition own (j t : nat) : Prop := oldOf n <= t < oldOf n + j.
    Record Mid (j : nat) (s : pst) (vl : list nat) : Prop := {
      m_err : p_err s = [];
      m_act : forall t, p_active s t = true <-> live n t \/ own j t;
      m_scope : forall t, p_active s t = true -> p_scope s t = dDepth t;
      m_uniq : forall t u, p_active s t = true -> p_active s u = true -> tkName toks t = tkName toks u -> t = u;
      m_kind : forall t u, own j t -> u < length toks -> tkName toks u = tkName toks t -> tkVar toks u = tkVar toks t;
      m_vlen : p_vptr s = length vl;
      m_vat : forall k t, nth_error vl k = Some t -> p_v s k = Some (mkV t (dDepth t) 0) /\ p_tmp s t = k;
      m_vin : forall t, In t vl <-> p_active s t = true /\ tkVar toks t = true;
      m_vs : StronglySorted lt vl;
      m_cin : forall t z, In (t, z) (p_c s) <-> p_active s t = true /\ tkVar toks t = false /\ z = dDepth t;
      m_cs : StronglySorted (fun a b => fst b < fst a) (p_c s);
      m_e : p_e s = p_e s0; m_f : p_f s = p_f s0; m_d : p_d s = p_d s0;
      m_cur : p_cur s = depth n; m_begin : p_begin s = p_begin s0; m_out : p_out s = p_out s0 }.

    Lemma isDecl_i : isDecl (si_kind i) = true.
    Proof. rewrite HK. now destruct vr. Qed.
    Lemma own_tok j : j < length (si_toks i) -> exists x, nth_error (si_toks i) j = Some x /\
      nth_error toks (oldOf n + j) = Some (mkTok x vr n).
    Proof.
      intros H. destruct (nth_some (si_toks i) j H) as (x & E). exists x. split; [exact E|].
      rewrite (own_at _ _ _ _ Hi isDecl_i _ E). rewrite HK. now destruct vr.
    Qed.
    Lemma own_depth t : own (length (si_toks i)) t -> dDepth t = depth n /\ tkVar toks t = vr /\ t < length toks.
    Proof.
      intros H. unfold own in H. destruct (own_tok (t - oldOf n)) as (x & _ & E); [lia|]. replace (oldOf n + (t - oldOf n)) with t in E by lia.
      split; [now rewrite (dDepth_at _ _ _ E)|]. split; [unfold tkVar; now rewrite E|]. apply nth_error_Some. congruence.
    Qed.
    Lemma live_before t : live n t -> t < oldOf n.
    Proof.
      intros (k & H1 & H2). pose proof (stAt_lt _ _ _ Hi). apply (tok_before sts n t k ltac:(lia) H1). apply inScope_lt in H2. lia.
    Qed.
    Lemma mid0 : Mid 0 s0 vl0.
    Proof.
      destruct HI. destruct i_v, i_c. constructor; auto.
      - intros t. rewrite i_act. unfold own. split; [auto|intros [H|H]; [exact H|lia]].
      - intros t H. apply i_scope. now apply i_act.
      - intros t u H1 H2 HE. apply i_act in H1, H2. destruct H1 as (k & A1 & A2). destruct H2 as (k' & B1 & B2).
        apply (i_uniq t u (mt_name k)); [exists k; auto|]. exists k'. split; [exact B1|]. split; [|exact B2].
        unfold tkName in HE. now rewrite A1, B1 in HE.
      - intros t u H. unfold own in H. lia.
      - intros t. rewrite i_act. apply vs_in.
      - intros t z. rewrite i_act. apply cs_in.
    Qed.
    Lemma mid_act_lt j s vl t : Mid j s vl -> j <= length (si_toks i) -> p_active s t = true -> t < oldOf n + j /\ t < length toks.
    Proof.
      intros M Hj H. apply (m_act _ _ _ M) in H. destruct H as [H|H].
      - pose proof (live_before _ H). split; [lia|]. now apply live_lt in H.
      - split; [unfold own in H; lia|]. apply own_depth. unfold own in *. lia.
    Qed.
    Lemma mid_S j s vl : Mid j s vl -> j < length (si_toks i) -> fresh (oldOf n + j) s ->
      exists vl', Mid (S j) (declared vr (oldOf n + j) s) vl'.
    Proof.
      intros M Hj HF. set (t := oldOf n + j) in *. assert (Et : t = oldOf n + j) by reflexivity. clearbody t.
      destruct (own_depth t) as (OD & OV & OL); [unfold own; lia|].
      assert (NA : p_active s t = false) by (apply (HF t OL eq_refl)).
      assert (LTA : forall u, p_active s u = true -> u < t).
      { intros u Hu. destruct (mid_act_lt _ _ _ _ M ltac:(lia) Hu). lia. }
      assert (ACT : forall u, upd (p_active s) t true u = true <-> u = t \/ p_active s u = true).
      { intros u. unfold upd. destruct (Nat.eqb_spec u t); [tauto|]. split; [auto|intros [H|H]; [contradiction|exact H]]. }
      assert (SCP : forall u, upd (p_active s) t true u = true -> upd (p_scope s) t (p_cur s) u = dDepth u).
      { intros u Hu. revert Hu. unfold upd. destruct (Nat.eqb_spec u t) as [E|N]; intros Hu; [|now apply (m_scope _ _ _ M)].
        rewrite E, OD. apply (m_cur _ _ _ M). }
      assert (OWN : forall u, own (S j) u <-> u = t \/ own j u) by (intros u; unfold own; lia).
      assert (NU : ~ In t vl) by (intros H; apply (m_vin _ _ _ M) in H; destruct H; congruence).
      exists (if vr then vl ++ [t] else vl). destruct M.
      assert (C1 : forall u, upd (p_active s) t true u = true <-> live n u \/ own (S j) u).
      { intros u. rewrite ACT, m_act0, OWN. tauto. }
      assert (C2 : forall a b, upd (p_active s) t true a = true -> upd (p_active s) t true b = true ->
                tkName toks a = tkName toks b -> a = b).
      { intros a b HA HB HE. apply ACT in HA, HB. destruct HA as [ -> |HA], HB as [ -> |HB]; auto.
        - destruct (HF b) as [X _]; [apply (LTA) in HB; lia|auto|congruence].
        - destruct (HF a) as [X _]; [apply (LTA) in HA; lia|auto|congruence]. }
      assert (C3 : forall a u, own (S j) a -> u < length toks -> tkName toks u = tkName toks a -> tkVar toks u = tkVar toks a).
      { intros a u HA HU HE. apply OWN in HA. destruct HA as [ -> |HA]; [now apply HF|eauto]. }
      unfold declared. destruct vr.
      - constructor; cbn [p_err p_active p_scope p_tmp p_c p_v p_vptr p_e p_f p_d p_cur p_begin p_out]; auto.
        + rewrite app_length. cbn. lia.
        + intros k u Hk. unfold upd. destruct (Nat.eq_dec k (length vl)) as [->|N].
          * rewrite nth_error_app2, Nat.sub_diag in Hk by lia. injection Hk as <-. rewrite m_vlen0, !Nat.eqb_refl.
            rewrite OD, m_cur0. auto.
          * assert (LK : k < length vl).
            { assert (k < length (vl ++ [t])) by (apply nth_error_Some; congruence). rewrite app_length in *. cbn in *. lia. }
            rewrite nth_error_app1 in Hk by exact LK. rewrite m_vlen0.
            destruct (Nat.eqb_spec k (length vl)); [lia|].
            destruct (Nat.eqb_spec u t) as [->|]; [apply nth_error_In in Hk; contradiction|]. auto.
        + intros u. rewrite in_app_iff, m_vin0, ACT. cbn. split.
          * intros [H|[ <- |[]]]; [tauto|auto].
          * intros [[ -> |H] H']; [auto|left; auto].
        + apply sorted_snoc; auto. intros y Hy. apply m_vin0 in Hy. now apply LTA.
        + intros u z. rewrite m_cin0, ACT. split; [tauto|]. intros ([ -> |H] & H1 & H2); [congruence|auto].
      - constructor; cbn [p_err p_active p_scope p_tmp p_c p_v p_vptr p_e p_f p_d p_cur p_begin p_out]; auto.
        + intros u. rewrite m_vin0, ACT. split; [tauto|]. intros ([ -> |H] & H1); [congruence|auto].
        + intros u z. cbn [In]. rewrite m_cin0, ACT. rewrite m_cur0. split.
          * intros [E|H]; [injection E as <- <-; rewrite OD; auto|tauto].
          * intros ([ -> |H] & H1 & ->); [left; now rewrite OD|right; auto].
        + constructor; [exact m_cs0|]. apply Forall_forall. intros [u z] Hu. cbn. apply m_cin0 in Hu. now apply LTA.
    Qed.
    (* freshness of the next symbol, from legality *)
    Lemma fresh_next j s vl : Mid j s vl -> j < length (si_toks i) -> newNames sts n vr (si_toks i) -> fresh (oldOf n + j) s.
    Proof.
      intros M Hj [ND HN] u Hu HE. destruct (own_tok j Hj) as (x & EX & ET).
      assert (TX : tkName toks (oldOf n + j) = x) by (unfold tkName; now rewrite ET). rewrite TX in HE.
      destruct (HN x (nth_error_In _ _ EX)) as [H1 H2].
      destruct (nth_some toks u Hu) as (k & EK). assert (NK : mt_name k = x) by (unfold tkName in HE; now rewrite EK in HE).
      split.
      - destruct (p_active s u) eqn:EA; [|reflexivity]. exfalso. apply (m_act _ _ _ M) in EA. destruct EA as [HL|HO].
        + destruct HL as (k' & A1 & A2). apply (H1 (mt_var k)). exists (mt_stmt k). split.
          * rewrite <- NK. now apply (tok_declares sts u).
          * replace k with k' by congruence. exact A2.
        + unfold own in HO. destruct (own_tok (u - oldOf n)) as (y & EY & EU); [lia|].
          replace (oldOf n + (u - oldOf n)) with u in EU by lia. assert (y = x) by (rewrite EK in EU; injection EU as ->; exact NK).
          subst y. assert (u - oldOf n = j); [|lia]. apply (proj1 (NoDup_nth_error _) ND); [lia|congruence].
      - unfold tkVar. rewrite EK, ET. cbn. apply (H2 (mt_stmt k)). rewrite <- NK. now apply (tok_declares sts u).
    Qed.
    Lemma mid_legal s vl : Mid (length (si_toks i)) s vl -> newNames sts n vr (si_toks i).
    Proof.
      intros M. assert (LN : forall j x, nth_error (si_toks i) j = Some x ->
        own (length (si_toks i)) (oldOf n + j) /\ tkName toks (oldOf n + j) = x /\ p_active s (oldOf n + j) = true /\ tkVar toks (oldOf n + j) = vr).
      { intros j x Hj. assert (Lj : j < length (si_toks i)) by (apply nth_error_Some; congruence).
        destruct (own_tok j Lj) as (x' & E & ET). assert (O : own (length (si_toks i)) (oldOf n + j)) by (unfold own; lia).
        split; [exact O|]. split; [unfold tkName; rewrite ET; cbn; congruence|]. split; [apply (m_act _ _ _ M); now right|].
        unfold tkVar. now rewrite ET. }
      split.
      - apply NoDup_nth_error. intros a b Ha HE. destruct (nth_some (si_toks i) a Ha) as (x & EX).
        rewrite EX in HE. symmetry in HE. destruct (LN _ _ EX) as (_ & A2 & A3 & _). destruct (LN _ _ HE) as (_ & B2 & B3 & _).
        pose proof (m_uniq _ _ _ M _ _ A3 B3 ltac:(congruence)). lia.
      - intros x HX. apply In_nth_error in HX. destruct HX as (j & HX). destruct (LN _ _ HX) as (A1 & A2 & A3 & A4). split.
        + intros v HV. destruct (visible_denotes _ _ _ _ HV) as (u & (k & D1 & D2 & D3) & _).
          assert (LU : live n u) by (exists k; auto). assert (AU : p_active s u = true) by (apply (m_act _ _ _ M); now left).
          assert (u = oldOf n + j) by (apply (m_uniq _ _ _ M); auto; unfold tkName at 1; rewrite D1; congruence).
          apply live_before in LU. lia.
        + intros h v HD. destruct (declares_tok _ _ _ _ HD) as (u & k & D1 & D2 & D3 & D4).
          assert (LU : u < length toks) by (apply nth_error_Some; congruence).
          pose proof (m_kind _ _ _ M _ u A1 LU) as Q. rewrite A2, A4 in Q. unfold tkName, tkVar in Q. rewrite D1 in Q.
          rewrite <- D3. now apply Q.
    Qed.
    Lemma declAll_sound : forall k j s vl s', Mid j s vl -> j + k = length (si_toks i) ->
      declAll T n vr (seq (oldOf n + j) k) s = Ok s' -> p_err s' = [] -> exists vl', Mid (length (si_toks i)) s' vl'.
    Proof.
      induction k as [|k IH]; intros j s vl s' M HJ H HE; cbn [seq declAll] in H.
      - apply Ok_inj in H. subst s'. exists vl. now replace (length (si_toks i)) with j by lia.
      - apply rbind_ok in H. destruct H as (s1 & H1 & H2).
        pose proof (ext_nil _ _ (declAll_ext _ _ _ _ _ _ H2) HE) as E1.
        destruct (own_depth (oldOf n + j)) as (OD & OV & OL); [unfold own; lia|].
        destruct (declOne_inv n vr (oldOf n + j) s s1 OL) as [HF ->]; auto.
        + destruct (p_active s (oldOf n + j)) eqn:EA; [|reflexivity].
          destruct (mid_act_lt _ _ _ _ M ltac:(lia) EA). lia.
        + intros u Hu. rewrite (m_scope _ _ _ M u Hu), (m_cur _ _ _ M). apply (m_act _ _ _ M) in Hu. destruct Hu as [(q & U1 & U2)|HO].
          * rewrite (dDepth_at _ _ _ U1). apply (inScope_depth _ _ _ _ U2). apply inScope_lt in U2. lia.
          * assert (O : own (length (si_toks i)) u) by (unfold own in *; lia). destruct (own_depth _ O) as [ -> _]. lia.
        + destruct (mid_S _ _ _ M ltac:(lia) HF) as (vl' & M'). apply (IH (S j) (declared vr (oldOf n + j) s) vl'); auto; [lia|].
          now replace (oldOf n + S j) with (S (oldOf n + j)) by lia.
    Qed.
    Lemma declAll_ok : newNames sts n vr (si_toks i) -> forall k j s vl, Mid j s vl -> j + k = length (si_toks i) ->
      exists s' vl', declAll T n vr (seq (oldOf n + j) k) s = Ok s' /\ Mid (length (si_toks i)) s' vl'.
    Proof.
      intros HN. induction k as [|k IH]; intros j s vl M HJ; cbn [seq declAll].
      - exists s, vl. split; [reflexivity|]. now replace (length (si_toks i)) with j by lia.
      - destruct (own_depth (oldOf n + j)) as (OD & OV & OL); [unfold own; lia|].
        pose proof (fresh_next _ _ _ M ltac:(lia) HN) as HF. rewrite (declOne_fresh n vr _ s OL HF). cbn [rbind].
        destruct (mid_S _ _ _ M ltac:(lia) HF) as (vl' & M').
        destruct (IH (S j) _ vl' M' ltac:(lia)) as (s' & vl2 & E & M2). exists s', vl2. split; [|exact M2].
        now replace (S (oldOf n + j)) with (oldOf n + S j) by lia.
    Qed.
    Lemma mid_inv s vl : Mid (length (si_toks i)) s vl -> legalStmt sts n i ->
      Inv (S n) (putOut (bareOut (si_kind i) (p_begin s0) (p_cur s0) (seq (oldOf n) (length (si_toks i)))) s) vl.
    Proof.
      intros M HL. pose proof (stAt_lt _ _ _ Hi) as HN.
      assert (D0 : delta (si_kind i) = 0%Z) by (rewrite HK; now destruct vr).
      assert (KP := keeps_plain _ _ _ Hi D0). pose proof (depth_S _ _ _ Hi) as DS. rewrite D0, Z.add_0_r in DS.
      assert (LV : forall t, live (S n) t <-> p_active s t = true).
      { intros t. rewrite (m_act _ _ _ M). split.
        - intros (k & H1 & H2). apply KP in H2. destruct H2 as [H2|H2]; [right|left; exists k; auto].
          pose proof (proj1 (tok_own _ _ _ _ _ Hi H1) H2) as R. rewrite (oldOf_S _ _ _ Hi), isDecl_i in R. exact R.
        - intros [(k & H1 & H2)|H].
          + exists k. split; [exact H1|]. apply KP. now right.
          + destruct (own_depth _ H) as (_ & _ & H1). destruct (nth_some toks t H1) as (k & E). exists k. split; [exact E|].
            apply KP. left. apply (tok_own _ _ _ _ _ Hi E). rewrite (oldOf_S _ _ _ Hi), isDecl_i. exact H. }
      destruct HI, M. constructor; unfold putOut; cbn [p_err p_cur p_active p_scope p_c p_e p_f p_d p_out p_begin]; auto.
      - lia.
      - congruence.
      - intros m Hm. destruct (Nat.eq_dec m (S n)) as [->|N]; [rewrite DS; now apply i_nn|apply i_nn; lia].
      - intros t. now rewrite LV.
      - intros t. rewrite LV. auto.
      - intros t u x H1 H2. apply m_uniq0; [apply LV, live_denotes; eauto|apply LV, live_denotes; eauto|].
        destruct (denotes_tk _ _ _ _ H1) as [_ ->]. now destruct (denotes_tk _ _ _ _ H2) as [_ ->].
      - constructor; cbn [p_v p_vptr p_tmp]; auto. intros t. rewrite LV. auto.
      - constructor; auto. intros t z. rewrite LV. auto.
      - rewrite m_e0. apply (hyps_keep _ _ _ i); auto. rewrite HK. now destruct vr.
      - rewrite m_f0. apply (hyps_keep _ _ _ i); auto. rewrite HK. now destruct vr.
      - rewrite m_d0. apply (disj_keep _ _ i); auto. rewrite HK. now destruct vr.
      - rewrite app_length, m_out0. cbn. lia.
      - rewrite m_out0, m_begin0. split; [now apply begOK_snoc|]. apply beg_snoc; [tauto|]. cbn. tauto.
      - rewrite m_out0. apply (out_snoc sts n s0 _ i); auto. split; [cbn; auto|].
        assert (G : Forall2 (nameOf toks) (seq (oldOf n) (length (si_toks i))) (si_toks i) /\
          forall t, In t (seq (oldOf n) (length (si_toks i))) -> exists k, nth_error toks t = Some k /\ mt_stmt k = n).
        { split.
          - assert (Q : forall l a, (forall j x, nth_error l j = Some x -> nameOf toks (a + j) x) -> Forall2 (nameOf toks) (seq a (length l)) l).
            { clear. induction l as [|x l IH]; intros a H; cbn [length seq]; constructor.
              - specialize (H 0 x eq_refl). now rewrite Nat.add_0_r in H.
              - apply IH. intros j y Hj. replace (S a + j) with (a + S j) by lia. now apply H. }
            apply Q. intros j x Hj. assert (Lj : j < length (si_toks i)) by (apply nth_error_Some; congruence).
            destruct (own_tok j Lj) as (x' & E & ET). exists (mkTok x' vr n). split; [exact ET|]. cbn. congruence.
          - intros t Ht. apply in_seq in Ht. destruct (own_tok (t - oldOf n)) as (x & _ & E); [lia|].
            replace (oldOf n + (t - oldOf n)) with t in E by lia. eexists. split; [exact E|reflexivity]. }
        cbn [bareOut o_math]. rewrite HK. destruct vr; split; auto.
      - apply (legal_snoc _ n i Hi); auto.
    Qed.
  End Mid.

  Lemma decl_sound n i s vl s' : Inv n s vl -> stAt n i -> isDecl (si_kind i) = true -> si_toks i <> [] ->
    stepStmt T n (oldOf n) i s = Ok s' -> p_err s' = [] -> legalStmt sts n i.
  Proof.
    intros HI Hi HD HNE H HE. unfold stepStmt in H. destruct (si_kind i) eqn:HK; try discriminate HD.
    - apply rbind_ok in H. destruct H as (s1 & H1 & H). apply Ok_inj in H. subst s'. unfold putOut in HE. cbn [p_err] in HE.
      pose proof (ext_nil _ _ (declAll_ext _ _ _ _ _ _ H1) HE) as E0. apply errIf_nil in E0. destruct E0 as [E0 E1].
      rewrite E1 in H1. cbn [isV] in H1. rewrite <- (Nat.add_0_r (oldOf n)) in H1.
      destruct (declAll_sound n i s false Hi HK _ 0 _ vl _ (mid0 n s vl HI) eq_refl H1 HE) as (vl' & M).
      unfold legalStmt. rewrite HK. split; [|split; [exact HNE|]].
      + rewrite (i_cur _ _ _ _ HI) in E0. apply Z.ltb_ge in E0. pose proof (i_nn _ _ _ _ HI n (le_n _)). lia.
      + apply (mid_legal n i s false Hi HK _ _ M).
    - apply rbind_ok in H. destruct H as (s1 & H1 & H). apply Ok_inj in H. subst s'. unfold putOut in HE. cbn [p_err] in HE.
      cbn [isV errIf] in H1. rewrite <- (Nat.add_0_r (oldOf n)) in H1.
      destruct (declAll_sound n i s true Hi HK _ 0 _ vl _ (mid0 n s vl HI) eq_refl H1 HE) as (vl' & M).
      unfold legalStmt. rewrite HK. split; [exact HNE|]. apply (mid_legal n i s true Hi HK _ _ M).
  Qed.
  Lemma decl_ok n i s vl : Inv n s vl -> stAt n i -> isDecl (si_kind i) = true -> legalStmt sts n i ->
    exists s' vl', stepStmt T n (oldOf n) i s = Ok s' /\ Inv (S n) s' vl'.
  Proof.
    intros HI Hi HD HL. unfold stepStmt. assert (HL' := HL). unfold legalStmt in HL'. destruct (si_kind i) eqn:HK; try discriminate HD.
    - destruct HL' as (L1 & L2 & L3). rewrite (i_cur _ _ _ _ HI), L1. cbn [Z.ltb Z.compare errIf isV].
      destruct (declAll_ok n i s false Hi HK L3 (length (si_toks i)) 0 s vl (mid0 n s vl HI) eq_refl) as (s' & vl' & E & M).
      rewrite Nat.add_0_r in E. rewrite E. cbn [rbind]. eexists _, vl'. split; [reflexivity|].
      pose proof (mid_inv n i s vl false HI Hi HK _ _ M HL) as R. now rewrite HK, (i_cur _ _ _ _ HI), L1 in R.
    - destruct HL' as (L2 & L3). cbn [errIf isV].
      destruct (declAll_ok n i s true Hi HK L3 (length (si_toks i)) 0 s vl (mid0 n s vl HI) eq_refl) as (s' & vl' & E & M).
      rewrite Nat.add_0_r in E. rewrite E. cbn [rbind]. eexists _, vl'. split; [reflexivity|].
      pose proof (mid_inv n i s vl true HI Hi HK _ _ M HL) as R. now rewrite HK in R.
  Qed.
End Decl.
