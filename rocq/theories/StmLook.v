(* StmLook.v -- the invariant of parseStatements and the lookup of symbols. *)
From Verif Require Import Base LabModel StmModel StmSpec StmTab StmScope.
From Coq Require Import Permutation Sorted.
Open Scope nat_scope.

(* ---- errors are never removed ---- *)
Definition ext (s s' : pst) : Prop := exists l, p_err s' = p_err s ++ l.
Lemma ext_refl s : ext s s.
Proof. exists []. now rewrite app_nil_r. Qed.
Lemma ext_eq s s' : p_err s' = p_err s -> ext s s'.
Proof. intros H. exists []. now rewrite app_nil_r. Qed.
Lemma ext_trans a b c : ext a b -> ext b c -> ext a c.
Proof. intros [l H] [m K]. exists (l ++ m). now rewrite K, H, app_assoc. Qed.
Lemma ext_nil s s' : ext s s' -> p_err s' = [] -> p_err s = [].
Proof. intros [l H] E. rewrite E in H. symmetry in H. now apply app_eq_nil in H. Qed.
Lemma ext_err e s : ext s (err e s).
Proof. exists [e]. reflexivity. Qed.
Lemma ext_errIf b e s : ext s (errIf b e s).
Proof. destruct b; [apply ext_err|apply ext_refl]. Qed.
Lemma err_not_nil e s : p_err (err e s) <> [].
Proof. unfold err. cbn. intros H. now apply app_eq_nil in H. Qed.
Lemma errIf_nil b e s : p_err (errIf b e s) = [] -> b = false /\ errIf b e s = s.
Proof. destruct b; [intros H; now apply err_not_nil in H|auto]. Qed.
Lemma ext_fict t s : ext s (fict t s).
Proof. apply ext_eq. unfold fict. now destruct (Nat.eqb _ _). Qed.
Lemma fict_err t s : p_err (fict t s) = p_err s.
Proof. unfold fict. now destruct (Nat.eqb _ _). Qed.

Lemma lookup_ext T n x s t s' : lookupTok T n x s = Ok (t, s') -> ext s s'.
Proof.
  unfold lookupTok. destruct (_ <? _); [discriminate|]. intros H.
  apply rbind_ok in H. destruct H as (f & _ & H). destruct f as [ki|].
  - apply rbind_ok in H. destruct H as (t0 & _ & H). apply rbind_ok in H. destruct H as (sa & _ & H).
    destruct (Nat.eqb sa 0).
    + destruct (p_active s t0); apply Ok_inj in H; injection H as _ <-; [apply ext_refl|].
      eapply ext_trans; [apply ext_err|apply ext_fict].
    + apply rbind_ok in H. destruct H as (g & _ & H). destruct (pickMax s g t0 (-1)) as (u & m).
      destruct (Z.eqb m (-1)); apply Ok_inj in H; injection H as _ <-; [|apply ext_refl].
      eapply ext_trans; [apply ext_err|apply ext_fict].
  - destruct (100 <=? _); [discriminate|]. apply Ok_inj in H; injection H as _ <-.
    eapply ext_trans; [apply ext_err|]. eapply ext_trans; [|apply ext_fict]. now apply ext_eq.
Qed.
Lemma symErrs_ext T n k pos t s : ext s (symErrs T n k pos t s).
Proof.
  unfold symErrs. destruct k; try apply ext_errIf; destruct pos; try apply ext_errIf; try apply ext_refl.
  destruct (Nat.eqb _ _); apply ext_errIf.
Qed.
Lemma symLoop_ext T n k : forall xs pos s ts s', symLoop T n k pos xs s = Ok (ts, s') -> ext s s'.
Proof.
  induction xs as [|x r IH]; intros pos s ts s' H; cbn [symLoop] in H.
  - apply Ok_inj in H. injection H as _ <-. apply ext_refl.
  - apply rbind_ok in H. destruct H as ((t & s1) & H1 & H). apply rbind_ok in H. destruct H as ((r1 & s2) & H2 & H).
    apply Ok_inj in H. injection H as _ <-. apply lookup_ext in H1. apply IH in H2.
    eapply ext_trans; [exact H1|]. eapply ext_trans; [apply symErrs_ext|exact H2].
Qed.
Lemma lenErrs_ext n k len s : ext s (lenErrs n k len s).
Proof.
  unfold lenErrs. destruct k; try apply ext_errIf. destruct len; [apply ext_err|apply ext_errIf].
Qed.
Lemma dInner_ext n p : forall r s, ext s (dInner n p r s).
Proof.
  induction r as [|q r IH]; intros s; cbn [dInner]; [apply ext_refl|].
  destruct (Nat.eqb p q); [apply ext_err|]. eapply ext_trans; [|apply IH].
  destruct (dmem _ _ _); [apply ext_refl|now apply ext_eq].
Qed.
Lemma dOuter_ext n : forall m s, ext s (dOuter n m s).
Proof.
  induction m as [|p r IH]; intros s; cbn [dOuter]; [apply ext_refl|].
  eapply ext_trans; [apply dInner_ext|apply IH].
Qed.

Section Look.
  Variable sts : list sinp.
  Variable key : list nat.
  Let toks := declTokens 1 sts.
  Hypothesis HQ : mqsorted (map mt_name toks) key.
  Let T := mkTenv toks key.
  Notation depth := (depth sts).
  Notation stAt := (stAt sts).
  Notation inScope := (inScope sts).
  Notation denotes := (denotes sts toks).
  Notation kindAt := (kindAt sts).
  Notation hasTok := (hasTok sts).

  Definition live (n t : nat) : Prop := exists k, nth_error toks t = Some k /\ inScope (mt_stmt k) n.
  Definition dDepth (t : nat) : Z := match nth_error toks t with Some k => depth (mt_stmt k) | None => 0 end.
  Definition ddDesc (a b : dent) : Prop := d_stmt b <= d_stmt a.

  Record hypStack (k : kind) (n : nat) (l : list hent) : Prop := {
    hs_sorted : StronglySorted (fun a b => h_stmt b < h_stmt a) l;
    hs_sound : forall h, In h l -> kindAt (h_stmt h) k /\ inScope (h_stmt h) n /\
      h_scope h = depth (h_stmt h) /\ NoDup (h_vars h) /\
      forall t, In t (h_vars h) <-> tkVar toks t = true /\ exists x, hasTok (h_stmt h) x /\ denotes t x (h_stmt h);
    hs_complete : forall m, kindAt m k -> inScope m n -> exists h, In h l /\ h_stmt h = m }.
  Record disjStack (n : nat) (l : list dent) : Prop := {
    dk_sorted : StronglySorted ddDesc l;
    dk_sound : forall d, In d l -> kindAt (d_stmt d) K_d /\ inScope (d_stmt d) n /\
      d_scope d = depth (d_stmt d) /\ d_a d < d_b d /\
      (exists x, hasTok (d_stmt d) x /\ denotes (d_a d) x (d_stmt d)) /\
      (exists x, hasTok (d_stmt d) x /\ denotes (d_b d) x (d_stmt d));
    dk_complete : forall m a b x y, kindAt m K_d -> inScope m n -> hasTok m x -> hasTok m y ->
      denotes a x m -> denotes b y m -> a < b ->
      exists d, In d l /\ d_a d = a /\ d_b d = b /\ d_stmt d <= m }.
  Record varStack (n : nat) (vl : list nat) (s : pst) : Prop := {
    vs_len : p_vptr s = length vl;
    vs_at : forall j t, nth_error vl j = Some t ->
      p_v s j = Some (mkV t (dDepth t) 0) /\ p_tmp s t = j;
    vs_in : forall t, In t vl <-> live n t /\ tkVar toks t = true;
    vs_sorted : StronglySorted lt vl }.
  Record conStack (n : nat) (l : list (nat * Z)) : Prop := {
    cs_in : forall t z, In (t, z) l <-> live n t /\ tkVar toks t = false /\ z = dDepth t;
    cs_sorted : StronglySorted (fun a b => fst b < fst a) l }.
  Definition begOK (out : list sout) (b : nat) : Prop :=
    b = 0 \/ exists o, nth_error out b = Some o /\ o_kind o = K_lb.

  Record Inv (n : nat) (s : pst) (vl : list nat) : Prop := {
    i_n : 0 < n <= S (length sts);
    i_err : p_err s = [];
    i_cur : p_cur s = depth n;
    i_nn : forall m, m <= n -> (0 <= depth m)%Z;
    i_act : forall t, p_active s t = true <-> live n t;
    i_scope : forall t, live n t -> p_scope s t = dDepth t;
    i_uniq : forall t u x, denotes t x n -> denotes u x n -> t = u;
    i_v : varStack n vl s;
    i_c : conStack n (p_c s);
    i_e : hypStack K_e n (p_e s);
    i_f : hypStack K_f n (p_f s);
    i_d : disjStack n (p_d s);
    i_len : length (p_out s) = n;
    i_begin : begOK (p_out s) (p_begin s) /\
      (forall m o, nth_error (p_out s) m = Some o -> begOK (p_out s) (o_begin o));
    i_out : forall m i o, stAt m i -> m < n -> nth_error (p_out s) m = Some o -> goodOut sts toks m i o;
    i_legal : forall m i, stAt m i -> m < n -> legalStmt sts m i }.

  Lemma live_denotes n t : live n t <-> exists x, denotes t x n.
  Proof.
    split.
    - intros (k & H1 & H2). exists (mt_name k), k. auto.
    - intros (x & k & H1 & H2 & H3). exists k. auto.
  Qed.
  Lemma live_lt n t : live n t -> t < length toks.
  Proof. intros (k & H & _). apply nth_error_Some. congruence. Qed.
  Lemma denotes_tk n t x : denotes t x n -> t < length toks /\ tkName toks t = x.
  Proof.
    intros (k & H & E & _). split; [apply nth_error_Some; congruence|]. unfold tkName. now rewrite H.
  Qed.
  Lemma dDepth_nn n t : (forall m, m <= n -> (0 <= depth m)%Z) -> live n t -> (0 <= dDepth t)%Z.
  Proof.
    intros H (k & H1 & H2). unfold dDepth. rewrite H1. apply H. apply inScope_lt in H2. lia.
  Qed.

  (* ---- pickMax ---- *)
  Lemma pick_none s : forall l b m, (forall j, In j l -> p_active s j = false) -> pickMax s l b m = (b, m).
  Proof.
    induction l as [|j r IH]; intros b m H; cbn [pickMax]; [reflexivity|].
    rewrite (H j) by (now left). cbn [andb]. apply IH. intros u Hu. apply H. now right.
  Qed.
  Lemma pick_stay s t : forall l, (forall j, In j l -> p_active s j = true -> j = t) ->
    pickMax s l t (p_scope s t) = (t, p_scope s t).
  Proof.
    induction l as [|j r IH]; intros H; cbn [pickMax]; [reflexivity|].
    destruct (p_active s j) eqn:E; cbn [andb].
    - rewrite (H j) by (auto; now left). rewrite Z.ltb_irrefl. apply IH. intros u Hu. apply H. now right.
    - apply IH. intros u Hu. apply H. now right.
  Qed.
  Lemma pick_one s t : forall l b m, (forall j, In j l -> p_active s j = true -> j = t) -> In t l ->
    p_active s t = true -> (m < p_scope s t)%Z -> pickMax s l b m = (t, p_scope s t).
  Proof.
    induction l as [|j r IH]; intros b m H HI HA HM; [destruct HI|]. cbn [pickMax].
    destruct (p_active s j) eqn:E; cbn [andb].
    - assert (j = t) by (apply H; [now left|exact E]). subst j.
      assert (LT : Z.ltb m (p_scope s t) = true) by (now apply Z.ltb_lt). rewrite LT.
      destruct (Z.eqb _ _); [reflexivity|]. apply pick_stay. intros u Hu. apply H. now right.
    - destruct HI as [ -> |HI]; [congruence|]. apply IH; auto. intros u Hu. apply H. now right.
  Qed.

  (* ---- lookup of one symbol ---- *)
  Section At.
    Variables (n : nat) (s : pst) (vl : list nat).
    Hypothesis HI : Inv n s vl.

    Lemma lookup_dec x t s' : lookupTok T n x s = Ok (t, s') -> p_err s' = [] -> s' = s /\ denotes t x n.
    Proof.
      unfold lookupTok. destruct (_ <? _); [discriminate|]. intros H HE.
      apply rbind_ok in H. destruct H as (f & Hf & H). destruct f as [ki|].
      - destruct (hasLen _ _); [|discriminate Hf]. change (tk_key T) with key in Hf.
        destruct (msearch_all toks key HQ x) as [(ki' & t0' & E1 & E2 & E3)|[E1 _]]; fold T in E1;
          [|congruence]. rewrite E1 in Hf. injection Hf as ->.
        change (tk_key T) with key in H. rewrite E2 in H. cbn [rget rbind] in H.
        assert (LT : t0' < length toks) by (apply (key_in toks key HQ); now apply nth_error_In in E2).
        assert (DEN : forall u, u < length toks -> tkName toks u = x -> p_active s u = true -> denotes u x n).
        { intros u Hu Hx HA. apply (i_act _ _ _ HI) in HA. destruct HA as (k & HK & HS). exists k.
          split; [exact HK|]. split; [|exact HS]. unfold tkName in Hx. now rewrite HK in Hx. }
        destruct (sa_at toks key HQ ki t0' E2) as (sa & Hsa).
        change (tk_same T) with (sameAs (map (tkName toks) key)) in H. rewrite Hsa in H. cbn [rget rbind] in H.
        destruct (Nat.eqb_spec sa 0) as [Z0|NZ].
        + destruct (p_active s t0') eqn:A; apply Ok_inj in H; injection H as <- <-.
          * split; [reflexivity|]. now apply DEN.
          * rewrite fict_err in HE. now apply err_not_nil in HE.
        + destruct (group_ok toks key HQ ki t0' sa E2 Hsa NZ) as (g & G1 & G2 & G3). fold T in G1. rewrite G1 in H. cbn [rbind] in H.
          destruct (existsb (p_active s) g) eqn:EX.
          * apply existsb_exists in EX. destruct EX as (u & Hu & HA).
            destruct (proj1 (G3 u) Hu) as [U1 U2]. rewrite E3 in U2.
            pose proof (DEN u U1 U2 HA) as DU.
            rewrite (pick_one s u g t0' (-1)%Z) in H; auto.
            -- destruct (Z.eqb_spec (p_scope s u) (-1)).
               { apply Ok_inj in H; injection H as <- <-. rewrite fict_err in HE. now apply err_not_nil in HE. }
               apply Ok_inj in H. injection H as <- <-. auto.
            -- intros j Hj HJ. destruct (proj1 (G3 j) Hj) as [J1 J2]. rewrite E3 in J2.
               apply (i_uniq _ _ _ HI j u x); auto.
            -- assert (L : live n u) by (apply live_denotes; eauto). rewrite (i_scope _ _ _ HI _ L).
               pose proof (dDepth_nn n u (i_nn _ _ _ HI) L). lia.
          * rewrite pick_none in H.
            { cbn in H. apply Ok_inj in H; injection H as <- <-. rewrite fict_err in HE. now apply err_not_nil in HE. }
            intros j Hj. destruct (p_active s j) eqn:A; [|reflexivity]. rewrite <- EX. symmetry.
            apply existsb_exists. eauto.
      - destruct (100 <=? _); [discriminate|]. apply Ok_inj in H; injection H as <- <-.
        rewrite fict_err in HE. cbn in HE. now apply app_eq_nil in HE.
    Qed.
    Lemma lookup_ok x t : denotes t x n -> lookupTok T n x s = Ok (t, s).
    Proof.
      intros HD. destruct (denotes_tk _ _ _ HD) as [LT HN]. unfold lookupTok.
      pose proof (maxLen_ok toks key t LT) as ML. fold T in ML. rewrite HN in ML.
      destruct (Nat.ltb_spec (tk_maxLen T) (length x)) as [|_]; [lia|].
      pose proof (hasLen_ok toks t LT) as HL. rewrite HN in HL. change (tk_toks T) with toks. rewrite HL.
      change (tk_key T) with key.
      assert (HA : p_active s t = true) by (apply (i_act _ _ _ HI); apply live_denotes; eauto).
      assert (DEN : forall u, u < length toks -> tkName toks u = x -> p_active s u = true -> u = t).
      { intros u Hu Hx A. apply (i_uniq _ _ _ HI u t x); [|exact HD].
        apply (i_act _ _ _ HI) in A. destruct A as (k & HK & HS). exists k.
        split; [exact HK|]. split; [|exact HS]. unfold tkName in Hx. now rewrite HK in Hx. }
      destruct (msearch_all toks key HQ x) as [(ki & t0 & E1 & E2 & E3)|[_ E1]]; [|now destruct (E1 t LT)].
      fold T in E1. rewrite E1. cbn [rbind]. rewrite E2. cbn [rget rbind].
      assert (LT0 : t0 < length toks) by (apply (key_in toks key HQ); now apply nth_error_In in E2).
      destruct (sa_at toks key HQ ki t0 E2) as (sa & Hsa).
      change (tk_same T) with (sameAs (map (tkName toks) key)). rewrite Hsa. cbn [rget rbind].
      destruct (Nat.eqb_spec sa 0) as [ -> |NZ].
      - assert (E : t = t0) by (apply (uniq_zero toks key HQ ki t0 E2 Hsa t LT); congruence). subst t0. now rewrite HA.
      - destruct (group_ok toks key HQ ki t0 sa E2 Hsa NZ) as (g & G1 & G2 & G3). fold T in G1. rewrite G1. cbn [rbind].
        assert (L : live n t) by (apply live_denotes; eauto).
        pose proof (dDepth_nn n t (i_nn _ _ _ HI) L) as NN. pose proof (i_scope _ _ _ HI _ L) as SC.
        rewrite (pick_one s t g t0 (-1)%Z).
        + rewrite SC. destruct (Z.eqb_spec (dDepth t) (-1)); [lia|]. reflexivity.
        + intros j Hj A. destruct (proj1 (G3 j) Hj) as [J1 J2]. apply DEN; auto. congruence.
        + apply G3. split; [exact LT|congruence].
        + exact HA.
        + lia.
    Qed.

    (* ---- all the symbols of a statement ---- *)
    Definition okSym (k : kind) (pos t : nat) : Prop :=
      match k with
      | K_d => tkVar toks t = true
      | _ => match pos with
             | 0 => tkVar toks t = false
             | 1 => match k with K_f => tkVar toks t = true | _ => True end
             | 2 => match k with K_f => False | _ => True end
             | _ => True
             end
      end.
    Fixpoint okSyms (k : kind) (pos : nat) (ts : list nat) : Prop :=
      match ts with [] => True | t :: r => okSym k pos t /\ okSyms k (S pos) r end.
    Lemma symErrs_iff k pos t : p_err (symErrs T n k pos t s) = [] <-> okSym k pos t.
    Proof.
      unfold symErrs, okSym, errIf. change (tk_toks T) with toks. pose proof (i_err _ _ _ HI) as HE.
      destruct k; try (destruct pos as [|[|[|pos]]]); cbn [Nat.eqb]; destruct (tkVar toks t); cbn [negb];
        (split; intros H; [try reflexivity; try discriminate; try exact I; try now apply err_not_nil in H
                          |try exact HE; try discriminate H; try destruct H]).
    Qed.
    Lemma symErrs_id k pos t : okSym k pos t -> symErrs T n k pos t s = s.
    Proof.
      unfold symErrs, okSym, errIf. change (tk_toks T) with toks.
      destruct k; try (destruct pos as [|[|[|pos]]]); cbn [Nat.eqb]; destruct (tkVar toks t); cbn [negb];
        intros H; try reflexivity; try discriminate H; try destruct H.
    Qed.
    Lemma symLoop_sound k : forall xs pos ts s', symLoop T n k pos xs s = Ok (ts, s') -> p_err s' = [] ->
      s' = s /\ Forall2 (fun t x => denotes t x n) ts xs /\ okSyms k pos ts.
    Proof.
      induction xs as [|x r IH]; intros pos ts s' H HE; cbn [symLoop] in H.
      - apply Ok_inj in H. injection H as <- <-. repeat split; constructor.
      - apply rbind_ok in H. destruct H as ((t & s1) & H1 & H). apply rbind_ok in H. destruct H as ((r1 & s2) & H2 & H).
        apply Ok_inj in H. injection H as <- <-. cbn [fst snd] in *.
        pose proof (symLoop_ext _ _ _ _ _ _ _ _ H2) as X. pose proof (ext_nil _ _ X HE) as E1.
        pose proof (ext_nil _ _ (symErrs_ext _ _ _ _ _ _) E1) as E0.
        destruct (lookup_dec _ _ _ H1 E0) as [ -> HD].
        apply symErrs_iff in E1. rewrite (symErrs_id _ _ _ E1) in H2.
        destruct (IH _ _ _ H2 HE) as (K1 & K2 & K3). split; [exact K1|]. split; [constructor; auto|]. split; auto.
    Qed.
    Lemma symLoop_ok k : forall xs pos ts, Forall2 (fun t x => denotes t x n) ts xs -> okSyms k pos ts ->
      symLoop T n k pos xs s = Ok (ts, s).
    Proof.
      intros xs pos ts H. revert pos. induction H as [|t x ts xs HD H IH]; intros pos HO; cbn [symLoop]; [reflexivity|].
      destruct HO as [O1 O2]. rewrite (lookup_ok _ _ HD). cbn [rbind]. rewrite (symErrs_id _ _ _ O1).
      rewrite (IH _ O2). reflexivity.
    Qed.
    Definition okLen (k : kind) (len : nat) : Prop :=
      match k with K_d | K_f => 2 <= len | _ => 0 < len end.
    Lemma lenErrs_iff k len : p_err (lenErrs n k len s) = [] <-> okLen k len.
    Proof.
      unfold lenErrs, okLen, errIf. pose proof (i_err _ _ _ HI) as HE.
      destruct k; try (destruct (Nat.eqb_spec len 0)); try (destruct len as [|len]); try (destruct (Nat.ltb_spec (S len) 2));
      try (destruct (Nat.ltb_spec 0 2));
        split; intros Q; try lia; try exact HE; try now apply err_not_nil in Q.
    Qed.
    Lemma lenErrs_id k len : okLen k len -> lenErrs n k len s = s.
    Proof.
      unfold lenErrs, okLen, errIf.
      destruct k; try (destruct (Nat.eqb_spec len 0)); try (destruct len as [|len]); try (destruct (Nat.ltb_spec (S len) 2));
      try (destruct (Nat.ltb_spec 0 2)); intros Q; try lia; reflexivity.
    Qed.
  End At.
End Look.
