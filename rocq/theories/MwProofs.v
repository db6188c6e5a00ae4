(* MwProofs.v -- proofs about MwModel: the scan over the statements *)
From Coq Require Import ZifyBool ZifyNat.
From Verif Require Import Base.
From Verif Require Import UniModel HenModel.
From Verif Require Import MMSpec VerModel VerSpec VerProofs ParModel SqModel SqSpec SqProofs SqAttr SqValid PfaModel PfaSpec PfaProofs PfaMore PfaHist FltModel FltSpec FltProofs FltMain FltVal RepModel RepSpec RepProofs RepMain AkModel AkSpec AkProofs AkMain AkTop MinModel MinSpec MinProofs MinMain
  TrcModel TrcSpec MwModel MwSpec MwTree MwFlags.
Open Scope nat_scope.

Lemma tree_same E s T1 T2 : complete E s T1 -> complete E s T2 -> T1 = T2.
Proof.
  intros C1 C2. pose proof (co_pip _ _ _ C1) as P1. pose proof (co_pip _ _ _ C2) as P2.
  apply (denotes_fun (f_db E) (pf s)); [rewrite (po_rpn _ _ _ P1)|rewrite (po_rpn _ _ _ P2)]; apply rpn_denotes; first [exact (po_tree _ _ _ P1)|exact (po_tree _ _ _ P2)|exact (po_norefs _ _ _ P1)|exact (po_norefs _ _ _ P2)].
Qed.
Lemma eqb_list a b : zlistEqb a b = true <-> a = b.
Proof. unfold zlistEqb. destruct list_eq_dec; split; congruence. Qed.

Section Scan.
  Variables (L : nat -> bool) (N : menvw) (o : mopts) (s0 : pip) (T0 : tree) (w : nat).
  Notation E := (n_E N).
  Notation db := (f_db (n_E N)).
  Notation te := (n_te N).
  Hypothesis WO : worldOk N.
  Hypothesis C0 : complete E s0 T0.
  Hypothesis SP : separated L db.
  Variable start : nat.
  Hypothesis START : forall k, k < f_n E -> (k < f_mboxStmt E \/ start <= k) -> k < f_mboxStmt E \/ f_mboxStart E <= k.
  Variable Val : tree -> Prop.
  Hypothesis V0 : Val T0.
  Hypothesis V_step : forall k st s T s' T', minOk E k st -> s_reqDisj st = [] -> complete E s T -> complete E s' T' -> swapped E k st s T s' T' -> Val T -> Val T'.
  Hypothesis V_disj : forall s T, kept E s0 T0 s T -> exists K, forall fuel text, K <= fuel -> compressedText fuel N (pf s) = Ok text -> disjTrouble fuel N text = Ok false -> Val T.

  Definition origin (fuel : nat) (z : Z) : Prop := In z (pf s0) \/ exists n, z = Z.of_nat n /\
    (ownHyp E n \/ (1 <= n < f_n E /\ syntaxAt L db n) \/ (permitted fuel N o n /\ (readsBack fuel N (pf s0) -> axiomsFine fuel N o (pf s0) n))).
  Definition Good (fuel : nat) (s : pip) : Prop := exists T, kept E s0 T0 s T /\ (forall z, In z (pf s) -> origin fuel z) /\ Val T.
  Record Inv (c0 : bool) (len0 fuel : nat) (x : mst) : Prop := {
    iv_s : Good fuel (m_s x);
    iv_rev : Good fuel (m_rev x);
    iv_same : pf (m_s x) = pf (m_rev x);
    iv_none : m_flags x = [] -> pf (m_rev x) = pf s0;
    iv_flags : m_flags x <> [] -> readsBack fuel N (pf s0) -> oldOk N (pf s0) (m_flags x);
    iv_len : o_grow o = false -> m_s x = m_rev x /\ ((m_rev x = s0 /\ m_len x = len0) \/
      (length (pf (m_rev x)) < length (pf s0) /\ m_len x <= len0 /\ exists text, compressedText fuel N (pf (m_rev x)) = Ok text /\ m_len x = length text));
    iv_unch : m_changed x = false -> pf (m_rev x) = pf s0;
    iv_ch : c0 = false -> m_changed x = true -> o_grow o = false -> length (pf (m_rev x)) < length (pf s0);
    iv_c0 : c0 = true -> m_changed x = true }.

  Lemma good0 fuel : Good fuel s0.
  Proof. exists T0. split; [exact (kept_refl E s0 T0 C0)|]. split; [|exact V0]. intros z I. left. exact I. Qed.

  (* what the tests on statement k leave *)
  Lemma skip_ok fuel k : nstm (t_db te) + 1 < fuel -> 1 <= k < f_n E -> skipped fuel N o start k = Ok false -> exists st, stmtAt db k st /\ isAssertion st /\ (forbidden fuel N o k = Ok false -> permitted fuel N o k).
  Proof.
    intros LF R H. unfold skipped in H. destruct (_ && _) eqn:MB; [discriminate H|]. apply rbind_ok in H. destruct H as [st [S H]].
    assert (S' : stmtAt db k st). { unfold stmtAt. destruct (nth_error (db_stmts db) k); cbn [rget] in S; [apply Ok_inj in S; subst; reflexivity|discriminate S]. }
    destruct (isAP (s_type st)) eqn:AP; cbn [negb] in H; [|discriminate H].
    assert (A : isAssertion st) by (unfold isAssertion; destruct (s_type st); try discriminate AP; auto).
    apply rbind_ok in H. destruct H as [m [HM H]]. destruct m; cbn [negb] in H; [|discriminate H]. apply rbind_ok in H. destruct H as [x [HX H]]. destruct x; [discriminate H|].
    apply rbind_ok in H. destruct H as [f [HF H]]. destruct f; [discriminate H|]. apply Ok_inj in H. exists st. split; [exact S'|]. split; [exact A|]. intros FB. constructor.
    - eauto.
    - exact R.
    - exact HM.
    - intros l EL. rewrite EL in HX. unfold listed. unfold labelMatches in HX. rewrite HX. discriminate.
    - intros NE m' [->|D].
      + destruct (o_forbid o) as [|a l]; [destruct (NE eq_refl)|]. unfold listed. unfold labelMatches in HF. rewrite HF. discriminate.
      + exact (forbid_ok fuel N o WO LF k st S' A FB NE m' D).
    - intros OV. rewrite OV in H. cbn [negb andb] in H. exact H.
    - intros OM. rewrite OM in MB. cbn [negb andb] in MB. apply START; lia.
  Qed.

  Definition candidates (s rev s' : pip) (p : pip * pip) : Prop := p = (s', rev) \/ p = (rev, rev) \/ p = (s', s').
  Lemma one_ok k s rev : 1 <= k < f_n E -> (exists T, kept E s0 T0 s T) -> (exists st, stmtAt db k st /\ isAssertion st) -> exists s' K,
    (exists T, kept E s0 T0 s' T) /\
    forall c0 len0 fuel x x', K <= fuel -> m_s x = s -> m_rev x = rev -> Inv c0 len0 fuel x -> skipped fuel N o start k = Ok false -> oneStmt w fuel N o k x = Ok x' ->
      Inv c0 len0 fuel x' /\ candidates s rev s' (m_s x', m_rev x').
  Proof.
    intros RK [T KP] [st [S A]]. pose proof (wo_min N WO k st S A RK) as MO.
    set (R := fun (a : pip) (TA : tree) (b : pip) (TB : tree) => complete E a TA -> complete E b TB /\ onlyFrom L E k a b /\ (s_reqDisj st = [] -> Val TA -> Val TB)).
    destruct (rounds_rel E k st MO R) with (grow := o_grow o) (start := length (pf s)) (w := w) (s := s) (T := T) as [r [K1 [HR1 HR2]]].
    { intros a TA CA _. split; [exact CA|]. split; [|auto]. intros z I. right. left. exact I. }
    { intros a TA b TB c TC H1 H2 CA. destruct (H1 CA) as [CB [F1 D1]]. destruct (H2 CB) as [CC [F2 D2]]. split; [exact CC|]. split; [exact (onlyFrom_trans L E k a b c F1 F2)|auto]. }
    { intros a TA b TB CA KA SW _. split; [exact (kp_complete _ _ _ _ _ KA)|]. split; [exact (swapped_from L E k st MO SP a TA b TB CA SW)|]. intros ND VA. exact (V_step k st a TA b TB MO ND CA (kp_complete _ _ _ _ _ KA) SW VA). }
    { exact (kp_complete _ _ _ _ _ KP). }
    assert (CASE : (exists s', r = Ok s') \/ forall s', r <> Ok s') by (destruct r; [left; eauto|right; discriminate..]).
    destruct CASE as [[s' ->]|NO].
    2:{ exists s, K1. split; [eauto|]. intros c0 len0 fuel x x' LF <- _ _ _ H. unfold oneStmt in H. apply rbind_ok in H. destruct H as [s' [HM _]]. unfold minimizeProof in HM. rewrite (HR1 fuel LF) in HM. destruct (NO s' HM). }
    destruct (HR2 s' eq_refl) as [T' [KP' [RR LT]]]. clear HR2. destruct (RR (kp_complete _ _ _ _ _ KP)) as [CO' [OF VD]]. pose proof (kept_trans E _ _ _ _ _ _ KP KP') as KP2.
    destruct (V_disj s' T' KP2) as [K2 VV]. exists s', (Nat.max (Nat.max K1 K2) (nstm (t_db te) + 2)). split; [eauto|].
    intros c0 len0 fuel x x' LF ES ER IV SK H. subst s rev. unfold oneStmt in H. unfold minimizeProof in H. rewrite HR1 in H by lia. cbn [rbind] in H.
    destruct (skip_ok fuel k ltac:(lia) RK SK) as [st1 [S1 [_ PERM]]]. unfold stmtAt in S1, S. rewrite S in S1. injection S1 as <-.
    destruct IV as [IS IR IM IN IF IL IU IC IZ].
    assert (GS : forall z, In z (pf s') -> z = Z.of_nat k \/ origin fuel z).
    { destruct IS as [T1 [_ [OR _]]]. intros z I. destruct (OF z I) as [X|[X|[n [Z1 [X|X]]]]]; [left; exact X|right; exact (OR z X)|right; right; exists n; auto|right; right; exists n; auto]. }
    assert (VT : Val T). { destruct IS as [T1 [KP1 [_ V1]]]. rewrite (tree_same E (m_s x) T T1 (kp_complete _ _ _ _ _ KP) (kp_complete _ _ _ _ _ KP1)). exact V1. }
    destruct (zlistEqb (pf (m_s x)) (pf s')) eqn:EQ.
    - apply eqb_list in EQ. apply Ok_inj in H. subst x'. split; [|left; reflexivity]. constructor; cbn [m_s m_rev m_len m_flags m_changed]; auto; [|congruence|].
      + assert (ST : T' = T). { apply (denotes_fun db (pf s')). rewrite (po_rpn _ _ _ (co_pip _ _ _ CO')). apply rpn_denotes; [exact (po_tree _ _ _ (co_pip _ _ _ CO'))|exact (po_norefs _ _ _ (co_pip _ _ _ CO'))].
          rewrite <- EQ. pose proof (kp_complete _ _ _ _ _ KP) as CT. rewrite (po_rpn _ _ _ (co_pip _ _ _ CT)). apply rpn_denotes; [exact (po_tree _ _ _ (co_pip _ _ _ CT))|exact (po_norefs _ _ _ (co_pip _ _ _ CT))]. }
        exists T'. split; [exact KP2|]. split; [|rewrite ST; exact VT]. destruct IS as [T1 [_ [OR _]]]. rewrite <- EQ. exact OR.
      + intros G. destruct (LT G) as [->|X]; [exact (IL G)|]. rewrite EQ in X. lia.
    - assert (NEQ : pf (m_s x) <> pf s'). { intros X. apply eqb_list in X. congruence. }
      assert (REV : forall fl, (fl = [] -> pf (m_rev x) = pf s0) -> (fl <> [] -> readsBack fuel N (pf s0) -> oldOk N (pf s0) fl) -> Inv c0 len0 fuel (revert x fl) /\ candidates (m_s x) (m_rev x) s' (m_s (revert x fl), m_rev (revert x fl))).
      { intros fl F1 F2. split; [|right; left; reflexivity]. constructor; cbn [revert m_s m_rev m_len m_flags m_changed]; auto. intros G. split; [reflexivity|]. exact (proj2 (IL G)). }
      apply rbind_ok in H. destruct H as [f [HF H]]. destruct f; [apply Ok_inj in H; subst x'; exact (REV _ IN IF)|].
      apply rbind_ok in H. destruct H as [fl [HFL H]].
      assert (FLOK : fl <> [] /\ (readsBack fuel N (pf s0) -> oldOk N (pf s0) fl)).
      { destruct (m_flags x) as [|a l] eqn:MF.
        - specialize (IN eq_refl). split; [exact (old_flags_some fuel N x fl MF HFL)|]. intros RB. destruct (old_ok fuel N WO ltac:(lia) x fl MF) as [X Y]; [rewrite IN; exact RB|exact HFL|]. rewrite IN in Y. exact Y.
        - unfold oldFlags in HFL. rewrite MF in HFL. apply Ok_inj in HFL. subst fl. split; [discriminate|apply IF; discriminate]. }
      destruct FLOK as [FNE FOK]. specialize (REV fl (fun X => False_ind _ (FNE X)) (fun _ => FOK)).
      apply rbind_ok in H. destruct H as [t [HT H]]. apply rbind_ok in H. destruct H as [a [HA H]]. destruct a; cbn [negb] in H; [|apply Ok_inj in H; subst x'; exact REV].
      rewrite S in H. cbn [rget rbind] in H. set (dv := negb (length (s_reqDisj st) =? 0)) in *. apply rbind_ok in H. destruct H as [text [HX H]].
      destruct (negb (o_grow o) && (m_len x <? length text)) eqn:LG; [apply Ok_inj in H; subst x'; exact REV|].
      apply rbind_ok in H. destruct H as [d [HD H]]. destruct d; [apply Ok_inj in H; subst x'; exact REV|]. destruct (f_disc E k && negb (o_override o)) eqn:DISC; [discriminate H|]. apply Ok_inj in H. subst x'.
      assert (VT' : Val T').
      { destruct dv eqn:DV; [apply (VV fuel text); [lia|exact HX|exact HD]|]. apply VD; [|exact VT]. subst dv. destruct (s_reqDisj st); [reflexivity|discriminate DV]. }
      assert (GD : Good fuel s').
      { exists T'. split; [exact KP2|]. split; [|exact VT']. intros z I. destruct (GS z I) as [->|X]; [|exact X]. right. exists k. split; [reflexivity|]. right. right. split; [exact (PERM HF)|]. intros RB.
        exact (fine_ok fuel N o WO ltac:(lia) (pf s0) fl k st t S A RK (FOK RB) HT HA). }
      assert (SH : o_grow o = false -> length (pf s') < length (pf s0)).
      { intros G. destruct (LT G) as [->|X]; [destruct (NEQ eq_refl)|]. destruct (IL G) as [EM [[E1 _]|[E1 _]]]; rewrite EM in X; [rewrite E1 in X; exact X|lia]. }
      split; [|right; right; reflexivity]. constructor; cbn [m_s m_rev m_len m_flags m_changed]; auto; try (intros X; destruct (FNE X)); try discriminate.
      intros G. split; [reflexivity|]. right. pose proof (SH G) as SG. pose proof (IL G) as IG. split; [exact SG|]. rewrite G in HX, LG. cbn [negb andb] in LG, HX. rewrite G. rewrite orb_true_r in HX. split; [|exists text; split; [exact HX|reflexivity]].
      destruct IG as [_ [[_ X]|[_ [X _]]]]; lia.
  Qed.

  Lemma scan_all : forall ks, (forall k, In k ks -> 1 <= k < f_n E) -> forall s rev, (exists T, kept E s0 T0 s T) -> (exists T, kept E s0 T0 rev T) -> exists K, forall c0 len0 fuel x x', K <= fuel -> m_s x = s -> m_rev x = rev ->
    Inv c0 len0 fuel x -> scan w fuel N o start ks x = Ok x' -> Inv c0 len0 fuel x'.
  Proof.
    induction ks as [|k ks IH]; intros RK s rev KS KR.
    - exists 0. intros c0 len0 fuel x x' _ _ _ IV H. cbn [scan] in H. apply Ok_inj in H. subst x'. exact IV.
    - assert (RK' : forall k, In k ks -> 1 <= k < f_n E) by (intros k' I; apply RK; right; exact I). specialize (IH RK'). pose proof (RK k (or_introl eq_refl)) as R1.
      destruct (IH s rev KS KR) as [K1 H1].
      destruct (nth_error (db_stmts db) k) as [st|] eqn:S.
      2:{ exists 0. intros c0 len0 fuel x x' _ _ _ _ H. cbn [scan] in H. unfold skipped in H. rewrite S in H. cbn [rget rbind] in H. destruct (_ && _) eqn:MB.
          - exfalso. destruct (wo_n N WO) as [stn [SN _]]. unfold stmtAt in SN. apply nth_error_None in S. assert (f_n E < length (db_stmts db)) by (apply nth_error_Some; rewrite SN; discriminate). lia.
          - discriminate H. }
      destruct (isAP (s_type st)) eqn:AP.
      2:{ exists (Nat.max K1 (nstm (t_db te) + 2)). intros c0 len0 fuel x x' LF ES ER IV H. cbn [scan] in H. apply rbind_ok in H. destruct H as [b [HB H]]. destruct b; [cbn [rbind] in H; exact (H1 c0 len0 fuel x x' ltac:(lia) ES ER IV H)|].
          exfalso. destruct (skip_ok fuel k ltac:(lia) R1 HB) as [st1 [S1 [[A|A] _]]]; unfold stmtAt in S1; rewrite S in S1; injection S1 as <-; rewrite A in AP; discriminate AP. }
      assert (A : exists st, stmtAt db k st /\ isAssertion st) by (exists st; split; [exact S|unfold isAssertion; destruct (s_type st); try discriminate AP; auto]).
      destruct (one_ok k s rev R1 KS A) as [s' [K2 [KS' H2]]].
      destruct (IH s' rev KS' KR) as [K3 H3]. destruct (IH rev rev KR KR) as [K4 H4]. destruct (IH s' s' KS' KS') as [K5 H5].
      exists (Nat.max K1 (Nat.max K2 (Nat.max K3 (Nat.max K4 K5)))). intros c0 len0 fuel x x' LF ES ER IV H. cbn [scan] in H. apply rbind_ok in H. destruct H as [b [HB H]]. destruct b; [cbn [rbind] in H; exact (H1 c0 len0 fuel x x' ltac:(lia) ES ER IV H)|].
      apply rbind_ok in H. destruct H as [x1 [HO H]]. destruct (H2 c0 len0 fuel x x1 ltac:(lia) ES ER IV HB HO) as [IV1 CD]. destruct CD as [CD|[CD|CD]]; injection CD as E1 E2.
      + exact (H3 c0 len0 fuel x1 x' ltac:(lia) E1 E2 IV1 H).
      + exact (H4 c0 len0 fuel x1 x' ltac:(lia) E1 E2 IV1 H).
      + exact (H5 c0 len0 fuel x1 x' ltac:(lia) E1 E2 IV1 H).
  Qed.
End Scan.
