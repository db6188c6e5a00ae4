(* MwMain.v -- proofs about MwModel: the command *)
From Coq Require Import ZifyBool ZifyNat.
From Verif Require Import Base.
From Verif Require Import UniModel HenModel.
From Verif Require Import MMSpec VerModel VerSpec VerProofs ParModel SqModel SqSpec SqProofs SqAttr SqValid PfaModel PfaSpec PfaProofs PfaMore PfaHist FltModel FltSpec FltProofs FltMain FltVal RepModel RepSpec RepProofs RepMain AkModel AkSpec AkProofs AkMain AkTop MinModel MinSpec MinProofs MinMain
  TrcModel TrcSpec TrcProofs TrcWork MwModel MwSpec MwTree MwFlags MwProofs.
Open Scope nat_scope.

Section Main.
  Variables (L : nat -> bool) (N : menvw) (o : mopts) (s0 : pip) (T0 : tree) (w : nat).
  Notation E := (n_E N).
  Notation db := (f_db (n_E N)).
  Notation te := (n_te N).
  Hypothesis WO : worldOk N.
  Hypothesis C0 : complete E s0 T0.
  Hypothesis SP : separated L db.
  Variable Val : tree -> Prop.
  Hypothesis V0 : Val T0.
  Hypothesis V_step : forall k st s T s' T', minOk E k st -> s_reqDisj st = [] -> complete E s T -> complete E s' T' -> swapped E k st s T s' T' -> Val T -> Val T'.
  Hypothesis V_disj : forall s T, kept E s0 T0 s T -> exists K, forall fuel text, K <= fuel -> compressedText fuel N (pf s) = Ok text -> disjTrouble fuel N text = Ok false -> Val T.

  Lemma mw_ok : exists K, forall fuel s' ch pr, K <= fuel -> minimizeWith w fuel N o s0 = Ok (s', ch, pr) ->
    Good L N o s0 T0 Val fuel s' /\ (ch = false -> pf s' = pf s0) /\
    (o_grow o = false -> exists text text', compressedText fuel N (pf s0) = Ok text /\ compressedText fuel N (pf s') = Ok text' /\ length text' <= length text /\ (ch = false /\ s' = s0 \/ ch = true /\ length (pf s') < length (pf s0))).
  Proof.
    assert (ST : exists r, (if f_mboxStmt E <? f_n E then if f_mboxNum E =? 0 then Bug 1130 else Ok (f_mboxStart E) else Ok (f_mboxStmt E)) = r /\
      (forall start, r = Ok start -> forall k, k < f_n E -> (k < f_mboxStmt E \/ start <= k) -> k < f_mboxStmt E \/ f_mboxStart E <= k)).
    { eexists. split; [reflexivity|]. intros start H k LK D. destruct (f_mboxStmt E <? f_n E) eqn:B; [|lia]. destruct (_ =? 0); [discriminate H|]. apply Ok_inj in H. lia. }
    destruct ST as [r [SR ST]].
    assert (CASE : (exists start, r = Ok start) \/ forall start, r <> Ok start) by (destruct r; [left; eauto|right; discriminate..]).
    destruct CASE as [[start ->]|NO].
    2:{ exists 0. intros fuel s' ch pr _ H. unfold minimizeWith in H. rewrite SR in H. apply rbind_ok in H. destruct H as [x [HX _]]. destruct (NO x HX). }
    specialize (ST start eq_refl).
    assert (RNG : forall k, In k (seq 1 (f_n E - 1)) -> 1 <= k < f_n E) by (intros k I; apply in_seq in I; lia).
    assert (RNG' : forall k, In k (rev (seq 1 (f_n E - 1))) -> 1 <= k < f_n E) by (intros k I; apply in_rev in I; exact (RNG k I)).
    assert (K0 : exists T, kept E s0 T0 s0 T) by (exists T0; exact (kept_refl E s0 T0 C0)).
    (* the length of the old text depends on the fuel only through its existence *)
    assert (SC : exists K, forall c0 len0 fuel x x', K <= fuel -> m_s x = s0 -> m_rev x = s0 -> Inv L N o s0 T0 Val c0 len0 fuel x -> scan w fuel N o start (seq 1 (f_n E - 1)) x = Ok x' -> Inv L N o s0 T0 Val c0 len0 fuel x').
    { destruct (scan_all L N o s0 T0 w WO SP start ST Val V_step V_disj _ RNG s0 s0 K0 K0) as [K H]. exists K. intros c0 len0. apply H. }
    assert (SC' : exists K, forall c0 len0 fuel x x', K <= fuel -> m_s x = s0 -> m_rev x = s0 -> Inv L N o s0 T0 Val c0 len0 fuel x -> scan w fuel N o start (rev (seq 1 (f_n E - 1))) x = Ok x' -> Inv L N o s0 T0 Val c0 len0 fuel x').
    { destruct (scan_all L N o s0 T0 w WO SP start ST Val V_step V_disj _ RNG' s0 s0 K0 K0) as [K H]. exists K. intros c0 len0. apply H. }
    destruct SC as [K1 SC]. destruct SC' as [K2 SC']. exists (Nat.max K1 K2). intros fuel s' ch pr LF H. unfold minimizeWith in H. rewrite SR in H. cbn [rbind] in H. apply rbind_ok in H. destruct H as [text [HT H]]. apply rbind_ok in H. destruct H as [x [HX H]].
    assert (IX : Inv L N o s0 T0 Val false (length text) fuel x).
    { apply (SC false (length text) fuel (mkM s0 s0 (length text) [] false 0) x); [lia|reflexivity|reflexivity| |exact HX].
      constructor; cbn [m_s m_rev m_len m_flags m_changed]; try (exact (good0 L N o s0 T0 C0 Val V0 fuel)); try reflexivity; try discriminate; try congruence; auto. }
    assert (FIN : forall c0 y, Inv L N o s0 T0 Val c0 (length text) fuel y -> m_changed y = false \/ c0 = false \/ length (pf (m_s y)) < length (pf s0) -> Good L N o s0 T0 Val fuel (m_s y) /\ (m_changed y = false -> pf (m_s y) = pf s0) /\
      (o_grow o = false -> exists text text', compressedText fuel N (pf s0) = Ok text /\ compressedText fuel N (pf (m_s y)) = Ok text' /\ length text' <= length text /\ (m_changed y = false /\ m_s y = s0 \/ m_changed y = true /\ length (pf (m_s y)) < length (pf s0)))).
    { intros c0 y [IS IR IM IN IF IL IU IC IZ] CC. split; [exact IS|]. split; [intros X; rewrite IM; exact (IU X)|]. intros G. destruct (IL G) as [EM [[E1 E2]|[E1 [E2 [tx [E3 E4]]]]]].
      - exists text, text. rewrite EM, E1. split; [exact HT|]. split; [exact HT|]. split; [lia|]. left. split; [|reflexivity]. destruct (m_changed y) eqn:MC; [|reflexivity]. exfalso. destruct CC as [X|[X|X]]; [discriminate X| |rewrite EM, E1 in X; lia].
        specialize (IC X eq_refl G). rewrite E1 in IC. lia.
      - exists text, tx. rewrite IM. split; [exact HT|]. split; [exact E3|]. split; [lia|]. right. split; [|exact E1]. destruct (m_changed y) eqn:MC; [reflexivity|]. rewrite (IU eq_refl) in E1. lia. }
    destruct (o_grow o || negb (m_changed x) || negb (wildcard (o_match o))) eqn:B.
    { apply Ok_inj in H. injection H as <- <- _. exact (FIN false x IX (or_intror (or_introl eq_refl))). }
    apply rbind_ok in H. destruct H as [y [HY H]]. assert (G : o_grow o = false) by (destruct (o_grow o); [discriminate B|reflexivity]). assert (MX : m_changed x = true) by (destruct (m_changed x); [reflexivity|destruct (o_grow o); discriminate B]).
    assert (IY : Inv L N o s0 T0 Val true (length text) fuel y).
    { apply (SC' true (length text) fuel (mkM s0 s0 (length text) (m_flags x) (m_changed x) (m_status x)) y); [lia|reflexivity|reflexivity| |exact HY]. destruct IX as [IS IR IM IN IF IL IU IC IZ].
      constructor; cbn [m_s m_rev m_len m_flags m_changed]; try (exact (good0 L N o s0 T0 C0 Val V0 fuel)); try reflexivity; try discriminate; try congruence; auto. }
    pose proof (iv_c0 _ _ _ _ _ _ _ _ _ _ IY eq_refl) as MY. pose proof (iv_len _ _ _ _ _ _ _ _ _ _ IX G) as LX. pose proof (iv_len _ _ _ _ _ _ _ _ _ _ IY G) as LY. pose proof (iv_ch _ _ _ _ _ _ _ _ _ _ IX eq_refl MX G) as SX.
    destruct LX as [MSX LX]. destruct LY as [MSY LY].
    match type of H with (if ?b then _ else _) = _ => destruct b eqn:PICK end; apply Ok_inj in H; injection H as <- <- _.
    - apply (FIN true y IY). right. right. destruct LY as [[Y1 Y2]|[Y1 _]]; [|rewrite MSY; exact Y1]. exfalso. destruct LX as [[X1 X2]|[X1 [X2 [tx [X3 X4]]]]]; [rewrite X1 in SX; lia|]. rewrite MSX, MSY, Y1 in PICK. lia.
    - pose proof (FIN false x IX (or_intror (or_introl eq_refl))) as Z. rewrite MX in Z. rewrite MY. exact Z.
  Qed.
End Main.
