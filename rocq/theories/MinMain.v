(* MinMain.v -- proofs about MinModel: the loops *)
From Coq Require Import ZifyBool ZifyNat.
From Verif Require Import Base.
From Verif Require Import UniModel HenModel.
From Verif Require Import MMSpec VerModel VerSpec VerProofs ParModel SqModel SqSpec SqProofs SqAttr SqValid PfaModel PfaSpec PfaProofs PfaMore PfaHist FltModel FltSpec FltProofs FltMain FltVal RepModel RepSpec RepProofs RepMain AkModel AkSpec AkProofs AkMain AkTop MinModel MinSpec MinProofs.
Open Scope nat_scope.

(* replaceStatement()'s answers end with the statement *)
Lemma main_last C : forall n fuel r s p, mainLoop n fuel C r s = Ok p -> p = [] \/ exists q, p = q ++ [Z.of_nat (c_repl C)].
Proof.
  induction n as [|n IH]; intros fuel r s p H; [discriminate H|]. cbn [mainLoop] in H. destruct r as [| |h]; try (apply Ok_inj in H; subst p; left; reflexivity).
  apply rbind_ok in H. destruct H as [q [_ H]]. destruct (fst q).
  - unfold build in H. destruct existsb; [discriminate H|]. apply Ok_inj in H. subst p. right. eauto.
  - cbn zeta in H. apply rbind_ok in H. destruct H as [r' [_ H]]. exact (IH _ _ _ _ H).
Qed.
Lemma rep_last fuel E repl step sub search p : replaceStatement fuel E repl step sub search = Ok p -> p = [] \/ exists q, p = q ++ [Z.of_nat repl].
Proof.
  unfold replaceStatement. intros H. apply rbind_ok in H. destruct H as [C [HC H]]. apply rbind_ok in H. destruct H as [r [_ H]]. apply main_last in H.
  assert (X : c_repl C = repl); [|rewrite X in H; exact H]. unfold context in HC. apply rbind_ok in HC. destruct HC as [st [_ HC]]. destruct (_ && _); [discriminate HC|].
  apply rbind_ok in HC. destruct HC as [m [_ HC]]. apply rbind_ok in HC. destruct HC as [b [_ HC]]. destruct (negb _); [discriminate HC|].
  do 6 (apply rbind_ok in HC; destruct HC as [? [_ HC]]). apply Ok_inj in HC. subst C. reflexivity.
Qed.

(* what gets smaller with MAY_GROW: the steps from the last to the first as binary digits, 0 for
   the statement *)
Fixpoint digits (repl : Z) (M : nat) (l : list Z) : nat :=
  match M, l with
  | S M', z :: r => (if (z =? repl)%Z then 0 else 2 ^ M') + digits repl M' r
  | _, _ => 0
  end.
Lemma digits_lt repl : forall M l, digits repl M l < 2 ^ M.
Proof.
  induction M as [|M IH]; intros l; [cbn; lia|]. destruct l as [|z r]; cbn [digits Nat.pow]; [pose proof (Nat.pow_nonzero 2 M); lia|]. specialize (IH r). destruct (z =? repl)%Z; lia.
Qed.
Lemma digits_less repl z : z <> repl -> forall M b x y, length b < M -> digits repl M (b ++ repl :: y) < digits repl M (b ++ z :: x).
Proof.
  intros NE. induction M as [|M IH]; intros b x y L; [lia|]. destruct b as [|c b]; cbn [app digits].
  - rewrite Z.eqb_refl. replace (z =? repl)%Z with false by lia. pose proof (digits_lt repl M y). lia.
  - cbn [length] in L. specialize (IH b x y ltac:(lia)). lia.
Qed.

Section Min.
  Variables (E : fenv) (repl : nat) (st : stmtRec).
  Hypothesis MO : minOk E repl st.
  Notation db := (f_db E).
  Let FO := mo_flt _ _ _ MO.

  Lemma kept_refl s T : complete E s T -> kept E s T s T.
  Proof. intros C. constructor; [exact C|auto|]. intros z I. left. exact I. Qed.
  Lemma kept_trans s1 T1 s2 T2 s3 T3 : kept E s1 T1 s2 T2 -> kept E s2 T2 s3 T3 -> kept E s1 T1 s3 T3.
  Proof.
    intros [A1 A2 A3] [B1 B2 B3]. constructor; [exact B1|auto|]. intros z I. destruct (B3 z I) as [J|J]; [exact (A3 z J)|right; exact J].
  Qed.

  Lemma shows_sub v k path w : nodeAt v k path w -> forall m, shows db anything v m -> exists y, shows db anything w y.
  Proof.
    induction 1 as [t|z kids j c k path u N Q IH]; intros m SV; [eauto|]. destruct (shows_node _ _ _ _ _ SV) as [[h [sh [_ [_ [X _]]]]]|[n [st' [xs [sg [_ [_ [_ [_ [_ [F _]]]]]]]]]]]; [subst kids; destruct j; discriminate N|].
    assert (exists y, shows db anything c y) as [y Y]; [|exact (IH y Y)]. clear -F N. revert j N. induction F as [|x y l l' X F IHF]; intros [|j] N; try discriminate N; [injection N as <-; eauto|exact (IHF j N)].
  Qed.
  (* putting in the new subproof *)
  Lemma put_in s T step path u v m : complete E s T -> nodeAt T step path u -> shows db anything u m -> proves (envAt E s) (Some T) v m ->
    exists s1 s2 s3 T' K, deleteSubProof db s step = Ok s1 /\ addSubProof s1 (rpn v) (step + 1 - sz u) = Ok s2 /\
      (forall fuel, K <= fuel -> assignKnownSteps fuel (envAt E s2) s2 (step + 1 - sz u) (sz v) = Ok (true, s3)) /\ kept E s T s3 T' /\ length (pf s3) + sz u = length (pf s) + sz v /\ pf s3 = splice (pf s) step (sz u) (rpn v) /\ putAt v T path T'.
  Proof.
    intros CO N SU PV. pose proof (co_pip _ _ _ CO) as PO. pose proof (proves_shows E repl st MO s T CO v m PV) as SV.
    assert (FOS : fltOk (envAt E s) (Some T)) by (apply (flt_at E repl st MO); [exact (po_tree _ _ _ PO)|exact (po_rpn _ _ _ PO)|exact (po_tg _ _ _ PO)]).
    assert (CODES : forall z, In z (f_pf (envAt E s)) -> (0 <= z)%Z \/ z = zUnk) by (intros z I; left; apply (codes_nat E s T CO z); rewrite <- (po_rpn _ _ _ PO); exact I).
    destruct (proves_shape (envAt E s) (Some T) FOS CODES v m PV) as [WV NV].
    assert (NRV : noRefs (rpn v)) by (intros z I; specialize (NV z I); unfold isRef; lia).
    destruct (replace_ok db s T step path u v PO N WV NRV) as [s2 [T' [R1 [P2 [PT [Q1 [Q2 [Q3 Q4]]]]]]]].
    assert (SL : subproofLen db (pf s) step = Ok (sz u)) by (rewrite (po_rpn _ _ _ PO); exact (subLen_node db T step path u (po_tree _ _ _ PO) N)).
    unfold replaceSubProof in R1. rewrite SL in R1. cbn [rbind] in R1. apply rbind_ok in R1. destruct R1 as [s1 [D1 D2]].
    destruct (put_ok db T step path u v (po_tree _ _ _ PO) N WV) as [T2 [PT2 [_ [_ NV']]]]. assert (T2 = T') by (eapply put_det; eassumption). subst T2.
    pose proof (nodeAt_bound _ _ _ _ N) as BN. destruct (node_split _ _ _ _ N) as [a [b [ES LS]]]. pose proof (sz_pos u) as SZU. pose proof (sz_pos v) as SZV.
    pose proof (put_len v T path T' PT step u N) as LEN.
    assert (FO2 : fltOk (envAt E s2) (Some T')) by (apply (flt_at E repl st MO); [exact (po_tree _ _ _ P2)|exact (po_rpn _ _ _ P2)|exact (po_tg _ _ _ P2)]).
    assert (SV' : shows (f_db (envAt E s2)) (okValue (envAt E s2)) v m).
    { exact (proj1 (plain_shows E None FO (mo_plain _ _ _ MO) v m SV)). }
    destruct (aks_ok (envAt E s2) (Some T') FO2 (okValue (envAt E s2)) s2 T' (step + sz v - sz u) path v m P2 NV' SV') as [bb [s3 [K [RA [AS [P3 OB]]]]]].
    rewrite (OB (fun w H => H)) in *. clear OB bb.
    replace (step + sz v - sz u + 1 - sz v) with (step + 1 - sz u) in RA by lia.
    exists s1, s2, s3, T', K. split; [exact D1|]. split; [exact D2|]. split; [exact RA|].
    destruct AS as [A1 A2 A3 A4 A5 A6 A7 A8]. cbn [envAt f_db] in *.
    assert (LP : length (pf s) = sz T) by (rewrite (po_rpn _ _ _ PO); reflexivity). assert (LTG : length (tg s) = sz T) by (rewrite (po_tg _ _ _ PO); exact LP).
    split; [|split; [rewrite A1, (po_rpn _ _ _ P2), (po_rpn _ _ _ PO); lia|split; [rewrite A1; exact Q1|exact PT]]].
    assert (TGS : nth_error (tg s) step = Some (toZ m)).
    { destruct (co_steps _ _ _ CO step path u N) as [y [Y1 Y2]]. rewrite (shows_det E None FO anything anything u m y SU Y1). exact Y2. }
    assert (PUTS : forall y, shows db anything u y -> shows db anything v y) by (intros y Y; rewrite <- (shows_det E None FO anything anything u m y SU Y); exact SV).
    constructor.
    - constructor.
      + exact P3.
      + intros k p w Nw. assert (DEC : (step + 1 - sz u <= k < step + 1 - sz u + sz v) \/ (k < step + 1 - sz u \/ step + 1 - sz u + sz v <= k)) by lia. destruct DEC as [R|R].
        * destruct (nodeAt_inside _ _ _ _ _ _ _ NV' Nw ltac:(lia)) as [p' [_ Q]]. replace (k - (step + sz v - sz u + 1 - sz v)) with (k - (step + 1 - sz u)) in Q by lia.
          destruct (Nat.eq_dec (k - (step + 1 - sz u) + 1) (sz v)) as [EQ|NE].
          -- assert (w = v). { destruct (nodeAt_unique _ _ _ _ Q _ _ ltac:(replace (k - (step + 1 - sz u)) with (sz v - 1) by lia; exact (na_root v))) as [_ X]. exact X. } subst w.
             exists m. split; [exact SV|]. rewrite A6 by lia. rewrite Q2, splice_nth by lia. replace (k <? step + 1 - sz u) with false by lia. rewrite app_length, repeat_length. cbn [length].
             replace (k <? step + 1 - sz u + (sz v - 1 + 1)) with true by lia. rewrite nth_error_app2; rewrite repeat_length; [|lia]. replace (k - (step + 1 - sz u) - (sz v - 1)) with 0 by lia. cbn [nth_error].
             f_equal. apply nth_error_nth. exact TGS.
          -- assert (exists y, shows db anything w y) as [y Y].
             { exact (shows_sub _ _ _ _ Q m SV). }
             exists y. split; [exact Y|]. pose proof (A8 eq_refl _ _ _ _ Q (proj1 (plain_shows E None FO (mo_plain _ _ _ MO) w y Y)) ltac:(pose proof (nodeAt_bound _ _ _ _ Q); lia)) as X.
             replace (step + sz v - sz u + 1 - sz v + (k - (step + 1 - sz u))) with k in X by lia. exact X.
        * destruct (put_nodes db anything v T path T' PT step u N PUTS k p w Nw) as [R'|[w0 [W1 W2]]]; [lia|]. destruct (co_steps _ _ _ CO _ _ _ W1) as [y [Y1 Y2]]. pose proof (nodeAt_bound _ _ _ _ Nw) as BW. pose proof (nodeAt_bound _ _ _ _ W1) as BW1.
          destruct (le_lt_dec (step + 1 - sz u) k) as [L1|L1].
          -- exists y. split; [exact (W2 y Y1)|]. rewrite A6 by lia. rewrite Q2, splice_nth by lia. replace (k <? step + 1 - sz u) with false in * by lia. rewrite app_length, repeat_length. cbn [length].
             replace (k <? step + 1 - sz u + (sz v - 1 + 1)) with false by lia. replace (k - (step + 1 - sz u + (sz v - 1 + 1)) + (step + 1)) with (k + sz u - sz v) by lia. exact Y2.
          -- exists y. split; [exact (W2 y Y1)|]. rewrite A6 by lia. rewrite Q2, splice_nth by lia. replace (k <? step + 1 - sz u) with true in * by lia. exact Y2.
      + intros x I. rewrite A2, Q4 in I. apply splice_in in I. destruct I as [I|I]; [exact (co_user _ _ _ CO x I)|]. apply in_app_iff in I. destruct I as [I|[<-|[]]]; [left; exact (repeat_spec _ _ _ I)|].
        destruct (nth_in_or_default step (us s) []) as [J|J]; [exact (co_user _ _ _ CO _ J)|left; exact J].
    - exact (put_shows db anything v T path T' PT step u N PUTS).
    - intros z I. rewrite A1, Q1 in I. apply splice_in in I. destruct I as [I|I]; [left; exact I|exact (proves_earlier E s T CO v m PV z I)].
  Qed.

  (* one replacement: the subproof of step `step` has been replaced by v *)
  Definition swapped (s : pip) (T : tree) (s' : pip) (T' : tree) : Prop := exists step path u v m, nodeAt T step path u /\ shows db anything u m /\
    proves (envAt E s) (Some T) v m /\ oldKids (envAt E s) T repl st false v /\ pf s' = splice (pf s) step (sz u) (rpn v) /\ putAt v T path T'.
  Definition stepsRes (grow : bool) (s : pip) (T : tree) (r : option (bool * pip)) : Prop :=
    r = None \/ exists s' T', r = Some (true, s') /\ kept E s T s' T' /\ swapped s T s' T' /\ (grow = false -> length (pf s') < length (pf s)) /\
      (grow = true -> exists a z b c, pf s = a ++ z :: b /\ z <> Z.of_nat repl /\ pf s' = c ++ Z.of_nat repl :: b).
  Lemma steps_ok grow s T : complete E s T -> forall k, k <= length (pf s) -> exists r K, (forall fuel, K <= fuel -> minSteps k fuel E repl grow s = Ok r) /\ stepsRes grow s T r.
  Proof.
    intros CO. pose proof (co_pip _ _ _ CO) as PO. induction k as [|step IH]; intros L.
    - exists None, 0. split; [reflexivity|left; reflexivity].
    - destruct (IH ltac:(lia)) as [r0 [K0 [R0 S0]]]. destruct (nodeAt_total T step) as [path [u N]]; [rewrite <- (po_rpn _ _ _ PO); lia|].
      destruct (tg_at E s T CO step path u N) as [m [SU [TG1 TG2]]]. destruct (shows_expr E repl st MO u m SU) as [HD TK].
      assert (NU : exists us0, nth_error (us s) step = Some us0) by (apply nth_is; rewrite (po_us _ _ _ PO); lia). destruct NU as [us0 HU].
      assert (DUM : existsb (fun t => u_mt (f_u E) <? t) m = false).
      { apply Bool.not_true_is_false. intros X. apply existsb_exists in X. destruct X as [t [I X]]. specialize (TK t I). rewrite <- (fo_mt E None FO) in TK. lia. }
      assert (EXM : expression db m) by (split; [exact HD|intros I; apply TK in I; lia]).
      destruct (match_ends E repl st MO s m (ofZ us0)) as [c [K1 R1]].
      { apply (exprn_of E repl st MO). exact EXM. }
      { destruct (co_user _ _ _ CO us0 (nth_error_In _ _ HU)) as [->|X]; [left; reflexivity|right; apply (exprn_of E repl st MO); exact X]. }
      assert (GM : goal (envAt E s) m) by (split; [destruct HD as [c0 [r [-> _]]]; discriminate|exact TK]).
      destruct (rep_ok (envAt E s) T repl st step m true false (rep_at E repl st MO s T CO step m TG2 GM)) as [p [K2 [HP R2]]].
      assert (NZ : exists z, nth_error (pf s) step = Some z) by (apply nth_is; lia). destruct NZ as [z HZ].
      assert (NOTU : z <> zUnk).
      { intros ->. pose proof (codes_nat E s T CO zUnk). rewrite <- (po_rpn _ _ _ PO) in H. specialize (H (nth_error_In _ _ HZ)). unfold zUnk in H. lia. }
      assert (SL : subproofLen db (pf s) step = Ok (sz u)) by (rewrite (po_rpn _ _ _ PO); exact (subLen_node db T step path u (po_tree _ _ _ PO) N)).
      assert (GO : forall fuel, Nat.max K1 K2 <= fuel -> minSteps (S step) fuel E repl grow s =
        if c =? 0 then minSteps step fuel E repl grow s else
        let p' := if negb (z =? Z.of_nat repl)%Z || negb grow then p else [] in
        if length p' =? 0 then minSteps step fuel E repl grow s
        else if existsb (Z.eqb zUnk) p' then minSteps step fuel E repl grow s
        else if (length p' <? sz u) || grow then
              do s1 <- deleteSubProof (f_db E) s step;
              do s2 <- addSubProof s1 p' (step + 1 - sz u);
              do r <- assignKnownSteps fuel (envAt E s2) s2 (step + 1 - sz u) (length p');
              Ok (Some r)
        else minSteps step fuel E repl grow s).
      { intros fuel LF. cbn [minSteps]. rewrite (get_some _ _ _ TG1). cbn [rbind]. rewrite to_of, DUM, (get_some _ _ _ HU). cbn [rbind]. rewrite (R1 fuel) by lia. cbn [rbind]. destruct (c =? 0); [reflexivity|].
        rewrite (get_some _ _ _ HZ). cbn [rbind]. rewrite (R2 fuel) by lia. replace (z =? zUnk)%Z with false by lia.
        destruct (negb (z =? Z.of_nat repl)%Z || negb grow); cbn [rbind]; [|reflexivity]. rewrite SL. cbn [rbind]. reflexivity. }
      assert (SKIP : exists r K, (forall fuel, K <= fuel -> minSteps step fuel E repl grow s = Ok r) /\ stepsRes grow s T r) by eauto.
      set (p' := if negb (z =? Z.of_nat repl)%Z || negb grow then p else []) in *.
      destruct (c =? 0) eqn:C0; [exists r0, (Nat.max K0 (Nat.max K1 K2)); split; [intros fuel LF; rewrite GO by lia; apply R0; lia|exact S0]|].
      destruct (length p' =? 0) eqn:C1; [exists r0, (Nat.max K0 (Nat.max K1 K2)); split; [intros fuel LF; rewrite GO by lia; cbn zeta; rewrite ?C1; apply R0; lia|exact S0]|].
      destruct (existsb (Z.eqb zUnk) p') eqn:C2; [exists r0, (Nat.max K0 (Nat.max K1 K2)); split; [intros fuel LF; rewrite GO by lia; cbn zeta; rewrite ?C1, ?C2; apply R0; lia|exact S0]|].
      destruct ((length p' <? sz u) || grow) eqn:C3; [|exists r0, (Nat.max K0 (Nat.max K1 K2)); split; [intros fuel LF; rewrite GO by lia; cbn zeta; rewrite ?C1, ?C2, ?C3; apply R0; lia|exact S0]].
      assert (ZN : grow = true -> z <> Z.of_nat repl) by (intros ->; unfold p' in C1; rewrite orb_false_r in C1; destruct (z =? Z.of_nat repl)%Z eqn:EZ; [discriminate C1|lia]).
      assert (PP : p' = p) by (unfold p' in *; destruct (negb (z =? Z.of_nat repl)%Z || negb grow); [reflexivity|discriminate C1]). rewrite PP in *. clear PP p'.
      destruct (rep_last _ _ _ _ _ _ _ (R2 K2 (le_n _))) as [->|[q PL]]; [discriminate C1|].
      destruct HP as [->|[v [EP [PV [_ OK]]]]]; [discriminate C1|]. subst p.
      assert (NUV : ~ In zUnk (rpn v)). { intros I. apply Bool.diff_true_false. rewrite <- C2. symmetry. apply existsb_exists. exists zUnk. split; [exact I|apply Z.eqb_refl]. }
      destruct (put_in s T step path u v m CO N SU (PV NUV)) as [s1 [s2 [s3 [T' [K3 [D1 [D2 [D3 [KP [LL [SPL PUT]]]]]]]]]]].
      exists (Some (true, s3)), (Nat.max K3 (Nat.max K1 K2)). split.
      + intros fuel LF. rewrite GO by lia. cbn zeta. rewrite C1, C2, C3, D1. cbn [rbind]. rewrite D2. cbn [rbind]. rewrite D3 by lia. reflexivity.
      + right. exists s3, T'. split; [reflexivity|]. split; [exact KP|]. split; [exists step, path, u, v, m; split; [exact N|]; split; [exact SU|]; split; [exact (PV NUV)|]; split; [exact OK|]; split; [exact SPL|exact PUT]|]. split; [intros ->; lia|]. intros G. destruct (nth_error_split _ _ HZ) as [a [b [EQ LA]]].
        exists a, z, b, (firstn (step + 1 - sz u) (pf s) ++ q). split; [exact EQ|]. split; [exact (ZN G)|]. rewrite SPL. unfold splice. rewrite PL, <- !app_assoc. cbn [app]. do 3 f_equal.
        rewrite EQ. replace (step + 1) with (length a + 1) by lia. rewrite skipn_app, skipn_all2 by lia. replace (length a + 1 - length a) with 1 by lia. reflexivity.
  Qed.

  (* the rounds *)
  Lemma rounds_ok grow start : forall w s T, complete E s T -> exists r K, (forall fuel, K <= fuel -> minRounds w fuel E repl grow start s = r) /\
    (r = Fuel \/ exists s' T', r = Ok s' /\ kept E s T s' T' /\ (grow = false -> s' = s \/ length (pf s') < length (pf s))) /\ (grow = false -> length (pf s) < w -> r <> Fuel) /\
    (grow = true -> digits (Z.of_nat repl) (2 * start) (rev (pf s)) < w -> r <> Fuel).
  Proof.
    induction w as [|w IH]; intros s T CO.
    - exists Fuel, 0. split; [reflexivity|]. split; [left; reflexivity|split; lia].
    - destruct (steps_ok grow s T CO (length (pf s)) (le_n _)) as [r [K [R [->|[s1 [T1 [-> [KP [_ [LT DIG]]]]]]]]]].
      + exists (Ok s), K. split; [intros fuel L; cbn [minRounds]; rewrite (R fuel L); reflexivity|]. split; [|split; discriminate]. right. exists s, T. split; [reflexivity|]. split; [exact (kept_refl s T CO)|auto].
      + destruct (grow && (2 * start <? length (pf s))) eqn:G.
        * exists (Ok s1), K. split; [intros fuel L; cbn [minRounds]; rewrite (R fuel L); cbn [rbind snd]; rewrite G; reflexivity|]. split; [|split; discriminate]. right. exists s1, T1. split; [reflexivity|]. split; [exact KP|]. intros X. right. exact (LT X).
        * destruct (IH s1 T1 (kp_complete _ _ _ _ _ KP)) as [r2 [K2 [R2 [Q [F F2]]]]]. exists r2, (Nat.max K K2). split; [intros fuel L; cbn [minRounds]; rewrite (R fuel) by lia; cbn [rbind snd]; rewrite G; apply R2; lia|].
          split; [|split; [intros X L; apply F; [exact X|specialize (LT X); lia]|]].
          2:{ intros X L. apply F2; [exact X|]. destruct (DIG X) as [a [z [b [c [E1 [NZ E2]]]]]]. rewrite X in G. cbn [andb] in G. pose proof (digits_less (Z.of_nat repl) z NZ (2 * start) (rev b) (rev a) (rev c)) as DL.
              rewrite E2. rewrite E1 in L, G. rewrite rev_app_distr in *. cbn [rev] in *. rewrite app_length in G. cbn [length] in G. rewrite rev_length in DL. rewrite <- !app_assoc in *. cbn [app] in *. specialize (DL ltac:(lia)). lia. } destruct Q as [Q|[s2 [T2 [-> [KP2 LT2]]]]]; [left; exact Q|right]. exists s2, T2. split; [reflexivity|]. split; [exact (kept_trans _ _ _ _ _ _ KP KP2)|].
          intros X. specialize (LT X). destruct (LT2 X) as [->|Y]; right; lia.
  Qed.
  Lemma rounds_more grow start fuel s' : forall w s, minRounds w fuel E repl grow start s = Ok s' -> forall w', w <= w' -> minRounds w' fuel E repl grow start s = Ok s'.
  Proof.
    induction w as [|w IH]; intros s H w' L; [discriminate H|]. destruct w' as [|w']; [lia|]. cbn [minRounds] in *. apply rbind_ok in H. destruct H as [r [R H]]. rewrite R. cbn [rbind].
    destruct r as [x|]; [|exact H]. destruct (grow && (2 * start <? length (pf s))); [exact H|]. apply IH; [exact H|lia].
  Qed.
  Lemma minimize_ok s T : complete E s T -> exists s' T' K, (forall w fuel, length (pf s) < w -> K <= fuel -> minimizeProof w fuel E repl false s = Ok s') /\
    kept E s T s' T' /\ (s' = s \/ length (pf s') < length (pf s)).
  Proof.
    intros CO. destruct (rounds_ok false (length (pf s)) (S (length (pf s))) s T CO) as [r [K [R [Q [F _]]]]]. specialize (F eq_refl (Nat.lt_succ_diag_r _)).
    destruct Q as [Q|[s' [T' [-> [KP LT]]]]]; [destruct (F Q)|]. exists s', T', K. split; [|split; [exact KP|exact (LT eq_refl)]].
    intros w fuel L LF. unfold minimizeProof. apply (rounds_more false _ fuel s' (S (length (pf s)))); [exact (R fuel LF)|lia].
  Qed.
  Lemma may_grow_ok s T : complete E s T -> exists s' T' K, (forall w fuel, 2 ^ (2 * length (pf s)) <= w -> K <= fuel -> minimizeProof w fuel E repl true s = Ok s') /\ kept E s T s' T'.
  Proof.
    intros CO. destruct (rounds_ok true (length (pf s)) (2 ^ (2 * length (pf s))) s T CO) as [r [K [R [Q [_ F]]]]]. specialize (F eq_refl (digits_lt _ _ _)).
    destruct Q as [Q|[s' [T' [-> [KP _]]]]]; [destruct (F Q)|]. exists s', T', K. split; [|exact KP].
    intros w fuel L LF. unfold minimizeProof. apply (rounds_more true _ fuel s' (2 ^ (2 * length (pf s)))); [exact (R fuel LF)|lia].
  Qed.
End Min.

(* the tests on symbols *)
Lemma symbols_ok : forall e isvar sg math m, (forall t, u_con e t = true -> isvar t = false) -> math <> [] -> (forall c r, math = c :: r -> isvar c = false) ->
  MMSpec.subst isvar sg math = m -> symbolsDiffer e math m = Ok false.
Proof.
  intros e isvar sg math m CV NE HD EQ. destruct math as [|s0 sr]; [destruct (NE eq_refl)|]. specialize (HD s0 sr eq_refl). subst m.
  assert (LAST : u_con e (last (s0 :: sr) 0) = true -> last (MMSpec.subst isvar sg (s0 :: sr)) 0 = last (s0 :: sr) 0).
  { intros C. apply CV in C. rewrite (app_removelast_last 0 NE) at 1. set (x := last (s0 :: sr) 0) in *. unfold MMSpec.subst. rewrite flat_map_app. cbn [flat_map]. rewrite C. cbn [app]. rewrite last_last. reflexivity. }
  assert (SUB : MMSpec.subst isvar sg (s0 :: sr) = s0 :: MMSpec.subst isvar sg sr) by (unfold MMSpec.subst; cbn [flat_map]; rewrite HD; reflexivity).
  rewrite SUB in *. unfold symbolsDiffer. rewrite Nat.eqb_refl. cbn [negb]. rewrite andb_false_r.
  destruct (u_con e (last (s0 :: sr) 0)) eqn:CL.
  - rewrite (LAST eq_refl), Nat.eqb_refl. cbn [negb andb]. destruct sr as [|s1 sr]; [reflexivity|]. unfold MMSpec.subst. cbn [flat_map]. destruct (isvar s1) eqn:V1.
    + destruct (sg s1 ++ flat_map (fun t => if isvar t then sg t else [t]) sr) as [|t1 tr]; [reflexivity|]. destruct (u_con e s1) eqn:C1; [rewrite (CV s1 C1) in V1; discriminate V1|]. rewrite andb_false_r. cbn [andb]. rewrite andb_false_r. reflexivity.
    + cbn [app]. rewrite Nat.eqb_refl. cbn [negb andb]. rewrite andb_false_r. reflexivity.
  - rewrite andb_false_r. cbn [andb]. destruct sr as [|s1 sr]; [reflexivity|]. unfold MMSpec.subst. cbn [flat_map]. destruct (isvar s1) eqn:V1.
    + destruct (sg s1 ++ flat_map (fun t => if isvar t then sg t else [t]) sr) as [|t1 tr]; [reflexivity|]. destruct (u_con e s1) eqn:C1; [rewrite (CV s1 C1) in V1; discriminate V1|]. rewrite andb_false_r. cbn [andb]. rewrite andb_false_r. reflexivity.
    + cbn [app]. rewrite Nat.eqb_refl. cbn [negb andb]. rewrite andb_false_r. reflexivity.
Qed.
