(* AkTop.v -- proofs about AkModel: assignKnownSteps, assignKnownSubProofs, plain databases *)
From Coq Require Import ZifyBool ZifyNat.
From Verif Require Import Base.
From Verif Require Import UniModel UniSpec HenModel HenProofs.
From Verif Require Import MMSpec VerModel VerSpec VerProofs ParModel SqModel SqSpec SqProofs SqAttr SqValid PfaModel PfaSpec PfaProofs PfaValid FltModel FltSpec FltProofs AkModel AkSpec AkProofs AkMain.
Open Scope nat_scope.

Lemma copy_ok : forall k pos sr tg, pos + k <= length sr -> pos + k <= length tg -> exists tg', copyTargets k pos sr tg = Ok tg' /\ length tg' = length tg /\
  forall i, nth_error tg' i = if (pos <=? i) && (i <? pos + k) then nth_error sr i else nth_error tg i.
Proof.
  induction k as [|k IH]; intros pos sr tg L1 L2; cbn [copyTargets].
  - exists tg. split; [reflexivity|]. split; [reflexivity|]. intros i. replace ((pos <=? i) && (i <? pos + 0)) with false by lia. reflexivity.
  - destruct (nth_error sr pos) as [x|] eqn:X; [|apply nth_error_None in X; lia]. rewrite (AkMain.get_ok _ _ _ X). cbn [rbind]. rewrite AkMain.set_ok by lia. cbn [rbind].
    destruct (IH (S pos) sr (HenModel.put tg pos x)) as [tg' [C1 [C2 C3]]]; [lia|rewrite AkMain.put_len; lia|]. exists tg'. split; [exact C1|]. rewrite AkMain.put_len in C2. split; [exact C2|].
    intros i. rewrite C3. destruct (Nat.eq_dec i pos) as [->|N].
    + replace ((S pos <=? pos) && (pos <? S pos + k)) with false by lia. replace ((pos <=? pos) && (pos <? pos + S k)) with true by lia. rewrite AkMain.put_same by lia. symmetry. exact X.
    + rewrite AkMain.put_other by lia. replace ((S pos <=? i) && (i <? S pos + k)) with ((pos <=? i) && (i <? pos + S k)) by lia. reflexivity.
Qed.

Section Top.
  Variable E : fenv.
  Variable T0 : option tree.
  Hypothesis FO : fltOk E T0.
  Notation db := (f_db E).

  Lemma shows_nounk ok u : forall x, shows db ok u x -> finished u.
  Proof.
    unfold finished. induction u as [z kids IH] using tree_ind2. intros x H I. cbn [rpn] in I. apply in_app_iff in I.
    destruct (shows_node _ _ _ _ _ H) as [[h [sh [_ [-> [-> _]]]]]|[n [st [xs [sg [_ [-> [_ [_ [_ [K4 _]]]]]]]]]]].
    - destruct I as [[]|[I|[]]]. unfold zUnk in I. lia.
    - destruct I as [I|[I|[]]]; [|unfold zUnk in I; lia]. clear H. induction K4 as [|k y kids ys F1 F2 IHF]; [destruct I|]. inversion IH as [|? ? P Q]; subst. cbn [flat_map] in I. apply in_app_iff in I.
      destruct I as [I|I]; [exact (P y F1 I)|exact (IHF Q I)].
  Qed.

  Lemma aks_ok ok s T k path u x : pipOk db s T -> nodeAt T k path u -> shows db ok u x ->
    exists b s' K, (forall fuel, K <= fuel -> assignKnownSteps fuel E s (k + 1 - length (rpn u)) (length (rpn u)) = Ok (b, s')) /\ assigned db ok u k b s s' /\ pipOk db s' T /\
      ((forall w, ok w -> okValue E w) -> b = true).
  Proof.
    intros PO N SH. pose proof (nodeAt_bound _ _ _ _ N) as B. destruct (node_split _ _ _ _ N) as [a [c [ES LS]]]. destruct PO as [P1 P2 P3 P4 P5 P6 P7].
    assert (SG : isSeg (pf s) (k + 1 - length (rpn u)) (rpn u)).
    { intros i z H. rewrite P2, ES. rewrite nth_error_app2 by lia. rewrite nth_error_app1; [rewrite <- H; f_equal; lia|]. assert (i < length (rpn u)) by (apply nth_error_Some; congruence). lia. }
    assert (LP : length (pf s) = length (rpn T)) by (rewrite P2; reflexivity). pose proof (sz_pos u) as SZ.
    destruct (runs_tree E T0 FO ok (pf s) u x (k + 1 - length (rpn u)) (sr s) [] SH SG ltac:(lia)) as [b [sr' [K [R1 [[S1 S2] [V O]]]]]].
    destruct (copy_ok (length (rpn u) - 1) (k + 1 - length (rpn u)) sr' (tg s) ltac:(lia) ltac:(lia)) as [tg' [C1 [C2 C3]]].
    exists b, (mkPip (pf s) tg' sr' (us s)), K.
    assert (AS : assigned db ok u k b s (mkPip (pf s) tg' sr' (us s))).
    { constructor; cbn [pf us tg sr]; [reflexivity|reflexivity|exact C2|exact S1|intros i Hi; apply S2; lia| |exact V|].
      - intros i Hi. rewrite C3. replace ((k + 1 - length (rpn u) <=? i) && (i <? k + 1 - length (rpn u) + (length (rpn u) - 1))) with false by lia. reflexivity.
      - intros Hb j p v y Nj SHj Lj. rewrite C3. replace ((k + 1 - length (rpn u) <=? k + 1 - length (rpn u) + j) && (k + 1 - length (rpn u) + j <? k + 1 - length (rpn u) + (length (rpn u) - 1))) with true by lia. exact (V Hb j p v y Nj SHj). }
    split; [|split; [exact AS|split; [|exact O]]].
    - intros fuel L. unfold assignKnownSteps. specialize (R1 fuel 0 L). rewrite Nat.add_0_r in R1. rewrite R1.
      assert (OUT : outcome E (pf s) b sr' [k + 1 - length (rpn u) + length (rpn u) - 1] 0 fuel (k + 1 - length (rpn u) + length (rpn u)) = Ok (b, sr')) by (destruct b; reflexivity).
      rewrite OUT. cbn [rbind fst snd]. rewrite C1. reflexivity.
    - constructor; cbn [pf tg sr us]; [exact P1|exact P2|exact P3|lia|lia|exact P6|]. intros i Hi.
      destruct (lt_dec i (k + 1 - length (rpn u))) as [L|L]; [rewrite S2 by lia; exact (P7 i Hi)|]. destruct (lt_dec k i) as [L'|L']; [rewrite S2 by lia; exact (P7 i Hi)|].
      exfalso. apply (shows_nounk ok u x SH). rewrite P2, ES in Hi. rewrite nth_error_app2 in Hi by lia. rewrite nth_error_app1 in Hi by lia. exact (nth_error_In _ _ Hi).
  Qed.

  Lemma no_unk_dec l : {In zUnk l} + {~ In zUnk l}.
  Proof. apply in_dec, Z.eq_dec. Qed.
  Lemma subs_ok ok T s0 : (forall i p v, nodeAt T i p v -> finished v -> exists y, shows db ok v y) ->
    forall n e b s, e <= n -> e <= length (rpn T) -> pipOk db s T -> doneFrom db ok T e b s0 s -> (forall i p v, nodeAt T i p v -> finished v -> e <= i -> e <= i + 1 - length (rpn v)) ->
    exists b' s' K, (forall fuel, K <= fuel -> exists b2, knownSubs n fuel E s e = Ok (b2, s') /\ b' = b && b2) /\ doneFrom db ok T 0 b' s0 s' /\ pipOk db s' T /\ (b = true -> (forall w, ok w -> okValue E w) -> b' = true).
  Proof.
    intros FIN. induction n as [|n IH]; intros e b s Ln Le PO DF INV.
    - replace e with 0 in * by lia. exists b, s, 0. split; [intros fuel _; exists true; cbn; split; [reflexivity|destruct b; reflexivity]|]. split; [exact DF|]. split; [exact PO|auto].
    - destruct e as [|pos].
      { exists b, s, 0. split; [intros fuel _; exists true; cbn; split; [reflexivity|destruct b; reflexivity]|]. split; [exact DF|]. split; [exact PO|auto]. }
      destruct (nodeAt_total T pos) as [path [u N]]; [lia|]. destruct (node_split _ _ _ _ N) as [a [c [ES LS]]]. pose proof (sz_pos u) as SZ.
      assert (SL : subproofLen db (pf s) pos = Ok (length (rpn u))) by (rewrite (po_rpn _ _ _ PO); exact (subLen_node db T pos path u (po_tree _ _ _ PO) N)).
      assert (SEG : firstn (length (rpn u)) (skipn (pos + 1 - length (rpn u)) (pf s)) = rpn u).
      { rewrite (po_rpn _ _ _ PO), ES. replace (pos + 1 - length (rpn u)) with (length a) by lia. rewrite skipn_app, skipn_all, Nat.sub_diag. cbn [skipn app]. rewrite firstn_app, Nat.sub_diag, firstn_all, firstn_O, app_nil_r. reflexivity. }
      destruct (no_unk_dec (rpn u)) as [IU|NU].
      + assert (X : existsb (Z.eqb zUnk) (rpn u) = true) by (apply existsb_exists; exists zUnk; split; [exact IU|apply Z.eqb_refl]).
        destruct (IH pos b s ltac:(lia) ltac:(lia) PO) as [b' [s' [K [R [D [P O]]]]]].
        * destruct DF as [D1 D2 D3 D4 D5 D6 D7]. constructor; [exact D1|exact D2|intros i Hi; apply D3; lia|exact D4|exact D5| |].
          -- intros Hb i p v y Hi Nv Sv. destruct (Nat.eq_dec i pos) as [->|NE]; [|apply (D6 Hb i p v y ltac:(lia) Nv Sv)]. destruct (nodeAt_unique _ _ _ _ Nv _ _ N) as [_ ->]. destruct (shows_nounk ok u y Sv IU).
          -- intros Hb i p v y i' p' v' Hi Nv Sv. destruct (Nat.eq_dec i pos) as [->|NE]; [|apply (D7 Hb i p v y i' p' v' ltac:(lia) Nv Sv)]. destruct (nodeAt_unique _ _ _ _ Nv _ _ N) as [_ ->]. destruct (shows_nounk ok u y Sv IU).
        * intros i p v Nv Fv Hi. destruct (Nat.eq_dec i pos) as [->|NE]; [|pose proof (INV i p v Nv Fv ltac:(lia)); lia]. destruct (nodeAt_unique _ _ _ _ Nv _ _ N) as [_ ->]. destruct (Fv IU).
        * exists b', s', K. split; [|auto]. intros fuel L. cbn [knownSubs]. rewrite SL. cbn [rbind]. rewrite SEG, X. exact (R fuel L).
      + assert (X : existsb (Z.eqb zUnk) (rpn u) = false) by (apply Bool.not_true_is_false; intros X; apply existsb_exists in X; destruct X as [z [I Z]]; apply Z.eqb_eq in Z; subst z; exact (NU I)).
        destruct (FIN pos path u N NU) as [x SH]. destruct (aks_ok ok s T pos path u x PO N SH) as [b1 [s1 [K1 [R1 [AS [PO1 O1]]]]]].
        destruct DF as [D1 D2 D3 D4 D5 D6 D7]. destruct AS as [A1 A2 A3 A4 A5 A6 A7 A8].
        assert (IN : forall i p v, nodeAt T i p v -> pos + 1 - length (rpn u) <= i <= pos -> finished v -> exists p', nodeAt u (i - (pos + 1 - length (rpn u))) p' v) by (intros i p v Nv R Fv; destruct (nodeAt_inside _ _ _ _ _ _ _ N Nv R) as [p' [_ Q]]; eauto).
        assert (NOTIN : forall i p v, nodeAt T i p v -> ~ finished v -> i < pos + 1 - length (rpn u) \/ pos < i).
        { intros i p v Nv Fv. destruct (lt_dec i (pos + 1 - length (rpn u))); [auto|]. destruct (lt_dec pos i); [auto|]. exfalso. apply Fv. intros I. apply NU.
          destruct (nodeAt_inside _ _ _ _ _ _ _ N Nv ltac:(lia)) as [p' [_ Q]]. destruct (node_split _ _ _ _ Q) as [a' [c' [E' _]]]. rewrite E'. apply in_app_iff. right. apply in_app_iff. left. exact I. }
        destruct (IH (pos + 1 - length (rpn u)) (b && b1) s1 ltac:(lia) ltac:(lia) PO1) as [b' [s' [K [R [D [P O]]]]]].
        * constructor; [congruence|congruence| | | | |].
          -- intros i Hi. rewrite A5, A6 by lia. apply D3. lia.
          -- intros i p v Nv Fv. pose proof (NOTIN i p v Nv Fv). rewrite A5, A6 by lia. exact (D4 i p v Nv Fv).
          -- intros i p v Nv Fv MX. destruct (lt_dec i (pos + 1 - length (rpn u))) as [L|L]; [rewrite A6 by lia; exact (D5 i p v Nv Fv MX)|].
             destruct (le_dec pos i) as [L'|L']; [rewrite A6 by lia; exact (D5 i p v Nv Fv MX)|]. pose proof (MX pos path u N NU ltac:(lia)). lia.
          -- intros Hb i p v y Hi Nv Sv. apply andb_true_iff in Hb. destruct Hb as [Hb Hb1]. destruct (lt_dec pos i) as [L|L].
             ++ rewrite A5 by lia. apply (D6 Hb i p v y ltac:(lia) Nv Sv).
             ++ destruct (IN i p v Nv ltac:(lia) (shows_nounk ok v y Sv)) as [p' Q]. pose proof (A7 Hb1 _ _ _ _ Q Sv) as W. replace (pos + 1 - length (rpn u) + (i - (pos + 1 - length (rpn u)))) with i in W by lia. exact W.
          -- intros Hb i p v y i' p' v' Hi Nv Sv Nv' Fv' RG. apply andb_true_iff in Hb. destruct Hb as [Hb Hb1]. destruct (lt_dec i pos) as [L|L].
             ++ destruct (IN i p v Nv ltac:(lia) (shows_nounk ok v y Sv)) as [p2 Q]. pose proof (A8 Hb1 _ _ _ _ Q Sv ltac:(lia)) as W. replace (pos + 1 - length (rpn u) + (i - (pos + 1 - length (rpn u)))) with i in W by lia. exact W.
             ++ rewrite A6 by lia. destruct (Nat.eq_dec i pos) as [->|NE]; [|apply (D7 Hb i p v y i' p' v' ltac:(lia) Nv Sv Nv' Fv' RG)]. exfalso. pose proof (INV i' p' v' Nv' Fv' ltac:(lia)). lia.
        * intros i p v Nv Fv Hi. destruct (lt_dec pos i) as [L|L]; [pose proof (INV i p v Nv Fv ltac:(lia)); lia|]. destruct (IN i p v Nv ltac:(lia) Fv) as [p' Q]. destruct (node_split _ _ _ _ Q) as [a' [c' [_ L3]]]. lia.
        * exists b', s', (Nat.max K1 K). split; [|split; [exact D|split; [exact P|]]].
          -- intros fuel L. destruct (R fuel ltac:(lia)) as [b2 [R2 EB]]. exists (b1 && b2). split; [|rewrite EB; symmetry; apply andb_assoc].
             cbn [knownSubs]. rewrite SL. cbn [rbind]. rewrite SEG, X. rewrite (R1 fuel) by lia. cbn [rbind fst snd]. rewrite R2. reflexivity.
          -- intros Hb OV. apply O; [rewrite Hb, (O1 OV); reflexivity|exact OV].
  Qed.
  Lemma aksp_ok ok T s : (forall i p v, nodeAt T i p v -> finished v -> exists y, shows db ok v y) -> pipOk db s T ->
    exists b s' K, (forall fuel, K <= fuel -> assignKnownSubProofs fuel E s = Ok (b, s')) /\ doneFrom db ok T 0 b s s' /\ pipOk db s' T /\ ((forall w, ok w -> okValue E w) -> b = true).
  Proof.
    intros FIN PO. assert (L : length (pf s) = length (rpn T)) by (rewrite (po_rpn _ _ _ PO); reflexivity).
    destruct (subs_ok ok T s FIN (length (pf s)) (length (pf s)) true s (le_n _) ltac:(lia) PO) as [b [s' [K [R [D [P O]]]]]].
    - constructor; try reflexivity; [auto|auto| |].
      + intros _ i p v y Hi Nv. apply nodeAt_bound in Nv. lia.
      + intros _ i p v y i' p' v' Hi Nv. apply nodeAt_bound in Nv. lia.
    - intros i p v Nv _ Hi. apply nodeAt_bound in Nv. lia.
    - exists b, s', K. split; [|split; [exact D|split; [exact P|exact (O eq_refl)]]]. intros fuel Lf. destruct (R fuel Lf) as [b2 [R2 ->]]. exact R2.
  Qed.

  (* ---------- plain databases ---------- *)
  Hypothesis PLAIN : plainDb E.
  Let NAMES := pd_names E PLAIN.
  Notation iv := (db_isvar (f_db E)).
  Section Bal.
    Variables op cl : nat -> bool.
    Variable sg : nat -> list nat.
    Hypothesis NV : forall v, iv v = true -> op v = false /\ cl v = false.
    Lemma count_cons f t l : count f (t :: l) = (if f t then 1 else 0) + count f l.
    Proof. unfold count. cbn [filter]. destruct (f t); reflexivity. Qed.
    Lemma count_app f a b : count f (a ++ b) = count f a + count f b.
    Proof. unfold count. rewrite filter_app, app_length. reflexivity. Qed.
    Lemma bal_sub : forall w d, (forall v, In v w -> iv v = true -> UniSpec.balanced op cl (sg v)) -> (forall k, count cl (firstn k w) <= d + count op (firstn k w)) ->
      (forall k, count cl (firstn k (MMSpec.subst iv sg w)) <= d + count op (firstn k (MMSpec.subst iv sg w))) /\
      count cl (MMSpec.subst iv sg w) + count op w = count op (MMSpec.subst iv sg w) + count cl w.
    Proof.
      induction w as [|t w IH]; intros d B H.
      - split; [intros k; cbn [MMSpec.subst flat_map]; rewrite firstn_nil; cbn; lia|reflexivity].
      - assert (B' : forall v, In v w -> iv v = true -> UniSpec.balanced op cl (sg v)) by (intros v I; apply B; right; exact I).
        change (MMSpec.subst iv sg (t :: w)) with ((if iv t then sg t else [t]) ++ MMSpec.subst iv sg w). destruct (iv t) eqn:V.
        + destruct (NV t V) as [N1 N2]. destruct (B t (or_introl eq_refl) V) as [B1 B2]. destruct (IH d B') as [I1 I2].
          { intros k. specialize (H (S k)). cbn [firstn] in H. rewrite !count_cons, N1, N2 in H. exact H. }
          split.
          * intros k. rewrite firstn_app, !count_app. specialize (I1 (k - length (sg t))). destruct (le_dec (length (sg t)) k) as [L|L]; [rewrite (firstn_all2 (sg t)) by lia; lia|].
            replace (k - length (sg t)) with 0 by lia. cbn [firstn]. specialize (B1 k). unfold count at 2 4. cbn [filter length]. lia.
          * rewrite !count_app, !count_cons, N1, N2. lia.
        + cbn [app].
          assert (H1 := H 1). cbn [firstn] in H1. rewrite !count_cons in H1. unfold count at 1 2 in H1. cbn [filter length] in H1.
          destruct (IH (d + (if op t then 1 else 0) - (if cl t then 1 else 0)) B') as [I1 I2].
          { intros k. specialize (H (S k)). cbn [firstn] in H. rewrite !count_cons in H. destruct (op t), (cl t); lia. }
          split; [|rewrite !count_cons; destruct (op t), (cl t); lia].
          intros k. destruct k as [|k]; [cbn; lia|]. cbn [firstn]. rewrite !count_cons. specialize (I1 k). destruct (op t), (cl t); lia.
    Qed.
    Lemma bal_subst w : (forall v, In v w -> iv v = true -> UniSpec.balanced op cl (sg v)) -> UniSpec.balanced op cl w -> UniSpec.balanced op cl (MMSpec.subst iv sg w).
    Proof.
      intros B [W1 W2]. destruct (bal_sub w 0 B) as [H1 H2]; [intros k; specialize (W1 k); lia|]. split; [intros k; specialize (H1 k); lia|lia].
    Qed.
  End Bal.
  Lemma subst_ne sg w : (forall v, In v w -> iv v = true -> 1 <= length (sg v)) -> length w <= length (MMSpec.subst iv sg w).
  Proof.
    induction w as [|t w IH]; intros H; [cbn; lia|]. change (MMSpec.subst iv sg (t :: w)) with ((if iv t then sg t else [t]) ++ MMSpec.subst iv sg w).
    rewrite app_length. specialize (IH ltac:(intros v I; apply H; right; exact I)). cbn [length]. destruct (iv t) eqn:V; [specialize (H t (or_introl eq_refl) V)|cbn [length]]; lia.
  Qed.
  Lemma ok_subst sg w : (forall v, In v w -> iv v = true -> okValue E (sg v)) -> okValue E w -> okValue E (MMSpec.subst iv sg w).
  Proof.
    intros H [L [P1 P2 P3 P4]]. pose proof (fo_min E T0 FO) as MIN. split.
    - destruct (le_dec 1 (u_min (f_u E))) as [M|M]; [|lia]. pose proof (subst_ne sg w ltac:(intros v I V; pose proof (proj1 (H v I V)); lia)). lia.
    - constructor.
      + intros AX o c I. apply bal_subst.
        * intros v V. unfold named. destruct (NAMES v o c V I) as [N1 N2]. destruct (list_eq_dec Nat.eq_dec (u_name (f_u E) v) o); [contradiction|]. destruct (list_eq_dec Nat.eq_dec (u_name (f_u E) v) c); [contradiction|]. auto.
        * intros v Iv V. exact (pl_brackets _ _ _ _ _ (proj2 (H v Iv V)) AX o c I).
        * exact (P1 AX o c I).
      + intros M c r EQ CC. destruct w as [|t w]; [discriminate EQ|]. change (MMSpec.subst iv sg (t :: w)) with ((if iv t then sg t else [t]) ++ MMSpec.subst iv sg w) in EQ. destruct (iv t) eqn:V.
        * destruct (H t (or_introl eq_refl) V) as [L1 PV]. destruct (sg t) as [|c' r'] eqn:ES; [cbn in L1; lia|]. cbn [app] in EQ. injection EQ as -> _. exact (pl_first _ _ _ _ _ PV M c r' eq_refl CC).
        * cbn [app] in EQ. injection EQ as -> _. exact (P2 M c w eq_refl CC).
      + intros M c EQ CC. pose proof (subst_ne sg w ltac:(intros v I V; pose proof (proj1 (H v I V)); lia)) as LE. rewrite EQ in LE. cbn [length] in LE.
        destruct w as [|t [|t' w]]; [discriminate EQ| |cbn [length] in LE; lia]. unfold MMSpec.subst in EQ. cbn [flat_map] in EQ. rewrite app_nil_r in EQ. destruct (iv t) eqn:V.
        * exact (pl_one _ _ _ _ _ (proj2 (H t (or_introl eq_refl) V)) M c EQ CC).
        * injection EQ as ->. exact (P3 M c eq_refl CC).
      + intros M r c EQ CC. destruct w as [|t0 w0] eqn:EW; [destruct r; discriminate EQ|]. rewrite <- EW in *. assert (NE : w <> []) by congruence.
        pose proof (app_removelast_last 0 NE) as SP. set (t := last w 0) in *. rewrite SP, subst_last in EQ. assert (IT : In t w) by (rewrite SP; apply in_app_iff; right; left; reflexivity). destruct (iv t) eqn:V.
        * destruct (H t IT V) as [L1 PV]. assert (NS : sg t <> []) by (intros X; rewrite X in L1; cbn in L1; lia). pose proof (app_removelast_last 0 NS) as SS. rewrite SS, app_assoc in EQ.
          apply app_inj_tail in EQ. destruct EQ as [_ EQ]. rewrite EQ in SS. exact (pl_last _ _ _ _ _ PV M _ c SS CC).
        * apply app_inj_tail in EQ. destruct EQ as [_ EQ]. rewrite EQ in SP. exact (P4 M _ c SP CC).
  Qed.
  Lemma plain_shows u : forall x, shows db anything u x -> shows db (okValue E) u x /\ exists c w, x = c :: w /\ okValue E w.
  Proof.
    pose proof (fo_wf E T0 FO) as WD. induction u as [z kids IH] using tree_ind2. intros x H.
    destruct (shows_node _ _ _ _ _ H) as [[h [sh [NZ [-> [-> [K1 [K2 ->]]]]]]]|[n [st [xs [sg [NZ [-> [K1 [K2 [K3 [K4 [K5 [K6 ->]]]]]]]]]]]]].
    - split; [exact (sh_hyp db (okValue E) h sh NZ K1 K2)|]. destruct (wf_head db WD h sh K1 (or_introl K2)) as [c [r [EQ _]]]. exists c, r. split; [exact EQ|]. exact (pd_expr E PLAIN h sh c r K1 (or_introl K2) EQ).
    - assert (KID : forall x, In x xs -> exists c w, x = c :: w /\ okValue E w).
      { clear - K4 IH. intros x I. induction K4 as [|k y kids ys F1 F2 IHF]; [destruct I|]. inversion IH as [|? ? P Q]; subst. destruct I as [<-|I]; [exact (proj2 (P y F1))|exact (IHF Q I)]. }
      assert (F : Forall2 (shows db (okValue E)) kids xs).
      { clear - K4 IH. induction K4 as [|k y kids ys F1 F2 IHF]; [constructor|]. inversion IH as [|? ? P Q]; subst. constructor; [exact (proj1 (P y F1))|exact (IHF Q)]. }
      assert (OV : forall v, In v (s_reqVars st) -> okValue E (sg v)).
      { intros v I. destruct (K3 v I) as [h [sh [c [Q1 [Q2 [Q3 Q4]]]]]]. assert (V : iv v = true) by (apply (wf_reqVars db WD n st K1 K2 v), I).
        assert (X : In (c :: sg v) xs).
        { unfold unifier in K5. clear - K5 Q1 Q2 Q3 Q4 V. induction K5 as [|h0 e0 l es [sh0 [U1 U2]] U IH]; [destruct Q1|]. destruct Q1 as [->|Q1]; [|right; exact (IH Q1)]. left. unfold stmtAt in *. rewrite Q2 in U1. injection U1 as <-.
          rewrite <- U2, Q3. unfold MMSpec.subst. cbn [flat_map]. rewrite Q4, V, app_nil_r. reflexivity. }
        destruct (KID _ X) as [c' [w [EQ OW]]]. injection EQ as _ ->. exact OW. }
      split; [exact (sh_use db (okValue E) n st kids xs sg NZ K1 K2 K3 F K5 OV)|]. destruct (wf_head db WD n st K1 (or_intror K2)) as [c [r [EQ NC]]]. exists c, (MMSpec.subst iv sg r).
      split; [rewrite EQ; unfold MMSpec.subst; cbn [flat_map]; rewrite NC; reflexivity|]. apply ok_subst; [|exact (pd_expr E PLAIN n st c r K1 (or_intror K2) EQ)].
      intros v I V. apply OV. apply (wf_vars_math db WD n st K1 K2 v); [rewrite EQ; right; exact I|exact V].
  Qed.
End Top.

Lemma aks_plain : forall E T0 s T k path u x, fltOk E T0 -> plainDb E -> pipOk (f_db E) s T -> nodeAt T k path u -> shows (f_db E) anything u x ->
  exists s' K, (forall fuel, K <= fuel -> assignKnownSteps fuel E s (k + 1 - length (rpn u)) (length (rpn u)) = Ok (true, s')) /\
    (forall j p v y, nodeAt u j p v -> shows (f_db E) anything v y -> nth_error (sr s') (k + 1 - length (rpn u) + j) = Some (toZ y)).
Proof.
  intros E T0 s T k path u x FO PL PO N SH. destruct (aks_ok E T0 FO (okValue E) s T k path u x PO N (proj1 (plain_shows E T0 FO PL u x SH))) as [b [s' [K [R [A [_ B]]]]]].
  rewrite (B (fun w H => H)) in *. exists s', K. split; [exact R|]. intros j p v y Nj Sj. exact (as_src _ _ _ _ _ _ _ A eq_refl j p v y Nj (proj1 (plain_shows E T0 FO PL v y Sj))).
Qed.

Lemma shows_tval db stp u : forall e, wf_db db -> (forall st, stmtAt db 0 st -> ~ isHyp st /\ ~ isAssertion st) -> (forall n st, stmtAt db n st -> isAssertion st -> floated db st) ->
  wfTree db u -> legalCodes (rpn u) -> noRefs (rpn u) -> tval db stp u e -> shows db anything u e.
Proof.
  induction u as [z kids IH] using tree_ind2. intros e WD Z0 FL W LC NR V. assert (W' := proj2 (wf_node _ _ _ W)). rewrite Forall_forall in W'.
  destruct (tval_inv db stp z kids e W LC NR V) as [P [st [S [[K1 [K2 ->]]|[K1 [es [sg [K2 [K3 [_ ->]]]]]]]]]].
  - subst kids. rewrite <- (Z2Nat.id z P). apply sh_hyp; [|exact S|exact K1]. intros X. rewrite X in S. exact (proj1 (Z0 st S) K1).
  - rewrite <- (Z2Nat.id z P). apply (sh_use db anything (Z.to_nat z) st kids es sg); [|exact S|exact K1|exact (FL _ _ S K1)| |exact K3|intros v _; exact I].
    + intros X. rewrite X in S. exact (proj2 (Z0 st S) K1).
    + assert (SUB : forall k, In k kids -> wfTree db k /\ legalCodes (rpn k) /\ noRefs (rpn k)).
      { intros k I. split; [exact (W' k I)|]. split; intros y J; [apply LC|apply NR]; cbn [rpn]; apply in_app_iff; left; apply in_flat_map; exists k; auto. }
      clear - IH K2 SUB WD Z0 FL. induction K2 as [|k y kids ys F1 F2 IHF]; [constructor|]. inversion IH as [|? ? P Q]; subst. constructor; [|apply IHF; [exact Q|intros k' I; apply SUB; right; exact I]].
      destruct (SUB k (or_introl eq_refl)) as [S1 [S2 S3]]. exact (P y WD Z0 FL S1 S2 S3 F1).
Qed.
