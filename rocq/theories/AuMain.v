(* AuMain.v -- proofs about AuModel: what autoUnify() ends with *)
From Coq Require Import ZifyBool ZifyNat.
From Verif Require Import Base.
From Verif Require Import UniModel UniSpec UniProofs HenModel HenProofs HenMore.
From Verif Require Import MMSpec VerModel VerSpec ParModel SqModel SqSpec SqProofs SqAttr PfaModel PfaSpec PfaProofs FltModel FltSpec RepSpec AkModel AkSpec AkProofs AkMain MinSpec AuModel AuSpec AuProofs.
Open Scope nat_scope.

Lemma fits_len db T : forall a, fits db T a -> length a = sz T.
Proof.
  induction T as [z kids IH] using tree_ind2. intros a H. inversion H as [t|h sh t S HY|n st ks anns t sg S AS F2 G]; subst; [reflexivity|reflexivity|].
  cbn [rpn]. rewrite !app_length. cbn [length]. f_equal. clear G H. induction F2 as [|k x kk xx A B IHF]; [reflexivity|]. inversion IH; subst. cbn [concat flat_map]. rewrite !app_length, IHF by assumption. f_equal. auto.
Qed.
Lemma put_inv v z ks1 c ks2 path T' : putAt v (Node z (ks1 ++ c :: ks2)) ((z, length ks1) :: path) T' -> exists k', putAt v c path k' /\ T' = Node z (ks1 ++ k' :: ks2).
Proof.
  remember (Node z (ks1 ++ c :: ks2)) as T eqn:ET. remember ((z, length ks1) :: path) as q eqn:EQ. intros P. destruct P as [t|z' l1 kk l2 path' k' P]; [discriminate EQ|].
  injection ET as -> ET. injection EQ as EL ->. assert (X : l1 = ks1 /\ kk = c /\ l2 = ks2).
  { clear -ET EL. revert l1 EL ET. induction ks1 as [|b ks1 IHk]; intros [|b' l1] EL ET; try discriminate EL; cbn in *.
    - injection ET as -> ->. auto.
    - injection ET as -> ET. injection EL as EL. destruct (IHk l1 EL ET) as [-> [-> ->]]. auto. }
  destruct X as [-> [-> ->]]. exists k'. auto.
Qed.
Lemma fits_node db T k path u : nodeAt T k path u -> forall a, fits db T a -> exists a1 au a2, a = a1 ++ au ++ a2 /\ length a1 = k + 1 - sz u /\ fits db u au /\
  forall v av T', fits db v av -> goalOf av = goalOf au -> putAt v T path T' -> fits db T' (a1 ++ av ++ a2) /\ goalOf (a1 ++ av ++ a2) = goalOf a.
Proof.
  induction 1 as [T|z kids j c k path u N Q IH]; intros a F.
  - exists [], a, []. rewrite app_nil_r. split; [reflexivity|]. split; [pose proof (sz_pos T); cbn; lia|]. split; [exact F|]. intros v av T' FV G P. inversion P; subst. rewrite app_nil_r. auto.
  - inversion F as [t|h sh t S HY|n st ks anns t sg S AS F2 G]; subst; [destruct j; discriminate N|destruct j; discriminate N|].
    apply nth_error_split in N. destruct N as [ks1 [ks2 [-> L]]]. subst j. apply Forall2_app_inv_l in F2. destruct F2 as [x1 [x2 [FA [FB ->]]]]. inversion FB as [|? ac ? x3 FC FD]; subst.
    destruct (IH ac FC) as [a1 [au [a2 [-> [LA [FU REP]]]]]].
    assert (LX : length (concat x1) = length (flat_map rpn ks1)).
    { clear -FA. induction FA as [|k x kk xx A B IHF]; [reflexivity|]. cbn [concat flat_map]. rewrite !app_length, IHF, (fits_len db k x A). reflexivity. }
    exists (concat x1 ++ a1), au, (a2 ++ concat x3 ++ [(t, toZ (MMSpec.subst (db_isvar db) sg (s_math st)))]).
    split; [rewrite concat_app; cbn [concat]; rewrite <- !app_assoc; reflexivity|].
    split. { rewrite app_length, LA, LX. destruct (node_split _ _ _ _ Q) as [sa [sb [_ SL]]]. replace (length ks1) with (length ks1 + 0) by lia. rewrite firstn_app_2. cbn [firstn]. rewrite app_nil_r. lia. }
    split; [exact FU|]. intros v av T' FV GV P. destruct (put_inv _ _ _ _ _ _ _ P) as [k' [P1 ->]]. destruct (REP v av k' FV GV P1) as [R1 R2]. split.
    + replace ((concat x1 ++ a1) ++ av ++ a2 ++ concat x3 ++ [(t, toZ (MMSpec.subst (db_isvar db) sg (s_math st)))])
        with (concat (x1 ++ (a1 ++ av ++ a2) :: x3) ++ [(t, toZ (MMSpec.subst (db_isvar db) sg (s_math st)))]) by (rewrite concat_app; cbn [concat]; rewrite <- !app_assoc; reflexivity).
      apply (ft_use db n st _ _ t sg S AS); [apply Forall2_app; [exact FA|constructor; [exact R1|exact FD]]|].
      apply Forall2_app_inv_r in G. destruct G as [h1 [h2 [G1 [G2 HE]]]]. inversion G2 as [|hh ? h3 ? G3 G4]; subst. rewrite HE. apply Forall2_app; [exact G1|]. constructor; [|exact G4]. rewrite R2. exact G3.
    + unfold goalOf. rewrite !app_assoc. rewrite !last_last. reflexivity.
Qed.

Section Truth.
  Variable E : fenv.
  Hypothesis AO : auOk E.
  Let FO := ao_flt E AO.
  Notation db := (f_db E).
  Notation mt := (u_mt (f_u E)).
  Lemma fits_shows : forall T a, fits db T a -> (forall p, In p a -> snd p <> [] -> snd p = fst p) -> ~ In zUnk (rpn T) -> exists y, shows db anything T y /\ goalOf a = toZ y.
  Proof.
    induction T as [z kids IH] using tree_ind2. intros a F EQ NU. inversion F as [t|h sh t S HY|n st ks anns t sg S AS F2 G]; subst.
    - exfalso. apply NU. left. reflexivity.
    - exists (s_math sh). destruct (wf_head db (fo_wf E None FO) h sh S (or_introl HY)) as [c [r [MM _]]]. split.
      + apply sh_hyp; [|exact S|exact HY]. intros ->. exact (proj1 (ao_zero E AO sh S) HY).
      + unfold goalOf. cbn [last]. specialize (EQ _ (or_introl eq_refl)). cbn [fst snd] in EQ. rewrite EQ; [reflexivity|]. rewrite MM. discriminate.
    - exists (MMSpec.subst (db_isvar db) sg (s_math st)). assert (GO : goalOf (concat anns ++ [(t, toZ (MMSpec.subst (db_isvar db) sg (s_math st)))]) = toZ (MMSpec.subst (db_isvar db) sg (s_math st))).
      { unfold goalOf. rewrite last_last. destruct (wf_head db (fo_wf E None FO) n st S (or_intror AS)) as [c [r [MM V]]].
        specialize (EQ (t, toZ (MMSpec.subst (db_isvar db) sg (s_math st)))). cbn [fst snd] in *. symmetry. apply EQ; [apply in_app_iff; right; left; reflexivity|]. rewrite MM. unfold MMSpec.subst. cbn [flat_map]. rewrite V. discriminate. }
      split; [|exact GO].
      assert (K : exists xs, Forall2 (shows db anything) kids xs /\ Forall2 (fun a y => goalOf a = toZ y) anns xs).
      { assert (EQ' : forall p, In p (concat anns) -> snd p <> [] -> snd p = fst p) by (intros p I; apply EQ; apply in_app_iff; left; exact I).
        assert (NU' : ~ In zUnk (flat_map rpn kids)) by (intros I; apply NU; cbn [rpn]; apply in_app_iff; left; exact I).
        clear -IH F2 EQ' NU'. induction F2 as [|k x kk xx A B IHF]; [exists []; split; constructor|]. cbn [concat flat_map] in *. inversion IH as [|? ? I1 I2]; subst.
        destruct (I1 x A) as [y [Y1 Y2]]; [intros p I; apply EQ'; apply in_app_iff; left; exact I|intros I; apply NU'; apply in_app_iff; left; exact I|].
        destruct (IHF I2) as [ys [Z1 Z2]]; [intros p I; apply EQ'; apply in_app_iff; right; exact I|intros I; apply NU'; apply in_app_iff; right; exact I|].
        exists (y :: ys). split; constructor; assumption. }
      destruct K as [xs [K1 K2]]. apply (sh_use db anything n st kids xs sg); [|exact S|exact AS|exact (ao_floated E AO n st S AS)|exact K1| |intros; exact I].
      + intros ->. exact (proj2 (ao_zero E AO st S) AS).
      + clear -G K2. unfold VerSpec.unifier. revert xs K2. induction G as [|h a hs aa [sh [SH GO]] G IHG]; intros xs K2; inversion K2; subst; constructor; [|apply IHG; assumption].
        exists sh. split; [exact SH|]. apply toZ_inj. congruence.
  Qed.
  Lemma unified_pairs s : length (tg s) = length (us s) -> unified3 s -> forall p, In p (combine (tg s) (sr s)) -> snd p <> [] -> snd p = fst p.
  Proof.
    intros L U p I N. apply In_nth_error in I. destruct I as [k H].
    assert (X : nth_error (tg s) k = Some (fst p) /\ nth_error (sr s) k = Some (snd p)).
    { revert H. generalize (sr s) as b, (tg s) as a. clear. intros b a. revert k b. induction a as [|x a IH]; intros [|k] [|y b] H; try discriminate H; cbn in *; [injection H as <-; auto|apply IH; exact H]. }
    destruct X as [X Y]. destruct (nth_error (us s) k) as [u|] eqn:Q.
    - exact (proj1 (U k _ _ _ X Y Q) N).
    - apply nth_error_None in Q. assert (k < length (tg s)) by (apply nth_error_Some; congruence). lia.
  Qed.
  Lemma last_combine {A B} (a : list A) (b : list B) x y d : length a = length b -> combine (a ++ [x]) (b ++ [y]) = combine a b ++ [(x, y)] /\ last (combine a b ++ [(x, y)]) d = (x, y).
  Proof. intros L. split; [|apply last_last]. revert b L. induction a as [|c a IH]; intros [|c' b] L; try discriminate L; [reflexivity|]. cbn. rewrite IH by (injection L as L; exact L). reflexivity. Qed.
  Lemma all_unified m s T : linked E m s T -> unified3 s -> ~ In zUnk (pf s) -> complete E s T /\ shows db anything T m.
  Proof.
    intros LK U NU. pose proof LK as [PO FI GO HT HR HU]. rewrite (po_rpn _ _ _ PO) in NU.
    pose proof (unified_pairs s ltac:(rewrite (po_tg _ _ _ PO), (po_us _ _ _ PO); reflexivity) U) as EQ. split.
    - constructor; [exact PO| |].
      + intros k path u N. destruct (fits_node db T k path u N _ FI) as [a1 [au [a2 [EA [LA [FU _]]]]]].
        assert (NU' : ~ In zUnk (rpn u)). { destruct (node_split _ _ _ _ N) as [x [y [EX _]]]. intros I. apply NU. rewrite EX, !in_app_iff. auto. }
        destruct (fits_shows u au FU) as [y [Y1 Y2]]; [intros p I; apply EQ; rewrite EA, !in_app_iff; auto|exact NU'|]. exists y. split; [exact Y1|].
        assert (X : nth_error (combine (tg s) (sr s)) k = Some (last au ([], []))).
        { rewrite EA. pose proof (fits_len db u au FU) as LU. pose proof (sz_pos u). destruct (node_split _ _ _ _ N) as [? [? [_ SL]]].
          rewrite nth_error_app2 by lia. destruct au as [|p au _] using rev_ind; [cbn in LU; lia|]. rewrite last_last. rewrite app_length in LU. cbn [length] in LU.
          rewrite <- app_assoc. rewrite nth_error_app2 by lia. replace (k - length a1 - length au) with 0 by lia. reflexivity. }
        unfold goalOf in Y2. revert X Y2. generalize (last au ([], [])) as p. generalize (sr s) as b, (tg s) as a, k. clear. intros b a k0 p. revert k0 b. induction a as [|c a IH]; intros [|k] [|c' b] X Y; try discriminate X; cbn in *; [injection X as <-; cbn in Y; congruence|]. exact (IH k b X Y).
      + intros x I. apply In_nth_error in I. destruct I as [k Q]. assert (L : k < length (us s)) by (apply nth_error_Some; congruence). rewrite (po_us _ _ _ PO) in L.
        destruct (nth_error (tg s) k) as [t|] eqn:QT; [|apply nth_error_None in QT; rewrite (po_tg _ _ _ PO) in QT; lia].
        destruct (nth_error (sr s) k) as [r|] eqn:QR; [|apply nth_error_None in QR; rewrite (po_sr _ _ _ PO) in QR; lia].
        destruct x as [|x0 x]; [left; reflexivity|]. right. pose proof (proj2 (U k _ _ _ QT QR Q) ltac:(discriminate)) as X. destruct (HT t (nth_error_In _ _ QT)) as [y [Y1 Y2]].
        rewrite X, Y1, to_of. exact Y2.
    - destruct (fits_shows T _ FI EQ NU) as [y [Y1 Y2]]. rewrite GO in Y2. apply toZ_inj in Y2. subst y. exact Y1.
  Qed.

  (* autoUnify *)
  Lemma autoUnify_ok m s T congrats : (forall t, In t m -> t < db_sep db) -> linked E m s T -> exists s' ch pr f K,
    (forall w fuel, K <= w -> K <= fuel -> autoUnify w fuel E congrats s = Ok (s', ch, pr)) /\ linked E m s' T /\ substituted mt f s s' /\
    (ch = false -> s' = s) /\ (pr = true -> congrats = true /\ unified3 s' /\ complete E s' T /\ shows db anything T m).
  Proof.
    intros GM LK. pose proof (linked_shape E m s T LK) as SH.
    destruct (rounds_ok E FO (S (length (unknowns E s))) s false false (Nat.lt_succ_diag_r _) SH) as [s' [c [n [K [R [[[f F] [C1 C2]] A]]]]]].
    exists s', c, (congrats && negb n && negb (existsb (Z.eqb zUnk) (pf s'))), f, (Nat.max K (S (length (unknowns E s)))).
    split; [intros w fuel LW LF; unfold autoUnify; rewrite R by lia; reflexivity|]. pose proof (linked_on E FO f m s s' T GM F LK) as LK'. split; [exact LK'|]. split; [exact F|]. split; [exact C1|].
    intros P. apply andb_prop in P. destruct P as [P P3]. apply andb_prop in P. destruct P as [P1 P2]. apply negb_true_iff in P2, P3. subst n.
    pose proof (pairs_unified E s' (linked_shape E m s' T LK') (A eq_refl)) as U. split; [exact P1|]. split; [exact U|].
    apply (all_unified m s' T LK' U). intros I. apply Bool.not_true_iff_false in P3. apply P3. apply existsb_exists. exists zUnk. split; [exact I|apply Z.eqb_refl].
  Qed.
End Truth.
