(* ParSafe.v -- compressed proofs on which parseCompressedProof cannot leave its
   arrays or overflow. *)
From Verif Require Import Base MMSpec VerModel VerSpec TokModel ParModel ParSpec ParProofs ParCompr
  ParTotal CmpModel CmpSpec CmpProofs ParText.
Open Scope nat_scope.
Arguments Nat.max : simpl never.

(* at most 25 digits U..Y before each letter A..T, Z or ?; d digits seen so far *)
Fixpoint digitsOk (d : nat) (l : list nat) : Prop :=
  match l with
  | [] => True
  | c :: r =>
      if (85 <=? c) && (c <=? 89) then d < 25 /\ digitsOk (S d) r
      else if ((65 <=? c) && (c <=? 84)) || (c =? 90) || (c =? 63) then digitsOk 0 r
      else digitsOk d r
  end.

Fixpoint idxBound (d : nat) : Z := match d with O => 0 | S d' => 5 * idxBound d' + 5 end.
Lemma idxBound_nonneg d : (0 <= idxBound d)%Z.
Proof. induction d; cbn [idxBound]; lia. Qed.
Lemma idxBound_mono d d' : d <= d' -> (idxBound d <= idxBound d')%Z.
Proof. induction 1; [lia|]. cbn [idxBound]. pose proof (idxBound_nonneg m). lia. Qed.
Lemma idxBound_25 d : d <= 25 -> (idxBound d * 20 + 19 <= maxLong)%Z.
Proof.
  intros H. apply idxBound_mono in H. set (b := idxBound 25) in H. vm_compute in b. subst b. unfold maxLong. lia.
Qed.

Section Safe.
  Variable env : penv.
  Hypothesis WE : wf_env env.
  Variable n : nat.
  Variable st : stmtRec.
  Hypothesis Hn : stmtAt (e_db env) n st.
  Hypothesis Hp : s_type st = S_p.
  Variables (max M N : nat).
  Variable bg : bool.
  Hypothesis HM : M + N < max.
  Hypothesis HmL : (21 * Z.of_nat max <= maxLong)%Z.
  Variable rest : list nat.

  Definition entryV (z : Z) : Prop := (z < 0)%Z \/
    exists sm, stmtAt (e_db env) (Z.to_nat z) sm /\ (isAssertion sm -> length (s_reqHyps sm) <= M).

  Lemma isLeaf_safe z : entryV z -> isLeaf env z = Ok None \/
    exists sm, isLeaf env z = Ok (Some sm) /\ length (s_reqHyps sm) <= M.
  Proof.
    intros H. unfold isLeaf. destruct (Z.ltb_spec z 0); [auto|]. destruct H as [H|[sm [H1 H2]]]; [lia|].
    unfold stmtAt in H1. rewrite H1. cbn [rget rbind]. destruct (s_type sm) eqn:E; auto; right; exists sm; split; auto;
      apply H2; [left|right]; auto.
  Qed.

  Definition isLetterC (c : nat) : bool := (65 <=? c) && (c <=? 84).

  Record SI (s : cst) (d : nat) (tx : list nat) : Prop := {
    si_ne : c_map s <> [];
    si_map : Forall entryV (c_map s);
    si_pf : Forall entryV (c_proof s);
    si_ml : length (c_map s) + length tx <= max;
    si_pl : length (c_proof s) + length tx < max;
    si_cnt : c_cnt s + length tx <= M + N;
    si_idx : (0 <= c_idx s)%Z /\
      ((c_idx s <= idxBound d)%Z \/ (exists c r, tx = c :: r /\ isLetterC c = true /\ (c_idx s < Z.of_nat max)%Z));
    si_d : d <= 25;
    si_dig : digitsOk d tx }.

  Lemma SI_tail s c r d d' s' : SI s d (c :: r) ->
    c_map s' <> [] -> Forall entryV (c_map s') -> Forall entryV (c_proof s') ->
    length (c_map s') <= S (length (c_map s)) -> length (c_proof s') <= S (length (c_proof s)) ->
    c_cnt s' <= S (c_cnt s) -> (0 <= c_idx s' <= idxBound d')%Z -> d' <= 25 -> digitsOk d' r -> SI s' d' r.
  Proof.
    intros [] H1 H2 H3 H4 H5 H6 H7 H8 H9. cbn [length] in *. constructor; auto; try lia.
  Qed.

  Lemma comprLoop_safe : forall fuel tx s d,
    Forall (fun c => c < 128 /\ c <> 36) tx -> length tx <= N -> SI s d tx ->
    comprLoop fuel env max bg (tx ++ 36 :: 46 :: rest) s <> UB /\
    forall s', comprLoop fuel env max bg (tx ++ 36 :: 46 :: rest) s = Ok s' ->
      length (c_proof s') < max /\ c_cnt s' < max.
  Proof.
    induction fuel as [|f IH]; intros tx s d HF HN HS; [split; [discriminate|intros; discriminate]|].
    destruct tx as [|c r].
    { cbn. split; [discriminate|]. intros s' E. apply Ok_inj in E. subst s'.
      destruct HS. cbn [length] in *. lia. }
    apply Forall_inv in HF as Hc. pose proof (Forall_inv_tail HF) as HF'. destruct Hc as [Hc1 Hc2].
    assert (HNr : length r < N) by (cbn [length] in HN; lia). assert (HNr2 : length r <= N) by lia.
    cbn [app comprLoop]. destruct (Nat.leb_spec 128 c); [lia|].
    pose proof (si_dig _ _ _ HS) as HD. cbn [digitsOk] in HD.
    pose proof (si_d _ _ _ HS) as Hd25.
    pose proof (si_ne _ _ _ HS) as Hne. pose proof (si_map _ _ _ HS) as Hmap. pose proof (si_pf _ _ _ HS) as Hpf.
    pose proof (si_ml _ _ _ HS) as Hml. pose proof (si_pl _ _ _ HS) as Hpl. pose proof (si_cnt _ _ _ HS) as Hcnt.
    pose proof (si_idx _ _ _ HS) as [Hi0 Hi1]. cbn [length] in Hml, Hpl, Hcnt.
    destruct ((65 <=? c) && (c <=? 84)) eqn:EL.
    - (* letter *)
      assert (ED : (85 <=? c) && (c <=? 89) = false).
      { apply andb_prop in EL. destruct EL as [_ EL]. apply Nat.leb_le in EL. destruct (Nat.leb_spec 85 c); auto. lia. }
      rewrite ED in HD. cbn [orb] in HD.
      assert (Ew : (0 <= Z.of_nat (c - 65) <= 19)%Z).
      { apply andb_prop in EL. destruct EL as [EL0 EL]. apply Nat.leb_le in EL, EL0. lia. }
      unfold letterStep. set (i0 := (c_idx s * 20 + Z.of_nat (c - 65))%Z).
      assert (Hov : (i0 <= maxLong)%Z).
      { unfold i0. destruct Hi1 as [Hi1|[c' [r' [_ [_ Hi1]]]]].
        - pose proof (idxBound_25 d Hd25). lia.
        - lia. }
      destruct (Z.ltb_spec maxLong i0); [lia|].
      set (oor := (Z.of_nat (length (c_map s)) <=? i0)%Z).
      set (i := if oor then 0%Z else i0). set (e1 := if oor then raise 2 _ else _).
      assert (Hi : (0 <= i < Z.of_nat (length (c_map s)))%Z).
      { unfold i, oor. destruct (Z.leb_spec (Z.of_nat (length (c_map s))) i0).
        - destruct (c_map s); [congruence|]. cbn [length]. lia.
        - unfold i0 in *. lia. }
      destruct (nth_error (c_map s) (Z.to_nat i)) as [z|] eqn:Ez.
      2:{ apply nth_error_None in Ez. lia. }
      cbn [rget rbind].
      destruct (Nat.leb_spec max (length (c_proof s))); [lia|].
      assert (Hz : entryV z). { rewrite Forall_forall in Hmap. apply Hmap. eapply nth_error_In; eauto. }
      destruct (isLeaf_safe z Hz) as [->|[sm [-> Hsm]]]; cbn [rbind].
      + destruct (Nat.leb_spec max (c_cnt s)); [lia|]. cbn [rbind]. apply IH with (d := 0); auto.
        eapply (SI_tail s c r d); eauto; cbn [c_map c_proof c_cnt c_idx idxBound]; try lia.
        * apply Forall_app. split; auto.
        * rewrite app_length. simpl. lia.
      + destruct (Nat.ltb_spec (c_cnt s) (length (s_reqHyps sm))).
        * destruct (Nat.leb_spec max (c_cnt s)); [lia|]. cbn [rbind].
          apply (IH (c :: r)) with (d := d); auto.
          constructor; cbn [c_map c_proof c_cnt c_idx length]; auto; try lia.
          -- split; [lia|]. right. exists c, r. split; auto. split; [exact EL|]. lia.
          -- cbn [digitsOk]. rewrite ED, EL. cbn [orb]. exact HD.
        * destruct (Nat.leb_spec max (c_cnt s - length (s_reqHyps sm))); [lia|]. cbn [rbind].
          apply IH with (d := 0); auto.
          eapply (SI_tail s c r d); eauto; cbn [c_map c_proof c_cnt c_idx idxBound]; try lia.
          -- apply Forall_app. split; auto.
          -- rewrite app_length. simpl. lia.
    - assert (Hidx : (c_idx s <= idxBound d)%Z).
      { destruct Hi1 as [Hi1|[c' [r' [E [Hl _]]]]]; auto. injection E as <- <-. unfold isLetterC in Hl. congruence. }
      destruct ((85 <=? c) && (c <=? 89)) eqn:ED.
      + destruct HD as [HD1 HD2].
        assert (Ew : (0 <= Z.of_nat (c - 85) <= 4)%Z).
        { apply andb_prop in ED. destruct ED as [ED0 ED]. apply Nat.leb_le in ED, ED0. lia. }
        unfold digitStep.
        assert (HB : (c_idx s * 5 + Z.of_nat (c - 85) + 1 <= maxLong)%Z).
        { pose proof (idxBound_25 d Hd25). lia. }
        destruct (Z.ltb_spec maxLong (c_idx s * 5 + Z.of_nat (c - 85) + 1)); [lia|]. cbn [rbind].
        apply IH with (d := S d); auto.
        eapply (SI_tail s c r d); eauto; cbn [c_map c_proof c_cnt c_idx idxBound]; try lia.
        destruct (Z.eqb_spec (c_idx s) 0); destruct bg; pose proof (idxBound_nonneg d); lia.
      + destruct (c =? 90) eqn:EZ.
        * cbn [orb] in HD. unfold zStep. destruct (Nat.leb_spec max (length (c_map s))); [lia|].
          assert (Hneg : entryV (-1000 - (Z.of_nat (length (c_proof s)) - 1))).
          { left. lia. }
          assert (HT : forall e, SI (mkCst 0 (c_map s ++ [(-1000 - (Z.of_nat (length (c_proof s)) - 1))%Z]) (c_proof s) (c_cnt s) e) 0 r).
          { intros e. eapply (SI_tail s c r d); eauto; cbn [c_map c_proof c_cnt c_idx idxBound]; try lia.
            - destruct (c_map s); discriminate.
            - apply Forall_app. split; auto.
            - rewrite app_length. simpl. lia. }
          destruct (rev (c_proof s)) as [|z zr] eqn:Er; cbn [rbind].
          -- apply IH with (d := 0); auto.
          -- assert (Hz : entryV z).
             { rewrite Forall_forall in Hpf. apply Hpf. apply in_rev. rewrite Er. left; auto. }
             destruct (isLeaf_safe z Hz) as [->|[sm [-> _]]]; cbn [rbind]; apply IH with (d := 0); auto.
        * assert (HTS : forall e, SI (mkCst (c_idx s) (c_map s) (c_proof s) (c_cnt s) e) d r \/ c = 63).
          { intros e. destruct (Nat.eqb_spec c 63); [right; auto|left].
            cbn [orb] in HD. eapply (SI_tail s c r d); eauto; cbn [c_map c_proof c_cnt c_idx]; try lia. }
          destruct (isspace c) eqn:Esp.
          { destruct (HTS (c_err s)) as [H1|H1]; [|subst c; discriminate]. destruct s. apply IH with (d := d); auto. }
          destruct (Nat.eqb_spec c 36); [contradiction|].
          destruct (Nat.eqb_spec c 63) as [->|Hq].
          -- cbn [orb] in HD. unfold qStep.
             destruct (Nat.leb_spec max (length (c_proof s))); [lia|].
             destruct (Nat.leb_spec max (c_cnt s)); [lia|]. cbn [orb rbind].
             apply IH with (d := 0); auto.
             eapply (SI_tail s 63 r d); eauto; cbn [c_map c_proof c_cnt c_idx idxBound]; try lia.
             ++ apply Forall_app. split; auto. constructor; auto. left. reflexivity.
             ++ rewrite app_length. simpl. lia.
          -- destruct (HTS (raise 2 (c_err s))) as [H1|H1]; [|contradiction]. apply IH with (d := d); auto.
  Qed.

  (* the label list *)
  Lemma labelCode_safe t e tab : (forall l z, In (l, z) tab -> exists h,
       ((In h (s_optHyps st) /\ z = Z.of_nat h) \/ (In h (s_reqHyps st) /\ z = (-1000 - Z.of_nat h)%Z))) ->
    (forall m sm, stmtAt (e_db env) m sm -> isAssertion sm -> e_name env m = t -> length (s_reqHyps sm) <= M) ->
    exists z e', labelCode env n tab t e = Ok (z, e') /\ entryV z.
  Proof.
    intros HT HMt. unfold labelCode. destruct (e_find env tab t) as [j|] eqn:Ef.
    - apply (we_some env WE) in Ef. apply HT in Ef. destruct Ef as [h Hh].
      assert (Hh' : In h (s_reqHyps st) \/ In h (s_optHyps st)) by tauto.
      destruct (we_hyps env WE n st h Hn Hp Hh') as [Hpos [sh [Hs Hy]]].
      assert (Ev : entryV (Z.of_nat h)).
      { right. exists sh. rewrite Nat2Z.id. split; auto. intros A. destruct A, Hy; congruence. }
      destruct Hh as [[_ ->]|[_ ->]].
      + destruct (Z.ltb_spec (Z.of_nat h) 0); [lia|]. destruct (Z.leb_spec (Z.of_nat h) 0); [lia|]. eauto.
      + destruct (Z.ltb_spec (-1000 - Z.of_nat h) 0); [|lia].
        replace (-1000 - (-1000 - Z.of_nat h))%Z with (Z.of_nat h) by lia.
        destruct (Z.leb_spec (Z.of_nat h) 0); [lia|]. eauto.
    - destruct (e_find env (e_keys env) t) as [j|] eqn:Ek.
      + apply (we_some env WE) in Ek. apply (we_keys env WE) in Ek.
        destruct Ek as [m [sm [_ [-> [Hs [Ha En]]]]]]. rewrite Nat2Z.id. pose proof Hs as Hs'. unfold stmtAt in Hs. rewrite Hs.
        cbn [rget rbind]. assert (Ev : entryV (Z.of_nat m)).
        { right. exists sm. rewrite Nat2Z.id. split; auto. intros _. eapply HMt; eauto. }
        destruct Ha as [T|T]; rewrite T; eauto.
      + exists zUnk, (raise 2 e). split; auto. left. reflexivity.
  Qed.
  Lemma labelCodes_safe tab : (forall l z, In (l, z) tab -> exists h,
       ((In h (s_optHyps st) /\ z = Z.of_nat h) \/ (In h (s_reqHyps st) /\ z = (-1000 - Z.of_nat h)%Z))) ->
    forall ts e,
    (forall m sm, stmtAt (e_db env) m sm -> isAssertion sm -> In (e_name env m) ts -> length (s_reqHyps sm) <= M) ->
    exists zs e', labelCodes env n tab ts e = Ok (zs, e') /\ Forall entryV zs /\ length zs = length ts.
  Proof.
    intros HT. induction ts as [|t ts IH]; intros e HMt; cbn [labelCodes].
    - exists [], e. auto.
    - destruct (labelCode_safe t e tab HT) as [z [e1 [-> Ev]]].
      { intros m sm Hs Ha En. apply (HMt m sm); auto. left; auto. }
      cbn [rbind]. destruct (IH e1) as [zs [e2 [-> [F L]]]].
      { intros m sm Hs Ha En. apply (HMt m sm); auto. right; auto. }
      cbn [rbind]. exists (z :: zs), e2. cbn [length]. auto.
  Qed.
End Safe.

Theorem compressed_safe env n st max M fuel w names lt tx rest :
  wf_env env -> stmtAt (e_db env) n st -> s_type st = S_p ->
  blanks w -> labelsLaid names lt ->
  (forall l, In l names -> l <> [] /\ Forall (fun c => labelChar c = true) l) ->
  Forall (fun c => c < 128 /\ c <> 36) tx -> digitsOk 0 tx ->
  (names <> [] \/ s_reqHyps st <> []) ->
  (forall m sm, stmtAt (e_db env) m sm -> isAssertion sm -> In (e_name env m) names ->
     length (s_reqHyps sm) <= M) ->
  M + length tx < max ->
  length (w ++ chOpen :: lt ++ tx) + length (s_reqHyps st) + length (s_optHyps st) <= max ->
  (21 * Z.of_nat max <= maxLong)%Z ->
  parseText fuel env n max (w ++ chOpen :: lt ++ tx) (chDollar :: chDot :: rest) <> UB.
Proof.
  intros WE Hn Hp Hw Hlt HN Htx Hdig Hne HMh HM Hmax HmL.
  unfold parseText. set (rest' := chDollar :: chDot :: rest) in *.
  replace ((w ++ chOpen :: lt ++ tx) ++ rest') with (w ++ chOpen :: lt ++ (tx ++ rest'))
    by (rewrite <- app_assoc; cbn [app]; rewrite <- app_assoc; reflexivity).
  destruct (w ++ chOpen :: lt ++ tx ++ rest') as [|f0 fr] eqn:Ef; [destruct w; discriminate|].
  rewrite <- Ef. clear Ef f0 fr.
  rewrite whiteSpace_blanks by (auto; discriminate). cbn [rbind].
  change (isTok chOpen (chOpen :: lt ++ tx ++ rest')) with true. cbn iota. cbn [tl].
  destruct (labelList_laid names lt (tx ++ rest') Hlt HN (S (length (chOpen :: lt ++ tx ++ rest')))) as
    [ls [E1 [E2 _]]].
  { cbn [length]. lia. }
  rewrite E1. cbn [rbind]. rewrite E2. set (bg := firstn _ _). clearbody bg.
  pose proof (labelsLaid_len _ _ Hlt (fun l Hl => proj1 (HN l Hl))) as L1.
  rewrite app_length in Hmax. cbn [length] in Hmax. rewrite app_length in Hmax.
  enough (parseCompressed fuel env n max names true bg (tx ++ rest') <> UB) as HE.
  { destruct (parseCompressed fuel env n max names true bg (tx ++ rest')); cbn [rbind]; congruence. }
  unfold parseCompressed. pose proof Hn as Hn'. unfold stmtAt in Hn'. rewrite Hn'. cbn [rget rbind].
  destruct (labelCodes_safe env WE n st Hn Hp max M (length tx) HM
    (entries env Z.of_nat (s_optHyps st) ++ entries env (fun h => (-1000 - Z.of_nat h)%Z) (s_reqHyps st)))
    with (ts := names) (e := mkErr 0 0) as [codes [e2 [-> [Fc Lc]]]]; auto.
  { intros l z H. apply in_app_or in H. unfold entries in H. destruct H as [H|H]; apply in_map_iff in H;
      destruct H as [h [E Hh]]; pose proof (f_equal snd E) as E3; cbn [snd] in *; exists h; auto. }
  cbn [rbind].
  set (map0 := map Z.of_nat (s_reqHyps st) ++ codes) in *.
  assert (Lm : length map0 = length (s_reqHyps st) + length names) by (unfold map0; rewrite app_length, map_length; lia).
  destruct (Nat.ltb_spec max (length map0)); [lia|].
  assert (HSI : SI env max M (length tx) (mkCst 0 map0 [] 0 e2) 0 tx).
  { constructor; cbn [c_map c_proof c_cnt c_idx length idxBound]; auto; try lia.
    - unfold map0. destruct (s_reqHyps st) as [|h hs]; [|discriminate]. cbn [map app].
      destruct codes; [|discriminate]. destruct Hne as [Hne|Hne]; [|congruence]. destruct names; [congruence|discriminate].
    - unfold map0. apply Forall_app. split; auto. apply Forall_forall. intros z Hz.
      apply in_map_iff in Hz. destruct Hz as [h [<- Hh]].
      destruct (we_hyps env WE n st h Hn Hp (or_introl Hh)) as [_ [sh [Hs Hy]]].
      right. exists sh. rewrite Nat2Z.id. split; auto. intros A. destruct A, Hy; congruence. }
  destruct (comprLoop_safe env max M (length tx) (bggy bg) HM HmL rest fuel tx _ 0 Htx (le_n _) HSI) as [S1 S2].
  change (36 :: 46 :: rest) with rest' in S1, S2.
  destruct (comprLoop fuel env max (bggy bg) (tx ++ rest') _) as [s| | |] eqn:EC; cbn [rbind]; try congruence.
  destruct (S2 s eq_refl) as [P1 P2].
  set (e3 := if (c_idx s =? 0)%Z then _ else _). clearbody e3.
  assert (HF : forall z p c e, finish (z :: p) c e <> UB).
  { intros. unfold finish. destruct (c =? 1); discriminate. }
  destruct (c_proof s) as [|z p].
  - destruct (Nat.ltb_spec max 2); [lia|]. destruct (Nat.leb_spec max (c_cnt s)); [lia|]. cbn [orb]. apply HF.
  - destruct (Nat.leb_spec max (length (z :: p))); [lia|]. apply HF.
Qed.
