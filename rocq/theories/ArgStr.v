(* ArgStr.v -- reading the step argument. *)
From Coq Require Import NArith.
From Verif Require Import Base VerModel VerSpec ParModel SqSpec SqModel SqProofs SqAttr VstrModel VstrSpec VstrProofs VstrEdit VstrProps
  LabModel LabSpec LabProofs MatchModel MatchSpec MatchProofs FatlSpec FatlProofs DateModel DateSpec DateProofs ArgModel ArgSpec ArgProofs.
Open Scope nat_scope.

(* ---------- val of a short string ---------- *)
Lemma valLoop_short : forall r n d p neg k, (0 < d)%Z -> (0 <= n < d * p)%Z -> (0 < p <= 10 ^ Z.of_nat k)%Z ->
  exists n' d', (0 < d')%Z /\ (0 <= n' < d' * 10 ^ Z.of_nat (k + length r))%Z /\
    exists neg' : bool, DateModel.valLoop r n d p neg = (if neg' then (- n')%Z else n', d').
Proof.
  induction r as [|c r IH]; intros n d p neg k Hd Hn Hp; cbn [DateModel.valLoop length].
  - exists n, d. split; [exact Hd|]. rewrite Nat.add_0_r. split; [nia|]. exists neg. reflexivity.
  - replace (k + S (length r)) with (S k + length r) by lia.
    assert (P1 : (10 ^ Z.of_nat (S k) = 10 * 10 ^ Z.of_nat k)%Z) by (rewrite Nat2Z.inj_succ, Z.pow_succ_r by lia; reflexivity).
    assert (1 <= 10 ^ Z.of_nat k)%Z by (apply (Z.pow_le_mono_r 10 0); lia).
    destruct (Nat.eqb c 46); [apply IH; [nia|nia|lia]|].
    destruct (Nat.eqb c 45); [apply IH; [lia|lia|lia]|].
    destruct (isDigit c) eqn:D; [|apply IH; [lia|lia|lia]].
    unfold isDigit in D. apply andb_prop in D. rewrite !Nat.leb_le in D. apply IH; [lia| |lia].
    assert (Z.of_nat (c - 48) <= 9)%Z by lia. nia.
Qed.
Lemma valL_short s : length s <= 15 -> exists v, valL s = Ok v.
Proof.
  intros L. unfold valL.
  destruct (valLoop_short (rev s) 0 1 1 false 0) as [n' [d' [D [N [neg E]]]]]; [lia|lia|cbn; lia|].
  rewrite E. rewrite rev_length in N. cbn [Nat.add] in N.
  assert (10 ^ Z.of_nat (length s) <= 10 ^ 15)%Z by (apply Z.pow_le_mono_r; lia).
  assert (Q : (0 <= Z.quot n' d' <= 10 ^ 15)%Z).
  { split; [apply Z.quot_pos; lia|]. apply Z.quot_le_upper_bound; nia. }
  exists (Z.quot (if neg then - n' else n') d'). unfold long.
  assert (Q2 : (Z.abs (Z.quot (if neg then - n' else n') d') <= 10 ^ 15)%Z).
  { destruct neg; [rewrite Z.quot_opp_l by lia|]; lia. }
  change (10 ^ 15)%Z with 1000000000000000%Z in Q2. rewrite longMax_eq.
  rewrite (proj2 (Z.leb_le _ _)) by lia. rewrite (proj2 (Z.leb_le _ _)) by lia. reflexivity.
Qed.
Lemma dec_short n l : isDecimal n l -> length l <= 15 -> (Z.of_N n <= longMax)%Z.
Proof.
  intros (A & B & C & D) L. unfold valL in *.
  assert (forall l v, Forall (fun c => 48 <= c <= 57) l -> (fold_left (fun v c => (10 * v + N.of_nat (c - 48))%N) l v < (v + 1) * 10 ^ N.of_nat (length l))%N) as G.
  { clear. induction l as [|c l IH]; intros v F; cbn [fold_left length]; [cbn; lia|]. inversion F; subst.
    specialize (IH (10 * v + N.of_nat (c - 48))%N H2). rewrite Nat2N.inj_succ, N.pow_succ_r'.
    assert (1 <= 10 ^ N.of_nat (length l))%N by (apply (N.pow_le_mono_r 10 0); lia). nia. }
  specialize (G l 0%N B). rewrite C in G.
  assert (10 ^ N.of_nat (length l) <= 10 ^ 15)%N by (apply N.pow_le_mono_r; lia).
  change (10 ^ 15)%N with 1000000000000000%N in H. rewrite longMax_eq. lia.
Qed.
Lemma valL_plus n l : isDecimal n l -> (Z.of_N n <= longMax)%Z -> valL (43 :: l) = Ok (Z.of_N n).
Proof.
  intros (A & B & C & D) Hn. unfold valL. assert (Forall digit (rev l)) as R by (apply Forall_rev; exact B).
  cbn [rev]. rewrite (valLoop_digits _ R) by lia. cbn [DateModel.valLoop Nat.eqb isDigit Nat.leb andb]. rewrite rv_val10. unfold DateProofs.val10. rewrite C.
  rewrite Z.add_0_l, !Z.mul_1_r, Z.quot_1_r. unfold long. destruct (Z.leb_spec (- longMax - 1) (Z.of_N n)); [|rewrite longMax_eq in *; lia].
  destruct (Z.leb_spec (Z.of_N n) longMax); [reflexivity|lia].
Qed.
Lemma dec_val n m l : isDecimal n l -> isDecimal m l -> n = m.
Proof. intros (_ & _ & A & _) (_ & _ & B & _). congruence. Qed.
Lemma str_is v l : (0 <= v)%Z -> (DateModel.str v = l <-> isDecimal (Z.to_N v) l).
Proof.
  intros H. rewrite str_print. pose proof (printInt_ok v H) as P. split; [intros <-; exact P|].
  intros Q. eapply decimal_unique; eauto.
Qed.

(* ---------- capitals ---------- *)
Lemma upper_same c : upper c = toUpper c.
Proof. reflexivity. Qed.
Lemma caps_dec n s : isDecimal n (map upper s) <-> isDecimal n s.
Proof.
  assert (E : Forall (fun c => 48 <= c <= 57) (map upper s) \/ Forall (fun c => 48 <= c <= 57) s -> map upper s = s).
  { intros H. transitivity (map (fun c : nat => c) s); [|apply map_id]. apply map_ext_in. intros c Hc. destruct H as [H|H]; rewrite Forall_forall in H.
    - specialize (H (upper c) (in_map upper s c Hc)). unfold upper in *.
      destruct (Nat.leb_spec 97 c); [|reflexivity]. destruct (Nat.leb_spec c 122); [|reflexivity]. cbn [andb] in *. lia.
    - specialize (H c Hc). unfold upper. destruct (Nat.leb_spec 97 c); [lia|reflexivity]. }
  split; intros H; pose proof H as (_ & F & _); rewrite E in * by auto; exact H.
Qed.
Lemma dec_head n c l : isDecimal n (c :: l) -> 48 <= c <= 57.
Proof. intros (_ & F & _). inversion F; assumption. Qed.
Lemma abbrev_ok s w : strEq (map upper s) (substr w 1 (length (map upper s))) = true <-> abbrev s w.
Proof.
  rewrite strEq_ok. unfold substr, abbrev. rewrite Nat.add_sub. cbn [Nat.sub skipn]. split.
  - intros E. exists (skipn (length (map upper s)) w). rewrite E at 1. apply firstn_skipn.
  - intros [r <-]. rewrite firstn_app, Nat.sub_diag, firstn_all2 by lia. cbn. rewrite app_nil_r. reflexivity.
Qed.

Definition result (plen : nat) (l : list nat) (allowed : bool) (o : option stepArg) : Z :=
  match o with None => (-1)%Z | Some a => optZ (designates plen l allowed a) end.

Lemma reads_det s a b : reads s a -> reads s b -> a = b.
Proof.
  assert (AB : forall n s w, isDecimal n s -> abbrev s w -> w = wFIRST \/ w = wLAST \/ w = wALL -> False).
  { intros n t w D [r E] W. apply caps_dec in D. destruct (map upper t) as [|c l]; [destruct D as (Q & _); congruence|].
    apply dec_head in D. destruct W as [->|[->| ->]]; cbn in E; injection E as -> _; lia. }
  assert (SG : forall c t w, abbrev (c :: t) w -> c < 65 -> w = wFIRST \/ w = wLAST \/ w = wALL -> False).
  { intros c t w [r E] L W. cbn [map app] in E.
    assert (upper c = c) as U by (unfold upper; destruct (Nat.leb_spec 97 c); [lia|reflexivity]). rewrite U in E.
    destruct W as [->|[->| ->]]; cbn in E; injection E as -> _; lia. }
  assert (TW : forall t w w', t <> [] -> abbrev t w -> abbrev t w' -> hd 0 w = hd 0 w').
  { intros t w w' N [r <-] [r' <-]. destruct t; [congruence|reflexivity]. }
  intros A B.
  inversion A; subst; inversion B; subst; try reflexivity;
  try (exfalso; eapply AB; [eassumption|eassumption|tauto]);
  try (exfalso; eapply SG; [eassumption|lia|tauto]);
  try (exfalso; match goal with D : isDecimal _ (_ :: _) |- _ => apply dec_head in D; lia end);
  try (exfalso; destruct s; [congruence|]; match goal with H1 : abbrev ?t ?w, H2 : abbrev ?t ?w' |- _ => 
        assert (hd 0 w = hd 0 w') as Q by (apply (TW t); [discriminate|assumption|assumption]); discriminate Q end);
  try (match goal with D1 : isDecimal (N.of_nat ?x) ?t, D2 : isDecimal (N.of_nat ?y) ?t |- _ => assert (N.of_nat x = N.of_nat y) as Q by (eapply dec_val; eassumption); f_equal; lia end).
Qed.

Lemma step_ok db T fuel s all : wf_db db -> wfTree db T -> legalCodes (rpn T) -> sz T <= fuel ->
  isStr s -> length s <= 15 ->
  let l := unkList (essl db T) (rpn T) (sz T) in
  exists msg, (exists a, reads s a /\ getStepNum fuel db s (rpn T) all = Ok (optZ (designates (sz T) l all a), msg)) \/
    ((forall a, ~ reads s a) /\ getStepNum fuel db s (rpn T) all = Ok ((-1)%Z, msg) /\ msg <> SM_none).
Proof.
  intros WD W LC HF HS L15 l.
  assert (E : edit fuel s 32 [] = Ok (map upper s)) by (apply (single_flags s fuel HS)).
  set (caps := map upper s) in *.
  assert (LCp : length caps = length s) by apply map_length.
  assert (ISc : isStr caps).
  { unfold caps, isStr in *. rewrite Forall_forall in *. intros c Hc. apply in_map_iff in Hc. destruct Hc as [d [<- Hd]].
    specialize (HS d Hd). unfold upper. destruct (Nat.leb_spec 97 d); [|cbn [andb]; exact HS]. destruct (d <=? 122); cbn [andb]; lia. }
  destruct (valL_short caps ltac:(lia)) as [v V].
  assert (isF : isStr FIRST) by (repeat constructor; lia). assert (isL : isStr LAST) by (repeat constructor; lia). assert (isA : isStr ALL) by (repeat constructor; lia).
  unfold getStepNum. rewrite E. cbn [rbind]. rewrite V. cbn [rbind]. rewrite !left_ok by assumption. cbn [rbind].
  assert (R0 : rd caps 0 = Ok (hd 0 caps)) by (unfold rd; destruct caps; reflexivity). rewrite R0. cbn [rbind].
  destruct ((0 <=? v)%Z && strEq caps (DateModel.str v)) eqn:B1.
  { apply andb_prop in B1. destruct B1 as [V0 SE]. apply Z.leb_le in V0. apply strEq_ok in SE. symmetry in SE. apply str_is in SE; [|exact V0].
    apply (proj1 (caps_dec _ s)) in SE. replace (Z.to_N v) with (N.of_nat (Z.to_nat v)) in SE by lia.
    fold (sz T). destruct ((Z.of_nat (sz T) <? v)%Z || (v <? 1)%Z) eqn:RG.
    - eexists. left. exists (AStep (Z.to_nat v)). split; [constructor; exact SE|]. cbn [designates].
      replace ((1 <=? Z.to_nat v) && (Z.to_nat v <=? sz T)) with false; [reflexivity|]. symmetry. apply andb_false_iff. rewrite !Nat.leb_gt.
      apply orb_prop in RG. rewrite !Z.ltb_lt in RG. lia.
    - eexists. left. exists (AStep (Z.to_nat v)). split; [constructor; exact SE|]. cbn [designates].
      apply orb_false_elim in RG. rewrite !Z.ltb_ge in RG.
      destruct (Nat.leb_spec 1 (Z.to_nat v)); [|lia]. destruct (Nat.leb_spec (Z.to_nat v) (sz T)); [|lia]. cbn [andb optZ]. rewrite Z2Nat.id by lia. reflexivity. }
  assert (NN : forall n, ~ isDecimal (N.of_nat n) s).
  { intros n D. assert (D' := D). apply caps_dec in D'. fold caps in D'. assert (Hn := dec_short _ _ D' ltac:(lia)).
    rewrite (valL_dec _ _ D' Hn) in V. injection V as <-.
    assert (DateModel.str (Z.of_N (N.of_nat n)) = caps) as Q by (apply str_is; [lia|]; rewrite N2Z.id; exact D').
    rewrite Q in B1. destruct (Z.leb_spec 0 (Z.of_N (N.of_nat n))); [|lia]. cbn [andb] in B1.
    rewrite (proj2 (strEq_ok caps caps) eq_refl) in B1. discriminate. }
  pose proof (find_ok db T fuel) as FO.
  destruct (strEq caps (substr FIRST 1 (length caps))) eqn:B2.
  { apply abbrev_ok in B2. destruct (FO false 0%Z WD W LC HF) as [msg [F _]]. exists msg. left. exists (AForw 0). split; [apply rd_first; exact B2|].
    rewrite F. reflexivity. }
  assert (NF : ~ abbrev s FIRST) by (intros Q; apply abbrev_ok in Q; fold caps in Q; congruence).
  assert (SN : s <> []) by (intros ->; apply NF; exists FIRST; reflexivity).
  destruct (strEq caps (substr LAST 1 (length caps))) eqn:B3.
  { apply abbrev_ok in B3. destruct (FO true 0%Z WD W LC HF) as [msg [F _]]. exists msg. left. exists (ABack 0). split; [apply rd_last; assumption|].
    rewrite F. reflexivity. }
  assert (NL : ~ abbrev s LAST) by (intros Q; apply abbrev_ok in Q; fold caps in Q; congruence).
  assert (exists c t, s = c :: t) as [c [t ES]] by (destruct s as [|c0 t0]; [congruence|eauto]).
  assert (HC : hd 0 caps = upper c) by (unfold caps; rewrite ES; reflexivity). rewrite HC.
  assert (RT : right_ caps 2 = Ok (map upper t)).
  { change 2%Z with (Z.of_nat 2). rewrite right_ok; [|exact ISc|rewrite LCp, ES; cbn; lia]. unfold caps, substr. rewrite ES. cbn [map length]. cbn [Nat.sub skipn].
    f_equal. apply firstn_all2. rewrite map_length. lia. }
  assert (UP : forall k, k < 65 -> upper c = k -> c = k).
  { intros k Hk U. unfold upper in U. destruct (Nat.leb_spec 97 c); [|exact U]. destruct (Nat.leb_spec c 122); cbn [andb] in U; lia. }
  assert (NA : forall w, upper c < 65 -> w = wFIRST \/ w = wLAST \/ w = wALL -> ~ abbrev s w).
  { intros w U Hw [r Q]. rewrite ES in Q. cbn [map app] in Q. destruct Hw as [->|[->| ->]]; cbn in Q; injection Q as Q _; lia. }
  destruct (Nat.eqb_spec (upper c) 43) as [B4|B4].
  { assert (c = 43) by (apply UP; lia). rewrite RT. cbn [rbind].
    destruct (strEq (map upper t) (DateModel.str v)) eqn:B5.
    - apply strEq_ok in B5. symmetry in B5. destruct (FO false v WD W LC HF) as [msg [F FM]].
      destruct (Z.ltb_spec v 0) as [VN|VP].
      + exists msg. right. rewrite F. split; [|split; [reflexivity|]].
        * intros a Ra. inversion Ra as [? n D|? A|? _ A|t' n D Q|t' n D Q|? _ A]; subst a.
          -- apply (NN n). exact D.
          -- apply NF. exact A.
          -- apply NL. exact A.
          -- rewrite ES in Q. injection Q as _ ->.
             assert (Z.of_N (N.of_nat n) <= longMax)%Z as Hn by (apply (dec_short _ t D); rewrite ES in L15; cbn in L15; lia).
             assert (D' := D). apply caps_dec in D'. unfold caps in V. rewrite ES in V. cbn [map] in V. rewrite B4, (valL_plus _ _ D' Hn) in V. injection V as <-. lia.
          -- rewrite ES in Q. injection Q as Q _. lia.
          -- apply (NA wALL); [lia|tauto|exact A].
        * intros M. apply (FM _ eq_refl) in M. lia.
      + apply str_is in B5; [|exact VP]. apply (proj1 (caps_dec _ t)) in B5. replace (Z.to_N v) with (N.of_nat (Z.to_nat v)) in B5 by lia.
        exists msg. left. exists (AForw (Z.to_nat v)). split; [rewrite ES, H; apply rd_plus; exact B5|]. rewrite F. cbn [designates]. reflexivity.
    - eexists. right. split; [|split; [reflexivity|discriminate]].
      intros a Ra. inversion Ra as [? n D|? A|? _ A|t' n D Q|t' n D Q|? _ A]; subst a.
      + apply (NN n). exact D.
      + apply NF. exact A.
      + apply NL. exact A.
      + rewrite ES in Q. injection Q as _ ->.
        assert (Z.of_N (N.of_nat n) <= longMax)%Z as Hn by (apply (dec_short _ t D); rewrite ES in L15; cbn in L15; lia).
        assert (D' := D). apply caps_dec in D'. unfold caps in V. rewrite ES in V. cbn [map] in V. rewrite B4, (valL_plus _ _ D' Hn) in V. injection V as <-.
        rewrite (proj2 (str_is (Z.of_N (N.of_nat n)) (map upper t) ltac:(lia))) in B5; [|rewrite N2Z.id; exact D'].
        rewrite (proj2 (strEq_ok _ _) eq_refl) in B5. discriminate.
      + rewrite ES in Q. injection Q as Q _. lia.
      + apply (NA wALL); [lia|tauto|exact A]. }
  destruct (Nat.eqb_spec (upper c) 45) as [B6|B6].
  { assert (c = 45) by (apply UP; lia). rewrite RT. cbn [rbind].
    destruct (strEq (map upper t) (DateModel.str (- v))) eqn:B5.
    - apply strEq_ok in B5. symmetry in B5. destruct (FO true (- v)%Z WD W LC HF) as [msg [F FM]].
      destruct (Z.ltb_spec (- v) 0) as [VN|VP].
      + exists msg. right. rewrite F. split; [|split; [reflexivity|]].
        * intros a Ra. inversion Ra as [? n D|? A|? _ A|t' n D Q|t' n D Q|? _ A]; subst a.
          -- apply (NN n). exact D.
          -- apply NF. exact A.
          -- apply NL. exact A.
          -- rewrite ES in Q. injection Q as Q _. lia.
          -- rewrite ES in Q. injection Q as _ ->.
             assert (Z.of_N (N.of_nat n) <= longMax)%Z as Hn by (apply (dec_short _ t D); rewrite ES in L15; cbn in L15; lia).
             assert (D' := D). apply caps_dec in D'. unfold caps in V. rewrite ES in V. cbn [map] in V. rewrite B6, (valL_neg _ _ D') in V by lia. injection V as <-. lia.
          -- apply (NA wALL); [lia|tauto|exact A].
        * intros M. apply (FM _ eq_refl) in M. lia.
      + apply str_is in B5; [|exact VP]. apply (proj1 (caps_dec _ t)) in B5. replace (Z.to_N (- v)) with (N.of_nat (Z.to_nat (- v))) in B5 by lia.
        exists msg. left. exists (ABack (Z.to_nat (- v))). split; [rewrite ES, H; apply rd_minus; exact B5|]. rewrite F. cbn [designates]. reflexivity.
    - eexists. right. split; [|split; [reflexivity|discriminate]].
      intros a Ra. inversion Ra as [? n D|? A|? _ A|t' n D Q|t' n D Q|? _ A]; subst a.
      + apply (NN n). exact D.
      + apply NF. exact A.
      + apply NL. exact A.
      + rewrite ES in Q. injection Q as Q _. lia.
      + rewrite ES in Q. injection Q as _ ->.
        assert (Z.of_N (N.of_nat n) <= longMax)%Z as Hn by (apply (dec_short _ t D); rewrite ES in L15; cbn in L15; lia).
        assert (D' := D). apply caps_dec in D'. unfold caps in V. rewrite ES in V. cbn [map] in V. rewrite B6, (valL_neg _ _ D') in V by lia. injection V as <-.
        rewrite Z.opp_involutive in B5.
        rewrite (proj2 (str_is (Z.of_N (N.of_nat n)) (map upper t) ltac:(lia))) in B5; [|rewrite N2Z.id; exact D'].
        rewrite (proj2 (strEq_ok _ _) eq_refl) in B5. discriminate.
      + apply (NA wALL); [lia|tauto|exact A]. }
  assert (NR : forall a, reads s a -> abbrev s wALL).
  { intros a Ra. inversion Ra as [? n D|? A|? _ A|t' n D Q|t' n D Q|? _ A]; subst a.
    - exfalso. apply (NN n). exact D.
    - contradiction.
    - contradiction.
    - exfalso. rewrite ES in Q. injection Q as <- _. apply B4. reflexivity.
    - exfalso. rewrite ES in Q. injection Q as <- _. apply B6. reflexivity.
    - exact A. }
  destruct (strEq caps (substr ALL 1 (length caps))) eqn:B7.
  { apply abbrev_ok in B7. destruct all; cbn [negb]; eexists; left; exists AAll; (split; [apply rd_all; assumption|reflexivity]). }
  eexists. right. split; [|split; [reflexivity|discriminate]].
  intros a Ra. apply NR in Ra. change wALL with ALL in Ra. apply abbrev_ok in Ra. fold caps in Ra. congruence.
Qed.
