(* LetProofs.v -- parseMathTokens reads what LetSpec says. *)
From Verif Require Import Base VstrModel LabModel LabProofs TokModel TokSpec TokProofs StmModel StmSpec StmTab MatchModel BigSpec LetModel LetSpec.
From Coq Require Import Permutation Sorted.
Open Scope nat_scope.

(* ---- tokens without blanks ---- *)
Lemma tt_rest x r : tokenText x -> tokenText (x ++ r) -> tokenText r.
Proof.
  intros HX. revert r. induction HX as [|c x Hg Hc Hx IH|x Hx IH|d x Hd Hx IH]; intros r H; cbn [app] in H; [exact H| | |];
    inversion H; subst; try congruence; try (apply IH; assumption); try (now elim Hc);
    unfold dollar in *; try lia; now apply IH.
Qed.
Lemma digit_plain ds : digits ds -> tokenText ds.
Proof.
  induction 1 as [|c r Hc Hr IH]; constructor; auto; unfold isDigit, graphic, dollar in *; lia.
Qed.
Lemma dummy_plain ds : ds <> [] -> digits ds -> tokenText (dollar :: ds).
Proof. intros N H. destruct H as [|d r Hd Hr]; [congruence|]. apply tt_digit; [exact Hd|]. now apply digit_plain. Qed.

Lemma digitRun_ok r : digitRun r <= length r /\ digits (firstn (digitRun r) r) /\ notDigit (skipn (digitRun r) r).
Proof.
  induction r as [|c r IH]; cbn [digitRun]; [repeat split; [lia|constructor]|].
  destruct ((48 <=? c) && (c <=? 57)) eqn:E.
  - cbn [firstn skipn length]. destruct IH as (A & B & C). split; [lia|]. split; [|exact C]. constructor; [|exact B].
    unfold isDigit. apply andb_true_iff in E. rewrite !Nat.leb_le in E. lia.
  - cbn. split; [lia|]. split; [constructor|]. unfold isDigit. intros H.
    apply andb_false_iff in E. rewrite !Nat.leb_gt in E. lia.
Qed.
Lemma valLoop_val ds : digits ds -> forall v p, valLoop (rev ds) v p false = (v + value ds * p)%Z.
Proof.
  intros H. induction ds as [|c ds IH] using rev_ind; intros v p; [cbn; unfold value; cbn; lia|].
  apply Forall_app in H. destruct H as [HD HC]. inversion HC as [|? ? Hc _]; subst. unfold isDigit in Hc.
  rewrite rev_app_distr. cbn [rev app valLoop]. destruct (Nat.leb_spec 48 c); [|lia]. destruct (Nat.leb_spec c 57); [|lia]. cbn [andb].
  rewrite IH by exact HD. unfold value. rewrite fold_left_app. cbn [fold_left]. rewrite Nat2Z.inj_sub by lia. ring.
Qed.
Lemma val_value ds : digits ds -> val_ ds = value ds.
Proof. intros H. unfold val_. rewrite valLoop_val by exact H. lia. Qed.
Lemma value_nn ds : digits ds -> (0 <= value ds)%Z.
Proof.
  intros H. unfold value. assert (G : forall a, (0 <= a)%Z -> (0 <= fold_left (fun n c => 10 * n + (Z.of_nat c - 48)) ds a)%Z); [|apply G; lia].
  induction H as [|c r Hc Hr IH]; intros a Ha; [exact Ha|]. cbn [fold_left]. apply IH. unfold isDigit in Hc. lia.
Qed.

Lemma understood_app a b : understood (a ++ b) = understood a ++ understood b.
Proof. induction a as [|[t|] r IH]; cbn; congruence. Qed.
Lemma errors_app a b : errors (a ++ b) = errors a + errors b.
Proof. induction a as [|[t|] r IH]; cbn; congruence. Qed.

Section Let.
  Variable toks : list mtok.
  Variable key : list nat.
  Hypothesis HQ : mqsorted (map mt_name toks) key.
  Hypothesis HN : forall k, In k toks -> tokenText (mt_name k).
  Variable E : lenv.
  Hypothesis HT : le_T E = mkTenv toks key.
  Hypothesis HS : forall t, (0 <= le_scope E t)%Z.
  Let n := le_at E.
  Notation declared := (declared toks).
  Notation inForce := (inForce toks (le_end E) n).
  Notation meansSym := (meansSym toks (le_end E) (le_scope E) n (le_cur E)).
  Notation longest := (longest toks).
  Notation noName := (noName toks).
  Notation splits := (splits toks (le_end E) (le_scope E) n (le_cur E)).

  Lemma declared_at x : declared x <-> exists t, t < length toks /\ tkName toks t = x.
  Proof.
    split.
    - intros (k & HK & HE). apply In_nth_error in HK. destruct HK as (t & HK). exists t. split.
      + apply nth_error_Some. congruence.
      + unfold tkName. now rewrite HK.
    - intros (t & HL & HE). destruct (nth_error toks t) as [k|] eqn:X; [|apply nth_error_None in X; lia].
      exists k. split; [now apply nth_error_In in X|]. unfold tkName in HE. now rewrite X in HE.
  Qed.
  Lemma active_force x t : tkName toks t = x -> t < length toks -> (leActive E t = true <-> inForce x t).
  Proof.
    intros HE HL. unfold leActive, LetSpec.inForce. rewrite HT. cbn [mkTenv tk_toks]. unfold tkName in HE.
    destruct (nth_error toks t) as [k|] eqn:X; [|apply nth_error_None in X; lia].
    rewrite andb_true_iff, !Nat.leb_le. split.
    - intros H. exists k. auto.
    - intros (k' & HK & _ & H). injection HK as <-. exact H.
  Qed.
  Lemma inForce_at x t : inForce x t -> t < length toks /\ tkName toks t = x.
  Proof.
    intros (k & H1 & H2 & _). split; [apply nth_error_Some; congruence|]. unfold tkName. now rewrite H1.
  Qed.

  (* ---- pickTop ---- *)
  Lemma pick_top : forall l b m, (-1 <= m)%Z ->
    let r := pickTop E l b m in
    (r = (b, m) /\ (forall u, In u l -> leActive E u = true -> (le_scope E u <= m)%Z)) \/
    (In (fst r) l /\ leActive E (fst r) = true /\ snd r = le_scope E (fst r) /\ (m < snd r)%Z /\
      (snd r = le_cur E \/ forall u, In u l -> leActive E u = true -> (le_scope E u <= snd r)%Z)).
  Proof.
    induction l as [|j r IH]; intros b m Hm; cbn [pickTop].
    - left. split; [reflexivity|]. intros u [].
    - destruct (leActive E j && Z.ltb m (le_scope E j)) eqn:A.
      + apply andb_true_iff in A. destruct A as [A1 A2]. apply Z.ltb_lt in A2.
        destruct (Z.eqb_spec (le_scope E j) (le_cur E)) as [EQ|NQ].
        * right. cbn [fst snd]. split; [now left|]. split; [exact A1|]. split; [reflexivity|]. split; [exact A2|]. now left.
        * right. destruct (IH j (le_scope E j) ltac:(lia)) as [[E1 E2]|(E1 & E2 & E3 & E4 & E5)].
          -- rewrite E1. cbn [fst snd]. split; [now left|]. split; [exact A1|]. split; [reflexivity|]. split; [exact A2|].
             right. intros u [<-|Hu] HA; [lia|]. now apply E2.
          -- cbn zeta in *. split; [now right|]. split; [exact E2|]. split; [exact E3|]. split; [lia|].
             destruct E5 as [E5|E5]; [now left|]. right. intros u [<-|Hu] HA; [lia|]. now apply E5.
      + destruct (IH b m Hm) as [[E1 E2]|(E1 & E2 & E3 & E4 & E5)].
        * left. split; [exact E1|]. intros u [<-|Hu] HA; [|now apply E2].
          rewrite HA in A. cbn [andb] in A. apply Z.ltb_ge in A. exact A.
        * right. cbn zeta in *. split; [now right|]. split; [exact E2|]. split; [exact E3|]. split; [exact E4|].
          destruct E5 as [E5|E5]; [now left|]. right. intros u [<-|Hu] HA; [|now apply E5].
          rewrite HA in A. cbn [andb] in A. apply Z.ltb_ge in A. lia.
  Qed.

  Lemma symAt_ok x ki t0 : nth_error key ki = Some t0 -> tkName toks t0 = x ->
    (exists t, symAt E ki = Ok (Some t) /\ meansSym x t) \/
    (symAt E ki = Ok None /\ forall t, ~ inForce x t).
  Proof.
    intros E2 E3. unfold symAt. rewrite HT. cbn [mkTenv tk_key tk_same]. rewrite E2. cbn [rget rbind].
    assert (LT0 : t0 < length toks) by (apply (key_in toks key HQ); now apply nth_error_In in E2).
    destruct (sa_at toks key HQ ki t0 E2) as (sa & Hsa). rewrite Hsa. cbn [rget rbind].
    destruct (Nat.eqb_spec sa 0) as [ -> |NZ].
    - assert (U : forall u, inForce x u -> u = t0).
      { intros u Hu. destruct (inForce_at _ _ Hu) as [U1 U2]. apply (uniq_zero toks key HQ ki t0 E2 Hsa u U1). congruence. }
      destruct (leActive E t0) eqn:A.
      + left. exists t0. split; [reflexivity|]. apply (active_force x t0 E3 LT0) in A. split; [exact A|].
        right. intros u Hu. rewrite (U u Hu). lia.
      + right. split; [reflexivity|]. intros t Ht. rewrite (U t Ht) in Ht. apply (active_force x t0 E3 LT0) in Ht. congruence.
    - destruct (group_ok toks key HQ ki t0 sa E2 Hsa NZ) as (g & G1 & G2 & G3). rewrite G1. cbn [rbind].
      pose proof (pick_top g t0 (-1)%Z ltac:(lia)) as P. destruct (pickTop E g t0 (-1)%Z) as (t, m). cbn [fst snd] in P.
      destruct P as [[P1 P2]|(P1 & P2 & P3 & P4 & P5)].
      + injection P1 as -> ->. right. split; [reflexivity|]. intros t Ht. destruct (inForce_at _ _ Ht) as [U1 U2].
        assert (A : leActive E t = true) by now apply (active_force x t U2 U1).
        specialize (P2 t (proj2 (G3 t) (conj U1 (eq_trans U2 (eq_sym E3)))) A). pose proof (HS t). lia.
      + left. exists t. destruct (Z.eqb_spec m (-1)); [lia|]. split; [reflexivity|]. destruct (proj1 (G3 t) P1) as [U1 U2].
        split; [apply (active_force x t); [congruence|exact U1|exact P2]|]. rewrite <- P3.
        destruct P5 as [P5|P5]; [now left|]. right. intros u Hu. destruct (inForce_at _ _ Hu) as [V1 V2].
        apply P5; [apply G3; split; [exact V1|congruence]|]. now apply (active_force x u).
  Qed.

  (* ---- the longest name ---- *)
  Lemma tryLens_ok l : forall len, len <= length l -> len <= tk_maxLen (le_T E) ->
    (exists k ki t0, tryLens (le_T E) l len = Ok (Some (k, ki)) /\ 0 < k <= len /\
      nth_error key ki = Some t0 /\ tkName toks t0 = firstn k l /\
      forall j, k < j <= len -> ~ declared (firstn j l)) \/
    (tryLens (le_T E) l len = Ok None /\ forall j, 0 < j <= len -> ~ declared (firstn j l)).
  Proof.
    induction len as [|len IH]; intros HL HM.
    - right. split; [reflexivity|]. intros j Hj. lia.
    - cbn [tryLens]. destruct (Nat.ltb_spec (tk_maxLen (le_T E)) (S len)) as [|_]; [lia|].
      destruct IH as [(k & ki & t0 & A & B & C & D & F)|[A F]]; [lia|lia| |].
      all: rewrite HT in *; cbn [mkTenv tk_toks tk_key] in *.
      all: destruct (hasLen toks (S len)) eqn:HL1;
        [pose proof (msearch_all toks key HQ (firstn (S len) l)) as M;
         destruct M as [(i & t & M1 & M2 & M3)|[M1 M2]]; unfold mkTenv in *; rewrite M1; cbn [rbind]|].
      all: try (left; exists (S len), i, t; split; [reflexivity|]; split; [lia|]; split; [exact M2|]; split; [exact M3|]; intros j Hj; lia).
      all: assert (N : ~ declared (firstn (S len) l)) by
        (rewrite declared_at; intros (u & U1 & U2);
         first [now apply (M2 u U1)
               | pose proof (hasLen_ok toks u U1) as X; rewrite U2, firstn_length_le in X by lia; congruence]).
      + left. exists k, ki, t0. split; [exact A|]. split; [lia|]. split; [exact C|]. split; [exact D|].
        intros j Hj. destruct (Nat.eq_dec j (S len)) as [->|]; [exact N|apply F; lia].
      + left. exists k, ki, t0. split; [exact A|]. split; [lia|]. split; [exact C|]. split; [exact D|].
        intros j Hj. destruct (Nat.eq_dec j (S len)) as [->|]; [exact N|apply F; lia].
      + right. split; [exact A|]. intros j Hj. destruct (Nat.eq_dec j (S len)) as [->|]; [exact N|apply F; lia].
      + right. split; [exact A|]. intros j Hj. destruct (Nat.eq_dec j (S len)) as [->|]; [exact N|apply F; lia].
  Qed.

  (* what the answer gains from the symbols ol *)
  Definition gains (st : lst) (ol : list (option nat)) (st' : lst) : Prop :=
    l_toks st' = l_toks st ++ understood ol /\ l_err st' = l_err st + errors ol /\
    (l_printed st = Nat.min 1 (l_err st) -> l_printed st' = Nat.min 1 (l_err st')) /\
    l_dummy st <= l_dummy st' /\
    (le_pip E <= l_dummy st -> forall t, In (Some t) ol -> t <= length toks + l_dummy st').
  Lemma gains_nil st : gains st [] st.
  Proof. unfold gains. cbn. rewrite app_nil_r, Nat.add_0_r. repeat split; auto. intros _ t []. Qed.
  Lemma gains_app a x b y c : gains a x b -> gains b y c -> gains a (x ++ y) c.
  Proof.
    intros (A1 & A2 & A3 & A4 & A5) (B1 & B2 & B3 & B4 & B5). unfold gains.
    rewrite understood_app, errors_app, B1, A1, B2, A2, app_assoc.
    split; [reflexivity|]. split; [lia|]. split; [rewrite B2, A2 in *; auto|]. split; [lia|].
    intros HP t Ht. apply in_app_or in Ht. destruct Ht as [Ht|Ht]; [|apply B5; [lia|exact Ht]].
    specialize (A5 HP t Ht). lia.
  Qed.
  Lemma gains_err st : gains st [None] (addErr st).
  Proof.
    unfold gains, addErr. cbn [l_toks l_err l_printed l_dummy understood errors]. rewrite app_nil_r. repeat split; try lia.
    - intros H. destruct (Nat.leb_spec (S (l_err st)) 1); lia.
    - intros _ t [Ht|[]]. discriminate.
  Qed.
  Lemma gains_tok st nd t : l_dummy st <= nd -> (le_pip E <= l_dummy st -> t <= length toks + nd) ->
    gains st [Some t] (mkL (l_toks st ++ [t]) (l_err st) (l_printed st) nd).
  Proof.
    intros H1 H2. unfold gains. cbn [l_toks l_err l_printed l_dummy understood errors]. repeat split; auto; try lia.
    intros H u [Hu|[]]. injection Hu as <-. auto.
  Qed.
  Lemma meansSym_lt x t : meansSym x t -> t < length toks.
  Proof. intros [H _]. now apply inForce_at in H. Qed.

  Lemma firstn_prefix (a s : list nat) j : j <= length a -> firstn j (a ++ s) = firstn j a.
  Proof. intros H. rewrite firstn_app. replace (j - length a) with 0 by lia. cbn. apply app_nil_r. Qed.

  (* ---- one symbol of the token w ---- *)
  Definition symOut (w s : list nat) (st : lst) (wrk : nat) : Prop :=
    (hugeIn w /\ oneSym E wrk (w ++ s) (length w) st = UB) \/
    exists x r o st1, w = x ++ r /\ x <> [] /\ tokenText r /\
      oneSym E wrk (w ++ s) (length w) st = Ok (length x, st1) /\ gains st [o] st1 /\
      length (l_toks st1) <= S (length (l_toks st)) /\
      (forall l, splits r l -> splits w (o :: l)) .

  Lemma oneSym_ok w s st wrk : tokenText w -> tokenEnds s -> w <> [] ->
    length (l_toks st) + length w <= wrk -> symOut w s st wrk.
  Proof.
    intros TW TS NW HC. unfold symOut, oneSym.
    set (sl := if tk_maxLen (le_T E) <? length w then tk_maxLen (le_T E) else length w).
    assert (SL : sl <= length w /\ sl <= tk_maxLen (le_T E)) by (unfold sl; destruct (Nat.ltb_spec (tk_maxLen (le_T E)) (length w)); lia).
    assert (LW : 0 < length w) by (destruct w; [congruence|cbn; lia]).
    destruct (Nat.ltb_spec wrk sl) as [|_]; [lia|]. destruct (Nat.ltb_spec (length (w ++ s)) sl) as [X|_]; [rewrite app_length in X; lia|].
    cbn [orb]. assert (AT : nat -> (wrk <=? length (l_toks st)) = false) by (intros _; apply Nat.leb_gt; lia).
    assert (BIG : forall y r, w = y ++ r -> declared y -> length y <= sl).
    { intros y r Hy Hd. apply declared_at in Hd. destruct Hd as (t & T1 & T2).
      pose proof (maxLen_ok toks key t T1) as M. rewrite <- HT in M. rewrite T2 in M.
      assert (length y <= length w) by (rewrite Hy, app_length; lia).
      unfold sl. destruct (Nat.ltb_spec (tk_maxLen (le_T E)) (length w)); lia. }
    assert (PRE : forall y r, w = y ++ r -> firstn (length y) (w ++ s) = y).
    { intros y r Hy. rewrite Hy, <- app_assoc, firstn_app, Nat.sub_diag, firstn_all. cbn. apply app_nil_r. }
    destruct (tryLens_ok (w ++ s) sl) as [(k & ki & t0 & A & B & C & D & F)|[A F]]; [rewrite app_length; lia|lia| |].
    - rewrite A. cbn [rbind]. right.
      rewrite firstn_prefix in D by lia. set (x := firstn k w) in *. set (r := skipn k w).
      assert (WX : w = x ++ r) by (unfold x, r; now rewrite firstn_skipn).
      assert (LX : length x = k) by (unfold x; rewrite firstn_length_le; lia).
      assert (DX : declared x).
      { apply declared_at. exists t0. split; [apply (key_in toks key HQ); now apply nth_error_In in C|exact D]. }
      assert (LO : longest x (x ++ r)).
      { split; [intros ->; cbn in LX; lia|]. split; [exact DX|]. split; [eauto|]. rewrite <- WX. intros y r' Hy Hd.
        pose proof (BIG y r' Hy Hd). destruct (le_lt_dec (length y) (length x)) as [|G]; [assumption|].
        exfalso. apply (F (length y)); [lia|]. now rewrite (PRE y r' Hy). }
      assert (TR : tokenText r).
      { apply (tt_rest x); [|now rewrite <- WX]. destruct DX as (kk & K1 & <-). now apply HN. }
      destruct (symAt_ok x ki t0 C D) as [(t & S1 & S2)|[S1 S2]]; rewrite S1; cbn [rbind].
      + exists x, r, (Some t), (mkL (l_toks st ++ [t]) (l_err st) (l_printed st) (l_dummy st)).
        split; [exact WX|]. split; [intros X0; rewrite X0 in LX; cbn in LX; lia|]. split; [exact TR|].
        unfold addTok. rewrite (AT 0). cbn [rbind]. rewrite LX. split; [reflexivity|]. split.
        { apply gains_tok; [lia|]. intros _. apply meansSym_lt in S2. lia. }
        cbn [l_toks]. rewrite app_length. cbn [length]. split; [lia|]. intros l Hl. rewrite WX. now apply sp_sym.
      + exists x, r, None, (addErr st).
        split; [exact WX|]. split; [intros X0; rewrite X0 in LX; cbn in LX; lia|]. split; [exact TR|].
        rewrite LX. split; [reflexivity|]. split; [apply gains_err|]. cbn [addErr l_toks]. split; [lia|].
        intros l Hl. rewrite WX. now apply sp_inactive.
    - rewrite A. cbn [rbind].
      assert (NN : noName w).
      { intros y r' Hy Hd. pose proof (BIG y r' Hy Hd). destruct y as [|c y]; [reflexivity|]. exfalso.
        apply (F (length (c :: y))); [cbn in *; lia|]. now rewrite (PRE _ _ Hy). }
      assert (TL : tokenLen (w ++ s) = length w) by now apply tokenLen_unique.
      assert (BAD : dummyLen (w ++ s) = 0 -> (forall d r, w = dollar :: d :: r -> ~ isDigit d)).
      { intros H0 d r Hw Hd. unfold dummyLen in H0. rewrite TL in H0. rewrite Hw in H0. cbn [app length Nat.sub firstn] in H0.
        change (Nat.eqb dollar chDollar) with true in H0. cbn iota in H0. cbn [digitRun] in H0. unfold isDigit in Hd.
        destruct (Nat.leb_spec 48 d); [|lia]. destruct (Nat.leb_spec d 57); [|lia]. discriminate. }
      destruct (dummyLen (w ++ s)) as [|d] eqn:DL.
      + right. exists w, [], None, (addErr st). rewrite app_nil_r. split; [reflexivity|]. split; [exact NW|].
        split; [constructor|]. rewrite TL. split; [reflexivity|]. split; [apply gains_err|]. cbn [addErr l_toks]. split; [lia|].
        intros l Hl. assert (l = []) as ->.
        { clear -Hl. inversion Hl as [| x r ? ? L _ _ | x r ? L _ _ | ds r ? _ _ _ _ _ |w0 W _ _]; subst; auto.
          - match goal with H : x ++ r = [] |- _ => apply app_eq_nil in H; destruct H as [-> ->] end. now destruct L.
          - match goal with H : x ++ r = [] |- _ => apply app_eq_nil in H; destruct H as [-> ->] end. now destruct L.
          - congruence. }
        apply sp_bad; [exact NW|exact NN|exact (BAD eq_refl)].
      + unfold dummyLen in DL. rewrite TL in DL. destruct w as [|c w']; [congruence|]. cbn [app] in DL.
        destruct (Nat.eqb_spec c chDollar) as [->|]; [|discriminate]. cbn [length] in DL.
        rewrite Nat.sub_succ, Nat.sub_0_r, firstn_app, firstn_all, Nat.sub_diag in DL. cbn [firstn] in DL. rewrite app_nil_r in DL.
        destruct (digitRun w') as [|d'] eqn:DR; [discriminate|]. injection DL as <-.
        pose proof (digitRun_ok w') as (R1 & R2 & R3). rewrite DR in *.
        set (ds := firstn (S d') w') in *. set (r := skipn (S d') w') in *.
        assert (WX : w' = ds ++ r) by (unfold ds, r; now rewrite firstn_skipn).
        assert (LX : length ds = S d') by (unfold ds; rewrite firstn_length_le; lia).
        assert (NE : ds <> []) by (intros X0; rewrite X0 in LX; cbn in LX; lia).
        cbn [app skipn]. rewrite firstn_prefix by lia. fold ds. rewrite val_value by exact R2.
        destruct (Z.leb_spec (2 ^ 53) (value ds)) as [BG|SM].
        * left. split; [|reflexivity]. exists [], ds, r. cbn [app]. change chDollar with dollar. rewrite WX. auto.
        * right. exists (dollar :: ds), r, (Some (length toks + Z.to_nat (value ds))).
          set (nd := if le_pip E <? Z.to_nat (value ds) then l_dummy st + (Z.to_nat (value ds) - le_pip E) else l_dummy st).
          exists (mkL (l_toks st ++ [Z.to_nat (value ds) + length toks]) (l_err st) (l_printed st) nd).
          split; [cbn [app]; change chDollar with dollar; now rewrite WX|]. split; [discriminate|]. split.
          { apply (tt_rest (dollar :: ds)); [now apply dummy_plain|]. change chDollar with dollar in TW. cbn [app]. now rewrite <- WX. }
          rewrite HT. cbn [mkTenv tk_toks]. unfold addTok. cbn [l_toks l_err l_printed l_dummy]. rewrite (AT 0). cbn [rbind length]. rewrite LX.
          split; [reflexivity|]. split.
          { rewrite (Nat.add_comm (Z.to_nat (value ds))). apply gains_tok; unfold nd; destruct (Nat.ltb_spec (le_pip E) (Z.to_nat (value ds))); lia. }
          rewrite app_length. cbn [length]. split; [lia|]. intros l Hl. change chDollar with dollar. rewrite WX.
          apply sp_dummy; auto. change chDollar with dollar in NN. now rewrite <- WX.
  Qed.

  (* ---- a token ---- *)
  Lemma hugeIn_app a w b : hugeIn w -> hugeIn (a ++ w ++ b).
  Proof.
    intros (x & ds & y & -> & H). exists (a ++ x), ds, (y ++ b). split; [|exact H].
    now rewrite <- !app_assoc, <- app_comm_cons, <- !app_assoc.
  Qed.
  Lemma token_ok wrk : forall m w, length w <= m -> tokenText w -> forall s st fuel, tokenEnds s ->
    length (l_toks st) + length w <= wrk -> length w < fuel ->
    (hugeIn w /\ letGo fuel E wrk (w ++ s) (length w) st = UB) \/
    exists ol st' f', splits w ol /\ gains st ol st' /\ fuel - length w <= f' /\
      length (l_toks st') <= length (l_toks st) + length w /\
      (w <> [] -> letGo fuel E wrk (w ++ s) (length w) st = letGo f' E wrk s 0 st').
  Proof.
    induction m as [|m IH]; intros w Hm TW s st fuel TS HC HF.
    - right. destruct w; [|cbn in Hm; lia]. exists [], st, fuel. split; [constructor|]. split; [apply gains_nil|]. cbn. split; [lia|]. split; [lia|]. congruence.
    - destruct w as [|c0 w0] eqn:EW.
      { right. exists [], st, fuel. split; [constructor|]. split; [apply gains_nil|]. cbn. split; [lia|]. split; [lia|]. congruence. }
      rewrite <- EW in *. assert (NW : w <> []) by congruence.
      destruct fuel as [|f]; [lia|]. cbn [letGo].
      destruct (length w) as [|lw] eqn:LW; [destruct w; [congruence|discriminate]|]. rewrite <- LW.
      destruct (oneSym_ok w s st wrk TW TS NW ltac:(lia)) as [[H1 H2]|(x & r & o & st1 & WX & NX & TR & O1 & O2 & O3 & O4)].
      { left. split; [exact H1|]. rewrite H2. reflexivity. }
      rewrite O1. cbn [rbind]. assert (LX : length w = length x + length r) by (rewrite WX, app_length; lia).
      assert (PX : 0 < length x) by (destruct x; [congruence|cbn; lia]).
      assert (SK : skipn (length x) (w ++ s) = r ++ s).
      { rewrite WX, <- app_assoc, skipn_app, skipn_all, Nat.sub_diag. reflexivity. }
      rewrite SK.
      destruct (IH r ltac:(lia) TR s st1 f TS ltac:(lia) ltac:(lia)) as [[H1 H2]|(ol & st' & f' & P1 & P2 & P3 & P4 & P5)].
      + left. split; [rewrite WX; rewrite <- (app_nil_r r); now apply hugeIn_app|].
        destruct r as [|c r].
        { exfalso. destruct H1 as (a & ds & b & HA & _). destruct a; discriminate. }
        destruct (Nat.ltb_spec (length x) (length w)) as [_|Q]; [|cbn in *; lia].
        replace (length w - length x) with (length (c :: r)) by lia. exact H2.
      + right. exists (o :: ol).
        assert (G : gains st (o :: ol) st') by (change (o :: ol) with ([o] ++ ol); now apply gains_app with st1).
        destruct r as [|c r].
        * exists st1, f. assert (ol = []) as ->.
          { clear -P1. inversion P1 as [| x r ? ? L _ _ | x r ? L _ _ | ds r ? _ _ _ _ _ |w0 W _ _]; subst; auto.
            - match goal with H : x ++ r = [] |- _ => apply app_eq_nil in H; destruct H as [-> ->] end. now destruct L.
            - match goal with H : x ++ r = [] |- _ => apply app_eq_nil in H; destruct H as [-> ->] end. now destruct L.
            - congruence. }
          split; [apply O4, P1|]. split; [exact O2|]. split; [lia|]. split; [cbn in *; lia|]. intros _.
          destruct (Nat.ltb_spec (length x) (length w)) as [Q|_]; [cbn in *; lia|]. reflexivity.
        * exists st', f'. split; [apply O4, P1|]. split; [exact G|]. split; [lia|]. split; [lia|]. intros _.
          destruct (Nat.ltb_spec (length x) (length w)) as [_|Q]; [|cbn in *; lia].
          replace (length w - length x) with (length (c :: r)) by lia. apply P5. discriminate.
  Qed.

  (* ---- the whole text ---- *)
  Definition failOut (l : list nat) (r : res lst) : Prop :=
    match r with
    | UB => hugeIn l \/ brokenComment l
    | Bug k => k = 1716 /\ openLine l
    | _ => False
    end.
  Lemma failOut_app p l r : failOut l r -> failOut (p ++ l) r.
  Proof.
    destruct r; cbn; try tauto.
    - intros (-> & a & b & -> & H). split; [reflexivity|]. exists (p ++ a), b. now rewrite app_assoc.
    - intros [H|(a & b & ->)].
      + left. rewrite <- (app_nil_r l). now apply hugeIn_app.
      + right. exists (p ++ a), b. now rewrite app_assoc.
  Qed.
  Definition goOut (l : list nat) (st : lst) (r : res lst) : Prop :=
    failOut l r \/
    exists st' w s ws ols e, r = Ok st' /\ gains st (concat ols) st' /\ l = w ++ s /\ blanks w s /\ startsInk s /\
      tokenised mathToken tokenEnds s ws e /\ startsInk e /\ Forall2 splits ws ols.
  Lemma letGo_ok wrk : forall m l, length l <= m -> forall st fuel,
    (forall s, whiteSpace l = Ok s -> length (l_toks st) + length s <= wrk) -> 2 * length l < fuel ->
    goOut l st (letGo fuel E wrk l 0 st).
  Proof.
    induction m as [m IH] using lt_wf_ind. intros l Hm st fuel HC HF. destruct fuel as [|f]; [lia|]. cbn [letGo].
    pose proof (whiteSpace_ok l) as HW. destruct (whiteSpace l) as [s|k| |] eqn:WS; cbn [rbind]; cbn [wsOutcome] in HW.
    - destruct HW as (w0 & -> & HB & HI). specialize (HC s eq_refl).
      destruct (tokenLen_ok _ s (le_n _)) as (T1 & T2 & T3).
      destruct (tokenLen s) as [|tl] eqn:TL.
      + right. exists st, w0, s, [], [], s. split; [reflexivity|]. split; [apply gains_nil|].
        repeat (split; [assumption||reflexivity|]). split; [now apply tk_end|]. split; [exact HI|constructor].
      + rewrite <- TL in *. set (w := firstn (tokenLen s) s) in *. set (s' := skipn (tokenLen s) s) in *.
        assert (SX : s = w ++ s') by (unfold w, s'; now rewrite firstn_skipn).
        assert (LW : length w = tokenLen s) by (unfold w; rewrite firstn_length_le; lia).
        assert (LS : length s = length w + length s') by (rewrite SX at 1; now rewrite app_length).
        rewrite app_length in HF, Hm.
        rewrite <- LW.
        assert (GX : letGo f E wrk s (length w) st = letGo f E wrk (w ++ s') (length w) st) by (now rewrite <- SX). rewrite GX.
        destruct (token_ok wrk (length w) w (le_n _) T2 s' st f T3 ltac:(lia) ltac:(lia)) as [[H1 H2]|(ol & st' & f' & P1 & P2 & P3 & P4 & P5)].
        * left. rewrite H2. cbn. left. rewrite SX. apply hugeIn_app. exact H1.
        * rewrite P5 by (destruct w; [cbn in *; lia|discriminate]).
          assert (NW : w <> []) by (destruct w; [cbn in *; lia|discriminate]).
          destruct (IH (length s') ltac:(lia) s' (le_n _) st' f') as [F|(st2 & w2 & s2 & ws & ols & e & R1 & R2 & R3 & R4 & R5 & R6 & R7 & R8)].
          { intros s2 Hs2. destruct (whiteSpace_split _ _ Hs2) as (w2 & Q & _). rewrite Q, app_length in LS. lia. }
          { lia. }
          -- left. clearbody w s'. subst s. rewrite app_assoc. now apply failOut_app.
          -- right. exists st2, w0, s, (w :: ws), (ol :: ols), e. split; [exact R1|].
             split; [cbn [concat]; now apply gains_app with st'|]. split; [reflexivity|]. split; [exact HB|]. split; [exact HI|].
             split; [|split; [exact R7|constructor; assumption]]. clearbody w s'. subst s. rewrite R3. apply tk_tok; auto.
             split; [exact NW|]. split; [exact T2|]. now rewrite <- R3.
    - left. destruct HW as (-> & w & body & -> & H & _). cbn. split; [reflexivity|]. exists w, body. auto.
    - left. destruct HW as (w & body & -> & _). cbn. right. exists w, body. reflexivity.
    - contradiction.
  Qed.
  Lemma ws_newline text : whiteSpace (chNL :: text) = whiteSpace text.
  Proof. reflexivity. Qed.
  Lemma failOut_nl text r : failOut (chNL :: text) r -> failOut text r.
  Proof.
    destruct r; cbn; try tauto.
    - intros (-> & a & b & H & HN1). split; [reflexivity|]. destruct a as [|c a]; [discriminate|]. injection H as _ H. exists a, b. auto.
    - intros [(a & ds & b & H & HD)|(a & b & H)].
      + left. destruct a as [|c a]; [discriminate|]. injection H as _ H. exists a, ds, b. auto.
      + right. destruct a as [|c a]; [discriminate|]. injection H as _ H. exists a, b. auto.
  Qed.
  Theorem parseMath_ok nd text : failOut text (parseMath E nd text) \/
    exists st ol e, parseMath E nd text = Ok st /\
      reading toks (le_end E) (le_scope E) n (le_cur E) (chNL :: text) ol e /\
      gains (mkL [] 0 0 nd) ol st.
  Proof.
    unfold parseMath. destruct (letGo_ok (length text) (S (length text)) (chNL :: text) (le_n _) (mkL [] 0 0 nd) (2 * length text + 3)) as [F|(st & w & s & ws & ols & e & R1 & R2 & R3 & R4 & R5 & R6 & R7 & R8)].
    - intros s Hs. rewrite ws_newline in Hs. destruct (whiteSpace_split _ _ Hs) as (w & -> & _). rewrite app_length. cbn. lia.
    - cbn [length]. lia.
    - left. now apply failOut_nl.
    - right. exists st, (concat ols), e. split; [exact R1|]. split; [|exact R2]. exists w, s, ws, ols. auto 10.
  Qed.
End Let.
