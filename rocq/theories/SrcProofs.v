(* SrcProofs.v -- keyword parsing recovers the statements, and writing them back
   gives the source. *)
From Verif Require Import Base TokModel LabModel SrcModel TokSpec SrcSpec TokProofs.
Open Scope nat_scope.

Definition toItem (src : list nat) (k : kstmt) : item :=
  mkItem (k_kind k) (secText src (k_lab k)) (osecText src (k_math k)) (osecText src (k_proof k)).

Lemma letter_char k : letter k = charOfKind k.
Proof. now destruct k. Qed.
Lemma kindOfChar_spec d k : kindOfChar d = Some k <-> d = letter k.
Proof.
  unfold kindOfChar. split.
  - repeat match goal with |- context [if Nat.eqb d ?x then _ else _] =>
      destruct (Nat.eqb_spec d x) end; intros H; try discriminate;
    injection H as <-; assumption.
  - intros ->. destruct k; reflexivity.
Qed.
Lemma stmtText_item src k : stmtText src k = itemText (toItem src k).
Proof. unfold stmtText, itemText, toItem; simpl. destruct (k_kind k); reflexivity. Qed.

Lemma firstn_cut {A} (l : list A) a n : a <= n -> n <= length l ->
  firstn n l = firstn a l ++ firstn (n - a) (skipn a l).
Proof.
  intros H1 H2. rewrite <- (firstn_skipn a l) at 1. rewrite firstn_app, firstn_length.
  rewrite firstn_all2 by (rewrite firstn_length; lia). now rewrite Nat.min_l by lia.
Qed.
Lemma firstn_S {A} (l : list A) n x : nth_error l n = Some x -> firstn (S n) l = firstn n l ++ [x].
Proof.
  revert n. induction l as [|y l IH]; intros [|n] H; try discriminate; simpl in *.
  - now injection H as ->.
  - f_equal. now apply IH.
Qed.

Lemma skipn_cons {A} (l : list A) p c r : skipn p l = c :: r -> skipn (S p) l = r.
Proof.
  revert p. induction l as [|x l IH]; intros [|p] H; cbn [skipn] in *; try discriminate.
  - now injection H.
  - now apply IH.
Qed.

Lemma cut2 src start p d :
  start <= p -> nth_error src p = Some chDollar -> nth_error src (S p) = Some d ->
  firstn (S p + 1) src = firstn start src ++ secText src (start, S p - start - 1) ++ [chDollar; d].
Proof.
  intros H1 H2 H3. replace (S p + 1) with (S (S p)) by lia.
  rewrite (firstn_S _ _ _ H3), (firstn_S _ _ _ H2).
  assert (HL : p < length src) by (apply nth_error_Some; congruence).
  rewrite (firstn_cut src start p) by lia. unfold secText; cbn [fst snd].
  replace (S p - start - 1) with (p - start) by lia. rewrite <- !app_assoc. reflexivity.
Qed.

Section Src.
Variable src : list nat.

Definition secOK (s : section) : Prop := fst s + snd s <= length src.
Definition osecOK (s : option section) : Prop := match s with Some x => secOK x | None => True end.
Definition okK (k : kstmt) : Prop :=
  secOK (k_lab k) /\ osecOK (k_math k) /\ osecOK (k_proof k) /\
  match k_kind k with
  | K_lb | K_rb => k_math k = None /\ k_proof k = None
  | K_p => True
  | _ => k_proof k = None
  end.

Definition good (p : nat) (s : kst) : Prop :=
  ks_start s <= p /\ p <= length src /\
  match ks_mode s with
  | 0 => firstn (ks_start s) src = flat_map (stmtText src) (rev (ks_cur s)) /\ Forall okK (ks_cur s)
  | 1 => exists k r, ks_cur s = k :: r /\ k_math k = None /\ k_proof k = None /\
           k_kind k <> K_lb /\ k_kind k <> K_rb /\ ks_type s = Some (k_kind k) /\
           secOK (k_lab k) /\ Forall okK r /\
           firstn (ks_start s) src =
             flat_map (stmtText src) (rev r) ++ secText src (k_lab k) ++ [chDollar; charOfKind (k_kind k)]
  | 2 => exists k r m, ks_cur s = k :: r /\ k_math k = Some m /\ k_proof k = None /\
           k_kind k = K_p /\ ks_type s = Some K_p /\
           secOK (k_lab k) /\ secOK m /\ Forall okK r /\
           firstn (ks_start s) src =
             flat_map (stmtText src) (rev r) ++ secText src (k_lab k) ++ [chDollar; charOfKind K_p]
               ++ secText src m ++ [chDollar; chEq]
  | _ => False
  end.
Definition Inv (p : nat) (s : kst) : Prop := ks_err s <> [] \/ (ks_err s = [] /\ good p s).

Lemma Inv_err p s : ks_err s <> [] -> Inv p s.
Proof. now left. Qed.
Lemma addErr_err e s : ks_err (addErr e s) <> [].
Proof. simpl. destruct (ks_err s); discriminate. Qed.
Lemma good_mono p q s : p <= q -> q <= length src -> good p s -> good q s.
Proof. intros H1 H2 (A & B & C). split; [lia|]. split; [lia|exact C]. Qed.

Lemma kwStep_errs room d pos s s' : kwStep room d pos s = Ok s' -> ks_err s <> [] -> ks_err s' <> [].
Proof.
  unfold kwStep. intros H HE.
  repeat match type of H with
  | (if ?b then _ else _) = _ => destruct b
  | match ?x with Some _ => _ | None => _ end = _ => destruct x
  | match ?x with 0 => _ | S _ => _ end = _ => destruct x
  end; try discriminate; apply Ok_inj in H; subst s'; try exact HE; try apply addErr_err;
  cbn [ks_err]; repeat match goal with |- context [if ?b then _ else _] => destruct b end;
  try exact HE; try apply addErr_err.
Qed.

Lemma secOK_cut start p : start <= p -> p < length src -> secOK (start, S p - start - 1).
Proof. unfold secOK; cbn [fst snd]. lia. Qed.

Lemma kwStep_inv room d p s s' :
  nth_error src p = Some chDollar -> nth_error src (S p) = d ->
  kwStep room d (S p) s = Ok s' -> Inv p s -> Inv (match d with Some _ => S (S p) | None => S p end) s'.
Proof.
  intros H1 H2 H [HE|(HE & HG)].
  { left. eapply kwStep_errs; eauto. }
  assert (HP : p < length src) by (apply nth_error_Some; congruence).
  assert (HP2 : match d with Some _ => S (S p) | None => S p end <= length src).
  { destruct d; [|lia]. assert (S p < length src) by (apply nth_error_Some; congruence). lia. }
  assert (HG' : good (match d with Some _ => S (S p) | None => S p end) s).
  { eapply good_mono; [|exact HP2|exact HG]. destruct d; lia. }
  set (q := match d with Some _ => S (S p) | None => S p end) in *.
  unfold kwStep in H.
  destruct (isCh d chOpen) eqn:E1; [apply Ok_inj in H; subst s'; right; split; [exact HE|exact HG']|].
  destruct (isCh d chClose) eqn:E2; [apply Ok_inj in H; subst s'; right; split; [exact HE|exact HG']|].
  destruct (ks_inC s) eqn:E3; [apply Ok_inj in H; subst s'; right; split; [exact HE|exact HG']|].
  destruct HG as (G1 & G2 & G3).
  destruct d as [d|]; cbn beta iota in H.
  - assert (His : forall c, isCh (Some d) c = true -> d = c) by (intros c; apply Nat.eqb_eq).
    destruct (kindOfChar d) as [ty|] eqn:EK; cbn [ks_mode ks_cur ks_start ks_err ks_inC ks_type] in H.
    + apply kindOfChar_spec in EK. rewrite letter_char in EK.
      destruct (ks_mode s) as [|m] eqn:EM.
      * destruct (room <=? S (length (ks_cur s))); [discriminate|]. apply Ok_inj in H. subst s'.
        right. split; [exact HE|]. destruct G3 as [G3 G4].
        pose proof (cut2 _ _ _ _ G1 H1 H2) as HC. rewrite G3, EK in HC.
        split; [cbn; lia|]. split; [exact HP2|].
        destruct ty; cbn [ks_mode ks_cur ks_start ks_type].
        1, 2, 3, 6, 7, 8, 9: eexists _, _; split; [reflexivity|]; cbn [k_math k_proof k_kind k_lab];
          repeat split; try discriminate; try assumption; try (apply secOK_cut; assumption); exact HC.
        all: split; [cbn [rev]; rewrite flat_map_app; cbn [flat_map]; rewrite app_nil_r; exact HC|];
          constructor; [|exact G4]; split; [apply secOK_cut; assumption|]; cbn; auto.
      * match type of H with (if ?b then _ else _) = _ => destruct b end;
          apply Ok_inj in H; subst s'; left; apply addErr_err.
    + destruct (ks_mode s) as [|[|m]] eqn:EM.
      * apply Ok_inj in H. subst s'. left. apply addErr_err.
      * destruct (isP (ks_type s)) eqn:EP; cbn [andb negb] in H.
        -- destruct (isCh (Some d) chEq) eqn:EQ; cbn [negb] in H.
           ++ apply His in EQ. subst d.
              change (isCh (Some chEq) chDot) with false in H. cbn [negb andb] in H.
              apply Ok_inj in H. subst s'. right. split; [exact HE|].
              destruct G3 as (k & r & Ec & Em & Ep & Hn1 & Hn2 & Et & Hs & Hr & Hf).
              rewrite Et in EP. destruct (k_kind k) eqn:EKK; try discriminate EP.
              split; [cbn; lia|]. split; [exact HP2|]. cbn [ks_mode ks_cur ks_start ks_type].
              pose proof (cut2 _ _ _ _ G1 H1 H2) as HC. rewrite Hf in HC.
              eexists _, r, _. split; [rewrite Ec; reflexivity|]. cbn [k_math k_proof k_kind k_lab].
              split; [reflexivity|]. split; [exact Ep|]. split; [exact EKK|]. split; [exact Et|].
              split; [exact Hs|]. split; [apply secOK_cut; assumption|]. split; [exact Hr|].
              rewrite HC. rewrite <- !app_assoc. reflexivity.
           ++ left. repeat match type of H with (if ?b then _ else _) = _ => destruct b end;
                apply Ok_inj in H; subst s'; apply addErr_err.
        -- destruct (isCh (Some d) chDot) eqn:ED; cbn [negb] in H.
           ++ apply His in ED. subst d. cbn [negb andb] in H. apply Ok_inj in H. subst s'.
              right. split; [exact HE|].
              destruct G3 as (k & r & Ec & Em & Ep & Hn1 & Hn2 & Et & Hs & Hr & Hf).
              rewrite Et in EP.
              split; [cbn; lia|]. split; [exact HP2|]. cbn [ks_mode ks_cur ks_start ks_type].
              pose proof (cut2 _ _ _ _ G1 H1 H2) as HC. rewrite Hf in HC.
              rewrite Ec. cbn [setMath]. split.
              ** cbn [rev]. rewrite flat_map_app. cbn [flat_map]. rewrite app_nil_r, HC.
                 unfold stmtText. cbn [k_kind k_lab k_math k_proof osecText].
                 destruct (k_kind k); try discriminate EP; try congruence;
                   rewrite <- !app_assoc; reflexivity.
              ** constructor; [|exact Hr]. split; [exact Hs|]. cbn [k_kind k_math k_proof osecOK].
                 split; [apply secOK_cut; assumption|]. rewrite Ep. split; [exact I|].
                 destruct (k_kind k); try discriminate EP; try congruence; reflexivity.
           ++ apply Ok_inj in H. subst s'. left. apply addErr_err.
      * destruct (isCh (Some d) chDot) eqn:ED; cbn [negb] in H.
        2:{ apply Ok_inj in H. subst s'. left. apply addErr_err. }
        apply His in ED. subst d. apply Ok_inj in H. subst s'. right. split; [exact HE|].
        destruct m as [|m]; [|contradiction].
        destruct G3 as (k & r & m & Ec & Em & Ep & Ek & Et & Hs & Hm & Hr & Hf).
        split; [cbn; lia|]. split; [exact HP2|]. cbn [ks_mode ks_cur ks_start ks_type].
        pose proof (cut2 _ _ _ _ G1 H1 H2) as HC. rewrite Hf in HC.
        rewrite Ec. cbn [setProof]. split.
        -- cbn [rev]. rewrite flat_map_app. cbn [flat_map]. rewrite app_nil_r, HC.
           unfold stmtText. cbn [k_kind k_lab k_math k_proof osecText]. rewrite Ek, Em.
           cbn [osecText]. rewrite <- !app_assoc. reflexivity.
        -- constructor; [|exact Hr]. split; [exact Hs|]. cbn [k_kind k_math k_proof osecOK].
           rewrite Em. split; [exact Hm|]. split; [apply secOK_cut; assumption|]. rewrite Ek. exact I.
  - (* the '$' is the last character: every branch reports an error *)
    left. destruct (ks_mode s) as [|[|m]] eqn:EM.
    + apply Ok_inj in H. subst s'. apply addErr_err.
    + change (isCh None chEq) with false in H. change (isCh None chDot) with false in H. cbn [negb andb] in H.
      destruct (isP (ks_type s)); cbn [andb negb] in H; apply Ok_inj in H; subst s'; apply addErr_err.
    + change (isCh None chDot) with false in H. cbn [negb] in H. apply Ok_inj in H. subst s'. apply addErr_err.
Qed.

Lemma kwLoop_inv room : forall n l p s s',
  length l <= n -> skipn p src = l -> p <= length src ->
  kwLoop room l p s = Ok s' -> Inv p s -> Inv (length src) s'.
Proof.
  induction n as [|n IH]; intros l p s s' Hn Hl Hp H HI.
  - destruct l; [|simpl in Hn; lia]. simpl in H. apply Ok_inj in H. subst s'.
    destruct HI as [HI|(HE & HG)]; [now left|]. right. split; [exact HE|].
    eapply good_mono; [| |exact HG]; lia.
  - destruct l as [|c r].
    { simpl in H. apply Ok_inj in H. subst s'.
      destruct HI as [HI|(HE & HG)]; [now left|]. right. split; [exact HE|].
      eapply good_mono; [| |exact HG]; lia. }
    assert (Hc : nth_error src p = Some c).
    { replace p with (p + 0) by lia. rewrite <- (firstn_skipn p src) at 1.
      rewrite nth_error_app2; rewrite firstn_length, Nat.min_l by lia; [|lia].
      replace (p + 0 - p) with 0 by lia. rewrite Hl. reflexivity. }
    assert (Hr : skipn (S p) src = r).
    { exact (skipn_cons _ _ _ _ Hl). }
    assert (HpL : S p <= length src) by (assert (p < length src) by (apply nth_error_Some; congruence); lia).
    assert (Hm : forall q t, p <= q -> q <= length src -> Inv p t -> Inv q t).
    { intros q t A B [C|(C & D)]; [now left|]. right. split; [exact C|]. eapply good_mono; eauto. }
    cbn [kwLoop] in H. simpl in Hn. destruct (Nat.eqb_spec c chDollar) as [->|Hd]; cbn [negb] in H.
    + destruct r as [|d r'].
      * assert (HN : nth_error src (S p) = None).
        { apply nth_error_None. apply (f_equal (@length nat)) in Hr. rewrite skipn_length in Hr. simpl in Hr. lia. }
        pose proof (kwStep_inv _ _ _ _ _ Hc HN H HI) as HX. cbn in HX.
        apply (f_equal (@length nat)) in Hr. rewrite skipn_length in Hr. simpl in Hr.
        replace (length src) with (S p) by lia. exact HX.
      * assert (HN : nth_error src (S p) = Some d).
        { rewrite <- (firstn_skipn (S p) src) at 1.
          rewrite nth_error_app2; rewrite firstn_length, Nat.min_l by lia; [|lia].
          rewrite Nat.sub_diag, Hr. reflexivity. }
        assert (HpL2 : S (S p) <= length src).
        { apply (f_equal (@length nat)) in Hr. rewrite skipn_length in Hr. simpl in Hr. lia. }
        destruct (Nat.eqb_spec d chDollar) as [->|Hd].
        -- eapply (IH r' (S (S p))); [simpl in Hn; lia| |lia|exact H|].
           ++ exact (skipn_cons _ _ _ _ Hr).
           ++ apply Hm; [lia|lia|exact HI].
        -- apply rbind_ok in H. destruct H as (s1 & Hs1 & H).
           pose proof (kwStep_inv _ _ _ _ _ Hc HN Hs1 HI) as HX. cbn in HX.
           (* kwLoop continues at the character after '$', which is not '$' *)
           cbn [kwLoop] in H. apply Nat.eqb_neq in Hd. rewrite Hd in H. cbn [negb] in H.
           eapply (IH r' (S (S p))); [simpl in Hn; lia| |lia|exact H|exact HX].
           exact (skipn_cons _ _ _ _ Hr).
    + eapply (IH r (S p)); [lia|exact Hr|lia|exact H|]. apply Hm; [lia|lia|exact HI].
Qed.

Lemma parseKeywords_good room st dummy :
  parseKeywords room src = Ok (st, dummy, []) ->
  Forall okK st /\ fst dummy + snd dummy = length src /\
  src = flat_map (stmtText src) st ++ secText src dummy.
Proof.
  unfold parseKeywords. intros H. apply rbind_ok in H. destruct H as (s & Hs & H).
  assert (HI : Inv (length src) s).
  { eapply (kwLoop_inv room (length src) src 0); [lia|reflexivity|lia|exact Hs|].
    right. split; [reflexivity|]. split; [cbn; lia|]. split; [lia|]. cbn. split; [reflexivity|constructor]. }
  destruct (ks_mode s) as [|m] eqn:EM.
  - destruct (room <=? S (length (ks_cur s))); [discriminate|]. apply Ok_inj in H.
    injection H as <- <- HE. destruct HI as [HI|(_ & HG)]; [congruence|].
    destruct HG as (G1 & G2 & G3). rewrite EM in G3. destruct G3 as [G3 G4].
    split; [now apply Forall_rev|]. cbn [fst snd]. split; [lia|].
    rewrite <- G3. unfold secText. cbn [fst snd].
    rewrite (firstn_all2 (skipn _ _)) by (rewrite skipn_length; lia). symmetry. apply firstn_skipn.
  - exfalso. match type of H with (if ?b then _ else _) = _ => destruct b end; [discriminate|].
    apply Ok_inj in H. injection H as _ _ HE.
    destruct (ks_cur s); cbn in HE; destruct (ks_err s); discriminate.
Qed.

Lemma secText_len s : secOK s -> length (secText src s) = snd s.
Proof. unfold secOK, secText. intros H. rewrite firstn_length, skipn_length. lia. Qed.
Lemma stmtSize_ok k : okK k -> length (stmtText src k) = stmtSize k.
Proof.
  intros (H1 & H2 & H3 & H4). unfold stmtText, stmtSize. rewrite app_length, (secText_len _ H1).
  assert (HM : length (osecText src (k_math k)) = secLen (k_math k)).
  { destruct (k_math k); [now apply secText_len|reflexivity]. }
  assert (HP : length (osecText src (k_proof k)) = secLen (k_proof k)).
  { destruct (k_proof k); [now apply secText_len|reflexivity]. }
  destruct (k_kind k); rewrite ?app_length, ?HM, ?HP; cbn [length];
    try (destruct H4 as [-> ->]; cbn [secLen]; lia); try (rewrite H4; cbn [secLen]; lia); lia.
Qed.

Lemma write_good st dummy : Forall okK st -> secOK dummy ->
  writeSource src st dummy = Ok (flat_map (stmtText src) st ++ secText src dummy).
Proof.
  intros H1 H2. unfold writeSource.
  assert (E : length (flat_map (stmtText src) st ++ secText src dummy) =
              fold_right (fun k n => stmtSize k + n) 0 st + snd dummy).
  { rewrite app_length, (secText_len _ H2). f_equal.
    induction H1 as [|k st Hk _ IH]; [reflexivity|]. cbn [flat_map fold_right].
    rewrite app_length, IH, (stmtSize_ok _ Hk). reflexivity. }
  rewrite E, Nat.eqb_refl. reflexivity.
Qed.

Lemma write_back room st dummy :
  parseKeywords room src = Ok (st, dummy, []) -> writeSource src st dummy = Ok src.
Proof.
  intros H. destruct (parseKeywords_good _ _ _ H) as (H1 & H2 & H3).
  rewrite (write_good _ _ H1) by (unfold secOK; lia). now rewrite <- H3.
Qed.

Lemma okK_item k : okK k -> itemOK (toItem src k).
Proof.
  intros (_ & _ & _ & H). unfold itemOK, toItem; cbn. destruct (k_kind k); auto;
    try (rewrite H; reflexivity). all: destruct H as [-> ->]; auto.
Qed.
Lemma parse_items room st dummy :
  parseKeywords room src = Ok (st, dummy, []) ->
  src = sourceText (map (toItem src) st) (secText src dummy) /\
  Forall itemOK (map (toItem src) st).
Proof.
  intros H. destruct (parseKeywords_good _ _ _ H) as (H1 & H2 & H3). split.
  - unfold sourceText. rewrite H3 at 1. f_equal. clear.
    induction st as [|k st IH]; [reflexivity|]. cbn [flat_map map].
    now rewrite stmtText_item, IH.
  - clear -H1. induction H1; constructor; [now apply okK_item|assumption].
Qed.
End Src.
