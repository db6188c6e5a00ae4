(* SrcRaw.v -- readRawSource and parseKeywords run in step: the statement array is
   large enough, and a source read without errors has the intended structure. *)
From Verif Require Import Base TokModel LabModel SrcModel TokSpec SrcSpec TokProofs SrcProofs SrcQuiet.
Open Scope nat_scope.

Definition kcount (d : nat) : nat := if Nat.eqb d chLC || Nat.eqb d chRC || Nat.eqb d chDot then 1 else 0.
Definition nextC (b : bool) (d : nat) : bool :=
  if Nat.eqb d chOpen then true else if Nat.eqb d chClose then false else b.
Definition kinc (b : bool) (d : nat) : nat :=
  if Nat.eqb d chOpen || Nat.eqb d chClose || b then 0 else kcount d.

Lemma raw_char prev b c r es m : c <> dollar -> rawScan prev b (c :: r) = (es, m) ->
  exists es', rawScan (Some c) b r = (es', m) /\ (es = [] -> es' = []).
Proof.
  intros Hc H. cbn [rawScan] in H. apply Nat.eqb_neq in Hc. change chDollar with dollar in H.
  rewrite Hc in H. cbn [negb] in H. destruct (rawScan (Some c) b r) as [es' n] eqn:E.
  injection H as H1 H2. subst n. exists es'. split; [reflexivity|]. intros ->.
  now apply app_eq_nil in H1.
Qed.

Lemma raw_dollar prev b d r es m : rawScan prev b (dollar :: d :: r) = (es, m) ->
  exists es' m', rawScan (Some dollar) (nextC b d) (d :: r) = (es', m') /\ m = kinc b d + m' /\
  (es = [] ->
    es' = [] /\
    (b = false \/ d = 41 -> forall p, prev = Some p -> ~ graphic p) /\
    (b = false \/ d = 41 -> forall d2 r', r = d2 :: r' -> ~ graphic d2) /\
    (d = 40 -> b = false) /\ (d = 41 -> b = true) /\
    (b = false -> d <> 91 /\ d <> 93)).
Proof.
  intros H. remember (d :: r) as dr. cbn [rawScan] in H.
  change (dollar =? chDollar) with true in H. cbn [negb] in H.
  assert (EN : nth_error dr 0 = Some d) by now subst.
  rewrite EN in H.
  change (match Some d with Some d0 => d0 =? chClose | None => false end) with (d =? chClose) in H.
  set (e1 := match prev with Some p => if isgraph p && (negb b || (d =? chClose)) then [RBefore] else [] | None => [] end) in H.
  assert (H1 : e1 = [] -> b = false \/ d = 41 -> forall p, prev = Some p -> ~ graphic p).
  { unfold e1. intros HE HB p ->. destruct (isgraph p) eqn:EG.
    - exfalso. destruct HB as [ -> | -> ]; cbn in HE; [discriminate|]. rewrite orb_true_r in HE. discriminate.
    - now apply isgraph_false. }
  set (e2 := match dr with | d :: d2 :: _ => if isgraph d2 && (negb b || (d =? chClose)) then [RAfter] else [] | _ => [] end) in H.
  assert (EE2 : e2 = match dr with | _ :: d2 :: _ => if isgraph d2 && (negb b || (d =? chClose)) then [RAfter] else [] | _ => [] end).
  { unfold e2. rewrite Heqdr. reflexivity. }
  clearbody e1.
  assert (H2 : e2 = [] -> b = false \/ d = 41 -> forall d2 r', r = d2 :: r' -> ~ graphic d2).
  { rewrite EE2. intros HE HB d2 r' ->. rewrite Heqdr in HE. destruct (isgraph d2) eqn:EG.
    - exfalso. destruct HB as [ -> | -> ]; cbn in HE; [discriminate|]. rewrite orb_true_r in HE. discriminate.
    - now apply isgraph_false. }
  assert (H2' : (match dr with | _ :: d2 :: _ => if isgraph d2 && (negb b || (d =? chClose)) then [RAfter] else [] | _ => [] end) = [] -> b = false \/ d = 41 -> forall d2 r', r = d2 :: r' -> ~ graphic d2).
  { rewrite <- EE2. exact H2. }
  clear EE2 H2.
  set (e2' := match dr with | _ :: d2 :: _ => if isgraph d2 && (negb b || (d =? chClose)) then [RAfter] else [] | _ => [] end) in *.
  clearbody e2'. clear e2.
  unfold kinc, nextC, kcount.
  revert H; destruct (Nat.eqb_spec d chOpen) as [EO|EO]; intros H; cbn [orb].
  - destruct (rawScan (Some dollar) true dr) as [es' n] eqn:E.
    injection H as HA HB. subst n.
    exists es', m. split; [reflexivity|]. split; [reflexivity|]. intros ->.
    apply app_eq_nil in HA. destruct HA as [A1 HA]. apply app_eq_nil in HA. destruct HA as [A2 HA].
    apply app_eq_nil in HA. destruct HA as [A3 HA]. split; [exact HA|]. split; [exact (H1 A1)|]. split; [exact (H2' A2)|].
    split; [intros _; destruct b; [discriminate|reflexivity]|]. split; [intros ->; discriminate|].
    intros _. split; intros ->; discriminate.
  - revert H; destruct (Nat.eqb_spec d chClose) as [EC|EC]; intros H; cbn [orb].
    + destruct (rawScan (Some dollar) false dr) as [es' n] eqn:E.
      injection H as HA HB. subst n.
      exists es', m. split; [reflexivity|]. split; [reflexivity|]. intros ->.
      apply app_eq_nil in HA. destruct HA as [A1 HA]. apply app_eq_nil in HA. destruct HA as [A2 HA].
      apply app_eq_nil in HA. destruct HA as [A3 HA]. split; [exact HA|]. split; [exact (H1 A1)|]. split; [exact (H2' A2)|].
      split; [intros ->; discriminate EC|]. split; [intros _; destruct b; [reflexivity|discriminate]|].
      intros _. split; intros ->; discriminate.
    + assert (X : forall (e3 : list rawErr) k, 
        (let (es0, n) := rawScan (Some chDollar) b dr in (e1 ++ e2' ++ e3 ++ es0, k + n)) = (es, m) ->
        exists es' m', rawScan (Some dollar) b dr = (es', m') /\ m = k + m' /\
          (es = [] -> es' = [] /\ e1 = [] /\ e2' = [] /\ e3 = [])).
      { intros e3 k HX. change (Some chDollar) with (Some dollar) in HX.
        destruct (rawScan (Some dollar) b dr) as [es' n]. injection HX as HA HB.
        exists es', n. split; [reflexivity|]. split; [congruence|]. intros ->.
        apply app_eq_nil in HA. destruct HA as [A1 HA]. apply app_eq_nil in HA. destruct HA as [A2 HA].
        apply app_eq_nil in HA. tauto. }
      assert (FIN : forall (e3 : list rawErr) k, 
        (let (es0, n) := rawScan (Some chDollar) b dr in (e1 ++ e2' ++ e3 ++ es0, k + n)) = (es, m) ->
        k = (if b then 0 else if Nat.eqb d chLC || Nat.eqb d chRC || Nat.eqb d chDot then 1 else 0) ->
        (e3 = [] -> b = false -> d <> 91 /\ d <> 93) ->
        exists es' m', rawScan (Some dollar) b dr = (es', m') /\
          m = (if b then 0 else if Nat.eqb d chLC || Nat.eqb d chRC || Nat.eqb d chDot then 1 else 0) + m' /\
          (es = [] -> es' = [] /\
            (b = false \/ d = 41 -> forall p, prev = Some p -> ~ graphic p) /\
            (b = false \/ d = 41 -> forall d2 r', r = d2 :: r' -> ~ graphic d2) /\
            (d = 40 -> b = false) /\ (d = 41 -> b = true) /\ (b = false -> d <> 91 /\ d <> 93))).
      { intros e3 k HX Hk H3. destruct (X e3 k HX) as (es' & m' & P1 & P2 & P3).
        exists es', m'. split; [exact P1|]. split; [congruence|]. intros HE.
        destruct (P3 HE) as (Q1 & Q2 & Q3 & Q4).
        split; [exact Q1|]. split; [exact (H1 Q2)|]. split; [exact (H2' Q3)|].
        split; [intros; now elim EO|]. split; [intros; now elim EC|]. auto. }
      destruct b.
      * eapply FIN; [exact H|reflexivity|discriminate].
      * revert H; destruct (Nat.eqb_spec d chLB) as [EL|EL]; intros H; [eapply FIN; [exact H| |discriminate]|].
        { subst d. reflexivity. }
        revert H; destruct (Nat.eqb_spec d chRB) as [ER|ER]; intros H; [eapply FIN; [exact H| |discriminate]|].
        { subst d. reflexivity. }
        destruct (Nat.eqb d chLC || Nat.eqb d chRC || Nat.eqb d chDot) eqn:EK.
        -- eapply FIN; [exact H|reflexivity|auto].
        -- eapply FIN; [exact H|reflexivity|auto].
Qed.

Lemma raw_kw prev b d r es m : d <> dollar -> rawScan prev b (dollar :: d :: r) = (es, m) ->
  exists es' m', rawScan (Some d) (nextC b d) r = (es', m') /\ m = kinc b d + m' /\
  (es = [] ->
    es' = [] /\
    (b = false \/ d = 41 -> forall p, prev = Some p -> ~ graphic p) /\
    (b = false \/ d = 41 -> forall d2 r', r = d2 :: r' -> ~ graphic d2) /\
    (d = 40 -> b = false) /\ (d = 41 -> b = true) /\
    (b = false -> d <> 91 /\ d <> 93)).
Proof.
  intros Hd H. destruct (raw_dollar _ _ _ _ _ _ H) as (es1 & m1 & H1 & H2 & H3).
  destruct (raw_char _ _ _ _ _ _ Hd H1) as (es2 & H4 & H5).
  exists es2, m1. split; [exact H4|]. split; [exact H2|]. intros HE.
  destruct (H3 HE) as (A & B). split; [auto|exact B].
Qed.

(* in an error-free source "$$" occurs only in comments *)
Lemma raw_dd prev b r m : rawScan prev b (dollar :: dollar :: r) = ([], m) ->
  b = true /\ rawScan (Some dollar) true r = ([], m) /\ nth_error r 0 <> Some 41.
Proof.
  intros H. destruct (raw_dollar _ _ _ _ _ _ H) as (es1 & m1 & H1 & H2 & H3).
  destruct (H3 eq_refl) as (-> & A & B & _). change (nextC b dollar) with b in H1.
  assert (Hb : b = true).
  { destruct b; [reflexivity|]. exfalso. destruct r as [|d r].
    - cbn in H1. discriminate.
    - destruct (raw_dollar _ _ _ _ _ _ H1) as (? & ? & _ & _ & H5).
      destruct (H5 eq_refl) as (_ & C & _). eapply C; [now left|reflexivity|apply graphic_dollar]. }
  subst b. split; [reflexivity|]. destruct r as [|d r].
  - cbn in H1. discriminate.
  - destruct (raw_dollar _ _ _ _ _ _ H1) as (es4 & m4 & H4 & H5 & H6).
    destruct (H6 eq_refl) as (-> & C & D & E & F & _).
    assert (N1 : d <> 40) by (intros ->; specialize (E eq_refl); discriminate).
    assert (N2 : d <> 41) by (intros ->; eapply C; [now right|reflexivity|apply graphic_dollar]).
    unfold nextC, kinc in *. change chOpen with 40 in *. change chClose with 41 in *.
    destruct (Nat.eqb_spec d 40); [contradiction|]. destruct (Nat.eqb_spec d 41); [contradiction|].
    cbn in H2, H5. subst m1. subst m. split; [exact H4|]. cbn. congruence.
Qed.

(* ---- the statement array ---- *)
Definition bmode (m : nat) : nat := match m with 0 => 0 | _ => 1 end.

Lemma setMath_len x c : length (setMath x c) = length c.
Proof. now destruct c. Qed.
Lemma setProof_len x c : length (setProof x c) = length c.
Proof. now destruct c. Qed.

Lemma kwStep_count room d pos s c0 :
  length (ks_cur s) <= c0 + bmode (ks_mode s) ->
  c0 + (match d with Some x => kinc (ks_inC s) x | None => 0 end) + 3 <= room ->
  exists s', kwStep room d pos s = Ok s' /\
    length (ks_cur s') <= c0 + (match d with Some x => kinc (ks_inC s) x | None => 0 end) + bmode (ks_mode s') /\
    ks_inC s' = match d with Some x => nextC (ks_inC s) x | None => ks_inC s end.
Proof.
  intros HL HR. unfold kwStep.
  destruct d as [d|]; cbn [isCh].
  - unfold kinc, nextC in *. destruct (Nat.eqb d chOpen) eqn:EO; cbn [orb] in *.
    { eexists. split; [reflexivity|]. cbn. lia. }
    destruct (Nat.eqb d chClose) eqn:EC; cbn [orb] in *.
    { eexists. split; [reflexivity|]. cbn. lia. }
    destruct (ks_inC s) eqn:EI; cbn [orb] in *.
    { eexists. split; [reflexivity|]. split; [lia|first [exact EI|reflexivity]]. }
    destruct (kindOfChar d) as [ty|] eqn:EK; cbn [ks_mode ks_cur ks_start ks_err ks_inC ks_type].
    + destruct (ks_mode s) as [|m] eqn:EM; cbn [bmode] in *.
      * destruct (Nat.leb_spec room (S (length (ks_cur s)))); [lia|].
        eexists. split; [reflexivity|]. cbn [ks_cur ks_mode ks_inC length]. split; [|reflexivity].
        apply kindOfChar_spec in EK. subst d. destruct ty; cbn; lia.
      * match goal with |- context [if ?b then _ else _] => destruct b end;
          (eexists; split; [reflexivity|]; cbn [addErr ks_cur ks_mode ks_inC]; rewrite ?EM; cbn [bmode]; split; [lia|reflexivity]).
    + destruct (ks_mode s) as [|[|m]] eqn:EM; cbn [bmode] in *.
      * eexists. split; [reflexivity|]. cbn. rewrite ?EM. split; [cbn; lia|first [exact EI|reflexivity]].
      * change (d =? chDot) with (Nat.eqb d 46) in *. change (d =? chEq) with (Nat.eqb d 61).
        unfold kcount in *. change chDot with 46 in *.
        destruct (isP (ks_type s)); cbn [andb negb].
        -- destruct (Nat.eqb_spec d 46) as [->|].
           ++ eexists. split; [reflexivity|]. cbn. rewrite setMath_len. split; [lia|first [exact EI|reflexivity]].
           ++ cbn [negb]. destruct (negb (d =? 61)); eexists; (split; [reflexivity|]);
                cbn [ks_cur ks_mode ks_inC addErr bmode]; rewrite setMath_len; (split; [lia|first [exact EI|reflexivity]]).
        -- destruct (Nat.eqb_spec d 46) as [->|]; cbn [negb].
           ++ eexists. split; [reflexivity|]. cbn. rewrite setMath_len. split; [lia|first [exact EI|reflexivity]].
           ++ eexists. split; [reflexivity|]. cbn. rewrite ?EM. cbn. split; [lia|first [exact EI|reflexivity]].
      * destruct (Nat.eqb_spec d chDot) as [->|]; cbn [negb].
        -- eexists. split; [reflexivity|]. cbn. rewrite setProof_len. split; [lia|first [exact EI|reflexivity]].
        -- eexists. split; [reflexivity|]. cbn. rewrite ?EM. cbn. split; [lia|first [exact EI|reflexivity]].
  - destruct (ks_inC s) eqn:EI.
    { eexists. split; [reflexivity|]. split; [lia|first [exact EI|reflexivity]]. }
    destruct (ks_mode s) as [|[|m]] eqn:EM; cbn [bmode] in *.
    + eexists. split; [reflexivity|]. cbn. rewrite ?EM. split; [cbn; lia|first [exact EI|reflexivity]].
    + destruct (isP (ks_type s)); cbn [andb negb].
      * eexists. split; [reflexivity|]. cbn. rewrite setMath_len. split; [lia|first [exact EI|reflexivity]].
      * eexists. split; [reflexivity|]. cbn. rewrite ?EM. cbn. split; [lia|first [exact EI|reflexivity]].
    + eexists. split; [reflexivity|]. cbn. rewrite ?EM. cbn. split; [lia|first [exact EI|reflexivity]].
Qed.

Lemma noDouble_tl c l : noDouble (c :: l) -> noDouble l.
Proof. cbn. tauto. Qed.

Lemma kwLoop_room room : forall n l prev es m s pos c0,
  length l <= n -> rawScan prev (ks_inC s) l = (es, m) -> es = [] \/ noDouble l ->
  length (ks_cur s) <= c0 + bmode (ks_mode s) -> c0 + m + 3 <= room ->
  exists s', kwLoop room l pos s = Ok s' /\ length (ks_cur s') + 3 <= room + bmode (ks_mode s').
Proof.
  induction n as [|n IH]; intros l prev es m s pos c0 Hn HS HE HL HR.
  - destruct l; [|simpl in Hn; lia]. cbn. exists s. split; [reflexivity|]. lia.
  - destruct l as [|c r]; [cbn; exists s; split; [reflexivity|lia]|]. simpl in Hn.
    destruct (Nat.eq_dec c dollar) as [->|Hc].
    + destruct r as [|d r].
      * destruct (kwStep_count room None (S pos) s c0 HL) as (s' & H1 & H2 & _); [lia|].
        exists s'. split; [exact H1|]. lia.
      * destruct (Nat.eq_dec d dollar) as [->|Hd].
        -- rewrite kwLoop_dd. destruct HE as [->|HE]; [|exfalso; cbn in HE; tauto].
           destruct (raw_dd _ _ _ _ HS) as (Hb & HS' & _). simpl in Hn.
           eapply (IH r (Some dollar)); [lia|rewrite Hb; exact HS'|now left|exact HL|exact HR].
        -- rewrite kwLoop_kw by exact Hd.
           destruct (raw_kw _ _ _ _ _ _ Hd HS) as (es' & m' & H1 & H2 & H3).
           destruct (kwStep_count room (Some d) (S pos) s c0 HL) as (s' & K1 & K2 & K3); [lia|].
           rewrite K1. cbn [rbind]. simpl in Hn.
           eapply (IH r (Some d) es' m'); [lia|rewrite K3; exact H1| |exact K2|lia].
           destruct HE as [HE|HE]; [left; now apply H3|right; cbn in HE; tauto].
    + rewrite kwLoop_char by exact Hc. destruct (raw_char _ _ _ _ _ _ Hc HS) as (es' & H1 & H2).
      eapply (IH r (Some c) es'); [lia|exact H1| |exact HL|exact HR].
      destruct HE as [HE|HE]; [left; auto|right; eapply noDouble_tl; eauto].
Qed.

Lemma parse_room src : (fst (readRaw src) = [] \/ noDouble src) ->
  exists st dummy ks, parseKeywords (snd (readRaw src) + 3) src = Ok (st, dummy, ks).
Proof.
  intros HE. unfold readRaw in *. destruct (rawScan None false src) as [es m] eqn:E. cbn [fst snd] in *.
  destruct (kwLoop_room (m + 3) (length src) src None es m (mkKst 0 None false 0 [] []) 0 0)
    as (s & H1 & H2); [lia|exact E|exact HE|cbn; lia|lia|].
  unfold parseKeywords. rewrite H1. cbn [rbind].
  destruct (ks_mode s) as [|k] eqn:EM; cbn [bmode] in H2.
  - destruct (Nat.leb_spec (m + 3) (S (length (ks_cur s)))); [lia|]. eauto.
  - destruct (ks_cur s) as [|k' r] eqn:EC; cbn [ks_cur addErr ks_err ks_start].
    + rewrite EC. destruct (Nat.leb_spec (m + 3) (S (length (@nil kstmt)))); [cbn in *; lia|]. eauto.
    + cbn [length] in H2. destruct (Nat.leb_spec (m + 3) (S (length r))); [lia|]. eauto.
Qed.

(* ---- structure of an error-free source ---- *)
Definition pendOK (b : bool) (pend : list nat) : Prop :=
  if b then exists q body, quiet q /\ commentText body /\ pend = q ++ dollar :: 40 :: body
  else quiet pend.

Lemma quiet_app a b : quiet a -> quiet b -> quiet (a ++ b).
Proof.
  induction 1 as [|c r Hc Hr IH|r Hr IH|body r Hb Hr IH]; intros H; cbn [app].
  - exact H.
  - constructor; auto.
  - apply q_dollar; auto.
  - rewrite <- app_assoc. cbn [app]. apply q_comment; auto.
Qed.
Lemma ct_app a b : commentText a -> commentText b -> commentText (a ++ b).
Proof. induction 1; intros Hb; cbn [app]; [exact Hb|apply ct_char; auto|apply ct_pair; auto]. Qed.

Lemma kwLoop_errs room : forall n l pos s s', length l <= n ->
  kwLoop room l pos s = Ok s' -> ks_err s <> [] -> ks_err s' <> [].
Proof.
  induction n as [|n IH]; intros l pos s s' Hn H HE.
  - destruct l; [|simpl in Hn; lia]. cbn in H. apply Ok_inj in H. now subst.
  - destruct l as [|c r]; [cbn in H; apply Ok_inj in H; now subst|]. simpl in Hn.
    destruct (Nat.eq_dec c dollar) as [->|Hc].
    + destruct r as [|d r]; [change (kwStep room None (S pos) s = Ok s') in H; eapply kwStep_errs; [exact H|exact HE]|]. simpl in Hn.
      destruct (Nat.eq_dec d dollar) as [->|Hd].
      * rewrite kwLoop_dd in H. eapply IH; [|exact H|exact HE]. lia.
      * rewrite kwLoop_kw in H by exact Hd. apply rbind_ok in H. destruct H as (s1 & H1 & H).
        eapply IH; [|exact H|eapply kwStep_errs; eauto]. lia.
    + rewrite kwLoop_char in H by exact Hc. eapply IH; [|exact H|exact HE]. lia.
Qed.
Lemma kwLoop_noerr room l pos s s' : kwLoop room l pos s = Ok s' -> ks_err s' = [] -> ks_err s = [].
Proof.
  intros H HE. destruct (ks_err s) eqn:E; [reflexivity|]. exfalso.
  eapply (kwLoop_errs room (length l)); eauto. congruence.
Qed.

(* what is still to come, seen from a state in the middle of a statement *)
Definition restOf (mode : nat) (ty : option kind) (whole : list nat) : Prop :=
  exists items tail, Forall neat items /\ quiet tail /\
  match mode with
  | 0 => whole = sourceText items tail
  | 1 => match ty with
         | Some K_p => exists ma pr, quiet ma /\ quiet pr /\ spaced ma /\ spaced pr /\
             whole = ma ++ [dollar; 61] ++ pr ++ [dollar; 46] ++ sourceText items tail
         | Some _ => exists ma, quiet ma /\ spaced ma /\
             whole = ma ++ [dollar; 46] ++ sourceText items tail
         | None => False
         end
  | _ => exists pr, quiet pr /\ spaced pr /\ whole = pr ++ [dollar; 46] ++ sourceText items tail
  end.

Definition lastIs (pend : list nat) (prev : option nat) : Prop :=
  pend = [] \/ exists c r, pend = r ++ [c] /\ prev = Some c.
Definition startOK (mode : nat) (whole : list nat) : Prop :=
  mode = 0 \/ forall c r, whole = c :: r -> ~ graphic c.
Definition typeOK (s : kst) : Prop :=
  match ks_mode s with
  | 0 => True
  | 1 => exists k, ks_type s = Some k /\ k <> K_lb /\ k <> K_rb
  | 2 => ks_type s = Some K_p
  | _ => False
  end.

Lemma lastIs_app pend c : lastIs (pend ++ [c]) (Some c).
Proof. right. eauto. Qed.

Lemma spaced_pend pend prev l d r mode :
  lastIs pend prev -> startOK mode (pend ++ l) -> mode <> 0 -> l = dollar :: d :: r ->
  (forall p, prev = Some p -> ~ graphic p) -> spaced pend.
Proof.
  intros HL [HS|HS] HM -> HP; [contradiction|].
  destruct pend as [|c0 pend'].
  - exfalso. eapply HS; [reflexivity|apply graphic_dollar].
  - split.
    + exists c0, pend'. split; [reflexivity|]. eapply HS. reflexivity.
    + destruct HL as [HL|(c & r' & -> & ->)]; [discriminate|]. exists c, r'. auto.
Qed.

Lemma mkItem_text k a b c : itemText (mkItem k a b c) = a ++ [dollar; letter k] ++
  match k with K_lb | K_rb => [] | K_p => b ++ [dollar; 61] ++ c ++ [dollar; 46] | _ => b ++ [dollar; 46] end.
Proof. reflexivity. Qed.

Lemma structure room : forall n l prev m s s' pos pend,
  length l <= n -> rawScan prev (ks_inC s) l = ([], m) ->
  kwLoop room l pos s = Ok s' -> ks_err s' = [] -> ks_mode s' = 0 ->
  pendOK (ks_inC s) pend -> lastIs pend prev -> startOK (ks_mode s) (pend ++ l) -> typeOK s ->
  restOf (ks_mode s) (ks_type s) (pend ++ l).
Proof.
  induction n as [|n IH]; intros l prev m s s' pos pend Hn HR HK HE HM HP HL HS HT.
  - destruct l; [|simpl in Hn; lia]. cbn in HK. apply Ok_inj in HK. subst s'.
    cbn in HR. destruct (ks_inC s); [discriminate|]. rewrite HM, app_nil_r.
    exists [], pend. split; [constructor|]. split; [exact HP|reflexivity].
  - destruct l as [|c r].
    { cbn in HK. apply Ok_inj in HK. subst s'.
      cbn in HR. destruct (ks_inC s); [discriminate|]. rewrite HM, app_nil_r.
      exists [], pend. split; [constructor|]. split; [exact HP|reflexivity]. }
    simpl in Hn. destruct (Nat.eq_dec c dollar) as [->|Hc].
    2:{ rewrite kwLoop_char in HK by exact Hc.
        destruct (raw_char _ _ _ _ _ _ Hc HR) as (es' & H1 & H2). rewrite (H2 eq_refl) in H1.
        replace (pend ++ c :: r) with ((pend ++ [c]) ++ r) in * by (rewrite <- app_assoc; reflexivity).
        eapply IH; [|exact H1|exact HK|exact HE|exact HM| |apply lastIs_app|exact HS|exact HT]; [lia|].
        unfold pendOK in *. destruct (ks_inC s).
        - destruct HP as (q & body & Hq & Hb & ->). exists q, (body ++ [c]). split; [exact Hq|].
          split; [apply ct_app; [exact Hb|repeat constructor; exact Hc]|].
          rewrite <- app_assoc. reflexivity.
        - apply quiet_app; [exact HP|]. repeat constructor. exact Hc. }
    destruct r as [|d r].
    { (* '$' at the end *)
      exfalso. cbn [kwLoop] in HK. change (dollar =? chDollar) with true in HK. cbn [negb] in HK.
      destruct (ks_inC s) eqn:EI; [cbn in HR; destruct prev; try destruct (isgraph n0); cbn in HR; discriminate|].
      unfold kwStep in HK. cbn [isCh] in HK. rewrite EI in HK.
      destruct (ks_mode s) as [|[|k]].
      - apply Ok_inj in HK. subst s'. now apply addErr_err in HE.
      - destruct (isP (ks_type s)); cbn [andb negb] in HK; apply Ok_inj in HK; subst s';
          now apply addErr_err in HE.
      - cbn [negb] in HK. apply Ok_inj in HK. subst s'. now apply addErr_err in HE. }
    simpl in Hn. destruct (Nat.eq_dec d dollar) as [->|Hd].
    { rewrite kwLoop_dd in HK. destruct (raw_dd _ _ _ _ HR) as (Hb & HR' & _).
      replace (pend ++ dollar :: dollar :: r) with ((pend ++ [dollar; dollar]) ++ r) in *
        by (rewrite <- app_assoc; reflexivity).
      eapply IH; [|rewrite Hb; exact HR'|exact HK|exact HE|exact HM| | |exact HS|exact HT]; [lia| |].
      - unfold pendOK in *. rewrite Hb in *. destruct HP as (q & body & Hq & Hbd & ->).
        exists q, (body ++ [dollar; dollar]). split; [exact Hq|]. split.
        + apply ct_app; [exact Hbd|]. apply ct_pair; [discriminate|constructor].
        + rewrite <- app_assoc. reflexivity.
      - replace (pend ++ [dollar; dollar]) with ((pend ++ [dollar]) ++ [dollar])
          by (rewrite <- app_assoc; reflexivity). apply lastIs_app. }
    rewrite kwLoop_kw in HK by exact Hd. apply rbind_ok in HK. destruct HK as (s1 & K1 & HK).
    pose proof (kwLoop_noerr _ _ _ _ _ HK HE) as HE1.
    destruct (raw_kw _ _ _ _ _ _ Hd HR) as (es' & m' & R1 & _ & R2).
    destruct (R2 eq_refl) as (-> & RB & RA & RO & RC & RI). clear R2.
    assert (TWO : pend ++ dollar :: d :: r = (pend ++ [dollar; d]) ++ r) by (rewrite <- app_assoc; reflexivity).
    assert (LI : lastIs (pend ++ [dollar; d]) (Some d)).
    { replace (pend ++ [dollar; d]) with ((pend ++ [dollar]) ++ [d]) by (rewrite <- app_assoc; reflexivity).
      apply lastIs_app. }
    unfold kwStep in K1. cbn [isCh] in K1. unfold nextC in R1.
    destruct (Nat.eqb_spec d chOpen) as [->|EO].
    { apply Ok_inj in K1. subst s1. rewrite TWO in *.
      apply (IH r (Some chOpen) m' (setC true s) s' (S (S pos)) (pend ++ [dollar; chOpen]) ltac:(lia) R1 HK HE HM); auto.
      cbn [ks_inC pendOK]. rewrite (RO eq_refl) in HP. exists pend, []. split; [exact HP|]. split; [constructor|reflexivity]. }
    destruct (Nat.eqb_spec d chClose) as [->|EC].
    { apply Ok_inj in K1. subst s1. rewrite TWO in *.
      apply (IH r (Some chClose) m' (setC false s) s' (S (S pos)) (pend ++ [dollar; chClose]) ltac:(lia) R1 HK HE HM); auto.
      cbn [ks_inC pendOK]. rewrite (RC eq_refl) in HP. destruct HP as (q & body & Hq & Hb & ->).
      rewrite <- app_assoc. apply quiet_app; [exact Hq|]. cbn [app]. apply q_comment; [exact Hb|constructor]. }
    destruct (ks_inC s) eqn:EI.
    { apply Ok_inj in K1. subst s1. rewrite TWO in *.
      apply (IH r (Some d) m' s s' (S (S pos)) (pend ++ [dollar; d]) ltac:(lia)); rewrite ?EI; auto.
      cbn [pendOK]. destruct HP as (q & body & Hq & Hb & ->).
      exists q, (body ++ [dollar; d]). split; [exact Hq|]. split.
      - apply ct_app; [exact Hb|]. apply ct_pair; [exact EC|constructor].
      - rewrite <- app_assoc. reflexivity. }
    cbn [pendOK] in HP.
    specialize (RB (or_introl eq_refl)). specialize (RA (or_introl eq_refl)).
    assert (SN : forall mode, startOK mode r).
    { intros mode. right. intros c r' ->. eapply RA. reflexivity. }
    assert (LN : lastIs [] (Some d)) by now left.
    destruct (kindOfChar d) as [ty|] eqn:EK; cbn [ks_mode ks_cur ks_start ks_err ks_inC ks_type] in K1.
    + apply kindOfChar_spec in EK. subst d.
      destruct (ks_mode s) as [|k] eqn:EM.
      2:{ exfalso. match type of K1 with (if ?b then _ else _) = _ => destruct b end;
            apply Ok_inj in K1; subst s1; now apply addErr_err in HE1. }
      destruct (room <=? S (length (ks_cur s))); [discriminate|]. apply Ok_inj in K1.
      assert (LB : endBlank pend).
      { destruct HL as [->|(c & p' & -> & ->)]; [now left|]. right. exists c, p'. auto. }
      assert (X : restOf (ks_mode s1) (ks_type s1) ([] ++ r)).
      { apply (IH r (Some (letter ty)) m' s1 s' (S (S pos)) [] ltac:(lia)); auto.
        - subst s1. exact R1.
        - subst s1. constructor.
        - subst s1. unfold typeOK. cbn. destruct ty; cbn; auto; eexists; (split; [reflexivity|split; discriminate]). }
      subst s1. cbn [ks_mode ks_type app] in X.
      assert (BR : ty = K_lb \/ ty = K_rb \/ ty = K_p \/ (ty <> K_lb /\ ty <> K_rb /\ ty <> K_p))
        by (destruct ty; auto; right; right; right; repeat split; discriminate).
      destruct BR as [->|[->|[->|(N1 & N2 & N3)]]].
      * destruct X as (items & tail & HN & HQ & ->).
        exists (mkItem K_lb pend [] [] :: items), tail. split.
        { constructor; [|exact HN]. split; [cbn; auto|]. split; [split; [exact HP|split; constructor]|].
          split; [exact LB|]. cbn. split; [intros A; now elim A|discriminate]. }
        split; [exact HQ|]. unfold sourceText. cbn [flat_map]. rewrite mkItem_text, <- !app_assoc. reflexivity.
      * destruct X as (items & tail & HN & HQ & ->).
        exists (mkItem K_rb pend [] [] :: items), tail. split.
        { constructor; [|exact HN]. split; [cbn; auto|]. split; [split; [exact HP|split; constructor]|].
          split; [exact LB|]. cbn. split; [intros _ A; now elim A|discriminate]. }
        split; [exact HQ|]. unfold sourceText. cbn [flat_map]. rewrite mkItem_text, <- !app_assoc. reflexivity.
      * destruct X as (items & tail & HN & HQ & ma & pr & Q1 & Q2 & S1 & S2 & ->).
        exists (mkItem K_p pend ma pr :: items), tail. split.
        { constructor; [|exact HN]. split; [cbn; auto|]. split; [split; [exact HP|split; assumption]|].
          split; [exact LB|]. cbn. auto. }
        split; [exact HQ|]. unfold sourceText. cbn [flat_map]. rewrite mkItem_text, <- !app_assoc.
        cbn [app]. rewrite <- ?app_assoc. cbn [app]. rewrite <- ?app_assoc. reflexivity.
      * assert (X' : exists items tail, Forall neat items /\ quiet tail /\
            exists ma, quiet ma /\ spaced ma /\ r = ma ++ [dollar; 46] ++ sourceText items tail).
        { destruct X as (items & tail & HN & HQ & X). exists items, tail. split; [exact HN|]. split; [exact HQ|].
          destruct ty; try congruence; exact X. }
        clear X. destruct X' as (items & tail & HN & HQ & ma & Q1 & S1 & ->).
        exists (mkItem ty pend ma [] :: items), tail. split.
        { constructor; [|exact HN]. split; [unfold itemOK; destruct ty; cbn; auto; congruence|].
          split; [split; [exact HP|split; [exact Q1|constructor]]|].
          split; [exact LB|]. cbn. split; [auto|intros A; now elim N3]. }
        split; [exact HQ|]. unfold sourceText. cbn [flat_map]. rewrite mkItem_text.
        destruct ty; try congruence; rewrite <- ?app_assoc; cbn [app]; rewrite <- ?app_assoc; reflexivity.
    + destruct (ks_mode s) as [|[|k]] eqn:EM.
      * apply Ok_inj in K1. subst s1. now apply addErr_err in HE1.
      * unfold typeOK in HT. rewrite EM in HT. destruct HT as (k & HT & HT1 & HT2). rewrite HT in K1.
        assert (SP : spaced pend).
        { eapply (spaced_pend pend prev _ d r 1); [exact HL|exact HS|discriminate|reflexivity|exact RB]. }
        destruct (isP (Some k)) eqn:EP; cbn [andb negb] in K1.
        -- assert (k = K_p) as -> by (destruct k; try discriminate EP; reflexivity).
           destruct (Nat.eqb_spec d chEq) as [->|ED]; cbn [negb] in K1.
           2:{ exfalso. destruct (negb (d =? chDot)); apply Ok_inj in K1; subst s1; now apply addErr_err in HE1. }
           change (chEq =? chDot) with false in K1. cbn [negb andb] in K1. apply Ok_inj in K1.
           assert (X : restOf (ks_mode s1) (ks_type s1) ([] ++ r)).
           { apply (IH r (Some chEq) m' s1 s' (S (S pos)) [] ltac:(lia)); auto; subst s1; cbn [ks_inC ks_mode ks_type pendOK];
               [rewrite ?EI; exact R1|rewrite ?EI; cbn; constructor|unfold typeOK; cbn; exact HT]. }
           subst s1. cbn [ks_mode ks_type app] in X.
           destruct X as (items & tail & HN & HQ & pr & Q2 & S2 & ->).
           exists items, tail. split; [exact HN|]. split; [exact HQ|]. rewrite HT.
           exists pend, pr. repeat (split; [assumption|]). reflexivity.
        -- destruct (Nat.eqb_spec d chDot) as [->|ED]; cbn [negb] in K1.
           2:{ apply Ok_inj in K1. subst s1. now apply addErr_err in HE1. }
           apply Ok_inj in K1.
           assert (X : restOf (ks_mode s1) (ks_type s1) ([] ++ r)).
           { apply (IH r (Some chDot) m' s1 s' (S (S pos)) [] ltac:(lia)); auto; subst s1; cbn [ks_inC ks_mode ks_type pendOK];
               [rewrite ?EI; exact R1|rewrite ?EI; cbn; constructor|unfold typeOK; cbn; exact I]. }
           subst s1. cbn [ks_mode ks_type app] in X.
           destruct X as (items & tail & HN & HQ & ->).
           exists items, tail. split; [exact HN|]. split; [exact HQ|]. rewrite HT.
           destruct k; try discriminate EP; try congruence; exists pend; repeat (split; [assumption|]); reflexivity.
      * assert (SP : spaced pend).
        { eapply (spaced_pend pend prev _ d r (S (S k))); [exact HL|exact HS|discriminate|reflexivity|exact RB]. }
        destruct (Nat.eqb_spec d chDot) as [->|ED]; cbn [negb] in K1.
        2:{ apply Ok_inj in K1. subst s1. now apply addErr_err in HE1. }
        apply Ok_inj in K1.
        assert (X : restOf (ks_mode s1) (ks_type s1) ([] ++ r)).
        { apply (IH r (Some chDot) m' s1 s' (S (S pos)) [] ltac:(lia)); auto; subst s1; cbn [ks_inC ks_mode ks_type pendOK];
            [rewrite ?EI; exact R1|rewrite ?EI; cbn; constructor|unfold typeOK; cbn; exact I]. }
        subst s1. cbn [ks_mode ks_type app] in X.
        destruct X as (items & tail & HN & HQ & ->).
        exists items, tail. split; [exact HN|]. split; [exact HQ|].
        exists pend; repeat (split; [assumption|]); reflexivity.
Qed.
