(* SrcFinal.v -- the statements of SrcProps, proved. *)
From Verif Require Import Base TokModel LabModel SrcModel TokSpec SrcSpec TokProofs SrcProofs SrcQuiet SrcRaw.
Open Scope nat_scope.

Lemma fixCR_len : forall n l, length l <= n -> lines l (fixCR l).
Proof.
  induction n as [|n IH]; intros l Hn.
  - destruct l; [constructor|simpl in Hn; lia].
  - destruct l as [|c r]; [constructor|]. simpl in Hn. cbn [fixCR].
    destruct (Nat.eqb_spec c chCR) as [->|Hc].
    + destruct r as [|d r]; [apply li_cr; [discriminate|constructor]|]. simpl in Hn.
      destruct (Nat.eqb_spec d chNL) as [->|Hd].
      * apply li_crlf. apply IH. lia.
      * apply li_cr; [intros A; injection A; exact Hd|]. apply IH. simpl. lia.
    + apply li_char; [exact Hc|]. apply IH. lia.
Qed.
Lemma lines_fun l t : lines l t -> forall u, lines l u -> u = t.
Proof.
  induction 1; intros u HU; inversion HU; subst; auto; try congruence;
    try (f_equal; auto; fail); try (cbn in *; congruence).
Qed.
Lemma lines_noCR l t : lines l t -> ~ In 13 t.
Proof. induction 1 as [|r t _ IH|r t _ _ IH|c r t Hc _ IH]; cbn; [tauto|intros [A|A]; [discriminate|tauto]|intros [A|A]; [discriminate|tauto]|intros [A|A]; [congruence|tauto]]. Qed.
Lemma lines_nil l : lines l [] -> l = [].
Proof. now inversion 1. Qed.

Lemma addNL_ok l : l <> [] -> exists t, addNL l = Ok t /\ (exists p, t = p ++ [10]) /\
  (t = l \/ t = l ++ [10] /\ ~ exists p, l = p ++ [10]).
Proof.
  intros H. unfold addNL. destruct (rev l) as [|c r] eqn:E.
  - exfalso. apply H. rewrite <- (rev_involutive l), E. reflexivity.
  - assert (EL : l = rev r ++ [c]) by (rewrite <- (rev_involutive l), E; reflexivity).
    destruct (Nat.eqb_spec c chNL) as [->|Hc]; eexists; (split; [reflexivity|]).
    + split; [eauto|now left].
    + split; [eauto|]. right. split; [reflexivity|]. intros (p & Hp). rewrite Hp in EL.
      apply app_inj_tail in EL. destruct EL as [_ EL]. now apply Hc.
Qed.

Lemma mono_step r1 r2 d pos s s1 : kwStep r1 d pos s = Ok s1 -> r1 <= r2 -> kwStep r2 d pos s = Ok s1.
Proof.
  unfold kwStep. intros HS HL.
  destruct (isCh d chOpen); [exact HS|]. destruct (isCh d chClose); [exact HS|].
  destruct (ks_inC s); [exact HS|]. destruct (match d with Some x => kindOfChar x | None => None end); [|exact HS].
  cbn [ks_mode ks_cur] in *. destruct (ks_mode s); [|exact HS].
  destruct (Nat.leb_spec r1 (S (length (ks_cur s)))); [discriminate|].
  destruct (Nat.leb_spec r2 (S (length (ks_cur s)))); [lia|exact HS].
Qed.
Lemma mono_loop r1 r2 : forall n l pos s s1, length l <= n ->
  kwLoop r1 l pos s = Ok s1 -> r1 <= r2 -> kwLoop r2 l pos s = Ok s1.
Proof.
  induction n as [|n IH]; intros l pos s s1 Hn HL HR.
  - destruct l; [exact HL|simpl in Hn; lia].
  - destruct l as [|c r]; [exact HL|]. simpl in Hn.
    destruct (Nat.eq_dec c dollar) as [->|Hc].
    + destruct r as [|d r]; [exact (mono_step r1 r2 None (S pos) s s1 HL HR)|]. simpl in Hn.
      destruct (Nat.eq_dec d dollar) as [->|Hd].
      * rewrite kwLoop_dd in *. apply IH; auto. lia.
      * rewrite kwLoop_kw in * by exact Hd. apply rbind_ok in HL. destruct HL as (s2 & K1 & K2).
        rewrite (mono_step _ _ _ _ _ _ K1 HR). cbn [rbind]. apply IH; auto. lia.
    + rewrite kwLoop_char in * by exact Hc. apply IH; auto. lia.
Qed.
Lemma mono_room room src x y : parseKeywords room src = Ok (x, y) ->
  forall room', room <= room' -> parseKeywords room' src = Ok (x, y).
Proof.
  unfold parseKeywords. intros H r2 HR. apply rbind_ok in H. destruct H as (s1 & K1 & K2).
  rewrite (mono_loop _ r2 _ _ _ _ _ (le_n _) K1 HR). cbn [rbind]. cbv zeta in *.
  match type of K2 with (if room <=? ?k then _ else _) = _ => set (kk := k) in * end.
  destruct (Nat.leb_spec room kk); [discriminate|]. destruct (Nat.leb_spec r2 kk); [lia|]. exact K2.
Qed.

Lemma c46_file_text : forall bytes,
  bytes <> [] -> (forall r, bytes <> 255 :: 254 :: r) ->
  exists t u, readFile bytes = Ok (Some t) /\ lines bytes u /\ ~ In 13 t /\
    (exists p, t = p ++ [10]) /\ (t = u \/ t = u ++ [10] /\ ~ exists p, u = p ++ [10]).
Proof.
  intros bytes HN HB.
  assert (E : readFile bytes = rbind (addNL (fixCR bytes)) (fun v => Ok (Some v))).
  { unfold readFile. destruct bytes as [|a [|b r]]; [reflexivity|reflexivity|].
    destruct (Nat.eqb a 255 && Nat.eqb b 254) eqn:Q; [|reflexivity].
    apply andb_prop in Q. destruct Q as [Qa Qb]. apply Nat.eqb_eq in Qa, Qb. subst. now elim (HB r). }
  pose proof (fixCR_len (length bytes) bytes (le_n _)) as HL.
  assert (HE : fixCR bytes <> []).
  { intros A. rewrite A in HL. now apply lines_nil in HL. }
  destruct (addNL_ok _ HE) as (t & H1 & H2 & H3).
  exists t, (fixCR bytes). rewrite E, H1. split; [reflexivity|]. split; [exact HL|].
  split; [|now split].
  destruct H3 as [ -> |( -> & _)].
  - eapply lines_noCR; eauto.
  - intros A. apply in_app_or in A. destruct A as [A|[A|[]]]; [|discriminate].
    eapply lines_noCR; eauto.
Qed.
Lemma c46_lines_unique : forall l t u, lines l t -> lines l u -> u = t.
Proof. intros l t u H. exact (lines_fun l t H u). Qed.
Lemma c46_unix_text_unchanged : forall p,
  ~ In 13 p -> (forall r, p ++ [10] <> 255 :: 254 :: r) -> readFile (p ++ [10]) = Ok (Some (p ++ [10])).
Proof.
  intros p HC HB. destruct (c46_file_text (p ++ [10])) as (t & u & H1 & H2 & _ & _ & H3); auto.
  { now destruct p. }
  assert (u = p ++ [10]) as ->.
  { eapply lines_fun; [|exact H2]. assert (~ In 13 (p ++ [10])).
    { intros A. apply in_app_or in A. destruct A as [A|[A|[]]]; [tauto|discriminate]. }
    clear -H. induction (p ++ [10]); constructor; [intros ->; apply H; now left|]. apply IHl. intros A. apply H. now right. }
  destruct H3 as [ -> |(_ & H3)]; [exact H1|]. elim H3. eauto.
Qed.
Lemma c46_empty_file_ub_refuted : readFile [] = UB /\ readFile [255; 254] = UB.
Proof. split; reflexivity. Qed.
Lemma c38_write_source_reproduces : forall src es st dummy,
  readSource src = Ok (es, [], st, dummy) -> writeSource src st dummy = Ok src.
Proof.
  intros src es st dummy H. unfold readSource in H. destruct (readRaw src) as [es' n].
  apply rbind_ok in H. destruct H as ([[st' d'] ks] & H1 & H2). apply Ok_inj in H2.
  injection H2 as -> -> -> ->. exact (write_back src _ _ _ H1).
Qed.
Lemma c38_statements_partition_source : forall src es st dummy,
  readSource src = Ok (es, [], st, dummy) ->
  src = sourceText (map (toItem src) st) (secText src dummy) /\ Forall itemOK (map (toItem src) st).
Proof.
  intros src es st dummy H. unfold readSource in H. destruct (readRaw src) as [es' n].
  apply rbind_ok in H. destruct H as ([[st' d'] ks] & H1 & H2). apply Ok_inj in H2.
  injection H2 as -> -> -> ->. exact (parse_items src _ _ _ H1).
Qed.
Lemma c38_reading_inverts_writing : forall items tail,
  Forall itemOK items -> Forall quietItem items -> quiet tail ->
  noDouble (sourceText items tail) ->
  exists es st dummy, readSource (sourceText items tail) = Ok (es, [], st, dummy) /\
    map (toItem (sourceText items tail)) st = items /\ secText (sourceText items tail) dummy = tail.
Proof.
  intros items tail H1 H2 H3 H4. set (src := sourceText items tail) in *.
  destruct (parse_room src (or_intror H4)) as (st & dummy & ks & HP).
  pose (room := snd (readRaw src) + 3).
  destruct (parse_complete (S (S (length items)) + room) items tail H1 H2 H3 ltac:(lia)) as (st' & d' & HC & HM & HT).
  fold src in HC, HM, HT.
  exists (fst (readRaw src)).
  assert (E : parseKeywords (snd (readRaw src) + 3) src = Ok (st', d', [])).
  { pose proof (mono_room _ _ _ _ HP (S (S (length items)) + room) ltac:(unfold room; lia)) as E2.
    rewrite E2 in HC. rewrite HP. exact HC. }
  unfold readSource. destruct (readRaw src) as [es n] eqn:ER. cbn [fst snd] in *.
  exists st', d'. rewrite E. cbn [rbind]. auto.
Qed.
Lemma c38_erroneous_source_differs_refuted : exists src es ks st dummy out,
  readSource src = Ok (es, ks, st, dummy) /\ ks <> [] /\ writeSource src st dummy = Ok out /\ out <> src.
Proof.
  exists ([97; 32; 36; 112; 32; 36; 46; 10]).
  do 5 eexists. split; [vm_compute; reflexivity|]. split; [discriminate|]. split; [vm_compute; reflexivity|discriminate].
Qed.
Lemma c47_statement_array : forall src,
  fst (readRaw src) = [] \/ noDouble src -> exists r, readSource src = Ok r.
Proof.
  intros src H. destruct (parse_room src H) as (st & d & ks & E). unfold readSource.
  destruct (readRaw src) as [es n]. cbn [snd] in E. rewrite E. cbn [rbind]. eauto.
Qed.
Lemma c47_statement_array_overflow_refuted : exists src, readSource src = UB.
Proof.
  exists ([36; 36; 40; 32; 36; 123; 32; 36; 123; 32; 36; 123; 10]). reflexivity.
Qed.
Lemma c48_error_free_source : forall src st dummy,
  readSource src = Ok ([], [], st, dummy) ->
  exists items tail, src = sourceText items tail /\ Forall neat items /\ quiet tail /\
    map (toItem src) st = items /\ secText src dummy = tail.
Proof.
  intros src st dummy H. unfold readSource in H. destruct (readRaw src) as [es n] eqn:ER.
  apply rbind_ok in H. destruct H as ([[st' d'] ks] & H1 & H2). apply Ok_inj in H2.
  injection H2 as -> -> -> ->.
  pose proof H1 as H0. unfold parseKeywords in H1. apply rbind_ok in H1. destruct H1 as (s & K1 & K2).
  assert (EM : ks_mode s = 0 /\ ks_err s = []).
  { destruct (ks_mode s).
    - split; [reflexivity|].
      match type of K2 with (if ?b then _ else _) = _ => destruct b end; [discriminate|].
      apply Ok_inj in K2. now injection K2.
    - exfalso. match type of K2 with (if ?b then _ else _) = _ => destruct b end; [discriminate|].
      apply Ok_inj in K2. injection K2 as _ _ HE. destruct (ks_cur s); cbn in HE; destruct (ks_err s); discriminate. }
  destruct EM as [EM EE].
  destruct (structure (n + 3) (length src) src None n (mkKst 0 None false 0 [] []) s 0 [])
    as (items & tail & HN & HQ & HS); [lia|exact ER|exact K1|exact EE|exact EM|constructor|now left|now left|exact I|].
  cbn [ks_mode ks_type app] in HS. exists items, tail. split; [exact HS|]. split; [exact HN|]. split; [exact HQ|].
  destruct (parse_complete (S (S (length items)) + (n + 3)) items tail) as (st2 & d2 & P1 & P2 & P3).
  - eapply Forall_impl; [|exact HN]. now intros a (A & _).
  - eapply Forall_impl; [|exact HN]. now intros a (_ & A & _).
  - exact HQ.
  - lia.
  - rewrite <- HS in P1, P2, P3.
    assert (E : st2 = st /\ d2 = dummy).
    { destruct (parse_room src) as (a & b & c & E); [left; unfold readRaw in *; rewrite ER; reflexivity|].
      pose proof (mono_room _ _ _ _ H0 (S (S (length items)) + (n + 3)) ltac:(lia)) as E2.
      rewrite E2 in P1. apply Ok_inj in P1. injection P1 as -> ->. auto. }
    destruct E as [-> ->]. auto.
Qed.
