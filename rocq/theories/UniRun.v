(* UniRun.v -- proofs about UniModel: the whole search *)
From Coq Require Import ZifyBool ZifyNat.
From Verif Require Import Base UniModel UniSub UniCore UniStep.
Open Scope nat_scope.

Inductive runs (e : uenv) (cap : nat) : uout -> uout -> Prop :=
| runs_refl o : runs e cap o o
| runs_step o o1 o2 : ustep e cap o = Ok o1 -> runs e cap o1 o2 -> runs e cap o o2.
Lemma runs_trans e cap a b c : runs e cap a b -> runs e cap b c -> runs e cap a c.
Proof. induction 1; intros K; [exact K|]. eapply runs_step; eauto. Qed.
Definition isFinal (o : uout) : bool := match o with UDone _ | UAbort _ _ => true | _ => false end.
Lemma urun_final fuel e cap o : isFinal o = true -> urun fuel e cap o = Ok o.
Proof. destruct o; intros H; try discriminate H; destruct fuel; reflexivity. Qed.
Lemma runs_urun e cap o o' : runs e cap o o' -> isFinal o' = true -> exists k, forall fuel, k <= fuel -> urun fuel e cap o = Ok o'.
Proof.
  induction 1 as [o|o o1 o2 E R IH]; intros F.
  - exists 0. intros fuel _. apply urun_final, F.
  - destruct (IH F) as [k K]. destruct (isFinal o) eqn:Fo.
    + exists k. intros fuel L. destruct o; try discriminate Fo; cbn [ustep] in E; injection E as <-; apply K, L.
    + exists (S k). intros fuel L. destruct fuel as [|fuel]; [lia|].
      destruct o; try discriminate Fo; cbn [urun]; rewrite E; cbn [rbind]; apply K; lia.
Qed.
Lemma urun_runs e cap o' : forall fuel o, urun fuel e cap o = Ok o' -> runs e cap o o' /\ isFinal o' = true.
Proof.
  induction fuel as [|fuel IH]; intros o H.
  - destruct o; try discriminate H; injection H as <-; split; try reflexivity; constructor.
  - destruct (isFinal o) eqn:Fo.
    + rewrite urun_final in H by exact Fo. injection H as <-. split; [constructor|exact Fo].
    + destruct (ustep e cap o) as [o1| | |] eqn:E; destruct o; try discriminate Fo; cbn [urun] in H; rewrite E in H; try discriminate H;
        cbn [rbind] in H; destruct (IH _ H) as [R F]; (split; [eapply runs_step; [exact E|exact R]|exact F]).
Qed.
(* urun is deterministic *)
Lemma urun_same e cap o a b f1 f2 : urun f1 e cap o = Ok a -> urun f2 e cap o = Ok b -> a = b.
Proof.
  intros H1 H2. destruct (urun_runs _ _ _ _ _ H1) as [R1 F1]. destruct (urun_runs _ _ _ _ _ H2) as [R2 F2].
  destruct (runs_urun _ _ _ _ R1 F1) as [k1 K1]. destruct (runs_urun _ _ _ _ R2 F2) as [k2 K2].
  assert (Ok a = Ok b); [|congruence]. rewrite <- (K1 (k1 + k2)), <- (K2 (k1 + k2)) by lia. reflexivity.
Qed.

Section Run.
  Variable e : uenv.
  Variables A0 B0 : list nat.
  Variable cap : nat.
  Notation mt := (u_mt e).
  Notation cnt := (count_occ Nat.eq_dec).
  Hypothesis Hmin : u_min e <= 1.
  Hypothesis Hcnt : cnt A0 mt = cnt B0 mt.
  Hypothesis Hhd : 1 <= u_min e \/ (forall x, hd_error A0 = Some x \/ hd_error B0 = Some x -> x <= mt).
  Hypothesis Hne : A0 <> [] /\ B0 <> [].
  Hypothesis Hcap : forall l, NoDup l -> (forall x, In x l -> mt < x /\ In x (A0 ++ B0)) -> length l <= cap.
  Notation goodA := (goodA e A0 B0).
  Notation goodB := (goodB e A0 B0).
  Notation goodBack := (goodBack e A0 B0).
  Notation goodSw := (goodSw e A0 B0).
  Notation goodDone := (goodDone e A0 B0).
  Definition goodEnd (o : uout) : Prop := match o with UDone s => goodDone s | UAbort _ _ => True | _ => False end.
  Definition leads (o : uout) (stk : list level) : Prop :=
    exists o', runs e cap o o' /\ (goodEnd o' \/ exists s', o' = UBack s' /\ goodBack s' /\ u_stk s' = stk).
  Lemma leads_step o o1 stk : ustep e cap o = Ok o1 -> leads o1 stk -> leads o stk.
  Proof. intros E [o' [R K]]. exists o'. split; [eapply runs_step; eassumption|exact K]. Qed.
  Lemma leads_via o stk stk' : leads o stk -> (forall s, goodBack s -> u_stk s = stk -> leads (UBack s) stk') -> leads o stk'.
  Proof.
    intros [o1 [R [K|[s' [-> [G S]]]]]] H; [exists o1; auto|]. destruct (H s' G S) as [o2 [R2 K2]].
    exists o2. split; [eapply runs_trans; eassumption|exact K2].
  Qed.
  Lemma leads_here s stk : goodBack s -> u_stk s = stk -> leads (UBack s) stk.
  Proof. intros G E. exists (UBack s). split; [constructor|]. right. exists s. auto. Qed.
  Lemma leads_end o stk : goodEnd o -> leads o stk.
  Proof. intros G. exists o. split; [constructor|left; exact G]. Qed.

  Lemma pop_leads k : (forall s, goodA s -> cap < length (u_stk s) + k -> leads (UScan s) (u_stk s)) ->
    forall r top rest s, rem top = r -> goodSw s top rest -> cap < length (top :: rest) + k -> leads (USwitch s) rest.
  Proof.
    intros IHA. induction r as [r IH] using (well_founded_induction lt_wf). intros top rest s Er G HL.
    destruct (switch_step e A0 B0 cap Hmin Hcnt Hhd Hne Hcap s top rest G) as [o [E O]].
    apply leads_step with (o1 := o); [exact E|]. destruct o as [s'|s'|s'|s'|c tc]; try contradiction.
    - assert (BK : forall s2, goodBack s2 -> u_stk s2 = top :: rest -> leads (UBack s2) rest).
      { intros s2 G2 E2. destruct (back_step e A0 B0 cap Hmin Hcnt Hhd Hcap s2 top rest G2 E2) as [o2 [F2 O2]].
        apply leads_step with (o1 := o2); [exact F2|]. destruct o2 as [s3|s3|s3|s3|c tc]; try contradiction; [|apply leads_end; exact I].
        destruct O2 as [top' [G' R']]. rewrite Er in R'. exact (IH (rem top') R' top' rest s3 eq_refl G' HL). }
      destruct (scanB_step e A0 B0 cap Hmin Hcnt Hhd Hne Hcap s' top rest O) as [o [F2 O2]]. apply leads_step with (o1 := o); [exact F2|].
      destruct o as [s2|s2|s2|s2|c tc]; try contradiction.
      + destruct O2 as [G2 E2]. apply leads_via with (stk := top :: rest); [|exact BK]. rewrite <- E2. apply IHA; [exact G2|]. rewrite E2. exact HL.
      + destruct O2 as [G2 [E2|E2]]; [apply leads_here; assumption|apply BK; assumption].
    - destruct O as [G2 E2]. apply leads_here; assumption.
    - destruct O as [top' [G' R']]. rewrite Er in R'. exact (IH (rem top') R' top' rest s' eq_refl G' HL).
  Qed.
  Lemma back_leads k : (forall s, goodA s -> cap < length (u_stk s) + k -> leads (UScan s) (u_stk s)) ->
    forall top rest s, goodBack s -> u_stk s = top :: rest -> cap < length (top :: rest) + k -> leads (UBack s) rest.
  Proof.
    intros IHA top rest s G E HL. destruct (back_step e A0 B0 cap Hmin Hcnt Hhd Hcap s top rest G E) as [o2 [F2 O2]].
    apply leads_step with (o1 := o2); [exact F2|]. destruct o2 as [s3|s3|s3|s3|c tc]; try contradiction; [|apply leads_end; exact I].
    destruct O2 as [top' [G' R']]. exact (pop_leads k IHA (rem top') top' rest s3 eq_refl G' HL).
  Qed.
  Lemma scan_leads k : forall s, goodA s -> cap < length (u_stk s) + k -> leads (UScan s) (u_stk s).
  Proof.
    induction k as [|k IH]; intros s G HL.
    - exfalso. destruct G as [_ [_ [f C]]]. pose proof (Hcap _ (c_nd _ _ _ _ _ _ _ _ _ _ C) (c_unk _ _ _ _ _ _ _ _ _ _ C)) as K.
      unfold vars in K. rewrite map_length in K. lia.
    - destruct (scanA_step e A0 B0 cap Hmin Hcnt Hhd Hne Hcap s G) as [o [top [E O]]]. apply leads_step with (o1 := o); [exact E|].
      destruct o as [s2|s2|s2|s2|c tc]; try contradiction.
      + destruct O as [G2 E2]. apply leads_via with (stk := top :: u_stk s).
        * rewrite <- E2. apply IH; [exact G2|]. rewrite E2. cbn [length]. lia.
        * intros s3 G3 E3. apply (back_leads k IH top); [exact G3|exact E3|cbn [length]; lia].
      + destruct O as [G2 [E2|E2]]; [apply leads_here; assumption|]. apply (back_leads k IH top); [exact G2|exact E2|cbn [length]; lia].
      + apply leads_end. exact (proj1 O).
  Qed.
  Lemma back_all : forall stk s, goodBack s -> u_stk s = stk -> exists o, runs e cap (UBack s) o /\ goodEnd o.
  Proof.
    induction stk as [|top rest IH]; intros s G E.
    - exists (UAbort 0 (u_tc s)). split; [|exact I]. eapply runs_step; [|constructor]. cbn [ustep]. unfold backStep. rewrite E. reflexivity.
    - destruct (back_leads (S cap) (scan_leads (S cap)) top rest s G E) as [o [R [K|[s' [-> [G' E']]]]]]; [lia|exists o; auto|].
      destruct (IH s' G' E') as [o2 [R2 K2]]. exists o2. split; [eapply runs_trans; eassumption|exact K2].
  Qed.
  Lemma scan_all s : goodA s -> exists o, runs e cap (UScan s) o /\ goodEnd o.
  Proof.
    intros G. destruct (scan_leads (S cap) s G) as [o [R [K|[s' [-> [G' E']]]]]]; [lia|exists o; auto|].
    destruct (back_all (u_stk s') s' G' eq_refl) as [o2 [R2 K2]]. exists o2. split; [eapply runs_trans; eassumption|exact K2].
  Qed.
  Lemma start_core : core e A0 B0 (fun t => [t]) (A0 ++ [mt]) (B0 ++ [mt]) 0 [] [] [].
  Proof.
    assert (FM : forall l : list nat, flat_map (fun t => [t]) l = l) by (induction l as [|a l IH]; [reflexivity|cbn; f_equal; exact IH]).
    constructor; cbn [length]; try reflexivity; try (rewrite FM; reflexivity); try (intros x []; fail); try (intros _ x []; fail); try (intros x s n []; fail).
    - constructor.
    - intros t. rewrite !in_app_iff. cbn [In]. intros [[K|[K|[]]]|[K|[K|[]]]]; auto.
    - rewrite app_length. cbn. lia.
    - rewrite app_length. cbn. lia.
  Qed.
  Lemma start_good tc : goodA (mkU (A0 ++ [mt]) (B0 ++ [mt]) 0 [] [] [] (fun _ => false) tc).
  Proof.
    split; [exact I|]. split; [intros t; cbn; split; [discriminate|intros []]|]. exists (fun t => [t]). exact start_core.
  Qed.
End Run.
