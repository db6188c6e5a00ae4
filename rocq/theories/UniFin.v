(* UniFin.v -- proofs about UniModel: there are finitely many answers *)
From Coq Require Import ZifyBool ZifyNat Wellfounded Relation_Operators.
From Verif Require Import Base UniModel UniSpec UniSub UniCore UniStep UniRun UniProofs UniFilter UniMatch UniAll.
Open Scope nat_scope.

Section Fin.
  Variable e : uenv.
  Variables A0 B0 : list nat.
  Hypothesis OK : okInput e A0 B0.
  Notation mt := (u_mt e).
  Notation cap := (unkCount e A0 B0).
  Notation goodA := (goodA e A0 B0).
  Notation goodBack := (goodBack e A0 B0).
  Notation goodSw := (goodSw e A0 B0).
  Notation goodCfg := (goodCfg e A0 B0).
  Let Hmin := ok_min _ _ _ OK. Let Hcnt := ok_cnt _ _ _ OK. Let Hhd := ok_hd _ _ _ OK. Let Hne := ok_ne e A0 B0 OK. Let Hcap := unkCount_cap e A0 B0.

  (* b comes right after a: a step, or the re-entry after an answer *)
  Definition nxt (b a : uout) : Prop :=
    (isFinal a = false /\ ustep e cap a = Ok b) \/
    (exists s s', a = UDone s /\ b = UBack s' /\ goodBack s' /\ u_stk s' = u_stk s).
  Definition fin (o : uout) (stk : list level) : Prop :=
    (forall s, goodBack s -> u_stk s = stk -> Acc nxt (UBack s)) -> Acc nxt o.
  Lemma fin_step o o1 stk : isFinal o = false -> ustep e cap o = Ok o1 -> fin o1 stk -> fin o stk.
  Proof.
    intros F E K H. constructor. intros b [[_ Eb]|[s [s' [-> _]]]]; [|discriminate F]. rewrite E in Eb. injection Eb as <-. exact (K H).
  Qed.
  Lemma fin_via o stk stk' : fin o stk -> (forall s, goodBack s -> u_stk s = stk -> fin (UBack s) stk') -> fin o stk'.
  Proof. intros K V H. apply K. intros s G E. exact (V s G E H). Qed.
  Lemma fin_here s stk : goodBack s -> u_stk s = stk -> fin (UBack s) stk.
  Proof. intros G E H. exact (H s G E). Qed.
  Lemma fin_abort c tc stk : fin (UAbort c tc) stk.
  Proof. intros _. constructor. intros b [[F _]|[s [s' [K _]]]]; discriminate. Qed.
  Lemma fin_done s stk : u_stk s = stk -> fin (UDone s) stk.
  Proof. intros E H. constructor. intros b [[F _]|[s1 [s' [K [-> [G ES]]]]]]; [discriminate F|]. injection K as <-. apply H; [exact G|congruence]. Qed.

  Lemma pop_fin k : (forall s, goodA s -> cap < length (u_stk s) + k -> fin (UScan s) (u_stk s)) ->
    forall r top rest s, rem top = r -> goodSw s top rest -> cap < length (top :: rest) + k -> fin (USwitch s) rest.
  Proof.
    intros IHA. induction r as [r IH] using (well_founded_induction lt_wf). intros top rest s Er G HL.
    destruct (switch_step e A0 B0 cap Hmin Hcnt Hhd Hne Hcap s top rest G) as [o [E O]].
    apply fin_step with (o1 := o); [reflexivity|exact E|]. destruct o as [s'|s'|s'|s'|c tc]; try contradiction.
    - assert (BK : forall s2, goodBack s2 -> u_stk s2 = top :: rest -> fin (UBack s2) rest).
      { intros s2 G2 E2. destruct (back_step e A0 B0 cap Hmin Hcnt Hhd Hcap s2 top rest G2 E2) as [o2 [F2 O2]].
        apply fin_step with (o1 := o2); [reflexivity|exact F2|]. destruct o2 as [s3|s3|s3|s3|c tc]; try contradiction; [|apply fin_abort].
        destruct O2 as [top' [G' R']]. rewrite Er in R'. exact (IH (rem top') R' top' rest s3 eq_refl G' HL). }
      destruct (scanB_step e A0 B0 cap Hmin Hcnt Hhd Hne Hcap s' top rest O) as [o [F2 O2]]. apply fin_step with (o1 := o); [reflexivity|exact F2|].
      destruct o as [s2|s2|s2|s2|c tc]; try contradiction.
      + destruct O2 as [G2 E2]. apply fin_via with (stk := top :: rest); [|exact BK]. rewrite <- E2. apply IHA; [exact G2|]. rewrite E2. exact HL.
      + destruct O2 as [G2 [E2|E2]]; [apply fin_here; assumption|apply BK; assumption].
    - destruct O as [G2 E2]. apply fin_here; assumption.
    - destruct O as [top' [G' R']]. rewrite Er in R'. exact (IH (rem top') R' top' rest s' eq_refl G' HL).
  Qed.
  Lemma back_fin k : (forall s, goodA s -> cap < length (u_stk s) + k -> fin (UScan s) (u_stk s)) ->
    forall top rest s, goodBack s -> u_stk s = top :: rest -> cap < length (top :: rest) + k -> fin (UBack s) rest.
  Proof.
    intros IHA top rest s G E HL. destruct (back_step e A0 B0 cap Hmin Hcnt Hhd Hcap s top rest G E) as [o2 [F2 O2]].
    apply fin_step with (o1 := o2); [reflexivity|exact F2|]. destruct o2 as [s3|s3|s3|s3|c tc]; try contradiction; [|apply fin_abort].
    destruct O2 as [top' [G' R']]. exact (pop_fin k IHA (rem top') top' rest s3 eq_refl G' HL).
  Qed.
  Lemma scan_fin k : forall s, goodA s -> cap < length (u_stk s) + k -> fin (UScan s) (u_stk s).
  Proof.
    induction k as [|k IH]; intros s G HL.
    - exfalso. destruct G as [_ [_ [f C]]]. pose proof (Hcap _ (c_nd _ _ _ _ _ _ _ _ _ _ C) (c_unk _ _ _ _ _ _ _ _ _ _ C)) as K.
      unfold vars in K. rewrite map_length in K. lia.
    - destruct (scanA_step e A0 B0 cap Hmin Hcnt Hhd Hne Hcap s G) as [o [top [E O]]]. apply fin_step with (o1 := o); [reflexivity|exact E|].
      destruct o as [s2|s2|s2|s2|c tc]; try contradiction.
      + destruct O as [G2 E2]. apply fin_via with (stk := top :: u_stk s).
        * rewrite <- E2. apply IH; [exact G2|]. rewrite E2. cbn [length]. lia.
        * intros s3 G3 E3. apply (back_fin k IH top); [exact G3|exact E3|cbn [length]; lia].
      + destruct O as [G2 [E2|E2]]; [apply fin_here; assumption|]. apply (back_fin k IH top); [exact G2|exact E2|cbn [length]; lia].
      + apply fin_done. exact (proj2 O).
  Qed.
  Lemma back_acc : forall stk s, goodBack s -> u_stk s = stk -> Acc nxt (UBack s).
  Proof.
    induction stk as [|top rest IH]; intros s G E.
    - constructor. intros b [[_ Eb]|[s1 [s' [K _]]]]; [|discriminate K]. cbn [ustep] in Eb. unfold backStep in Eb. rewrite E in Eb. injection Eb as <-.
      constructor. intros b [[F _]|[s1 [s2 [K _]]]]; discriminate.
    - apply (back_fin (S cap) (scan_fin (S cap)) top rest s G E); [lia|]. intros s' G' E'. exact (IH s' G' E').
  Qed.

  (* ---------- from one answer to the next ---------- *)
  Notation after := (clos_trans uout nxt).
  Lemma urun_after o' : forall fuel o, urun fuel e cap o = Ok o' -> o' = o \/ after o' o.
  Proof.
    induction fuel as [|fuel IH]; intros o H.
    - destruct o; try discriminate H; injection H as <-; left; reflexivity.
    - destruct (isFinal o) eqn:F; [rewrite urun_final in H by exact F; injection H as <-; left; reflexivity|].
      destruct (ustep e cap o) as [o1| | |] eqn:E; destruct o; try discriminate F; cbn [urun] in H; rewrite E in H; try discriminate H; cbn [rbind] in H;
        (assert (N : after o1 _) by (apply t_step; left; split; [exact F|exact E]); destruct (IH _ H) as [->|K]; right; [exact N|apply t_trans with o1; assumption]).
  Qed.
  Definition reenter (s : ust) (tc : nat) : ust :=
    mkU (u_A s) (u_B s) 0 (u_stk s) (u_starts s) (u_lens s) (fun t => existsb (fun l => l_var l =? t) (u_stk s)) tc.
  Lemma reenter_good s tc : answer e A0 B0 s -> goodBack (reenter s tc).
  Proof.
    intros [[SO _] _]. split; [exact SO|]. intros t. cbn [u_tmp u_stk reenter]. unfold vars. rewrite existsb_exists, in_map_iff.
    split; [intros [l [K1 K2]]; exists l; split; [lia|exact K1]|intros [l [K1 K2]]; exists l; split; [exact K2|lia]].
  Qed.
  Lemma next_after fuel s tc s' tc' : answer e A0 B0 s -> unifyNext fuel e A0 B0 s tc = Ok (UYes s', tc') -> after (UDone s') (UDone s).
  Proof.
    intros As H. unfold unifyNext in H. destruct (quickNo e A0 B0) as [[|]| | |]; try discriminate H. cbn [rbind] in H.
    fold (reenter s tc) in H. destruct (urun fuel e cap (UBack (reenter s tc))) as [o| | |] eqn:E; try discriminate H. cbn [rbind] in H.
    assert (o = UDone s') by (destruct o; try discriminate H; cbn [finish] in H; [|destruct (code =? 0)]; congruence). subst o.
    assert (N : after (UBack (reenter s tc)) (UDone s)).
    { apply t_step. right. exists s, (reenter s tc). split; [reflexivity|]. split; [reflexivity|]. split; [apply reenter_good, As|reflexivity]. }
    destruct (urun_after _ _ _ E) as [K|K]; [discriminate K|]. apply t_trans with (UBack (reenter s tc)); assumption.
  Qed.
  Lemma answer_acc s : answer e A0 B0 s -> Acc after (UDone s).
  Proof.
    intros As. apply Acc_clos_trans. constructor. intros b [[F _]|[s1 [s' [K [-> [G ES]]]]]]; [discriminate F|].
    exact (back_acc (u_stk s') s' G eq_refl).
  Qed.
  (* with the counter off there is no timeout *)
  Definition tcz (o : uout) : Prop :=
    match o with UScan s | UBack s | USwitch s | UDone s => u_tc s = 0 | UAbort c tc => c = 0 /\ tc = 0 end.
  Lemma doSubst_tc flag x w s s' : doSubst flag x w s = Ok s' -> u_tc s' = u_tc s.
  Proof.
    unfold doSubst. destruct (subLoop _ flag _ _ _ _ _ _) as [[[A q] ss]| | |]; try discriminate. cbn [rbind].
    destruct (subLoop _ (negb flag) _ _ _ _ _ _) as [[[B q2] ss2]| | |]; try discriminate. cbn [rbind]. intros H. injection H as <-. reflexivity.
  Qed.
  Lemma side_tc flag x s o : u_tc s = 0 -> side e cap flag x s = Ok o -> tcz o.
  Proof.
    intros T H. unfold side in H.
    match type of H with rbind ?z _ = _ => destruct z as [s1| | |] eqn:E; try discriminate H end. cbn [rbind] in H.
    assert (T1 : u_tc s1 = 0) by (destruct (u_tmp s x); [congruence|]; destruct (_ <? cap); [|discriminate E]; injection E as <-; exact T).
    destruct (u_stk s1) as [|top rest]; [discriminate H|]. destruct (u_lens s1) as [|n ns]; [discriminate H|].
    destruct (negb _); [discriminate H|]. destruct (existsb _ _); [injection H as <-; exact T1|]. destruct (isTok _ _); [injection H as <-; exact T1|].
    destruct (reject e _); [injection H as <-; exact T1|].
    match type of H with rbind ?z _ = _ => destruct z as [s2| | |] eqn:E2; try discriminate H end. cbn [rbind] in H. injection H as <-.
    cbn [tcz]. rewrite (doSubst_tc _ _ _ _ _ E2). exact T1.
  Qed.
  Lemma step_tc o o' : tcz o -> ustep e cap o = Ok o' -> tcz o'.
  Proof.
    intros T H. destruct o as [s|s|s|s|c tc]; cbn [ustep tcz] in *.
    - unfold scanStep in H. destruct (scanLoop _ _ _ _) as [p| | |]; try discriminate H. cbn [rbind u_A u_B u_p u_stk u_starts u_lens u_tmp u_tc] in H.
      destruct (rd (u_A s) p) as [a| | |]; try discriminate H. cbn [rbind] in H. destruct (rd (u_B s) p) as [b| | |]; try discriminate H. cbn [rbind] in H.
      assert (T1 : forall p, u_tc (mkU (u_A s) (u_B s) p (u_stk s) (u_starts s) (u_lens s) (u_tmp s) (u_tc s)) = 0) by (intros; exact T).
      repeat match type of H with
      | (if ?z then _ else _) = _ => destruct z
      | rbind ?z _ = _ => destruct z as [[n|]| | |]; cbn [rbind] in H
      | match ?z with Some _ => _ | None => _ end = _ => destruct z
      end; try discriminate H; try (injection H as <-; exact T); exact (side_tc _ _ _ _ (T1 p) H).
    - unfold backStep in H. rewrite T in H. cbn [Nat.ltb Nat.leb andb] in H. destruct (u_stk s) as [|top rest]; [injection H as <-; split; reflexivity|].
      destruct (l_lens top), (l_starts top); try discriminate H. injection H as <-. reflexivity.
    - unfold switchStep in H. destruct (u_stk s) as [|top rest]; [discriminate H|]. destruct (l_lens top) as [|n ns]; [discriminate H|]. cbn [u_A u_B u_starts u_lens u_tmp u_tc] in H.
      repeat match type of H with
      | (if ?z then _ else _) = _ => destruct z
      | rbind ?z _ = _ => destruct z as [[?|]| | |]; cbn [rbind] in H
      end; try discriminate H; try (injection H as <-; exact T).
    - injection H as <-. exact T.
    - injection H as <-. exact T.
  Qed.
  Lemma urun_tc o' : forall fuel o, tcz o -> urun fuel e cap o = Ok o' -> tcz o'.
  Proof.
    induction fuel as [|fuel IH]; intros o T H.
    - destruct o; try discriminate H; injection H as <-; exact T.
    - destruct (isFinal o) eqn:F; [rewrite urun_final in H by exact F; injection H as <-; exact T|].
      destruct (ustep e cap o) as [o1| | |] eqn:E; destruct o; try discriminate F; cbn [urun] in H; rewrite E in H; try discriminate H; cbn [rbind] in H;
        exact (IH o1 (step_tc _ _ T E) H).
  Qed.
  Lemma finish_tc fuel o r : tcz o -> (do o' <- urun fuel e cap o; finish o') = Ok r -> fst r <> UTimeout.
  Proof.
    intros T H. destruct (urun fuel e cap o) as [o'| | |] eqn:E; try discriminate H. cbn [rbind] in H. pose proof (urun_tc _ _ _ T E) as T'.
    destruct o'; try discriminate H; cbn [finish tcz] in *; injection H as <-; [discriminate|]. destruct T' as [-> _]. discriminate.
  Qed.
  Lemma unify_off fuel r : unify fuel e A0 B0 0 = Ok r -> fst r <> UTimeout.
  Proof.
    unfold unify. destruct (quickNo e A0 B0) as [[|]| | |]; intros H; try discriminate H; cbn [rbind] in H; [injection H as <-; discriminate|].
    eapply finish_tc; [|exact H]. reflexivity.
  Qed.
  Lemma unifyNext_off fuel s r : unifyNext fuel e A0 B0 s 0 = Ok r -> fst r <> UTimeout.
  Proof.
    unfold unifyNext. destruct (quickNo e A0 B0) as [[|]| | |]; intros H; try discriminate H; cbn [rbind] in H; [injection H as <-; discriminate|].
    eapply finish_tc; [|exact H]. reflexivity.
  Qed.
  Lemma hist_extend h : history e A0 B0 h -> exists h', allAnswers e A0 B0 (h' ++ h).
  Proof.
    intros H. assert (exists s t, h = s :: t) as [s [t ->]] by (destruct H; eauto).
    pose proof (answer_acc s (hist_good _ _ _ _ s OK H (or_introl eq_refl))) as K. remember (UDone s) as o eqn:Eo. revert s t Eo H.
    induction K as [o _ IH]. intros s t -> H. pose proof (hist_good _ _ _ _ s OK H (or_introl eq_refl)) as As.
    destruct (unifyNext_good e A0 B0 OK s 0 As) as [[r tc'] [k [_ K]]]. specialize (K k (le_n _)). destruct r as [| |s'].
    - exists []. eapply all_some; eassumption.
    - exfalso. exact (unifyNext_off _ _ _ K eq_refl).
    - destruct (IH _ (next_after _ _ _ _ _ As K) s' (s :: t) eq_refl (hist_next _ _ _ _ _ _ _ _ _ H K)) as [h' H']. exists (h' ++ [s']).
      rewrite <- app_assoc. exact H'.
  Qed.
  Lemma all_exist : exists h, allAnswers e A0 B0 h.
  Proof.
    destruct (unify_good e A0 B0 OK 0) as [[r tc'] [k [_ K]]]. specialize (K k (le_n _)). destruct r as [| |s].
    - exists []. econstructor. exact K.
    - exfalso. exact (unify_off _ _ K eq_refl).
    - destruct (hist_extend _ (hist_first _ _ _ _ _ _ _ K)) as [h' H]. eauto.
  Qed.
  Lemma no_infinite (f : nat -> ust) h : history e A0 B0 (f 0 :: h) -> (forall n, exists fuel tc tc', unifyNext fuel e A0 B0 (f n) tc = Ok (UYes (f (S n)), tc')) -> False.
  Proof.
    intros H N. assert (G : forall n, exists h, history e A0 B0 (f n :: h)).
    { induction n as [|n [h' IH]]; [eauto|]. destruct (N n) as [fuel [tc [tc' E]]]. exists (f n :: h'). eapply hist_next; eassumption. }
    assert (X : forall n, answer e A0 B0 (f n)) by (intros n; destruct (G n) as [h' H']; exact (hist_good _ _ _ _ _ OK H' (or_introl eq_refl))).
    assert (forall o, Acc after o -> forall n, o = UDone (f n) -> False) as Y.
    { induction 1 as [o _ IH]. intros n ->. destruct (N n) as [fuel [tc [tc' E]]]. exact (IH _ (next_after _ _ _ _ _ (X n) E) (S n) eq_refl). }
    exact (Y _ (answer_acc (f 0) (X 0)) 0 eq_refl).
  Qed.
End Fin.
