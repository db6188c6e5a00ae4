(* UniAll.v -- proofs about UniModel: all answers of a sequence of calls *)
From Coq Require Import ZifyBool ZifyNat.
From Verif Require Import Base UniModel UniSpec UniSub UniCore UniStep UniRun UniProofs UniFilter UniMatch.
Open Scope nat_scope.

Lemma hist_good e A B h s : okInput e A B -> history e A B h -> In s h -> answer e A B s.
Proof.
  intros OK H. revert s. induction H as [fuel tc tc' s H|fuel tc tc' s s' h H IH H2]; intros u I.
  - destruct I as [<-|[]]. exact (unify_sound e A B OK _ _ _ H).
  - destruct I as [<-|I]; [|exact (IH u I)]. exact (unifyNext_sound e A B OK _ _ _ _ (IH s (or_introl eq_refl)) H2).
Qed.
Lemma hist_unifier e A B h s : okInput e A B -> history e A B h -> In s h ->
  exists f, unifier (u_mt e) (u_min e) A B (unified s) f /\ forall l, gives e s l (app_subst f l).
Proof.
  intros OK H I. destruct (answer_spec e A B OK s (hist_good _ _ _ _ _ OK H I)) as [f [U M]]. exists f. split; [exact U|].
  exact M.
Qed.
Lemma next_ends e A B h s tc : okInput e A B -> history e A B h -> In s h -> exists r k, forall fuel, k <= fuel -> unifyNext fuel e A B s tc = Ok r.
Proof. intros OK H I. destruct (unifyNext_good e A B OK s tc (hist_good _ _ _ _ _ OK H I)) as [r [k [_ K]]]. eauto. Qed.

Lemma ground_eq e A B U f : (forall t, In t B -> t <= u_mt e) -> unifier (u_mt e) (u_min e) A B U f -> flat_map f A = B.
Proof.
  intros Gr H. pose proof (un_A _ _ _ _ _ _ H) as U1. pose proof (un_B _ _ _ _ _ _ H) as U2. unfold app_subst in *. rewrite U1, <- U2.
  assert (X : forall l, (forall t, In t l -> t <= u_mt e) -> flat_map f l = l); [|apply X, Gr].
  induction l as [|t l IH]; intros K; [reflexivity|]. cbn [flat_map]. rewrite (un_fixed _ _ _ _ _ _ H t) by (apply K; left; reflexivity).
  cbn [app]. f_equal. apply IH. intros u Iu. apply K. right. exact Iu.
Qed.

Section Match.
  Variable e : uenv.
  Variables A B : list nat.
  Hypothesis OK : okInput e A B.
  Hypothesis Gr : forall t, In t B -> t <= u_mt e.
  Variable sg : nat -> list nat.
  Hypothesis Sol : matching (u_mt e) (u_min e) (plausible (u_min e) (u_name e) (u_con e) (u_axioms e)) A B sg.
  Lemma Sol' : matching (u_mt e) (u_min e) (fun w => reject e w = false) A B sg.
  Proof.
    destruct Sol as [S1 S2 S3]. constructor; [exact S1|exact S2|]. intros x I L. destruct (S3 x I L) as [K1 [K2 K3]]. split; [exact K1|]. split; [exact K2|].
    apply reject_spec. exact K3.
  Qed.
  Lemma quick_false : quickNo e A B = Ok false.
  Proof.
    destruct Sol as [S1 S2 _]. unfold app_subst in S1. destruct (ok_ne e A B OK) as [NA NB]. unfold quickNo.
    assert (CL : forall a b, (u_con e a = true -> u_con e b = true -> a = b) -> clash e a b = false).
    { intros a b K. unfold clash. destruct (u_con e a), (u_con e b); try reflexivity. cbn [andb]. rewrite (K eq_refl eq_refl), Nat.eqb_refl. reflexivity. }
    assert (LA : forall d, A = removelast A ++ [last A d]) by (intros d; apply app_removelast_last; exact NA).
    assert (E2 : clash e (last A 0) (last B 0) = false).
    { apply CL. intros K _. rewrite (LA 0), flat_map_app in S1. cbn [flat_map] in S1. rewrite S2 in S1 by (apply (ok_con _ _ _ OK), K). cbn [app] in S1. rewrite <- S1, last_last. reflexivity. }
    destruct A as [|a A']; [congruence|]. destruct B as [|b B']; [congruence|]. rewrite E2, orb_false_r. rewrite CL; [reflexivity|].
    intros K _. cbn [flat_map] in S1. rewrite S2 in S1 by (apply (ok_con _ _ _ OK), K). cbn [app] in S1. congruence.
  Qed.
  Notation cap := (unkCount e A B).
  Notation cover := (cover e A B sg).
  Lemma done_cover fuel o o' : urun fuel e cap o = Ok o' -> goodCfg e A B o -> cover o -> cover o' /\ goodCfg e A B o'.
  Proof.
    intros H G V. destruct (urun_runs _ _ _ _ _ H) as [R _]. split; [|exact (good_runs e A B OK o o' R G)].
    exact (cover_runs e A B OK sg Gr Sol' o o' R G V).
  Qed.
  (* the answer is the solution, or the solution is still ahead *)
  Definition hit (s : ust) : Prop := forall x, In x A -> gives e s [x] (sg x).
  Lemma cons_hit s : answer e A B s -> consA e A B sg s -> hit s.
  Proof.
    intros [_ [EAB LP]] [f [C AG]] x I. destruct (answer_core e A B OK s f C EAB LP) as [U [M _]].
    eexists. rewrite (M [x]). f_equal. f_equal. cbn [app_subst flat_map]. rewrite app_nil_r.
    rewrite <- (AG x). symmetry. apply (sg_ground e A B sg Sol'). intros t It. apply Gr. rewrite <- (ground_eq e A B (unified s) f Gr U). apply in_flat_map. eauto.
  Qed.
  Lemma first_cover fuel tc r : unify fuel e A B tc = Ok r -> match fst r with UNo => False | UTimeout => True | UYes s => hit s \/ stackHas e A B sg (u_stk s) end.
  Proof.
    intros H. pose proof (unify_sound e A B OK fuel tc r H) as G. unfold unify in H. rewrite quick_false in H. cbn [rbind] in H.
    set (s0 := mkU (A ++ [u_mt e]) (B ++ [u_mt e]) 0 [] [] [] (fun _ => false) tc) in *.
    assert (GA : goodA e A B s0) by (apply start_good with (cap := cap); first [apply OK|apply (ok_ne e A B OK)|apply unkCount_cap]).
    destruct (urun fuel e cap (UScan s0)) as [o| | |] eqn:E; try discriminate H. cbn [rbind] in H.
    assert (V0 : cover (UScan s0)).
    { left. exists (fun t => [t]). split; [apply start_core with (cap := cap); first [apply OK|apply (ok_ne e A B OK)|apply unkCount_cap]|]. intros t. cbn. apply app_nil_r. }
    destruct (done_cover fuel _ _ E (or_introl GA) V0) as [V _].
    destruct o as [s|s|s|s|c tc']; try discriminate H; cbn [finish] in H; injection H as <-; cbn [fst] in *.
    - destruct V as [V|V]; [left; exact (cons_hit s G V)|right; exact V].
    - cbn [UniMatch.cover] in V. destruct (c =? 0) eqn:Ec; [lia|exact I].
  Qed.
  Lemma next_cover fuel s tc r : answer e A B s -> stackHas e A B sg (u_stk s) -> unifyNext fuel e A B s tc = Ok r ->
    match fst r with UNo => False | UTimeout => True | UYes s => hit s \/ stackHas e A B sg (u_stk s) end.
  Proof.
    intros As SH H. pose proof (unifyNext_sound e A B OK fuel s tc r As H) as G. unfold unifyNext in H. rewrite quick_false in H. cbn [rbind] in H.
    match type of H with context [UBack ?x] => set (s0 := x) in * end.
    assert (GA : goodCfg e A B (UBack s0)).
    { destruct As as [[SO _] _]. split; [exact SO|]. intros t. cbn [u_tmp u_stk s0]. unfold vars. rewrite existsb_exists, in_map_iff.
      split; [intros [l [K1 K2]]; exists l; split; [lia|exact K1]|intros [l [K1 K2]]; exists l; split; [exact K2|lia]]. }
    destruct (urun fuel e cap (UBack s0)) as [o| | |] eqn:E; try discriminate H. cbn [rbind] in H.
    destruct (done_cover fuel _ _ E GA SH) as [V _].
    destruct o as [s'|s'|s'|s'|c tc']; try discriminate H; cbn [finish] in H; injection H as <-; cbn [fst] in *.
    - destruct V as [V|V]; [left; exact (cons_hit s' G V)|right; exact V].
    - cbn [UniMatch.cover] in V. destruct (c =? 0) eqn:Ec; [lia|exact I].
  Qed.
  Lemma hist_cover h : history e A B h -> (exists s, In s h /\ hit s) \/ match h with s :: _ => stackHas e A B sg (u_stk s) | [] => False end.
  Proof.
    induction 1 as [fuel tc tc' s H|fuel tc tc' s s' h H IH H2].
    - destruct (first_cover _ _ _ H) as [K|K]; [left; exists s; split; [left; reflexivity|exact K]|right; exact K].
    - destruct IH as [[u [I K]]|K]; [left; exists u; split; [right; exact I|exact K]|].
      destruct (next_cover _ _ _ _ (hist_good _ _ _ _ s OK H (or_introl eq_refl)) K H2) as [Q|Q]; [left; exists s'; split; [left; reflexivity|exact Q]|right; exact Q].
  Qed.
  Lemma all_cover h : allAnswers e A B h -> exists s, In s h /\ hit s.
  Proof.
    intros H. destruct H as [fuel tc tc' H|fuel tc tc' s h H H2].
    - exfalso. exact (first_cover _ _ _ H).
    - destruct (hist_cover _ H) as [K|K]; [exact K|]. exfalso. exact (next_cover _ _ _ _ (hist_good _ _ _ _ s OK H (or_introl eq_refl)) K H2).
  Qed.
End Match.
Lemma hist_match e A B h s : okInput e A B -> (forall t, In t B -> t <= u_mt e) -> history e A B h -> In s h ->
  exists f, matching (u_mt e) (u_min e) (plausible (u_min e) (u_name e) (u_con e) (u_axioms e)) A B f /\ forall l, gives e s l (app_subst f l).
Proof.
  intros OK Gr H I. destruct (hist_good _ _ _ _ _ OK H I) as [[SO [T [f C]]] [EAB LP]]. destruct (answer_core e A B OK s f C EAB LP) as [U [M Dom]].
  exists f. split; [|intros l; eexists; apply M]. pose proof (ground_eq e A B (unified s) f Gr U) as EU.
  constructor; [exact EU|apply (un_fixed _ _ _ _ _ _ U)|]. intros x Ix Lx. split; [apply (un_long _ _ _ _ _ _ U)|].
  split; [intros K; apply (un_sep _ _ _ _ _ _ U) in K; lia|]. apply reject_spec. apply (c_rej _ _ _ _ _ _ _ _ _ _ C Gr). apply Dom. intros K.
  assert (J : In x B) by (rewrite <- EU; apply in_flat_map; exists x; split; [exact Ix|rewrite K; left; reflexivity]). apply Gr in J. lia.
Qed.
