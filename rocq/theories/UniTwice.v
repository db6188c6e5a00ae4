(* UniTwice.v -- proofs about UniModel: no match is answered twice *)
From Coq Require Import ZifyBool ZifyNat.
From Verif Require Import Base UniModel UniSpec UniSub UniCore UniStep UniRun UniProofs UniFilter UniMatch UniAll UniFin UniOnce.
Open Scope nat_scope.

Lemma gives_fun e s l w w' : gives e s l w -> gives e s l w' -> w = w'.
Proof. intros [b H] [b' H']. congruence. Qed.
Lemma hist_tail e A B h1 s h2 : history e A B (h1 ++ s :: h2) -> history e A B (s :: h2).
Proof.
  induction h1 as [|a h1 IH]; intros H; [exact H|]. apply IH. cbn [app] in H. remember (h1 ++ s :: h2) as t eqn:Et. remember (a :: t) as l eqn:El.
  destruct H as [fuel tc tc' s0 H|fuel tc tc' s0 s' h H H2].
  - injection El as _ <-. destruct h1; discriminate Et.
  - injection El as _ <-. exact H.
Qed.

Section Twice.
  Variable e : uenv.
  Variables A B : list nat.
  Hypothesis OK : okInput e A B.
  Hypothesis Gr : forall t, In t B -> t <= u_mt e.
  Notation cap := (unkCount e A B).
  Section Sg.
    Variable sg : nat -> list nat.
    Hypothesis Sol : matching (u_mt e) (u_min e) (plausible (u_min e) (u_name e) (u_con e) (u_axioms e)) A B sg.
    Let Sol2 := Sol' e A B sg Sol.
    Notation hit := (hit e A sg).
    Notation consA := (consA e A B sg).
    Notation stackHas := (stackHas e A B sg).
    Lemma hit_cons s : answer e A B s -> hit s -> consA s.
    Proof.
      intros [[SO [T [f C]]] [EAB LP]] H. destruct (answer_core e A B OK s f C EAB LP) as [U [M _]]. exists f. split; [exact C|].
      assert (EA : forall x, In x A -> f x = sg x).
      { intros x I. apply (gives_fun e s [x]); [|exact (H x I)]. eexists. rewrite (M [x]). cbn [app_subst flat_map]. rewrite app_nil_r. reflexivity. }
      intros t. destruct (list_eq_dec Nat.eq_dec (f t) [t]) as [E|N]; [rewrite E; cbn [flat_map]; apply app_nil_r|].
      pose proof (un_dom _ _ _ _ _ _ U t N) as I. apply in_app_iff in I. destruct I as [I|I].
      - rewrite (EA t I). apply (sg_ground e A B sg Sol2). intros u Iu. apply Gr. rewrite <- (ma_eq _ _ _ _ _ _ Sol2). apply in_flat_map. eauto.
      - exfalso. apply N. apply (un_fixed _ _ _ _ _ _ U). apply Gr, I.
    Qed.
    Lemma urun_done fuel o r s tc : (do o' <- urun fuel e cap o; finish o') = Ok r -> r = (UYes s, tc) -> runs e cap o (UDone s).
    Proof.
      intros H ->. destruct (urun fuel e cap o) as [o'| | |] eqn:E; try discriminate H. cbn [rbind] in H. destruct (urun_runs _ _ _ _ _ E) as [R _].
      destruct o' as [x|x|x|x|c t]; try discriminate H; cbn [finish] in H; [|destruct (c =? 0); discriminate H]. injection H as -> _. exact R.
    Qed.
    Lemma first_runs fuel tc tc' s : unify fuel e A B tc = Ok (UYes s, tc') -> exists s0, goodA e A B s0 /\ u_stk s0 = [] /\ runs e cap (UScan s0) (UDone s).
    Proof.
      intros H. unfold unify in H. destruct (quickNo e A B) as [[|]| | |]; try discriminate H. cbn [rbind] in H.
      exists (mkU (A ++ [u_mt e]) (B ++ [u_mt e]) 0 [] [] [] (fun _ => false) tc).
      split; [apply start_good with (cap := cap); first [apply OK|apply (ok_ne e A B OK)|apply unkCount_cap]|]. split; [reflexivity|]. eapply urun_done; [exact H|reflexivity].
    Qed.
    Lemma next_runs fuel tc tc' s s' : answer e A B s -> unifyNext fuel e A B s tc = Ok (UYes s', tc') -> goodCfg e A B (UBack (reenter s tc)) /\ runs e cap (UBack (reenter s tc)) (UDone s').
    Proof.
      intros As H. unfold unifyNext in H. destruct (quickNo e A B) as [[|]| | |]; try discriminate H. cbn [rbind] in H. fold (reenter s tc) in H.
      split; [exact (reenter_good e A B OK s tc As)|]. eapply urun_done; [exact H|reflexivity].
    Qed.
    Lemma hist_single h s : history e A B (s :: h) -> single e A B sg (UDone s).
    Proof.
      intros H. remember (s :: h) as l eqn:El. revert s h El. induction H as [fuel tc tc' s H|fuel tc tc' s s' h H IH H2]; intros u t El; injection El as <- <-.
      - destruct (first_runs _ _ _ _ H) as [s0 [G [E R]]]. apply (single_runs e A B OK sg Gr Sol2 _ _ R); [left; exact G|]. cbn [single]. rewrite E. split; [exact I|]. intros _ [].
      - destruct (next_runs _ _ _ _ _ (hist_good _ _ _ _ s OK H (or_introl eq_refl)) H2) as [G R].
        apply (single_runs e A B OK sg Gr Sol2 _ _ R G). exact (proj1 (IH s h eq_refl)).
    Qed.
    Lemma hist_past h s s1 : history e A B (s :: h) -> In s1 h -> hit s1 -> ~ hit s /\ ~ stackHas (u_stk s).
    Proof.
      intros H. remember (s :: h) as l eqn:El. revert s h El. induction H as [fuel tc tc' s H|fuel tc tc' s s' h H IH H2]; intros u t El I Hit; injection El as <- <-.
      - contradiction.
      - assert (NS : ~ stackHas (u_stk s)).
        { destruct I as [<-|I]; [|exact (proj2 (IH s h eq_refl I Hit))]. destruct (hist_single _ _ H) as [_ K]. apply K.
          apply hit_cons; [exact (hist_good _ _ _ _ s OK H (or_introl eq_refl))|exact Hit]. }
        destruct (next_runs _ _ _ _ _ (hist_good _ _ _ _ s OK H (or_introl eq_refl)) H2) as [G R].
        assert (NA : ~ ahead e A B sg (UDone s')) by (intros K; apply NS; exact (ahead_runs e A B OK sg Gr Sol2 _ _ R G K)).
        cbn [ahead] in NA. split; [|tauto]. intros K. apply NA. left. apply hit_cons; [|exact K]. 
        exact (unifyNext_sound e A B OK _ _ _ _ (hist_good _ _ _ _ s OK H (or_introl eq_refl)) H2).
    Qed.
  End Sg.
  Lemma no_twice h1 s2 h2 s1 h3 : history e A B (h1 ++ s2 :: h2 ++ s1 :: h3) ->
    exists x, In x A /\ forall w, gives e s1 [x] w -> ~ gives e s2 [x] w.
  Proof.
    intros H. apply hist_tail in H. assert (I1 : In s1 (h2 ++ s1 :: h3)) by (apply in_app_iff; right; left; reflexivity).
    destruct (hist_match e A B _ s1 OK Gr H (or_intror I1)) as [f1 [M1 G1]]. destruct (hist_match e A B _ s2 OK Gr H (or_introl eq_refl)) as [f2 [M2 G2]].
    destruct (Forall_Exists_dec (fun x => f1 x = f2 x) (fun x => list_eq_dec Nat.eq_dec (f1 x) (f2 x)) A) as [F|X].
    - exfalso. assert (H1 : hit e A f1 s1). { intros x _. specialize (G1 [x]). cbn [app_subst flat_map] in G1. rewrite app_nil_r in G1. exact G1. }
      destruct (hist_past f1 M1 _ s2 s1 H I1 H1) as [K _]. apply K. intros x I. specialize (G2 [x]). cbn [app_subst flat_map] in G2. rewrite app_nil_r in G2.
      rewrite Forall_forall in F. rewrite (F x I). exact G2.
    - apply Exists_exists in X. destruct X as [x [I N]]. exists x. split; [exact I|]. intros w K1 K2. apply N.
      specialize (G1 [x]). specialize (G2 [x]). cbn [app_subst flat_map] in G1, G2. rewrite app_nil_r in G1, G2.
      rewrite (gives_fun _ _ _ _ _ G1 K1). exact (gives_fun _ _ _ _ _ K2 G2).
  Qed.
End Twice.
