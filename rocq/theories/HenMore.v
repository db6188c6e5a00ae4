(* HenMore.v -- proofs about HenModel: consequences for matching and uniqueUnif *)
From Coq Require Import ZifyBool ZifyNat Permutation Relation_Operators.
From Verif Require Import Base UniModel UniSpec UniSub UniCore UniStep UniRun UniProofs UniFilter UniMatch UniAll UniFin UniTwice HenModel HenProofs.
Open Scope nat_scope.

Section More.
  Variable e : uenv.
  Variables A B : list nat.
  Hypothesis OK : okInput e A B.
  Variable on : bool.
  Lemma substOf_fun s f g : substOf e s f -> substOf e s g -> forall t, f t = g t.
  Proof.
    intros F G t. pose proof (gives_fun e s [t] _ _ (F [t]) (G [t])) as E. unfold app_subst in E. cbn [flat_map] in E. rewrite !app_nil_r in E. exact E.
  Qed.
  (* equally general answers for a known step are the same *)
  Lemma ground_same s s' : (forall t, In t B -> t <= u_mt e) -> answer e A B s -> answer e A B s' -> sameGen e s s' ->
    forall x w, In x A -> gives e s [x] w -> gives e s' [x] w.
  Proof.
    intros Gr A1 A2 [f [g [F [G EG]]]] x w I W.
    destruct (answer_spec e A B OK s A1) as [f' [UF MF]]. destruct (answer_spec e A B OK s' A2) as [g' [UG MG]].
    pose proof (substOf_fun s f f' F MF) as EF. pose proof (substOf_fun s' g g' G MG) as EGG.
    assert (IF : instance f f). { intros t. unfold app_subst. rewrite (flat_map_ext f f' EF). rewrite EF. exact (un_idem _ _ _ _ _ _ UF t). }
    apply (proj1 (EG f)) in IF. pose proof (ground_eq e A B _ _ Gr UG) as GE.
    assert (FX : f x = g x).
    { rewrite <- (IF x). unfold app_subst. assert (X : forall l, (forall t, In t l -> t <= u_mt e) -> flat_map f l = l).
      { induction l as [|t l IH]; intros K; [reflexivity|]. cbn [flat_map]. rewrite EF, (un_fixed _ _ _ _ _ _ UF t) by (apply K; left; reflexivity). cbn [app]. f_equal. apply IH. intros u Iu. apply K. right. exact Iu. }
      apply X. intros t It. apply Gr. rewrite <- GE. apply in_flat_map. exists x. split; [exact I|]. rewrite <- EGG. exact It. }
    assert (w = g x).
    { rewrite <- FX. pose proof (gives_fun e s [x] _ _ W (F [x])) as E. unfold app_subst in E. cbn [flat_map] in E. rewrite app_nil_r in E. exact E. }
    subst w. pose proof (G [x]) as K. unfold app_subst in K. cbn [flat_map] in K. rewrite app_nil_r in K. exact K.
  Qed.
  Lemma henty_match l f : (forall t, In t B -> t <= u_mt e) ->
    matching (u_mt e) (u_min e) (plausible (u_min e) (u_name e) (u_con e) (u_axioms e)) A B f ->
    allAnswersH e on A B l -> exists h, In h l /\ forall x, In x A -> gives e (h_s h) [x] (f x).
  Proof.
    intros Gr M H. destruct (all_behind e A B OK on l H) as [hu [K1 [K2 K3]]]. destruct (all_cover e A B OK Gr f M hu K1) as [s [I S]].
    assert (AN : forall u, In u hu -> answer e A B u) by (intros u J; inversion K1; subst; [destruct J|eapply hist_good; eassumption]).
    destruct (K3 s I) as [h [J SG]]. exists h. split; [exact J|]. intros x Ix. apply (ground_same s (h_s h) Gr (AN s I) (AN _ (K2 h J)) SG x _ Ix). exact (S x Ix).
  Qed.
  (* with the trial counter off there is no timeout *)
  Lemma finish_zero fuel o r t : tcz o -> (do o' <- urun fuel e (unkCount e A B) o; finish o') = Ok (r, t) -> t = 0 /\ r <> UTimeout.
  Proof.
    intros T H. apply rbind_ok in H. destruct H as [o' [E H]]. pose proof (urun_tc e A B _ _ _ T E) as T'.
    destruct o'; try discriminate H; cbn [finish tcz] in *; injection H as <- <-; [split; [exact T'|discriminate]|]. destruct T' as [-> ->]. split; [reflexivity|discriminate].
  Qed.
  Lemma next_zero fuel s r t : unifyNext fuel e A B s 0 = Ok (r, t) -> t = 0 /\ r <> UTimeout.
  Proof.
    unfold unifyNext. intros H. apply rbind_ok in H. destruct H as [q [_ H]]. destruct q; [injection H as <- <-; split; [reflexivity|discriminate]|].
    eapply finish_zero; [|exact H]. reflexivity.
  Qed.
  Lemma first_zero fuel r t : unify fuel e A B 0 = Ok (r, t) -> t = 0 /\ r <> UTimeout.
  Proof.
    unfold unify. intros H. apply rbind_ok in H. destruct H as [q [_ H]]. destruct q; [injection H as <- <-; split; [reflexivity|discriminate]|].
    eapply finish_zero; [|exact H]. reflexivity.
  Qed.
  Lemma loop_zero : forall k fuel s filter r t, unifyHLoop k fuel e on A B s filter 0 = Ok (r, t) -> r <> HTimeout.
  Proof.
    induction k as [|k IH]; intros fuel s filter r t H; [discriminate H|]. cbn [unifyHLoop] in H. apply rbind_ok in H. destruct H as [[u t'] [U H]].
    destruct (next_zero _ _ _ _ U) as [-> NT]. cbn [fst snd] in H. destruct u as [| |s']; [injection H as <- _; discriminate|congruence|].
    destruct on; [|injection H as <- _; discriminate]. apply rbind_ok in H. destruct H as [x [_ H]]. destruct (hentyMatch x filter); [exact (IH _ _ _ _ _ H)|injection H as <- _; discriminate].
  Qed.
  Lemma firstH_zero fuel r t : unifyH fuel e on A B 0 = Ok (r, t) -> r <> HTimeout.
  Proof.
    unfold unifyH. intros H. apply rbind_ok in H. destruct H as [[u t'] [U H]]. destruct (first_zero _ _ _ U) as [_ NT]. cbn [fst snd] in H.
    destruct u as [| |s]; [injection H as <- _; discriminate|congruence|]. destruct on; [|injection H as <- _; discriminate].
    apply rbind_ok in H. destruct H as [x [_ H]]. injection H as <- _. discriminate.
  Qed.
  Lemma histH_extend l : historyH e on A B l -> exists l', allAnswersH e on A B (l' ++ l).
  Proof.
    intros H. assert (exists h t, l = h :: t) as [h [t ->]] by (destruct H; eauto).
    pose proof (answer_acc e A B OK (h_s h) (histH_answer e A B OK on _ h H (or_introl eq_refl))) as K. remember (UDone (h_s h)) as o eqn:Eo. revert h t Eo H.
    induction K as [o _ IH]. intros h t -> H. pose proof (histH_answer e A B OK on _ h H (or_introl eq_refl)) as As.
    destruct (next_endsH e A B OK on h 0 As) as [r [k [[G1 G2] K]]]. specialize (K k (le_n _)).
    destruct r as [[| |h'] tc']; cbn [fst] in *.
    - exists []. eapply ah_some; [exact H|exact K].
    - exfalso. exact (loop_zero _ _ _ _ _ _ K eq_refl).
    - destruct (IH _ G2 h' (h :: t) eq_refl) as [l' L]; [eapply hh_next; [exact H|exact K]|]. exists (l' ++ [h']). rewrite <- app_assoc. exact L.
  Qed.
  Lemma allH_exist : exists l, allAnswersH e on A B l.
  Proof.
    destruct (first_ends e A B OK on 0) as [[r t] [k [_ K]]]. specialize (K k (le_n _)). destruct r as [| |h].
    - exists []. econstructor. exact K.
    - exfalso. exact (firstH_zero _ _ _ K eq_refl).
    - destruct (histH_extend [h]) as [l L]; [econstructor; exact K|]. eauto.
  Qed.

  (* ---------- uniqueUnif ---------- *)
  Lemma unique_inv fuel tc tc' q : uniqueUnif fuel e on A B tc = Ok (q, tc') ->
    match q with
    | QOne h => allAnswersH e on A B [h]
    | QMany h' => exists h, historyH e on A B [h'; h]
    | QNo => allAnswersH e on A B []
    | QTimeout => True
    end.
  Proof.
    unfold uniqueUnif. intros H. apply rbind_ok in H. destruct H as [[r t] [U H]]. cbn [fst snd] in H.
    destruct r as [| |h]; [injection H as <- _; econstructor; exact U|injection H as <- _; exact I|].
    assert (HI : historyH e on A B [h]) by (econstructor; exact U).
    apply rbind_ok in H. destruct H as [[r' t'] [N H]]. cbn [fst snd] in H. destruct r' as [| |h'].
    - injection H as <- _. econstructor; [exact HI|exact N].
    - injection H as <- _. exact I.
    - injection H as <- _. exists h. econstructor; [exact HI|exact N].
  Qed.
  Lemma unique_match fuel tc tc' h f : (forall t, In t B -> t <= u_mt e) -> uniqueUnif fuel e on A B tc = Ok (QOne h, tc') ->
    matching (u_mt e) (u_min e) (plausible (u_min e) (u_name e) (u_con e) (u_axioms e)) A B f ->
    forall x, In x A -> gives e (h_s h) [x] (f x).
  Proof. intros Gr H M. apply unique_inv in H. destruct (henty_match [h] f Gr M H) as [h' [[<-|[]] K]]. exact K. Qed.
  Lemma unique_gen fuel tc tc' h : uniqueUnif fuel e on A B tc = Ok (QOne h, tc') ->
    exists hu, allAnswers e A B hu /\ In (h_s h) hu /\
      forall s, In s hu -> exists f g, (forall w, gives e s w (app_subst f w)) /\ (forall w, gives e (h_s h) w (app_subst g w)) /\ equally_general f g.
  Proof.
    intros H. apply unique_inv in H. destruct (all_behind e A B OK on [h] H) as [hu [K1 [K2 K3]]]. exists hu. split; [exact K1|]. split; [apply K2; left; reflexivity|].
    intros s I. destruct (K3 s I) as [h' [[<-|[]] K]]. exact K.
  Qed.
  Lemma loop_hist : forall k fuel s filter tc h t hu, unifyHLoop k fuel e on A B s filter tc = Ok (HYes h, t) -> history e A B (s :: hu) ->
    exists h3, history e A B (h_s h :: h3 ++ s :: hu).
  Proof.
    induction k as [|k IH]; intros fuel s filter tc h t hu H HI; [discriminate H|]. cbn [unifyHLoop] in H. apply rbind_ok in H. destruct H as [[u t'] [U H]].
    cbn [fst snd] in H. destruct u as [| |s']; try discriminate H.
    assert (HI' : history e A B (s' :: s :: hu)) by (econstructor; [exact HI|exact U]). destruct on.
    - apply rbind_ok in H. destruct H as [x [_ H]]. destruct (hentyMatch x filter).
      + destruct (IH _ _ _ _ _ _ _ H HI') as [h3 K]. exists (h3 ++ [s']). rewrite <- app_assoc. exact K.
      + injection H as <- _. exists []. exact HI'.
    - injection H as <- _. exists []. exact HI'.
  Qed.
  Lemma unique_many fuel tc tc' h : (forall t, In t B -> t <= u_mt e) -> uniqueUnif fuel e on A B tc = Ok (QMany h, tc') ->
    exists f g x, matching (u_mt e) (u_min e) (plausible (u_min e) (u_name e) (u_con e) (u_axioms e)) A B f /\
      matching (u_mt e) (u_min e) (plausible (u_min e) (u_name e) (u_con e) (u_axioms e)) A B g /\ In x A /\ f x <> g x.
  Proof.
    intros Gr H. apply unique_inv in H. destruct H as [h1 H]. inversion H as [|fuel1 tc1 tc1' h1' h2' l1 H1 N E1]; subst.
    destruct (hist_behind e A B OK on _ H1) as [hu [K1 [K2 [K3 [K4 K5]]]]]. destruct hu as [|s hu]; [discriminate K4|]. injection K4 as ->.
    destruct (loop_hist _ _ _ _ _ _ _ _ N K1) as [h3 HI].
    pose proof (hist_match e A B _ (h_s h1) OK Gr HI ltac:(right; apply in_app_iff; right; left; reflexivity)) as [f [Mf Gf]].
    pose proof (hist_match e A B _ (h_s h) OK Gr HI (or_introl eq_refl)) as [g [Mg Gg]].
    destruct (no_twice e A B OK Gr [] (h_s h) h3 (h_s h1) hu HI) as [x [Ix D]]. exists f, g, x. split; [exact Mf|]. split; [exact Mg|]. split; [exact Ix|].
    intros E. apply (D (f x)).
    - pose proof (Gf [x]) as K. unfold app_subst in K. cbn [flat_map] in K. rewrite app_nil_r in K. exact K.
    - rewrite E. pose proof (Gg [x]) as K. unfold app_subst in K. cbn [flat_map] in K. rewrite app_nil_r in K. exact K.
  Qed.
End More.
