(* HenProps.v -- C60: the filter on repeated unifications loses nothing *)
From Verif Require Import Base UniModel UniSpec UniSub UniCore UniStep UniRun UniProofs UniFilter UniMatch UniAll UniFin UniTwice UniProps HenModel HenProofs HenMore.
Open Scope nat_scope.

(* every answer is a unifier of the two schemes (whether the filter is on or off) *)
Theorem C60_answers_sound : forall e on A B l h, okInput e A B -> historyH e on A B l -> In h l ->
  exists f, unifier (u_mt e) (u_min e) A B (unified (h_s h)) f /\ forall w, gives e (h_s h) w (app_subst f w).
Proof.
  intros e on A B l h OK H I. destruct (answer_spec e A B OK (h_s h) (histH_answer e A B OK on l h H I)) as [f [U M]]. exists f. split; [exact U|exact M].
Qed.
Print Assumptions C60_answers_sound.

(* Two answers with the same normal form are equally general: they have the same
   instances. *)
Theorem C60_same_entry : forall e A B h1 h2 s1 s2 x, okInput e A B -> history e A B h1 -> history e A B h2 -> In s1 h1 -> In s2 h2 ->
  hentyNormalize e s1 = Ok x -> hentyNormalize e s2 = Ok x ->
  exists f g, (forall l, gives e s1 l (app_subst f l)) /\ (forall l, gives e s2 l (app_subst g l)) /\ equally_general f g.
Proof.
  intros e A B h1 h2 s1 s2 x OK H1 H2 I1 I2. exact (norm_gen e A B OK s1 s2 x (hist_good _ _ _ _ _ OK H1 I1) (hist_good _ _ _ _ _ OK H2 I2)).
Qed.
Print Assumptions C60_same_entry.

(* Nothing is lost: behind all the answers l of the filtered calls stands a complete list
   of the answers of unify(); l is taken from it, and what was left out is equally general
   to one in l. *)
Theorem C60_nothing_lost : forall e on A B l, okInput e A B -> allAnswersH e on A B l ->
  exists hu, allAnswers e A B hu /\ (forall h, In h l -> In (h_s h) hu) /\
    forall s, In s hu -> exists h f g, In h l /\ (forall w, gives e s w (app_subst f w)) /\ (forall w, gives e (h_s h) w (app_subst g w)) /\ equally_general f g.
Proof.
  intros e on A B l OK H. destruct (all_behind e A B OK on l H) as [hu [K1 [K2 K3]]]. exists hu. split; [exact K1|]. split; [exact K2|].
  intros s I. destruct (K3 s I) as [h [J [f [g [F [G E]]]]]]. exists h, f, g. auto.
Qed.
Print Assumptions C60_nothing_lost.

(* In particular a known step is still matched in all plausible ways. *)
Theorem C60_match_complete : forall e on A B l f, okInput e A B -> (forall t, In t B -> t <= u_mt e) ->
  matching (u_mt e) (u_min e) (plausible (u_min e) (u_name e) (u_con e) (u_axioms e)) A B f ->
  allAnswersH e on A B l -> exists h, In h l /\ forall x, In x A -> gives e (h_s h) [x] (f x).
Proof. intros e on A B l f OK Gr M H. exact (henty_match e A B OK on l f Gr M H). Qed.
Print Assumptions C60_match_complete.

(* Every call ends, without bug() and without reading or writing outside an array, and
   there are only finitely many answers. *)
Theorem C60_ends : forall e on A B, okInput e A B ->
  (forall tc, exists r k, forall fuel, k <= fuel -> unifyH fuel e on A B tc = Ok r) /\
  (forall l h tc, historyH e on A B l -> In h l -> exists r k, forall fuel, k <= fuel -> unifyHNext fuel e on A B h tc = Ok r) /\
  (exists l, allAnswersH e on A B l) /\ (forall l, historyH e on A B l -> exists l', allAnswersH e on A B (l' ++ l)).
Proof.
  intros e on A B OK. split; [intros tc; destruct (first_ends e A B OK on tc) as [r [k [_ K]]]; eauto|].
  split; [intros l h tc H I; destruct (next_endsH e A B OK on h tc (histH_answer e A B OK on l h H I)) as [r [k [_ K]]]; eauto|].
  split; [exact (allH_exist e A B OK on)|exact (histH_extend e A B OK on)].
Qed.
Print Assumptions C60_ends.

(* "exactly one unification was possible" means that: a known step is matched in one way *)
Theorem C60_unique : forall fuel e on A B tc tc' h f, okInput e A B -> (forall t, In t B -> t <= u_mt e) ->
  uniqueUnif fuel e on A B tc = Ok (QOne h, tc') ->
  matching (u_mt e) (u_min e) (plausible (u_min e) (u_name e) (u_con e) (u_axioms e)) A B f ->
  forall x, In x A -> gives e (h_s h) [x] (f x).
Proof. intros fuel e on A B tc tc' h f OK Gr H M. exact (unique_match e A B OK on fuel tc tc' h f Gr H M). Qed.
Print Assumptions C60_unique.

(* and in general that all answers of unify() are equally general *)
Theorem C60_unique_general : forall fuel e on A B tc tc' h, okInput e A B -> uniqueUnif fuel e on A B tc = Ok (QOne h, tc') ->
  exists hu, allAnswers e A B hu /\ In (h_s h) hu /\
    forall s, In s hu -> exists f g, (forall w, gives e s w (app_subst f w)) /\ (forall w, gives e (h_s h) w (app_subst g w)) /\ equally_general f g.
Proof. intros fuel e on A B tc tc' h OK H. exact (unique_gen e A B OK on fuel tc tc' h H). Qed.
Print Assumptions C60_unique_general.

(* "more than one": two answers, of which the second is not a repetition *)
Theorem C60_many : forall fuel e on A B tc tc' h, okInput e A B -> (forall t, In t B -> t <= u_mt e) ->
  uniqueUnif fuel e on A B tc = Ok (QMany h, tc') ->
  exists f g x, matching (u_mt e) (u_min e) (plausible (u_min e) (u_name e) (u_con e) (u_axioms e)) A B f /\
    matching (u_mt e) (u_min e) (plausible (u_min e) (u_name e) (u_con e) (u_axioms e)) A B g /\ In x A /\ f x <> g x.
Proof. intros fuel e on A B tc tc' h OK Gr H. exact (unique_many e A B OK on fuel tc tc' h Gr H). Qed.
Print Assumptions C60_many.

(* ---------- examples ---------- *)
(* two unknowns against two unknowns: four answers, of which the filter leaves one *)
Definition exHA := [0; 12; 11].
Definition exHB := [0; 13; 14].
Definition hOf (r : res (hres * nat)) : hst := match r with Ok (HYes h, _) => h | _ => mkH (mkU [] [] 0 [] [] [] (fun _ => false) 0) [] end.
Definition exH1 := hOf (unifyH 200 exEnv true exHA exHB 1).
Example ex_henty : okInput exEnv exHA exHB /\ allAnswersH exEnv true exHA exHB [exH1] /\ h_filter exH1 = [([11; 12], [0; 1], [14; 13])].
Proof.
  split; [constructor; [discriminate|discriminate|intros t; cbn [u_con exEnv]; intros H; apply Nat.ltb_lt in H; cbn; lia|reflexivity|cbn; lia|left; cbn; lia]|].
  split; [|vm_compute; reflexivity].
  eapply ah_some with (fuel := 200) (tc := 1); [|vm_compute; reflexivity]. eapply hh_first with (fuel := 200) (tc := 1). vm_compute. reflexivity.
Qed.
Definition exU1 := ansOf (unify 200 exEnv exHA exHB 1).
Definition exU2 := ansOf (unifyNext 200 exEnv exHA exHB exU1 1).
Definition exU3 := ansOf (unifyNext 200 exEnv exHA exHB exU2 1).
Definition exU4 := ansOf (unifyNext 200 exEnv exHA exHB exU3 1).
Example ex_unfiltered : allAnswers exEnv exHA exHB [exU4; exU3; exU2; exU1] /\
  map unified [exU1; exU2; exU3; exU4] = [[0; 13; 14]; [0; 13; 11]; [0; 12; 14]; [0; 12; 11]] /\
  map (hentyNormalize exEnv) [exU1; exU2; exU3; exU4] = repeat (Ok ([11; 12], [0; 1], [14; 13])) 4.
Proof.
  split; [|split; vm_compute; reflexivity].
  eapply all_some with (fuel := 200) (tc := 1); [|vm_compute; reflexivity].
  eapply hist_next with (fuel := 200) (tc := 1); [|vm_compute; reflexivity].
  eapply hist_next with (fuel := 200) (tc := 1); [|vm_compute; reflexivity].
  eapply hist_next with (fuel := 200) (tc := 1); [|vm_compute; reflexivity].
  eapply hist_first with (fuel := 200) (tc := 1). vm_compute. reflexivity.
Qed.
(* a -> b -> c can be read in two ways; a -> b in one *)
Example ex_unique : (exists h tc, uniqueUnif 200 exEnv true exC exD 1 = Ok (QMany h, tc)) /\
  (exists h tc, uniqueUnif 200 exEnv true exC [0; 5; 3; 6] 1 = Ok (QOne h, tc)) /\ okInput exEnv exC [0; 5; 3; 6] /\ forall t, In t [0; 5; 3; 6] -> t <= u_mt exEnv.
Proof.
  split; [eexists; eexists; vm_compute; reflexivity|]. split; [eexists; eexists; vm_compute; reflexivity|].
  split; [constructor; [discriminate|discriminate|intros t; cbn [u_con exEnv]; intros H; apply Nat.ltb_lt in H; cbn; lia|reflexivity|cbn; lia|left; cbn; lia]|].
  intros t H; cbn in H; cbn; lia.
Qed.
