(* UniProps.v -- C36 unify() is sound, C52 matching is complete *)
From Verif Require Import Base UniModel UniSpec UniSub UniCore UniStep UniRun UniProofs UniFilter UniMatch UniAll UniFin UniOnce UniTwice.
Open Scope nat_scope.

(* C36.  Whatever unify() answers -- on the first call or on any later re-entry -- the
   substitution that makeSubstUnif() then applies to any expression l is a unifier of the
   two schemes: it makes both the returned expression, replaces only unknowns of the
   schemes, and no replaced unknown is left in any value or in the result. *)
Theorem C36_unify_sound : forall e A B h s, okInput e A B -> history e A B h -> In s h ->
  exists f, unifier (u_mt e) (u_min e) A B (unified s) f /\ forall l, gives e s l (app_subst f l).
Proof. exact hist_unifier. Qed.
Print Assumptions C36_unify_sound.

(* ... and both schemes become the returned expression through makeSubstUnif() itself *)
Theorem C36_unify_same : forall e A B h s, okInput e A B -> history e A B h -> In s h ->
  gives e s A (unified s) /\ gives e s B (unified s).
Proof.
  intros e A B h s OK H I. destruct (hist_unifier e A B h s OK H I) as [f [U G]].
  pose proof (G A) as GA. pose proof (G B) as GB. rewrite (un_A _ _ _ _ _ _ U) in GA. rewrite (un_B _ _ _ _ _ _ U) in GB. split; assumption.
Qed.
Print Assumptions C36_unify_same.

(* Every call comes to an end, without bug() and without reading outside a string. *)
Theorem C36_unify_ends : forall e A B tc, okInput e A B ->
  (exists r k, forall fuel, k <= fuel -> unify fuel e A B tc = Ok r) /\
  (forall h s, history e A B h -> In s h -> exists r k, forall fuel, k <= fuel -> unifyNext fuel e A B s tc = Ok r).
Proof.
  intros e A B tc OK. split.
  - destruct (unify_good e A B OK tc) as [r [k [_ K]]]. exists r, k. exact K.
  - intros h s H I. exact (next_ends e A B h s tc OK H I).
Qed.
Print Assumptions C36_unify_ends.

(* There are only finitely many answers: every sequence of answers can be continued to a
   complete one, and there is no infinite one (even with the trial counter reset between
   the calls). *)
Theorem C36_answers_end : forall e A B, okInput e A B ->
  (exists h, allAnswers e A B h) /\ (forall h, history e A B h -> exists h', allAnswers e A B (h' ++ h)) /\
  forall (f : nat -> ust) h, history e A B (f 0 :: h) ->
    ~ forall n, exists fuel tc tc', unifyNext fuel e A B (f n) tc = Ok (UYes (f (S n)), tc').
Proof.
  intros e A B OK. split; [exact (all_exist e A B OK)|]. split; [intros h; exact (hist_extend e A B OK h)|].
  intros f h H N. exact (no_infinite e A B OK f h H N).
Qed.
Print Assumptions C36_answers_end.

(* C52.  The second scheme has no unknowns (a known proof step): the answers of the calls,
   up to the one that says "no more", are exactly the substitutions that turn the first
   scheme into the second with plausible values. *)
Theorem C52_match_complete : forall e A B h f, okInput e A B -> (forall t, In t B -> t <= u_mt e) ->
  matching (u_mt e) (u_min e) (plausible (u_min e) (u_name e) (u_con e) (u_axioms e)) A B f ->
  allAnswers e A B h -> exists s, In s h /\ forall x, In x A -> gives e s [x] (f x).
Proof. intros e A B h f OK Gr M. exact (all_cover e A B OK Gr f M h). Qed.
Print Assumptions C52_match_complete.

Theorem C52_match_sound : forall e A B h s, okInput e A B -> (forall t, In t B -> t <= u_mt e) -> history e A B h -> In s h ->
  exists f, matching (u_mt e) (u_min e) (plausible (u_min e) (u_name e) (u_con e) (u_axioms e)) A B f /\ forall l, gives e s l (app_subst f l).
Proof. exact hist_match. Qed.
Print Assumptions C52_match_sound.

(* in particular: unify() says "no" at once only if there is no match *)
Theorem C52_match_no : forall e A B fuel tc tc' f, okInput e A B -> (forall t, In t B -> t <= u_mt e) -> unify fuel e A B tc = Ok (UNo, tc') ->
  ~ matching (u_mt e) (u_min e) (plausible (u_min e) (u_name e) (u_con e) (u_axioms e)) A B f.
Proof.
  intros e A B fuel tc tc' f OK Gr H M. destruct (all_cover e A B OK Gr f M [] (all_none e A B fuel tc tc' H)) as [s [[] _]].
Qed.
Print Assumptions C52_match_no.

(* and no match is answered twice: two answers differ at some unknown of the pattern *)
Theorem C52_match_once : forall e A B h1 s2 h2 s1 h3, okInput e A B -> (forall t, In t B -> t <= u_mt e) ->
  history e A B (h1 ++ s2 :: h2 ++ s1 :: h3) -> exists x, In x A /\ forall w, gives e s1 [x] w -> ~ gives e s2 [x] w.
Proof. intros e A B h1 s2 h2 s1 h3 OK Gr. exact (no_twice e A B OK Gr h1 s2 h2 s1 h3). Qed.
Print Assumptions C52_match_once.

(* ---------- examples ---------- *)
(* constants 0..4 (1 and 2 are parentheses, 3 an arrow), variables 5..9, separator 10, unknowns above *)
Definition exNames (t : nat) : list nat := match t with 1 => [40] | 2 => [41] | _ => [65 + t] end.
Definition exEnv : uenv := mkUenv 10 1 1000 (fun t => t <? 5) exNames [[0; 5]; [0; 1; 5; 3; 6; 2]].
Definition exA := [0; 11; 3; 12; 10; 0; 12].          (* wff x -> y | wff y *)
Definition exB := [0; 5; 3; 13; 10; 0; 6; 3; 14].     (* wff a -> z | wff b -> u *)
Definition exC := [0; 11; 3; 12].                     (* wff x -> y *)
Definition exD := [0; 5; 3; 6; 3; 7].                 (* wff a -> b -> c *)
Definition ansOf (r : res (ures * nat)) : ust := match r with Ok (UYes s, _) => s | _ => mkU [] [] 0 [] [] [] (fun _ => false) 0 end.
Definition exS := ansOf (unify 200 exEnv exA exB 1).
Definition exT1 := ansOf (unify 200 exEnv exC exD 1).
Definition exT2 := ansOf (unifyNext 200 exEnv exC exD exT1 1).
Example ex_ok : okInput exEnv exA exB /\ okInput exEnv exC exD.
Proof.
  split; (constructor; [discriminate|discriminate|intros t; cbn [u_con exEnv]; intros H; apply Nat.ltb_lt in H; cbn; lia|reflexivity|cbn; lia|left; cbn; lia]).
Qed.
(* unknowns on both sides: x := a, y and z := b -> u *)
Example ex_hist : history exEnv exA exB [exS] /\ unified exS = [0; 5; 3; 6; 3; 14; 10; 0; 6; 3; 14] /\
  gives exEnv exS [0; 13; 11] [0; 6; 3; 14; 5] /\ gives exEnv exS exA (unified exS).
Proof.
  split; [eapply hist_first with (fuel := 200) (tc := 1); vm_compute; reflexivity|]. split; [vm_compute; reflexivity|].
  split; eexists; vm_compute; reflexivity.
Qed.
(* the two ways to read a -> b -> c, then no more *)
Example ex_all : allAnswers exEnv exC exD [exT2; exT1].
Proof.
  eapply all_some with (fuel := 200) (tc := 1); [|vm_compute; reflexivity].
  eapply hist_next with (fuel := 200) (tc := 1); [eapply hist_first with (fuel := 200) (tc := 1)|]; vm_compute; reflexivity.
Qed.
Example ex_twice : gives exEnv exT1 [11] [5] /\ gives exEnv exT2 [11] [5; 3; 6].
Proof. split; eexists; vm_compute; reflexivity. Qed.
Definition exF (t : nat) : list nat := match t with 11 => [5] | 12 => [6; 3; 7] | _ => [t] end.
Example ex_matching : (forall t, In t exD -> t <= u_mt exEnv) /\
  matching (u_mt exEnv) (u_min exEnv) (plausible (u_min exEnv) (u_name exEnv) (u_con exEnv) (u_axioms exEnv)) exC exD exF.
Proof.
  split; [intros t H; cbn in H; cbn; lia|]. constructor; [reflexivity| |].
  - intros t H. cbn in H. do 11 (destruct t as [|t]; [reflexivity|]). lia.
  - intros x H L. cbn in H, L. destruct H as [<-|[<-|[<-|[<-|[]]]]]; try lia; (split; [cbn; lia|]); (split; [cbn; lia|]); apply reject_spec; vm_compute; reflexivity.
Qed.

(* ---------- what goes wrong outside okInput ---------- *)
(* unequal numbers of separators: unify() says yes, although the schemes stay different *)
Theorem C36_separators_refuted : exists s tc, unify 200 exEnv [0; 11] [0; 5; 10; 0; 12] 1 = Ok (UYes s, tc) /\
  gives exEnv s [0; 11] [0; 5] /\ gives exEnv s [0; 5; 10; 0; 12] [0; 5; 10; 0; 12].
Proof. eexists. eexists. split; [vm_compute; reflexivity|]. split; eexists; vm_compute; reflexivity. Qed.
(* empty substitutions allowed and an unknown in front: the cell before the string is read *)
Theorem C36_empty_front_refuted : unify 200 (mkUenv 10 0 1000 (fun t => t <? 5) exNames [[0; 5]]) [11; 5] [5; 5] 1 = UB.
Proof. vm_compute. reflexivity. Qed.
