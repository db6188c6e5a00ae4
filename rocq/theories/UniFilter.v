(* UniFilter.v -- proofs about UniModel: the tests that reject a value *)
From Coq Require Import ZifyBool ZifyNat.
From Verif Require Import Base UniModel UniSpec.
Open Scope nat_scope.

Lemma count_cons f t l : count f (t :: l) = (if f t then 1 else 0) + count f l.
Proof. unfold count. cbn [filter]. destruct (f t); reflexivity. Qed.
Lemma unpaired_spec op cl : (forall t, op t = true -> cl t = false) -> forall w n,
  unpaired op cl w n = false <-> (forall k, count cl (firstn k w) <= n + count op (firstn k w)) /\ count cl w = n + count op w.
Proof.
  intros D. induction w as [|t w IH]; intros n; cbn [unpaired].
  - unfold count. cbn [filter length]. split; [intros H; split; [intros k; rewrite firstn_nil; cbn; lia|lia]|intros [_ H]; lia].
  - assert (ST : ((forall k, count cl (firstn k (t :: w)) <= n + count op (firstn k (t :: w))) /\ count cl (t :: w) = n + count op (t :: w)) <->
      ((forall k, (if cl t then 1 else 0) + count cl (firstn k w) <= n + ((if op t then 1 else 0) + count op (firstn k w))) /\
       (if cl t then 1 else 0) + count cl w = n + ((if op t then 1 else 0) + count op w))).
    { rewrite !count_cons. split; intros [H1 H2]; (split; [|exact H2]); intros k.
      - specialize (H1 (S k)). cbn [firstn] in H1. rewrite !count_cons in H1. exact H1.
      - destruct k; [unfold count; cbn; lia|]. cbn [firstn]. rewrite !count_cons. apply H1. }
    rewrite ST. clear ST. destruct (op t) eqn:Eo.
    + rewrite (D t Eo). rewrite IH. split; intros [H1 H2]; (split; [intros k; specialize (H1 k)|]); lia.
    + destruct (cl t) eqn:Ec.
      * destruct n as [|m].
        { split; [discriminate|]. intros [H1 _]. specialize (H1 0). unfold count in H1. cbn in H1. lia. }
        rewrite IH. split; intros [H1 H2]; (split; [intros k; specialize (H1 k)|]); lia.
      * rewrite IH. split; intros [H1 H2]; (split; [intros k; specialize (H1 k)|]); lia.
Qed.
Lemma named_disj names o c t : o <> c -> named names o t = true -> named names c t = false.
Proof. intros N. unfold named. destruct (list_eq_dec Nat.eq_dec (names t) o), (list_eq_dec Nat.eq_dec (names t) c); congruence. Qed.
Lemma mismatch_spec e w : mismatch e w = false <-> allBalanced (u_name e) w.
Proof.
  unfold mismatch, allBalanced, brackets. rewrite !orb_false_iff.
  assert (P : forall o c, o <> c -> unpaired (isName e o) (isName e c) w 0 = false <-> balanced (named (u_name e) o) (named (u_name e) c) w).
  { intros o c N. rewrite (unpaired_spec (isName e o) (isName e c) (fun t => named_disj (u_name e) o c t N)). reflexivity. }
  rewrite !P by discriminate. cbn [In]. split.
  - intros [[[[H1 H2] H3] H4] H5] o c K. repeat (destruct K as [K|K]; [injection K as <- <-; assumption|]). contradiction.
  - intros H. repeat split; apply H; tauto.
Qed.
Lemma isTok_some o t : isTok o t = true <-> o = Some t.
Proof. destruct o as [x|]; cbn [isTok]; [rewrite Nat.eqb_eq; split; congruence|split; discriminate]. Qed.
Lemma reject_spec e w : reject e w = false <-> plausible (u_min e) (u_name e) (u_con e) (u_axioms e) w.
Proof.
  assert (BR : bracketReject e w = false <-> ((forall a, In a (u_axioms e) -> allBalanced (u_name e) a) -> allBalanced (u_name e) w)).
  { unfold bracketReject. rewrite andb_false_iff, negb_false_iff, mismatch_spec. split.
    - intros [H|H] K; [|exact H]. apply existsb_exists in H. destruct H as [a [I M]]. specialize (K a I). apply mismatch_spec in K. congruence.
    - intros H. destruct (existsb (mismatch e) (u_axioms e)) eqn:E; [left; reflexivity|right]. apply H. intros a I. apply mismatch_spec.
      destruct (mismatch e a) eqn:M; [|reflexivity]. exfalso. assert (existsb (mismatch e) (u_axioms e) = true) by (apply existsb_exists; eauto). congruence. }
  assert (F1 : forall c, firstConst e c = true <-> exists t q, In (t :: c :: q) (u_axioms e)).
  { intros c. unfold firstConst. rewrite existsb_exists. split.
    - intros [a [I K]]. apply andb_prop in K. destruct K as [K1 K2]. apply isTok_some in K2. destruct a as [|t [|c' q]]; try discriminate K2.
      injection K2 as ->. eauto.
    - intros [t [q I]]. eexists. split; [exact I|]. apply andb_true_intro. split; [reflexivity|cbn; apply Nat.eqb_refl]. }
  assert (F2 : forall c, oneConst e c = true <-> exists t, In [t; c] (u_axioms e)).
  { intros c. unfold oneConst. rewrite existsb_exists. split.
    - intros [a [I K]]. apply andb_prop in K. destruct K as [K1 K2]. apply isTok_some in K2. destruct a as [|t [|c' [|]]]; try discriminate K2; try discriminate K1.
      injection K2 as ->. eauto.
    - intros [t I]. eexists. split; [exact I|]. cbn. apply Nat.eqb_refl. }
  assert (F3 : forall c, lastConst e c = true <-> exists t q, In (t :: q ++ [c]) (u_axioms e)).
  { intros c. unfold lastConst. rewrite existsb_exists. split.
    - intros [a [I K]]. apply andb_prop in K. destruct K as [K1 K2]. apply isTok_some in K2. destruct a as [|t a]; [discriminate K1|].
      destruct (list_eq_dec Nat.eq_dec a []) as [->|NE]; [discriminate K1|]. rewrite (app_removelast_last 0 NE) in *. exists t, (removelast a).
      cbn [length] in K2. rewrite app_length in K2. cbn [length] in K2. replace (S (length (removelast a) + 1) - 1) with (S (length (removelast a))) in K2 by lia.
      cbn [nth_error] in K2. rewrite nth_error_app2, Nat.sub_diag in K2 by lia. cbn in K2. injection K2 as K2. rewrite K2 in I. exact I.
    - intros [t [q I]]. eexists. split; [exact I|]. apply andb_true_intro. split; [cbn [length]; rewrite app_length; cbn [length]; lia|].
      apply isTok_some. cbn [length]. rewrite app_length. cbn [length]. replace (S (length q + 1) - 1) with (S (length q)) by lia.
      cbn [nth_error]. rewrite nth_error_app2, Nat.sub_diag by lia. reflexivity. }
  assert (LW : forall c r, last (c :: r) 0 = last (c :: r) 0 -> exists q, c :: r = q ++ [last (c :: r) 0]).
  { intros c r _. exists (removelast (c :: r)). apply app_removelast_last. discriminate. }
  unfold reject. rewrite orb_false_iff, BR. split.
  - intros [H1 H2]. unfold impossible in H2.
    assert (H2' : forall c r, w = c :: r -> 1 <= u_min e -> (u_con e c && (negb (firstConst e c) || ((length w =? 1) && negb (oneConst e c))) = false) /\
       (u_con e (last w 0) && negb (lastConst e (last w 0)) = false)).
    { intros c r -> Hm. replace (0 <? u_min e) with true in H2 by lia. cbn [andb] in H2. apply orb_false_iff in H2. exact H2. }
    constructor; [exact H1| | |].
    + intros Hm c r -> Hc. destruct (H2' _ _ eq_refl Hm) as [K _]. rewrite Hc in K. cbn [andb] in K. apply orb_false_iff in K. destruct K as [K _].
      apply F1. apply negb_false_iff. exact K.
    + intros Hm c -> Hc. destruct (H2' _ _ eq_refl Hm) as [K _]. rewrite Hc in K. cbn [andb length Nat.eqb] in K. apply orb_false_iff in K. destruct K as [_ K].
      apply F2. apply negb_false_iff. exact K.
    + intros Hm r c -> Hc. assert (E : exists c' r', r ++ [c] = c' :: r') by (destruct r; cbn; eauto). destruct E as [c' [r' E]].
      destruct (H2' _ _ E Hm) as [_ K]. rewrite last_last, Hc in K. cbn [andb] in K. apply F3. apply negb_false_iff. exact K.
  - intros [P1 P2 P3 P4]. split; [exact P1|]. unfold impossible. destruct w as [|c r]; [reflexivity|].
    destruct (0 <? u_min e) eqn:Em; [|reflexivity]. cbn [andb]. assert (Hm : 1 <= u_min e) by lia. apply orb_false_iff. split.
    + destruct (u_con e c) eqn:Ec; [|reflexivity]. cbn [andb]. rewrite (proj2 (F1 c) (P2 Hm c r eq_refl Ec)). cbn [negb orb].
      destruct (length (c :: r) =? 1) eqn:El; [|reflexivity]. cbn [andb]. destruct r; [|cbn in El; lia]. rewrite (proj2 (F2 c) (P3 Hm c eq_refl Ec)). reflexivity.
    + destruct (u_con e (last (c :: r) 0)) eqn:Ec; [|reflexivity]. cbn [andb]. destruct (LW c r eq_refl) as [q Eq].
      rewrite (proj2 (F3 _) (P4 Hm q _ Eq Ec)). reflexivity.
Qed.
