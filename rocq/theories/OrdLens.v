(* OrdLens.v -- the compressed lengths handed out by comprLens. *)
From Coq Require Import Permutation.
From Verif Require Import Base VerModel TokModel ParModel CmpModel CmpCodec OrdModel OrdSpec.
Open Scope nat_scope.

(* the entries of lens whose reference count satisfies P *)
Fixpoint sel (P : nat -> bool) (refs lens : list nat) : list nat :=
  match refs, lens with
  | r :: rs, l :: ls => if P r then l :: sel P rs ls else sel P rs ls
  | _, _ => []
  end.

Lemma lenPass_ok nreq i : forall refs lens pos m lens' pos' m',
  length lens = length refs -> lenPass nreq i refs lens pos m = (lens', pos', m') ->
  length lens' = length refs /\
  sel (Nat.eqb i) refs lens' = map (fun p => numChrs (nreq + p)) (seq pos (pos' - pos)) /\ pos <= pos' /\
  (forall P, P i = false -> sel P refs lens' = sel P refs lens) /\
  (forall j r, nth_error refs j = Some r -> r <> i -> nth_error lens' j = nth_error lens j) /\
  (forall j, nth_error refs j = Some i -> exists p, pos <= p < pos' /\ nth_error lens' j = Some (numChrs (nreq + p))) /\
  m <= m' /\ (forall p, pos <= p < pos' -> numChrs (nreq + p) <= m').
Proof.
  induction refs as [|r refs IH]; intros lens pos m lens' pos' m' HL E; destruct lens as [|l lens]; try discriminate.
  - cbn [lenPass] in E. injection E as <- <- <-. cbn [sel]. rewrite Nat.sub_diag. cbn [seq map].
    split; [reflexivity|]. split; [reflexivity|]. split; [lia|]. split; [auto|].
    split; [intros [|j]; discriminate|]. split; [intros [|j]; discriminate|]. split; [lia|]. intros; lia.
  - cbn [length] in HL. cbn [lenPass] in E. destruct (Nat.eqb_spec r i) as [->|D].
    + cbv zeta in E. destruct (lenPass nreq i refs lens (S pos) (Nat.max m (numChrs (nreq + pos)))) as [[t p] q] eqn:F.
      injection E as <- <- <-.
      assert (HL2 : length lens = length refs) by lia; destruct (IH _ _ _ _ _ _ HL2 F) as [A1 [A2 [A3 [A4 [A5 [A6 [A7 A8]]]]]]].
      cbn [sel length]. rewrite Nat.eqb_refl. rewrite A2.
      split; [lia|]. split.
      { replace (p - pos) with (S (p - S pos)) by lia. reflexivity. }
      split; [lia|]. split; [intros P HP; rewrite HP; apply A4; auto|].
      split; [intros [|j] r Hr Hne; cbn [nth_error] in *; [congruence|eapply A5; eauto]|].
      split.
      { intros [|j] Hr; cbn [nth_error] in *.
        - exists pos. split; [lia|reflexivity].
        - destruct (A6 j Hr) as [p0 [B1 B2]]. exists p0. split; [lia|auto]. }
      split; [lia|]. intros p0 Hp. destruct (Nat.eq_dec p0 pos) as [->|]; [lia|apply A8; lia].
    + destruct (lenPass nreq i refs lens pos m) as [[t p] q] eqn:F. injection E as <- <- <-.
      assert (HL2 : length lens = length refs) by lia; destruct (IH _ _ _ _ _ _ HL2 F) as [A1 [A2 [A3 [A4 [A5 [A6 [A7 A8]]]]]]].
      cbn [sel length]. destruct (Nat.eqb_spec i r); [congruence|].
      split; [lia|]. split; [exact A2|]. split; [exact A3|].
      split; [intros P HP; rewrite A4 by auto; reflexivity|].
      split; [intros [|j] r0 Hr Hne; cbn [nth_error] in *; [reflexivity|eapply A5; eauto]|].
      split; [intros [|j] Hr; cbn [nth_error] in *; [congruence|eapply A6; eauto]|].
      split; [exact A7|exact A8].
Qed.

Lemma sel_split i : forall refs lens, Permutation (sel (fun r => i <=? r) refs lens)
  (sel (fun r => S i <=? r) refs lens ++ sel (Nat.eqb i) refs lens).
Proof.
  induction refs as [|r refs IH]; intros [|l lens]; cbn [sel app]; try apply Permutation_refl.
  destruct (Nat.leb_spec i r) as [A|A], (Nat.leb_spec (S i) r) as [B|B], (Nat.eqb_spec i r) as [C|C]; try lia; cbn [app].
  - constructor. apply IH.
  - apply Permutation_cons_app. apply IH.
  - apply IH.
Qed.

Lemma sel_all P : forall refs lens, length lens = length refs -> (forall r, In r refs -> P r = true) -> sel P refs lens = lens.
Proof.
  induction refs as [|r refs IH]; intros [|l lens] H HP; try discriminate; cbn [sel]; auto.
  rewrite HP by (left; auto). f_equal. apply IH; [cbn [length] in H; lia|]. intros; apply HP; right; auto.
Qed.
Lemma sel_none P : forall refs lens, (forall r, In r refs -> P r = false) -> sel P refs lens = [].
Proof.
  induction refs as [|r refs IH]; intros [|l lens] HP; cbn [sel]; auto.
  rewrite HP by (left; auto). apply IH. intros; apply HP; right; auto.
Qed.

(* state after the passes for all counts above i *)
Record lensInv (nreq : nat) (refs : list nat) (i : nat) (lens : list nat) (pos m : nat) : Prop := {
  li_len : length lens = length refs;
  li_perm : Permutation (sel (fun r => S i <=? r) refs lens) (map (fun p => numChrs (nreq + p)) (seq 0 pos));
  li_pos : forall j r, nth_error refs j = Some r -> i < r ->
    exists p, p < pos /\ nth_error lens j = Some (numChrs (nreq + p));
  li_ord : forall j1 j2 r1 r2 l1 l2, nth_error refs j1 = Some r1 -> nth_error refs j2 = Some r2 -> i < r2 -> r2 < r1 ->
    nth_error lens j1 = Some l1 -> nth_error lens j2 = Some l2 -> l1 <= l2;
  li_max : forall p, p < pos -> numChrs (nreq + p) <= m }.

Section LM.
  Hypothesis mono : forall a b, a <= b -> numChrs a <= numChrs b.
  Lemma lenPasses_inv nreq refs : forall i lens pos m lens' pos' m',
    lensInv nreq refs i lens pos m -> lenPasses nreq i refs lens pos m = (lens', pos', m') ->
    lensInv nreq refs 0 lens' pos' m'.
  Proof.
    induction i as [|i IH]; intros lens pos m lens' pos' m' I E; cbn [lenPasses] in E.
    - injection E as <- <- <-. exact I.
    - destruct (lenPass nreq (S i) refs lens pos m) as [[t p] q] eqn:F.
      destruct (lenPass_ok _ _ _ _ _ _ _ _ _ (li_len _ _ _ _ _ _ I) F) as [A1 [A2 [A3 [A4 [A5 [A6 [A7 A8]]]]]]].
      apply (IH t p q); auto. destruct I as [I1 I2 I3 I4 I5]. constructor.
      + exact A1.
      + rewrite (sel_split (S i) refs t). rewrite A4 by (apply Nat.leb_gt; lia). rewrite A2, I2.
        replace p with (pos + (p - pos)) at 2 by lia. rewrite seq_app, map_app. reflexivity.
      + intros j r Hj Hr. destruct (Nat.eq_dec r (S i)) as [->|D].
        * destruct (A6 j Hj) as [p0 [B1 B2]]. exists p0. split; [lia|auto].
        * destruct (I3 j r Hj ltac:(lia)) as [p0 [B1 B2]]. exists p0. split; [lia|]. rewrite (A5 j r Hj D). auto.
      + intros j1 j2 r1 r2 l1 l2 H1 H2 Hr2 Hr1 L1 L2.
        rewrite (A5 j1 r1 H1) in L1 by lia.
        destruct (Nat.eq_dec r2 (S i)) as [->|D].
        * destruct (A6 j2 H2) as [p2 [B1 B2]]. rewrite B2 in L2. injection L2 as <-.
          destruct (I3 j1 r1 H1 ltac:(lia)) as [p1 [B3 B4]]. rewrite B4 in L1. injection L1 as <-.
          apply mono. lia.
        * rewrite (A5 j2 r2 H2 D) in L2. eapply (I4 j1 j2); eauto. lia.
      + intros p0 Hp. destruct (Nat.lt_ge_cases p0 pos); [|apply A8; lia]. specialize (I5 p0 H). lia.
  Qed.

  Lemma comprLens_ok nreq refs lens m : (forall r, In r refs -> 1 <= r) -> comprLens nreq refs = (lens, m) ->
    length lens = length refs /\
    Permutation lens (map (fun p => numChrs (nreq + p)) (seq 0 (length refs))) /\
    (forall j1 j2 r1 r2 l1 l2, nth_error refs j1 = Some r1 -> nth_error refs j2 = Some r2 -> r2 < r1 ->
      nth_error lens j1 = Some l1 -> nth_error lens j2 = Some l2 -> l1 <= l2) /\
    (forall l, In l lens -> 1 <= l <= m).
  Proof.
    intros HR E. unfold comprLens in E.
    destruct (lenPasses nreq (fold_right Nat.max 0 refs) refs (repeat 0 (length refs)) 0 0) as [[t p] q] eqn:F.
    injection E as <- <-.
    assert (HM : forall r, In r refs -> r <= fold_right Nat.max 0 refs).
    { clear. induction refs as [|x l IH]; intros r H; [destruct H|]. cbn [fold_right]. destruct H as [->|H]; [lia|].
      specialize (IH r H). lia. }
    assert (I0 : lensInv nreq refs (fold_right Nat.max 0 refs) (repeat 0 (length refs)) 0 0).
    { constructor.
      - apply repeat_length.
      - rewrite sel_none; [apply Permutation_refl|]. intros r Hr. apply Nat.leb_gt. specialize (HM r Hr). lia.
      - intros j r Hj Hr. apply nth_error_In, HM in Hj. lia.
      - intros j1 j2 r1 r2 l1 l2 H1 H2. intros. apply nth_error_In, HM in H2. lia.
      - intros; lia. }
    pose proof (lenPasses_inv _ _ _ _ _ _ _ _ _ I0 F) as [J1 J2 J3 J4 J5].
    assert (S0 : sel (fun r => 1 <=? r) refs t = t).
    { apply sel_all; auto. intros r Hr. apply Nat.leb_le. auto. }
    rewrite S0 in J2.
    assert (EP : p = length refs).
    { pose proof (Permutation_length J2) as L. rewrite map_length, seq_length in L. lia. }
    split; [exact J1|]. split; [rewrite <- EP; exact J2|]. split.
    - intros j1 j2 r1 r2 l1 l2 H1 H2 Hr L1 L2. eapply (J4 j1 j2); eauto. apply nth_error_In, HR in H2. lia.
    - intros l Hl. apply (Permutation_in _ J2) in Hl. apply in_map_iff in Hl. destruct Hl as [p0 [<- Hp]].
      apply in_seq in Hp. split; [unfold numChrs; lia|]. apply J5. lia.
  Qed.
End LM.
