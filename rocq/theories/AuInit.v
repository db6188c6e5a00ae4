(* AuInit.v -- proofs about AuModel: initStep() and initProofStruct() *)
From Coq Require Import ZifyBool ZifyNat.
From Verif Require Import Base.
From Verif Require Import UniModel UniSpec HenModel HenProofs.
From Verif Require Import MMSpec VerModel VerSpec ParModel SqModel SqSpec SqProofs SqAttr TrcWork PfaModel PfaSpec PfaProofs PfaAssign PfaHist PfaProps FltModel FltSpec FltProofs RepSpec AkModel AkSpec AkProofs AkMain AkTop AkProps MinModel MinSpec AuModel AuSpec AuProofs AuMain AuCmd AuTop AuAll.
Open Scope nat_scope.

Definition slice (t r : nat -> list Z) (o n : nat) : list (list Z * list Z) := map (fun i => (t i, r i)) (seq o n).
Fixpoint slices (t r : nat -> list Z) (o : nat) (ks : list tree) : list (list (list Z * list Z)) :=
  match ks with [] => [] | x :: l => slice t r o (sz x) :: slices t r (o + sz x) l end.
Definition childPos (o : nat) (kids : list tree) (j : nat) : nat := o + length (flat_map rpn (firstn (S j) kids)) - 1.
Inductive nodeOk (db : dbase) (t r : nat -> list Z) (k : nat) : tree -> Prop :=
| no_unk : r k = [] -> nodeOk db t r k unknown
| no_hyp : forall h sh, stmtAt db h sh -> isHyp sh -> r k = toZ (s_math sh) -> nodeOk db t r k (Node (Z.of_nat h) [])
| no_use : forall n st kids sg, stmtAt db n st -> isAssertion st -> length kids = length (s_reqHyps st) -> r k = toZ (MMSpec.subst (db_isvar db) sg (s_math st)) -> scheme db (r k) ->
    (forall j h, nth_error (s_reqHyps st) j = Some h -> exists sh, stmtAt db h sh /\ t (childPos (k + 1 - sz (Node (Z.of_nat n) kids)) kids j) = toZ (MMSpec.subst (db_isvar db) sg (s_math sh)) /\
       scheme db (t (childPos (k + 1 - sz (Node (Z.of_nat n) kids)) kids j))) -> nodeOk db t r k (Node (Z.of_nat n) kids).

Lemma slice_S t r o n : slice t r o (n + 1) = slice t r o n ++ [(t (o + n), r (o + n))].
Proof. unfold slice. rewrite seq_app, map_app. reflexivity. Qed.
Lemma slice_app t r o a b : slice t r o (a + b) = slice t r o a ++ slice t r (o + a) b.
Proof. unfold slice. rewrite seq_app, map_app. reflexivity. Qed.
Lemma slices_concat t r ks : forall o, concat (slices t r o ks) = slice t r o (length (flat_map rpn ks)).
Proof. induction ks as [|x ks IH]; intros o; [reflexivity|]. cbn [slices concat flat_map]. rewrite IH, app_length, slice_app. reflexivity. Qed.
Lemma slices_nth t r ks : forall o j x, nth_error ks j = Some x -> nth_error (slices t r o ks) j = Some (slice t r (o + length (flat_map rpn (firstn j ks))) (sz x)).
Proof.
  induction ks as [|y ks IH]; intros o [|j] x H; try discriminate; cbn [nth_error slices firstn flat_map] in *.
  - injection H as ->. cbn [length]. rewrite Nat.add_0_r. reflexivity.
  - rewrite (IH _ _ _ H), app_length. do 2 f_equal. lia.
Qed.
Lemma slices_len t r ks : forall o, length (slices t r o ks) = length ks.
Proof. induction ks as [|y ks IH]; intros o; [reflexivity|]. cbn. rewrite IH. reflexivity. Qed.
Lemma Forall2_at {A B} (R : A -> B -> Prop) : forall a b, length a = length b -> (forall j x y, nth_error a j = Some x -> nth_error b j = Some y -> R x y) -> Forall2 R a b.
Proof.
  induction a as [|x a IH]; intros [|y b] L H; try discriminate L; [constructor|]. constructor; [exact (H 0 x y eq_refl eq_refl)|]. apply IH; [injection L as L; exact L|]. intros j u v. exact (H (S j) u v).
Qed.
Lemma firstn_S_flat ks : forall j (c : tree), nth_error ks j = Some c -> length (flat_map rpn (firstn (S j) ks)) = length (flat_map rpn (firstn j ks)) + sz c.
Proof.
  induction ks as [|y ks IH]; intros [|j] c H; try discriminate; cbn [nth_error] in H.
  - injection H as ->. cbn [firstn flat_map]. rewrite app_length. cbn. lia.
  - change (firstn (S (S j)) (y :: ks)) with (y :: firstn (S j) ks). change (firstn (S j) (y :: ks)) with (y :: firstn j ks). cbn [flat_map]. rewrite !app_length, (IH _ _ H). lia.
Qed.
Lemma child_at T k p z kids j c : nodeAt T k p (Node z kids) -> nth_error kids j = Some c -> nodeAt T (childPos (k + 1 - sz (Node z kids)) kids j) (p ++ [(z, j)]) c.
Proof.
  intros N Q. pose proof (na_kid z kids j c _ _ _ Q (na_root c)) as H. pose proof (nodeAt_comp _ _ _ _ N _ _ _ H) as X. unfold childPos. rewrite (firstn_S_flat _ _ _ Q). pose proof (sz_pos c).
  replace (k + 1 - sz (Node z kids) + (length (flat_map rpn (firstn j kids)) + sz c) - 1) with (k + 1 - sz (Node z kids) + (length (flat_map rpn (firstn j kids)) + (sz c - 1))) by lia. exact X.
Qed.
Lemma childPos_in (kids : list tree) : forall j o, j < length kids -> o <= childPos o kids j /\ childPos o kids j < o + length (flat_map rpn kids).
Proof.
  intros j o L. destruct (nth_error kids j) as [c|] eqn:Q; [|apply nth_error_None in Q; lia]. unfold childPos. rewrite (firstn_S_flat _ _ _ Q). pose proof (sz_pos c).
  pose proof (f_equal (fun l => length (flat_map rpn l)) (firstn_skipn (S j) kids)) as X. cbn beta in X. rewrite flat_map_app, app_length, (firstn_S_flat _ _ _ Q) in X. lia.
Qed.
Lemma nodeAt_fun T k p u : nodeAt T k p u -> forall k' u', nodeAt T k' p u' -> k = k' /\ u = u'.
Proof.
  induction 1 as [t|z kids j c k path u Q N IH]; intros k' u' H; inversion H; subst; [auto|]. match goal with X : nth_error kids j = Some ?c1 |- _ => assert (c1 = c) by congruence; subst c1 end. edestruct IH as [A B]; [eassumption|]. split; [lia|exact B].
Qed.
Lemma child_parent T k p z kids j k' p' z' kids' j' : nodeAt T k p (Node z kids) -> nodeAt T k' p' (Node z' kids') -> j < length kids -> j' < length kids' ->
  childPos (k + 1 - sz (Node z kids)) kids j = childPos (k' + 1 - sz (Node z' kids')) kids' j' -> k = k'.
Proof.
  intros N N' L L' E. destruct (nth_error kids j) as [c|] eqn:Q; [|apply nth_error_None in Q; lia]. destruct (nth_error kids' j') as [c'|] eqn:Q'; [|apply nth_error_None in Q'; lia].
  pose proof (child_at _ _ _ _ _ _ _ N Q) as X. pose proof (child_at _ _ _ _ _ _ _ N' Q') as X'. rewrite E in X. destruct (nodeAt_unique _ _ _ _ X _ _ X') as [P _]. apply app_inj_tail in P. destruct P as [<- _].
  exact (proj1 (nodeAt_fun _ _ _ _ N _ _ N')).
Qed.
Lemma goalOf_slice t r o n : goalOf (slice t r o (n + 1)) = t (o + n).
Proof. unfold goalOf. rewrite slice_S, last_last. reflexivity. Qed.

Lemma nodes_fits db t r T : forall u k p, nodeAt T k p u -> (forall i q v, nodeAt T i q v -> k + 1 - sz u <= i <= k -> nodeOk db t r i v) -> fits db u (slice t r (k + 1 - sz u) (sz u)).
Proof.
  induction u as [z kids IH] using tree_ind2. intros k p N H. destruct (node_split _ _ _ _ N) as [sa [sb [_ SL]]]. pose proof (sz_pos (Node z kids)) as SP.
  pose proof (H k p _ N ltac:(lia)) as OK. remember (Node z kids) as u eqn:EU. destruct OK as [R|h sh S HY R|n st ks sg S AS LK R SC HK].
  - cbn. replace (k + 1 - 1) with k by lia. rewrite R. apply ft_unk.
  - cbn. replace (k + 1 - 1) with k by lia. rewrite R. apply (ft_hyp db h sh _ S HY).
  - injection EU as <- <-. set (o := k + 1 - sz (Node (Z.of_nat n) ks)) in *. assert (EO : o + length (flat_map rpn ks) = k) by (unfold o; rewrite sz_node in *; lia).
    assert (EZ : sz (Node (Z.of_nat n) ks) = length (flat_map rpn ks) + 1) by apply sz_node. rewrite EZ, slice_S, <- slices_concat, EO, R.
    assert (KID : forall j x, nth_error ks j = Some x -> fits db x (slice t r (o + length (flat_map rpn (firstn j ks))) (sz x)) /\ goalOf (slice t r (o + length (flat_map rpn (firstn j ks))) (sz x)) = t (childPos o ks j)).
    { intros j x Q. pose proof (child_at _ _ _ _ _ _ _ N Q) as X. fold o in X. pose proof (sz_pos x). assert (EC : childPos o ks j + 1 - sz x = o + length (flat_map rpn (firstn j ks))) by (unfold childPos; rewrite (firstn_S_flat _ _ _ Q); lia).
      destruct (childPos_in ks j o ltac:(apply nth_error_Some; congruence)) as [C1 C2]. split.
      - rewrite <- EC. rewrite Forall_forall in IH. apply (IH x (nth_error_In _ _ Q) _ _ X). intros i q v Ni Li. apply (H i q v Ni). lia.
      - replace (sz x) with ((sz x - 1) + 1) by lia. rewrite goalOf_slice. f_equal. unfold childPos. rewrite (firstn_S_flat _ _ _ Q). lia. }
    apply (ft_use db n st ks _ _ sg S AS).
    + apply Forall2_at; [rewrite slices_len; reflexivity|]. intros j x y Q Q'. rewrite (slices_nth t r ks o j x Q) in Q'. injection Q' as <-. exact (proj1 (KID j x Q)).
    + apply Forall2_at; [rewrite slices_len; congruence|]. intros j h y Q Q'. destruct (nth_error ks j) as [x|] eqn:QX; [|apply nth_error_None in QX; assert (j < length (s_reqHyps st)) by (apply nth_error_Some; congruence); lia].
      rewrite (slices_nth t r ks o j x QX) in Q'. injection Q' as <-. destruct (HK j h Q) as [sh [S1 [S2 _]]]. exists sh. split; [exact S1|]. rewrite (proj2 (KID j x QX)). exact S2.
Qed.

(* ---------- the other way round ---------- *)
Lemma concat_at db kids anns : Forall2 (fits db) kids anns -> forall j a, nth_error anns j = Some a -> nth_error (concat anns) (childPos 0 kids j) = Some (last a ([], [])).
Proof.
  induction 1 as [|c a0 kids anns F0 F IH]; intros [|j] a Q; try discriminate; cbn [nth_error] in Q.
  - injection Q as ->. unfold childPos. cbn [firstn flat_map concat]. rewrite app_nil_r. pose proof (fits_len db c a F0) as L. pose proof (sz_pos c). destruct a as [|x a _] using rev_ind; [cbn in L; lia|].
    rewrite app_length in L. cbn [length] in L. rewrite last_last, <- app_assoc. rewrite nth_error_app2 by lia. replace (0 + sz c - 1 - length a) with 0 by lia. reflexivity.
  - specialize (IH j a Q). unfold childPos in *. change (firstn (S (S j)) (c :: kids)) with (c :: firstn (S j) kids). cbn [flat_map concat]. rewrite app_length. pose proof (fits_len db c a0 F0) as L. pose proof (sz_pos c).
    assert (LN : 1 <= length (flat_map rpn (firstn (S j) kids))). { destruct kids as [|c1 kids]; [inversion F; subst; destruct j; discriminate Q|]. cbn [firstn flat_map]. rewrite app_length. pose proof (sz_pos c1). lia. }
    rewrite nth_error_app2 by lia. rewrite L. replace (0 + (sz c + length (flat_map rpn (firstn (S j) kids))) - 1 - sz c) with (0 + length (flat_map rpn (firstn (S j) kids)) - 1) by lia. exact IH.
Qed.

Section Init.
  Variable E : fenv.
  Hypothesis AO : auOk E.
  Let FO := ao_flt E AO.
  Notation db := (f_db E).
  Notation mt := (u_mt (f_u E)).
  Let WD := fo_wf E None FO.
  Definition at_ (l : list (list Z)) (i : nat) : list Z := nth i l [].
  Notation okAt s := (nodeOk db (at_ (tg s)) (at_ (sr s))).

  Lemma fits_nodes m s T : linked E m s T -> forall k p u, nodeAt T k p u -> okAt s k u.
  Proof.
    intros LK k p u N. pose proof LK as [PO FI GO HT HR HU]. destruct (fits_node db T k p u N _ FI) as [a1 [au [a2 [EA [LA [FU _]]]]]]. pose proof (fits_len db u au FU) as LU. pose proof (sz_pos u) as SP.
    destruct (node_split _ _ _ _ N) as [sa [sb [_ SL]]].
    assert (AT : forall i x, nth_error au i = Some x -> at_ (tg s) (length a1 + i) = fst x /\ at_ (sr s) (length a1 + i) = snd x /\ In (fst x) (tg s) /\ In (snd x) (sr s)).
    { intros i x Q. assert (X : nth_error (combine (tg s) (sr s)) (length a1 + i) = Some x).
      { rewrite EA, nth_error_app2 by lia. replace (length a1 + i - length a1) with i by lia. rewrite nth_error_app1; [exact Q|]. apply nth_error_Some. congruence. }
      pose proof (nth_error_In _ _ X) as I. destruct x as [x y]. split; [|split; [|split; [exact (in_combine_l _ _ _ _ I)|exact (in_combine_r _ _ _ _ I)]]].
      - cbn [fst]. clear -X. unfold at_. revert X. generalize (length a1 + i), (sr s). generalize (tg s). induction l as [|c a IH]; intros [|k] [|d b] X; try discriminate X; cbn in *; [congruence|exact (IH k b X)].
      - cbn [snd]. clear -X. unfold at_. revert X. generalize (length a1 + i), (sr s). generalize (tg s). induction l as [|c a IH]; intros [|k] [|d b] X; try discriminate X; cbn in *; [congruence|exact (IH k b X)]. }
    inversion FU as [t|h sh t S HY|n st ks anns t sg S AS F2 G]; subst.
    - apply no_unk. destruct (AT 0 _ eq_refl) as [_ [A _]]. cbn [snd] in A. rewrite Nat.add_0_r, LA in A. cbn in A. replace (k + 1 - 1) with k in A by lia. exact A.
    - apply (no_hyp db _ _ k h sh S HY). destruct (AT 0 _ eq_refl) as [_ [A _]]. cbn [snd] in A. rewrite Nat.add_0_r, LA in A. cbn in A. replace (k + 1 - 1) with k in A by lia. exact A.
    - assert (LC : length (concat anns) + 1 = sz (Node (Z.of_nat n) ks)) by (rewrite <- LU, app_length; reflexivity). assert (EK : length a1 + length (concat anns) = k) by lia.
      destruct (AT (length (concat anns)) (t, toZ (MMSpec.subst (db_isvar db) sg (s_math st)))) as [_ [A2 [_ A4]]]; [rewrite nth_error_app2, Nat.sub_diag by lia; reflexivity|]. rewrite EK in A2. cbn [snd] in A2, A4.
      apply (no_use db _ _ k n st ks sg S AS); [rewrite (AkProofs.F2_len _ _ _ F2); symmetry; exact (AkProofs.F2_len _ _ _ G)|exact A2| |].
      + rewrite A2. destruct (HR _ A4) as [X|X]; [|exact X]. exfalso. destruct (wf_head db WD n st S (or_intror AS)) as [c [l [EM V]]]. rewrite EM in X. unfold MMSpec.subst in X. cbn [flat_map] in X. rewrite V in X. discriminate X.
      + intros j h Q. rewrite <- LA. destruct (nth_error anns j) as [a|] eqn:QA; [|apply nth_error_None in QA; rewrite <- (AkProofs.F2_len _ _ _ G) in QA; assert (j < length (s_reqHyps st)) by (apply nth_error_Some; congruence); lia].
        pose proof (concat_at db ks anns F2 j a QA) as CA.
        assert (G1 : exists sh, stmtAt db h sh /\ goalOf a = toZ (MMSpec.subst (db_isvar db) sg (s_math sh))).
        { clear -G Q QA. revert j Q QA. induction G as [|h0 a0 hs anns P G IH]; intros [|j] Q QA; try discriminate; cbn in *; [injection Q as ->; injection QA as ->; exact P|exact (IH j Q QA)]. }
        destruct G1 as [sh [S1 S2]]. exists sh. split; [exact S1|].
        assert (LJ : j < length ks) by (rewrite (AkProofs.F2_len _ _ _ F2); apply nth_error_Some; congruence). destruct (childPos_in ks j 0 LJ) as [_ C2].
        assert (CP : childPos (length a1) ks j = length a1 + childPos 0 ks j).
        { unfold childPos. destruct (nth_error ks j) as [c|] eqn:QC; [|apply nth_error_None in QC; lia]. rewrite (firstn_S_flat _ _ _ QC). pose proof (sz_pos c). lia. }
        destruct (AT (childPos 0 ks j) (last a ([], []))) as [B1 [_ [B3 _]]].
        { rewrite nth_error_app1; [exact CA|]. apply nth_error_Some. congruence. }
        rewrite CP, B1. split; [exact S2|]. exact (HT _ B3).
  Qed.
  Lemma nodes_linked m s T : pipOk db s T -> (forall t, In t m -> t < db_sep db) -> m <> [] -> (forall k p u, nodeAt T k p u -> okAt s k u) -> at_ (tg s) (sz T - 1) = toZ m -> (forall x, In x (us s) -> x = [] \/ entry E x) -> linked E m s T.
  Proof.
    intros PO GM NE H R HU. pose proof (sz_pos T) as SP. pose proof (po_tg _ _ _ PO) as L1. pose proof (po_sr _ _ _ PO) as L2. rewrite (po_rpn _ _ _ PO) in L1, L2.
    assert (EC : combine (tg s) (sr s) = slice (at_ (tg s)) (at_ (sr s)) 0 (sz T)).
    { rewrite <- L1. assert (L : length (tg s) = length (sr s)) by congruence. clear -L. revert L. generalize (sr s). generalize (tg s). unfold slice, at_. induction l as [|c a IH]; intros [|d b] L; try discriminate L; [reflexivity|].
      cbn [combine length seq map nth]. f_equal. rewrite (IH b) by (injection L as L; exact L). rewrite <- seq_shift, map_map. reflexivity. }
    constructor; [exact PO| | | | |exact HU].
    - rewrite EC. pose proof (nodes_fits db (at_ (tg s)) (at_ (sr s)) T T (sz T - 1) [] (na_root T)) as X. replace (sz T - 1 + 1 - sz T) with 0 in X by lia. apply X. intros i q v N _. exact (H i q v N).
    - rewrite EC. replace (sz T) with ((sz T - 1) + 1) by lia. rewrite goalOf_slice. exact R.
    - intros x I. apply In_nth_error in I. destruct I as [i Q]. assert (LI : i < sz T) by (rewrite <- L1; apply nth_error_Some; congruence). assert (EX : at_ (tg s) i = x) by (apply nth_error_nth; exact Q).
      destruct (nodeAt_total T i LI) as [p [u N]]. destruct p as [|e0 p0] eqn:EP using rev_ind.
      + inversion N; subst. rewrite R. exists m. split; [reflexivity|]. split; [destruct m as [|c l]; [congruence|]; exists c, l; split; [reflexivity|apply GM; left; reflexivity]|]. intros J. pose proof (GM _ J). lia.
      + clear IHp0. destruct e0 as [z j]. destruct (nodeAt_snoc _ _ _ _ N p0 z j eq_refl) as [k' [kids [N1 [N2 N3]]]]. pose proof (H k' p0 _ N1) as OK.
        assert (EI : i = childPos (k' + 1 - sz (Node z kids)) kids j) by (unfold childPos; rewrite (firstn_S_flat _ _ _ N2), N3; lia). clear N3. rewrite <- EX, EI. clear EI EX.
        inversion OK as [|h sh S HY RR|n st ks sg S AS LK RR SC HK]; subst; [destruct j; discriminate N2|destruct j; discriminate N2|].
        destruct (nth_error (s_reqHyps st) j) as [h|] eqn:QH; [|apply nth_error_None in QH; assert (j < length kids) by (apply nth_error_Some; congruence); lia]. destruct (HK j h QH) as [sh [_ [_ X]]]. exact X.
    - intros x I. apply In_nth_error in I. destruct I as [i Q]. assert (LI : i < sz T) by (rewrite <- L2; apply nth_error_Some; congruence). assert (EX : at_ (sr s) i = x) by (apply nth_error_nth; exact Q).
      destruct (nodeAt_total T i LI) as [p [u N]]. pose proof (H i p u N) as OK. rewrite <- EX. destruct OK as [RR|h sh S HY RR|n st ks sg S AS LK RR SC HK]; [left; exact RR|right; rewrite RR; exact (math_scheme E AO h sh S (or_introl HY))|right; exact SC].
  Qed.

  (* ---------- initStep ---------- *)
  Lemma setNth_ok {A} (l : list A) k (x : A) : k < length l -> exists l', setNth l k x = Ok l' /\ length l' = length l /\ nth_error l' k = Some x /\ forall i, i <> k -> nth_error l' i = nth_error l i.
  Proof.
    intros L. destruct (nth_error l k) as [y|] eqn:Q; [|apply nth_error_None in Q; lia]. destruct (nth_error_split _ _ Q) as [a [b [-> <-]]]. exists (a ++ x :: b). split; [apply setNth_at|]. split; [rewrite !app_length; reflexivity|].
    split; [rewrite nth_error_app2, Nat.sub_diag by lia; reflexivity|]. intros i N. destruct (Nat.lt_ge_cases i (length a)); [rewrite !nth_error_app1 by lia; reflexivity|]. rewrite !nth_error_app2 by lia. destruct (i - length a) eqn:D; [lia|]. reflexivity.
  Qed.
  Lemma initHyps_gen T g : wfTree db T -> forall hs kids o tgs, length hs = length kids -> (forall j c, nth_error kids j = Some c -> exists q, nodeAt T (childPos o kids j) q c) ->
    o + length (flat_map rpn kids) <= length tgs -> (forall h, In h hs -> exists sh, stmtAt db h sh) ->
    exists tgs', initHyps db g (rpn T) (rev hs) (o + length (flat_map rpn kids) - 1) tgs = Ok tgs' /\ length tgs' = length tgs /\
      (forall j h, nth_error hs j = Some h -> nth_error tgs' (childPos o kids j) = Some (renamed db g (mathAt db h))) /\
      (forall i, (forall j, j < length kids -> i <> childPos o kids j) -> nth_error tgs' i = nth_error tgs i).
  Proof.
    intros W. induction hs as [|h hs IH] using rev_ind; intros kids o tgs LE NK LT HS.
    - exists tgs. split; [reflexivity|]. split; [reflexivity|]. split; [intros [|j] h Q; discriminate Q|reflexivity].
    - rewrite app_length in LE. cbn [length] in LE. destruct kids as [|c kids _] using rev_ind; [cbn in LE; lia|]. rewrite app_length in LE. cbn [length] in LE. assert (LE' : length hs = length kids) by lia.
      rewrite rev_app_distr. cbn [rev app initHyps]. destruct (HS h) as [sh SS]; [rewrite in_app_iff; right; left; reflexivity|]. pose proof SS as S'. unfold stmtAt in S'. rewrite S'. cbn [rget rbind].
      rewrite flat_map_app, app_length in *. cbn [flat_map] in *. rewrite app_nil_r in *. pose proof (sz_pos c).
      set (k := o + (length (flat_map rpn kids) + sz c) - 1). destruct (setNth_ok tgs k (dummyMath db g (s_math sh)) ltac:(unfold k; lia)) as [t1 [E1 [L1 [A1 B1]]]]. rewrite E1. cbn [rbind].
      assert (CL : childPos o (kids ++ [c]) (length kids) = k).
      { unfold childPos. rewrite firstn_all2 by (rewrite app_length; cbn; lia). rewrite flat_map_app, app_length. cbn [flat_map]. rewrite app_nil_r. reflexivity. }
      assert (CJ : forall j, j < length kids -> childPos o (kids ++ [c]) j = childPos o kids j) by (intros j L; unfold childPos; rewrite firstn_app; replace (S j - length kids) with 0 by lia; rewrite app_nil_r; reflexivity).
      assert (NC : exists q, nodeAt T k q c). { rewrite <- CL. apply NK. rewrite nth_error_app2, Nat.sub_diag by lia. reflexivity. }
      assert (NK' : forall j c0, nth_error kids j = Some c0 -> exists q, nodeAt T (childPos o kids j) q c0).
      { intros j c0 Q. assert (L : j < length kids) by (apply nth_error_Some; congruence). rewrite <- CJ by exact L. apply NK. rewrite nth_error_app1 by exact L. exact Q. }
      destruct (IH kids o t1 LE' NK' ltac:(lia) ltac:(intros x I; apply HS; rewrite in_app_iff; left; exact I)) as [t2 [E2 [L2 [A2 B2]]]].
      assert (FIN : exists tgs', (match rev hs with [] => Ok t1 | _ :: _ => do n <- subproofLen db (rpn T) k; if k <? n then UB else initHyps db g (rpn T) (rev hs) (k - n) t1 end) = Ok tgs' /\ tgs' = t2).
      { destruct (rev hs) as [|h0 r] eqn:ER.
        - assert (hs = []) by (rewrite <- (rev_involutive hs), ER; reflexivity). subst hs. cbn in E2. injection E2 as <-. eauto.
        - destruct NC as [q NC]. rewrite (subLen_node db T k q c W NC). cbn [rbind]. assert (LH : 1 <= length kids) by (rewrite <- LE', <- rev_length, ER; cbn; lia).
          assert (LF : length kids <= length (flat_map rpn kids)). { clear. induction kids as [|x l IHl]; [cbn; lia|]. cbn [flat_map length]. rewrite app_length. pose proof (sz_pos x). lia. }
          replace (k <? sz c) with false by (unfold k; lia). replace (k - sz c) with (o + length (flat_map rpn kids) - 1) by (unfold k; lia). exists t2. split; [exact E2|reflexivity]. }
      destruct FIN as [tgs' [FE ->]]. exists t2. split; [exact FE|]. split; [congruence|]. split.
      + intros j h0 Q. destruct (Nat.lt_ge_cases j (length hs)) as [LJ|LJ].
        * rewrite nth_error_app1 in Q by exact LJ. rewrite CJ by lia. exact (A2 j h0 Q).
        * rewrite nth_error_app2 in Q by exact LJ. destruct (j - length hs) as [|d] eqn:D; [|destruct d; discriminate Q]. injection Q as <-. replace j with (length kids) by lia. rewrite CL, B2; [rewrite A1; unfold mathAt; rewrite S'; reflexivity|].
          intros j' L' EQ. destruct (childPos_in kids j' o L') as [_ C2]. unfold k in EQ. lia.
      + intros i N. rewrite B2; [apply B1; intros ->; apply (N (length kids)); [rewrite app_length; cbn; lia|symmetry; exact CL]|].
        intros j L. rewrite <- CJ by exact L. apply N. rewrite app_length. lia.
  Qed.
  Lemma at_eq l l' i : nth_error l i = nth_error l' i -> at_ l i = at_ l' i.
  Proof. unfold at_. intros H. destruct (nth_error l i) eqn:Q; [rewrite (nth_error_nth _ _ _ Q); symmetry; apply nth_error_nth; congruence|]. apply nth_error_None in Q. symmetry in H. apply nth_error_None in H. rewrite !nth_overflow by assumption. reflexivity. Qed.
  Lemma initStep_ok s T k p u dv old : pipOk db s T -> nodeAt T k p u -> legalCodes (rpn T) -> exists s' dv', initStep db mt old s k dv = Ok (s', dv') /\ pipOk db s' T /\ us s' = us s /\ okAt s' k u /\
    (forall i, i <> k -> at_ (sr s') i = at_ (sr s) i) /\ at_ (tg s') (sz T - 1) = at_ (tg s) (sz T - 1) /\ (forall i q v, nodeAt T i q v -> i <> k -> okAt s i v -> okAt s' i v).
  Proof.
    intros PO N LC. pose proof PO as [P1 P2 P3 P4 P5 P6 P7]. pose proof (nodeAt_bound _ _ _ _ N) as B. pose proof (nodeAt_root _ _ _ _ N) as R. destruct (node_split _ _ _ _ N) as [sa [sb [_ SL]]].
    destruct u as [z kids]. cbn [rootOf] in R. pose proof (node_wf db T _ _ _ P1 N) as W. inversion W as [? ? AR FK]; subst. unfold initStep. rewrite P2, R. cbn [rget rbind].
    assert (LK : k < length (sr s)) by (rewrite P5, P2; exact B).
    assert (SAMET : forall x s', setNth (sr s) k x = Ok (sr s') -> tg s' = tg s -> (forall i, i <> k -> nth_error (sr s') i = nth_error (sr s) i) -> forall i q v, nodeAt T i q v -> i <> k -> okAt s i v -> okAt s' i v).
    { intros x s' _ ET ES i q v Ni Ne OK. rewrite ET. destruct OK as [RR|h sh S HY RR|n st ks sg S AS LL RR SC HK]; [apply no_unk|apply (no_hyp db _ _ _ h sh S HY)|apply (no_use db _ _ _ n st ks sg S AS LL)]; try (rewrite (at_eq _ _ _ (ES i Ne)); assumption). exact HK. }
    destruct (arity_cases _ _ _ AR) as [[Z0 A0]|[Z0 [st [QS TY]]]].
    - assert (z = zUnk). { assert (I : In z (rpn T)) by (apply (nth_error_In _ k); exact R). destruct (LC z I) as [C|[C|C]]; [lia|exact C|]. rewrite (P3 z I) in C. discriminate C. }
      subst z. destruct kids; [|discriminate A0]. cbn. destruct (setNth_ok (sr s) k ([] : list Z) LK) as [x [EX [LX [AX BX]]]]. rewrite EX. cbn [rbind]. eexists _, dv. split; [reflexivity|]. split.
      { constructor; cbn [pf tg sr us]; auto; try congruence. intros i Q. destruct (Nat.eq_dec i k) as [->|Ne]; [exact AX|rewrite BX by exact Ne; apply P7; rewrite P2; exact Q]. }
      split; [reflexivity|]. split; [apply no_unk; unfold at_; cbn [sr]; apply (nth_error_nth _ _ _ AX)|]. split; [intros i Ne; apply at_eq; exact (BX i Ne)|]. split; [reflexivity|]. exact (SAMET [] (mkPip (rpn T) (tg s) x (us s)) EX eq_refl BX).
    - replace (z <? 0)%Z with false by lia. rewrite QS. cbn [rget rbind]. set (n := Z.to_nat z) in *. assert (EZ : z = Z.of_nat n) by (unfold n; lia). destruct TY as [[L0 TY]|[L0 TY]].
      + destruct kids; [|discriminate L0]. destruct (setNth_ok (sr s) k (map Z.of_nat (s_math st)) LK) as [x [EX [LX [AX BX]]]].
        assert (NU : nth_error (rpn T) k <> Some zUnk) by (rewrite R; intros Q; injection Q as Q; unfold zUnk in Q; lia).
        exists (mkPip (rpn T) (tg s) x (us s)), dv. split; [destruct TY as [-> | ->]; rewrite EX; reflexivity|]. split.
        { constructor; cbn [pf tg sr us]; auto; try congruence. intros i Q. destruct (Nat.eq_dec i k) as [->|Ne]; [contradiction|rewrite BX by exact Ne; apply P7; rewrite P2; exact Q]. }
        split; [reflexivity|]. split; [rewrite EZ; apply (no_hyp db _ _ k n st QS); [unfold isHyp; tauto|unfold at_; cbn [sr]; apply (nth_error_nth _ _ _ AX)]|]. split; [intros i Ne; apply at_eq; exact (BX i Ne)|]. split; [reflexivity|]. exact (SAMET _ (mkPip (rpn T) (tg s) x (us s)) EX eq_refl BX).
      + assert (AS : isAssertion st) by (unfold isAssertion; tauto). set (g := PfaModel.dummyOf mt dv (s_reqVars st) old). destruct (setNth_ok (sr s) k (dummyMath db g (s_math st)) LK) as [x [EX [LX [AX BX]]]].
        assert (NU : nth_error (rpn T) k <> Some zUnk) by (rewrite R; intros Q; injection Q as Q; unfold zUnk in Q; lia).
        assert (EO : k + 1 - sz (Node z kids) + length (flat_map rpn kids) - 1 = k - 1) by (rewrite sz_node in *; lia).
        destruct (initHyps_gen T g P1 (s_reqHyps st) kids (k + 1 - sz (Node z kids)) (tg s) (eq_sym L0)) as [t [ET [LT [AT BT]]]].
        { intros j c Q. eexists. exact (child_at _ _ _ _ _ _ _ N Q). }
        { rewrite P4, P2. rewrite sz_node in *. lia. }
        { intros h I. destruct (wf_hyps db WD n st h QS AS I) as [sh [SH _]]. eauto. }
        rewrite EO in ET.
        assert (TE : (match s_reqHyps st with [] => Ok (tg s) | _ => if k =? 0 then UB else initHyps db g (rpn T) (rev (s_reqHyps st)) (k - 1) (tg s) end) = Ok t).
        { destruct (s_reqHyps st) as [|h0 hs] eqn:EH; [cbn in ET; injection ET as <-; reflexivity|]. destruct kids as [|c0 ks]; [discriminate L0|]. replace (k =? 0) with false; [exact ET|]. symmetry. apply Nat.eqb_neq.
          rewrite sz_node in SL. cbn [flat_map] in SL. rewrite app_length in SL. pose proof (sz_pos c0). lia. }
        exists (mkPip (rpn T) t x (us s)), (dv + length (s_reqVars st)). split; [destruct TY as [-> | ->]; cbv zeta; fold g; rewrite EX; cbn [rbind]; rewrite TE; reflexivity|]. split.
        { constructor; cbn [pf tg sr us]; auto; try congruence. intros i Q. destruct (Nat.eq_dec i k) as [->|Ne]; [contradiction|rewrite BX by exact Ne; apply P7; rewrite P2; exact Q]. }
        split; [reflexivity|].
        assert (RG : forall v, In v (s_reqVars st) -> (Z.of_nat (db_sep db) < g v)%Z).
        { intros v I. apply In_nth_error in I. destruct I as [i Q]. unfold g. rewrite (dummyOf_at mt dv (s_reqVars st) old i v); [rewrite (mt_sep E FO); lia|exact (wf_reqVars_nodup db WD n st QS AS)|exact Q]. }
        assert (MS : forall h l, (h = n /\ l = s_math st) \/ (exists sh, In h (s_reqHyps st) /\ stmtAt db h sh /\ l = s_math sh) -> scheme db (renamed db g l) /\ renamed db g l = toZ (MMSpec.subst (db_isvar db) (fun v => [Z.to_nat (g v)]) l)).
        { intros h l HH. assert (X : exists sh, stmtAt db h sh /\ (isHyp sh \/ isAssertion sh) /\ l = s_math sh /\ forall u, In u (s_math sh) -> db_isvar db u = true -> In u (s_reqVars st)).
          { destruct HH as [[-> ->]|[sh [I [SH ->]]]]; [exists st; split; [exact QS|]; split; [right; exact AS|]; split; [reflexivity|exact (wf_vars_math db WD n st QS AS)]|].
            destruct (wf_hyps db WD n st h QS AS I) as [sh' [SH' HY]]. assert (sh' = sh) by (unfold stmtAt in *; congruence). subst sh'. exists sh. split; [exact SH|]. split; [left; exact HY|]. split; [reflexivity|].
            intros u J V. apply (wf_reqVars db WD n st QS AS). split; [exact V|]. exists h, sh. auto. }
          destruct X as [sh [SH [HA [-> V]]]]. destruct (wf_head db WD h sh SH HA) as [c [r [EM VC]]]. split; [|apply renamed_subst; intros u I Q; pose proof (RG u (V u I Q)); lia].
          rewrite EM in *. apply renamed_scheme; [exact VC|intros u J; rewrite <- EM in J; exact (fo_tok E None FO h sh u SH HA J)|intros u J Q; exact (RG u (V u J Q))]. }
        assert (OK : okAt (mkPip (rpn T) t x (us s)) k (Node z kids)).
        { rewrite EZ. apply (no_use db _ _ k n st kids (fun v => [Z.to_nat (g v)]) QS AS); [congruence| | |].
          - unfold at_. cbn [sr]. rewrite (nth_error_nth _ _ _ AX). exact (proj2 (MS n _ (or_introl (conj eq_refl eq_refl)))).
          - unfold at_. cbn [sr]. rewrite (nth_error_nth _ _ _ AX). exact (proj1 (MS n _ (or_introl (conj eq_refl eq_refl)))).
          - rewrite <- EZ. intros j h Q. destruct (wf_hyps db WD n st h QS AS (nth_error_In _ _ Q)) as [sh [SH _]]. exists sh. split; [exact SH|]. unfold at_. cbn [tg]. rewrite (nth_error_nth _ _ _ (AT j h Q)). unfold mathAt. pose proof SH as SH'. unfold stmtAt in SH'. rewrite SH'.
            destruct (MS h (s_math sh)) as [M1 M2]; [right; exists sh; split; [exact (nth_error_In _ _ Q)|auto]|]. split; [exact M2|exact M1]. }
        split; [exact OK|]. split; [intros i Ne; apply at_eq; exact (BX i Ne)|]. split.
        * apply at_eq. cbn [tg]. apply BT. intros j LJ Q. destruct (childPos_in kids j (k + 1 - sz (Node z kids)) LJ) as [_ C2]. rewrite sz_node in *. lia.
        * intros i q v Ni Ne OKi. destruct OKi as [RR|h sh S HY RR|n' st' ks sg S AS' LL RR SC HK]; [apply no_unk|apply (no_hyp db _ _ _ h sh S HY)|apply (no_use db _ _ _ n' st' ks sg S AS' LL)]; try (cbn [sr]; rewrite (at_eq _ _ _ (BX i Ne)); assumption).
          intros j h Q. destruct (HK j h Q) as [sh [H1 [H2 H3]]]. exists sh. split; [exact H1|]. cbn [tg]. rewrite (at_eq t (tg s)); [split; assumption|]. apply BT. intros j' L' EQ. apply Ne.
          refine (child_parent T i q (Z.of_nat n') ks j k p z kids j' Ni N _ L' EQ). rewrite LL. apply nth_error_Some. congruence.
  Qed.

  Lemma initSteps_ok T old oe : legalCodes (rpn T) -> forall js s dv, pipOk db s T -> (forall j, In j js -> j < sz T) ->
    exists s' dv', initSteps oe E old s dv js = Ok (s', dv') /\ pipOk db s' T /\ us s' = us s /\ at_ (tg s') (sz T - 1) = at_ (tg s) (sz T - 1) /\
      (forall i q v, nodeAt T i q v -> okAt s i v \/ (In i js /\ (oe = true -> at_ (sr s) i = [])) -> okAt s' i v).
  Proof.
    intros LC. induction js as [|j js IH]; intros s dv PO B.
    - exists s, dv. split; [reflexivity|]. split; [exact PO|]. split; [reflexivity|]. split; [reflexivity|]. intros i q v _ [H|[[] _]]. exact H.
    - cbn [initSteps]. assert (LJ : j < sz T) by (apply B; left; reflexivity). assert (LS : j < length (sr s)) by (rewrite (po_sr _ _ _ PO), (po_rpn _ _ _ PO); exact LJ).
      rewrite (get_at (sr s) j [] LS). cbn [rbind]. change (nth j (sr s) []) with (at_ (sr s) j). assert (BJ : forall j0, In j0 js -> j0 < sz T) by (intros j0 I; apply B; right; exact I).
      destruct (oe && match at_ (sr s) j with [] => false | _ => true end) eqn:SK.
      + destruct (IH s dv PO BJ) as [s' [dv' [R1 [R2 [R3 [R4 R5]]]]]]. exists s', dv'. split; [exact R1|]. split; [exact R2|]. split; [exact R3|]. split; [exact R4|].
        intros i q v N [H|[[<-|I] H]]; [apply (R5 i q v N); left; exact H| |apply (R5 i q v N); right; auto].
        destruct oe; [|discriminate SK]. rewrite (H eq_refl) in SK. discriminate SK.
      + clear SK. destruct (nodeAt_total T j LJ) as [p [u N]]. destruct (initStep_ok s T j p u dv old PO N LC) as [s1 [dv1 [E1 [P1 [U1 [O1 [S1 [T1 K1]]]]]]]]. rewrite E1. cbn [rbind fst snd].
        destruct (IH s1 dv1 P1 BJ) as [s' [dv' [R1 [R2 [R3 [R4 R5]]]]]]. exists s', dv'. split; [exact R1|]. split; [exact R2|]. split; [congruence|]. split; [congruence|].
        intros i q v Ni H. destruct (Nat.eq_dec i j) as [->|NE].
        * destruct (nodeAt_unique _ _ _ _ N _ _ Ni) as [<- <-]. apply (R5 j p u N). left. exact O1.
        * apply (R5 i q v Ni). destruct H as [H|[[<-|I] H]]; [left; exact (K1 i q v Ni NE H)|congruence|]. right. split; [exact I|]. intros O. rewrite (S1 i NE). exact (H O).
  Qed.

  (* ---------- known subproofs ---------- *)
  Lemma fin_dec (u : tree) : finished u \/ ~ finished u.
  Proof. unfold finished. destruct (AkTop.no_unk_dec (rpn u)) as [H|H]; [right; tauto|left; exact H]. Qed.
  Lemma fin_sub u k p v : nodeAt u k p v -> finished u -> finished v.
  Proof. intros N F I. apply F. destruct (node_split _ _ _ _ N) as [a [b [-> _]]]. rewrite !in_app_iff. tauto. Qed.
  Lemma above T k p z kids j c i' p' v' : nodeAt T k p (Node z kids) -> nth_error kids j = Some c -> nodeAt T i' p' v' -> i' + 1 - sz v' <= childPos (k + 1 - sz (Node z kids)) kids j < i' -> finished v' -> finished (Node z kids).
  Proof.
    intros N Q N' [L1 L2] F. set (cp := childPos (k + 1 - sz (Node z kids)) kids j) in *. pose proof (child_at _ _ _ _ _ _ _ N Q) as NC. fold cp in NC.
    destruct (node_split _ _ _ _ N') as [sa [sb [_ SL]]]. pose proof (sz_pos v').
    assert (LO : cp - (i' + 1 - sz v') < sz v') by lia. destruct (nodeAt_total v' _ LO) as [q [c' NQ]]. pose proof (nodeAt_comp _ _ _ _ N' _ _ _ NQ) as NQ'. replace (i' + 1 - sz v' + (cp - (i' + 1 - sz v'))) with cp in NQ' by lia.
    destruct (nodeAt_unique _ _ _ _ NC _ _ NQ') as [EP EC]. destruct q as [|e0 q0 _] using rev_ind.
    - inversion NQ; subst. lia.
    - rewrite app_assoc in EP. apply app_inj_tail in EP. destruct EP as [EP <-]. destruct (nodeAt_snoc _ _ _ _ NQ q0 z j eq_refl) as [k' [kids' [N1 _]]].
      pose proof (nodeAt_comp _ _ _ _ N' _ _ _ N1) as N2. rewrite <- EP in N2. destruct (nodeAt_fun _ _ _ _ N _ _ N2) as [_ EK]. rewrite EK. exact (fin_sub _ _ _ _ N1 F).
  Qed.
  Lemma shown_scheme ok u x : shows db ok u x -> scheme db (toZ x).
  Proof.
    intros H. pose proof (shows_tok E None FO ok u x H) as TK. rewrite (mt_sep E FO) in TK. exists x. split; [reflexivity|]. split; [|intros I; pose proof (TK _ I); lia].
    destruct u as [z kids]. assert (X : exists c l, x = c :: l).
    { destruct (shows_node _ _ _ _ _ H) as [[h [sh [_ [_ [_ [K1 [K2 ->]]]]]]]|[n [st [xs [sg [_ [_ [K1 [K2 [_ [_ [_ [_ ->]]]]]]]]]]]]].
      - destruct (wf_head db WD h sh K1 (or_introl K2)) as [c [l [EM _]]]. eauto.
      - destruct (wf_head db WD n st K1 (or_intror K2)) as [c [l [EM V]]]. exists c, (MMSpec.subst (db_isvar db) sg l). rewrite EM. unfold MMSpec.subst. cbn [flat_map]. rewrite V. reflexivity. }
    destruct X as [c [l EX]]. exists c, l. split; [exact EX|]. apply TK. rewrite EX. left. reflexivity.
  Qed.
  Lemma at_some l i x : nth_error l i = Some x -> at_ l i = x.
  Proof. intros H. exact (nth_error_nth _ _ _ H). Qed.
  Lemma known_nodes ok T s s' : (forall i p v, nodeAt T i p v -> finished v -> exists y, shows db ok v y) -> doneFrom db ok T 0 true s s' ->
    at_ (tg s') (sz T - 1) = at_ (tg s) (sz T - 1) /\ (forall i q v, nodeAt T i q v -> finished v -> okAt s' i v) /\
    (forall i q v, nodeAt T i q v -> ~ finished v -> at_ (sr s') i = at_ (sr s) i /\ (okAt s i v -> okAt s' i v)).
  Proof.
    intros AS [D1 D2 D3 D4 D5 D6 D7]. split; [|split].
    - apply at_eq. destruct (fin_dec T) as [F|F]; [|exact (proj2 (D4 _ _ _ (na_root T) F))]. apply (D5 _ _ _ (na_root T) F). intros i' p' v' N' _ L. pose proof (nodeAt_bound _ _ _ _ N'). lia.
    - intros i q v N F. destruct (AS i q v N F) as [y H]. pose proof (D6 eq_refl i q v y (Nat.le_0_l i) N H) as SR. destruct v as [z kids].
      pose proof H as H0. destruct (shows_node _ _ _ _ _ H) as [[h [sh [_ [-> [-> [K1 [K2 ->]]]]]]]|[n [st [xs [sg [_ [-> [K1 [K2 [_ [K4 [K5 [_ ->]]]]]]]]]]]]].
      + apply (no_hyp db _ _ i h sh K1 K2). exact (at_some _ _ _ SR).
      + unfold unifier in K5. apply (no_use db _ _ i n st kids sg K1 K2); [rewrite (AkProofs.F2_len _ _ _ K4); symmetry; exact (AkProofs.F2_len _ _ _ K5)|exact (at_some _ _ _ SR)|rewrite (at_some _ _ _ SR); exact (shown_scheme _ _ _ H0)|].
        intros j h Q. assert (LX : length (s_reqHyps st) = length xs) by exact (AkProofs.F2_len _ _ _ K5). assert (LKX : length kids = length xs) by exact (AkProofs.F2_len _ _ _ K4). assert (LJ : j < length (s_reqHyps st)) by (apply nth_error_Some; congruence).
        destruct (nth_error xs j) as [x|] eqn:QX; [|apply nth_error_None in QX; lia]. destruct (nth_error kids j) as [c|] eqn:QC; [|apply nth_error_None in QC; lia].
        assert (SC : shows db ok c x). { clear -K4 QX QC. revert j QX QC. induction K4 as [|a b ka xb P F IH]; intros [|j] QX QC; try discriminate; cbn in *; [congruence|exact (IH j QX QC)]. }
        assert (SX : exists sh, stmtAt db h sh /\ MMSpec.subst (db_isvar db) sg (s_math sh) = x). { clear -K5 QX Q. revert j QX Q. induction K5 as [|a b ka xb P F IH]; intros [|j] QX Q; try discriminate; cbn in *; [injection Q as <-; injection QX as <-; exact P|exact (IH j QX Q)]. }
        destruct SX as [sh [S1 <-]]. exists sh. split; [exact S1|].
        assert (LJK : j < length kids) by lia. destruct (childPos_in kids j (i + 1 - sz (Node (Z.of_nat n) kids)) LJK) as [C1 C2]. destruct (node_split _ _ _ _ N) as [sa [sb [_ SL]]]. rewrite sz_node in *.
        pose proof (child_at _ _ _ _ _ _ _ N QC) as NC. rewrite sz_node in NC. pose proof (D7 eq_refl _ _ _ _ i q _ (Nat.le_0_l _) NC SC N F) as TG. rewrite (at_some _ _ _ (TG ltac:(fold (sz (Node (Z.of_nat n) kids)); rewrite sz_node; lia))). split; [reflexivity|exact (shown_scheme _ _ _ SC)].
    - intros i q v N F. pose proof (at_eq _ _ _ (proj1 (D4 i q v N F))) as SR. split; [exact SR|]. intros OK. destruct OK as [RR|h sh S HY RR|n st kids sg S HA LK RR SC HK]; [apply no_unk; congruence|apply (no_hyp db _ _ _ h sh S HY); congruence|].
      apply (no_use db _ _ _ n st kids sg S HA LK); [congruence|rewrite SR; exact SC|]. intros j h Q. destruct (HK j h Q) as [sh [H1 [H2 H3]]]. exists sh. split; [exact H1|].
      assert (LJ : j < length kids) by (rewrite LK; apply nth_error_Some; congruence). destruct (nth_error kids j) as [c|] eqn:QC; [|apply nth_error_None in QC; lia].
      pose proof (child_at _ _ _ _ _ _ _ N QC) as NC. rewrite (at_eq (tg s') (tg s)); [split; assumption|]. destruct (fin_dec c) as [FC|FC]; [|exact (proj2 (D4 _ _ _ NC FC))].
      apply (D5 _ _ _ NC FC). intros i' p' v' N' F' L. destruct (Nat.lt_ge_cases (childPos (i + 1 - sz (Node (Z.of_nat n) kids)) kids j) (i' + 1 - length (rpn v'))) as [X|X]; [exact X|].
      exfalso. apply F. exact (above T i q (Z.of_nat n) kids j c i' p' v' N QC N' (conj X L) F').
  Qed.

  Lemma linked_legal m s T : linked E m s T -> legalCodes (rpn T).
  Proof.
    intros LK z I. apply In_nth_error in I. destruct I as [k Q]. assert (L : k < sz T) by (apply nth_error_Some; congruence). destruct (nodeAt_total T k L) as [p [u N]].
    pose proof (nodeAt_root _ _ _ _ N) as R. pose proof (fits_nodes m s T LK k p u N) as OK. rewrite Q in R. injection R as ->. destruct OK; cbn [rootOf unknown]; [right; left; reflexivity|left; lia|left; lia].
  Qed.
  Lemma root_at m s T : linked E m s T -> at_ (tg s) (sz T - 1) = toZ m.
  Proof.
    intros LK. pose proof LK as [PO FI GO _ _ _]. pose proof (sz_pos T) as SP. assert (L1 : length (tg s) = sz T) by (rewrite (po_tg _ _ _ PO), (po_rpn _ _ _ PO); reflexivity). assert (L2 : length (sr s) = sz T) by (rewrite (po_sr _ _ _ PO), (po_rpn _ _ _ PO); reflexivity).
    rewrite <- GO. unfold goalOf, at_. destruct (tg s) as [|t l _] using rev_ind; [cbn in L1; lia|]. destruct (sr s) as [|r l' _] using rev_ind; [cbn in L2; lia|]. rewrite app_length in L1, L2. cbn in L1, L2.
    destruct (last_combine l l' t r ([], []) ltac:(lia)) as [LB LC]. rewrite LB, LC. cbn [fst]. rewrite app_nth2 by lia. replace (sz T - 1 - length l) with 0 by lia. reflexivity.
  Qed.
  Lemma dv_flt dv : fltOk (dvEnv E dv) None.
  Proof. destruct FO. constructor; assumption. Qed.
  Lemma known_ok dv T s : (forall i p v, nodeAt T i p v -> finished v -> exists y, shows db (okValue E) v y) -> pipOk db s T ->
    exists s' K, (forall fuel, K <= fuel -> assignKnownSubProofs fuel (dvEnv E dv) s = Ok (true, s')) /\ doneFrom db (okValue E) T 0 true s s' /\ pipOk db s' T.
  Proof.
    intros AS PO. destruct (aksp_ok (dvEnv E dv) None (dv_flt dv) (okValue E) T s AS PO) as [b [s' [K [H1 [H2 [H3 H4]]]]]]. rewrite (H4 (fun w O => O)) in *. exists s', K. auto.
  Qed.

  Variable m : list nat.
  Hypothesis GM : forall t, In t m -> t < db_sep db.
  Hypothesis NE : m <> [].
  Lemma init_all_linked s T old : linked E m s T -> partsShow E (pf s) ->
    exists s1 dv1 s' K, initSteps false E old s 0 (seq 0 (length (pf s))) = Ok (s1, dv1) /\ (forall fuel, K <= fuel -> assignKnownSubProofs fuel (dvEnv E dv1) s1 = Ok (true, s')) /\ linked E m s' T.
  Proof.
    intros LK PS. pose proof (lk_pip _ _ _ _ LK) as PO. assert (LT : length (pf s) = sz T) by (rewrite (po_rpn _ _ _ PO); reflexivity).
    destruct (initSteps_ok T old false (linked_legal m s T LK) (seq 0 (length (pf s))) s 0 PO) as [s1 [dv1 [R1 [R2 [R3 [R4 R5]]]]]]; [intros j I; apply in_seq in I; lia|].
    destruct (known_ok dv1 T s1) as [s' [K [H1 [H2 H3]]]]; [|exact R2|].
    { intros i p v N F. exact (PS T i p v (eq_sym (po_rpn _ _ _ PO)) (po_tree _ _ _ PO) N F). }
    assert (AS : forall i p v, nodeAt T i p v -> finished v -> exists y, shows db (okValue E) v y) by (intros i p v N F; exact (PS T i p v (eq_sym (po_rpn _ _ _ PO)) (po_tree _ _ _ PO) N F)).
    destruct (known_nodes (okValue E) T s1 s' AS H2) as [G1 [G2 G3]]. exists s1, dv1, s', K. split; [exact R1|]. split; [exact H1|].
    apply nodes_linked; [exact H3|exact GM|exact NE| | |].
    - intros k p u N. destruct (fin_dec u) as [F|F]; [exact (G2 k p u N F)|]. apply (proj2 (G3 k p u N F)). apply (R5 k p u N). right. split; [apply in_seq; pose proof (nodeAt_bound _ _ _ _ N); lia|discriminate].
    - rewrite G1, R4. exact (root_at m s T LK).
    - rewrite (df_us _ _ _ _ _ _ _ H2), R3. exact (lk_us _ _ _ _ LK).
  Qed.
  Lemma init_step_linked s T n old dv : linked E m s T -> n < length (pf s) -> exists s' dv', initStep db mt old s n dv = Ok (s', dv') /\ linked E m s' T.
  Proof.
    intros LK L. pose proof (lk_pip _ _ _ _ LK) as PO. assert (LT : length (pf s) = sz T) by (rewrite (po_rpn _ _ _ PO); reflexivity). rewrite LT in L.
    destruct (nodeAt_total T n L) as [p [u N]]. destruct (initStep_ok s T n p u dv old PO N (linked_legal m s T LK)) as [s1 [dv1 [E1 [P1 [U1 [O1 [S1 [T1 K1]]]]]]]]. exists s1, dv1. split; [exact E1|].
    apply nodes_linked; [exact P1|exact GM|exact NE| | |].
    - intros k q v Nk. destruct (Nat.eq_dec k n) as [->|X]; [destruct (nodeAt_unique _ _ _ _ N _ _ Nk) as [<- <-]; exact O1|]. exact (K1 k q v Nk X (fits_nodes m s T LK k q v Nk)).
    - rewrite T1. exact (root_at m s T LK).
    - rewrite U1. exact (lk_us _ _ _ _ LK).
  Qed.
  Lemma clear_us s T u : linked E m s T -> length u = length (us s) -> (forall x, In x u -> x = [] \/ In x (us s)) -> linked E m (mkPip (pf s) (tg s) (sr s) u) T.
  Proof.
    intros [[P1 P2 P3 P4 P5 P6 P7] FI GO HT HR HU] L H. constructor; cbn [pf tg sr us]; try assumption; [constructor; cbn [pf tg sr us]; try assumption; congruence|].
    intros x I. destruct (H x I) as [-> |J]; [left; reflexivity|exact (HU x J)].
  Qed.
  Lemma at_repeat n i : at_ (repeat [] n) i = [].
  Proof. unfold at_. revert i. induction n as [|n IH]; intros [|i]; cbn; auto. Qed.
  Lemma init_proof_linked p T old : proofLike E p T -> partsShow E p -> exists s' dv' K, (forall fuel, K <= fuel -> initProofStruct fuel E old p m = Ok (true, (s', dv'))) /\ linked E m s' T.
  Proof.
    intros [-> WT NR LC] PS. pose proof (sz_pos T) as SP. set (n := length (rpn T)). assert (EN : n = sz T) by reflexivity.
    set (s0 := mkPip (rpn T) (repeat [] (n - 1) ++ [toZ m]) (repeat [] n) (repeat [] n)).
    assert (PO : pipOk db s0 T).
    { constructor; cbn [pf tg sr us s0]; auto; try (rewrite repeat_length; reflexivity); [rewrite app_length, repeat_length; cbn; lia|]. intros k Q. assert (k < n) by (apply nth_error_Some; unfold n; congruence). rewrite nth_error_repeat by assumption. reflexivity. }
    assert (AS : forall i q v, nodeAt T i q v -> finished v -> exists y, shows db (okValue E) v y) by (intros i q v N F; exact (PS T i q v eq_refl WT N F)).
    destruct (known_ok 0 T s0 AS PO) as [s1 [K1 [H1 [H2 H3]]]]. destruct (known_nodes (okValue E) T s0 s1 AS H2) as [G1 [G2 G3]].
    destruct (initSteps_ok T old true LC (seq 0 n) s1 0 H3) as [s2 [dv2 [R1 [R2 [R3 [R4 R5]]]]]]; [intros j I; apply in_seq in I; lia|].
    assert (LK : linked E m s2 T).
    { apply nodes_linked; [exact R2|exact GM|exact NE| | |].
      - intros k q u N. apply (R5 k q u N). destruct (fin_dec u) as [F|F]; [left; exact (G2 k q u N F)|]. right. split; [apply in_seq; pose proof (nodeAt_bound _ _ _ _ N); lia|]. intros _. rewrite (proj1 (G3 k q u N F)). apply at_repeat.
      - rewrite R4, G1. cbn [tg s0]. unfold at_. rewrite app_nth2 by (rewrite repeat_length; lia). rewrite repeat_length. replace (sz T - 1 - (n - 1)) with 0 by lia. reflexivity.
      - rewrite R3, (df_us _ _ _ _ _ _ _ H2). cbn [us s0]. intros x I. left. exact (repeat_spec _ _ _ I). }
    destruct (auto_ok E AO s2 (linked_shape E m s2 T LK)) as [s' [ch [nu [K2 [H [S1 _]]]]]].
    exists s', dv2, (Nat.max K1 K2). split; [|exact (linked_to E AO m GM s2 s' ch T LK S1)].
    intros fuel L. unfold initProofStruct. fold n. fold s0. rewrite H1 by lia. cbn [rbind fst snd]. rewrite R1. cbn [rbind fst snd]. rewrite H by lia. cbn [rbind fst snd].
    assert (NZ : rpn T <> []) by (intros X; rewrite X in SP; cbn in SP; lia). clear -NZ. destruct (rpn T); [congruence|reflexivity].
  Qed.
End Init.
