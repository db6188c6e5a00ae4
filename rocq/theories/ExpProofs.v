(* ExpProofs.v -- proofs about ExpModel: moving subproofs *)
From Coq Require Import ZifyBool ZifyNat Permutation.
From Verif Require Import Base VerModel VerSpec VerProofs TokModel ParModel SqModel SqSpec SqProofs SqAttr PfaProofs PfaMore CmpSpec ExpModel ExpSpec.
Open Scope nat_scope.

Notation item := (Z * nat)%type.
Lemma ref_zLoc p : isRef (zLoc (Z.of_nat p)) = true /\ refOf (zLoc (Z.of_nat p)) = p.
Proof. unfold isRef, refOf, zLoc. split; [lia|]. rewrite <- (Nat2Z.id p) at 2. f_equal. lia. Qed.
Lemma map_res_ok {A B} (f : A -> res B) (R : A -> B -> Prop) : forall l, (forall x, In x l -> exists y, f x = Ok y /\ R x y) -> exists l', mapRes f l = Ok l' /\ Forall2 R l l'.
Proof.
  induction l as [|x l IH]; intros H; [exists []; split; [reflexivity|constructor]|]. destruct (H x (or_introl eq_refl)) as [y [F Y]]. destruct IH as [l' [F' Y']]; [intros x' I; apply H; right; exact I|].
  exists (y :: l'). cbn [mapRes]. rewrite F. cbn [rbind]. rewrite F'. split; [reflexivity|constructor; assumption].
Qed.

Lemma f2_len {A B} (R : A -> B -> Prop) l l' : Forall2 R l l' -> length l = length l'.
Proof. induction 1; cbn [length]; congruence. Qed.

Section Flat.
  Variables (db : dbase) (hist : list tree).

  (* running a list of steps (code, original number); hist: what each original step proves *)
  Inductive arun : list tree -> list item -> list tree -> Prop :=
  | ar_nil s : arun s [] s
  | ar_ref z o v s r s' : isRef z = true -> nth_error hist o = Some v -> arun (v :: s) r s' -> arun s ((z, o) :: r) s'
  | ar_node z o kids s r s' : isRef z = false -> arity db z = Some (length kids) -> nth_error hist o = Some (Node z kids) -> arun (Node z kids :: s) r s' ->
      arun (rev kids ++ s) ((z, o) :: r) s'.
  Lemma arun_app A : forall s s1 B s2, arun s A s1 -> arun s1 B s2 -> arun s (A ++ B) s2.
  Proof. intros s s1 B s2 H. revert s2. induction H; intros s2 HB; cbn [app]; [exact HB|eapply ar_ref; eauto|eapply ar_node; eauto]. Qed.
  Lemma arun_split A : forall s B s2, arun s (A ++ B) s2 -> exists s1, arun s A s1 /\ arun s1 B s2.
  Proof.
    induction A as [|[z o] A IH]; intros s B s2 H; [exists s; split; [constructor|exact H]|]. cbn [app] in H. inversion H as [|z0 o0 v s0 r s' R N Q|z0 o0 kids s0 r s' R AR N Q]; subst.
    - destruct (IH _ _ _ Q) as [s1 [H1 H2]]. exists s1. split; [eapply ar_ref; eassumption|exact H2].
    - destruct (IH _ _ _ Q) as [s1 [H1 H2]]. exists s1. split; [eapply ar_node; eassumption|exact H2].
  Qed.

  (* the code written for a step: the same, or another reference *)
  Definition code (x : item) (c : Z) : Prop := (isRef (fst x) = false /\ c = fst x) \/ (isRef (fst x) = true /\ isRef c = true).
  Lemma code_fst P : Forall2 code P (map fst P).
  Proof. induction P as [|[z o] P IH]; cbn [map]; constructor; [|exact IH]. unfold code. cbn [fst]. destruct (isRef z); auto. Qed.
  Lemma ref_neg z : isRef z = true -> (z <? 0)%Z = true. Proof. unfold isRef. lia. Qed.
  Lemma arun_shape s L s' : arun s L s' -> forall q, Forall2 code L q -> forall F, length F = length s -> Forall (wfTree db) F ->
    exists F', Forall (wfTree db) F' /\ length F' = length s' /\ flat_map rpn (rev F') = flat_map rpn (rev F) ++ q.
  Proof.
    induction 1 as [s|z o v s r s' R N Q IH|z o kids s r s' R AR N Q IH]; intros q C F LF WF.
    - inversion C; subst. exists F. rewrite app_nil_r. auto.
    - inversion C as [|x c l l' C1 C2]; subst. destruct C1 as [[C1 _]|[_ C1]]; cbn [fst] in C1; [congruence|].
      destruct (IH _ C2 (Node c [] :: F)) as [F' [W' [L' E']]].
      + cbn [length]. lia.
      + constructor; [|exact WF]. constructor; [|constructor]. unfold arity. rewrite (ref_neg c C1). reflexivity.
      + exists F'. split; [exact W'|]. split; [exact L'|]. rewrite E'. cbn [rev]. rewrite flat_map_app. cbn [flat_map rpn app]. rewrite <- app_assoc. reflexivity.
    - inversion C as [|x c l l' C1 C2]; subst. destruct C1 as [[_ C1]|[C1 _]]; cbn [fst] in C1; [|congruence]. subst c.
      rewrite app_length, rev_length in LF. set (K := firstn (length kids) F). set (F0 := skipn (length kids) F).
      assert (EF : F = K ++ F0) by (symmetry; apply firstn_skipn). assert (LK : length K = length kids) by (unfold K; rewrite firstn_length; lia).
      rewrite EF, Forall_app in WF. destruct WF as [WK W0].
      destruct (IH _ C2 (Node z (rev K) :: F0)) as [F' [W' [L' E']]].
      + cbn [length]. unfold F0. rewrite skipn_length. lia.
      + constructor; [|exact W0]. constructor; [rewrite rev_length, LK; exact AR|apply Forall_rev; exact WK].
      + exists F'. split; [exact W'|]. split; [exact L'|]. rewrite E', EF. cbn [rev]. rewrite rev_app_distr, !flat_map_app. cbn [flat_map rpn]. rewrite app_nil_r, <- !app_assoc. reflexivity.
  Qed.
  Lemma shape_one L T q : arun [] L [T] -> Forall2 code L q -> exists t, wfTree db t /\ q = rpn t.
  Proof.
    intros H C. destruct (arun_shape _ _ _ H q C [] eq_refl (Forall_nil _)) as [F [W [LF E]]]. destruct F as [|t [|? ?]]; try discriminate LF. cbn in E. rewrite app_nil_r in E. inversion W; subst. exists t. auto.
  Qed.

  (* a complete subproof needs nothing from the stack *)
  Definition frame (P : list item) (s s3 : list tree) : Prop := exists w P0 z o, P = P0 ++ [(z, o)] /\ nth_error hist o = Some w /\ s3 = w :: s /\
    (forall s', arun s' P (w :: s')) /\ (forall z' o', In (z', o') P0 -> exists v, nth_error hist o' = Some v /\ length (rpn v) < length (rpn w)).
  Lemma len_node z kids : length (rpn (Node z kids)) = S (length (flat_map rpn kids)).
  Proof. cbn [rpn]. rewrite app_length. cbn [length]. lia. Qed.
  Lemma kid_len w ws : In w ws -> length (rpn w) <= length (flat_map rpn ws).
  Proof. induction ws as [|x ws IH]; intros I; [destruct I|]. cbn [flat_map]. rewrite app_length. destruct I as [->|I]; [lia|specialize (IH I); lia]. Qed.
  Lemma frames kids : Forall (fun t => wfTree db t -> forall P s s3, arun s P s3 -> Forall2 code P (rpn t) -> frame P s s3) kids -> Forall (wfTree db) kids ->
    forall P s s3, arun s P s3 -> Forall2 code P (flat_map rpn kids) ->
    exists ws, length ws = length kids /\ s3 = rev ws ++ s /\ (forall s', arun s' P (rev ws ++ s')) /\ (forall z o, In (z, o) P -> exists v w, nth_error hist o = Some v /\ In w ws /\ length (rpn v) <= length (rpn w)).
  Proof.
    induction kids as [|t kids IH]; intros FK WK P s s3 H C.
    - inversion C; subst. inversion H; subst. exists []. split; [reflexivity|]. split; [reflexivity|]. split; [intros s'; constructor|intros z o []].
    - inversion FK as [|? ? F1 F2]; subst. inversion WK as [|? ? W1 W2]; subst. cbn [flat_map] in C. apply Forall2_app_inv_r in C. destruct C as [P1 [P2 [C1 [C2 ->]]]].
      destruct (arun_split _ _ _ _ H) as [s1 [H1 H2]]. destruct (F1 W1 _ _ _ H1 C1) as [w [P0 [z [o [E1 [N1 [E2 [R1 S1]]]]]]]]. subst s1.
      destruct (IH F2 W2 _ _ _ H2 C2) as [ws [LW [E3 [R2 S2]]]]. exists (w :: ws). split; [cbn [length]; lia|]. split; [rewrite E3; cbn [rev]; rewrite <- app_assoc; reflexivity|].
      split; [intros s'; eapply arun_app; [apply R1|]; cbn [rev]; rewrite <- app_assoc; apply R2|].
      intros z' o' I. apply in_app_iff in I. destruct I as [I|I].
      + rewrite E1 in I. apply in_app_iff in I. destruct I as [I|[I|[]]].
        * destruct (S1 _ _ I) as [v [V1 V2]]. exists v, w. split; [exact V1|]. split; [left; reflexivity|lia].
        * injection I as <- <-. exists w, w. split; [exact N1|]. split; [left; reflexivity|lia].
      + destruct (S2 _ _ I) as [v [w' [V1 [V2 V3]]]]. exists v, w'. split; [exact V1|]. split; [right; exact V2|exact V3].
  Qed.
  Lemma frame_ok t : wfTree db t -> forall P s s3, arun s P s3 -> Forall2 code P (rpn t) -> frame P s s3.
  Proof.
    induction t as [z kids IH] using tree_ind2. intros W P s s3 H C. destruct (wf_node _ _ _ W) as [AR WK]. cbn [rpn] in C. apply Forall2_app_inv_r in C. destruct C as [P0 [P1 [C1 [C2 ->]]]].
    inversion C2 as [|[z1 o] ? ? ? C3 C4]; subst. inversion C4; subst. destruct (arun_split _ _ _ _ H) as [s1 [H1 H2]]. destruct (frames kids IH WK _ _ _ H1 C1) as [ws [LW [E1 [R1 S1]]]]. subst s1.
    destruct C3 as [[RF E]|[RF RC]]; cbn [fst] in *.
    - subst z1. inversion H2 as [|z0 o0 v s0 r s' R N Q|z0 o0 ks s0 r s' R AR' N Q]; subst; [congruence|]. inversion Q; subst. rewrite AR in AR'. injection AR' as LL.
      assert (KW : ks = ws /\ s0 = s).
      { match goal with X : rev ks ++ s0 = rev ws ++ s |- _ => rename X into E end. apply app_eq_app in E. assert (length (rev ks) = length (rev ws)) by (rewrite !rev_length; lia).
        destruct E as [l [[E2 E3]|[E2 E3]]]; assert (l = []) by (apply length_zero_iff_nil; apply (f_equal (@length _)) in E2; rewrite app_length in E2; lia); subst l; cbn [app] in *; rewrite app_nil_r in E2; split; [|auto| |auto]; rewrite <- (rev_involutive ks), <- (rev_involutive ws); congruence. }
      destruct KW as [-> ->]. exists (Node z ws), P0, z, o. split; [reflexivity|]. split; [exact N|]. split; [reflexivity|]. split.
      + intros s'. eapply arun_app; [apply R1|]. apply ar_node; auto; [rewrite LW; exact AR|constructor].
      + intros z' o' I. destruct (S1 _ _ I) as [v [w [V1 [V2 V3]]]]. exists v. split; [exact V1|]. rewrite len_node. pose proof (kid_len w ws V2). lia.
    - assert (K0 : kids = []). { unfold arity in AR. rewrite (ref_neg z RC) in AR. injection AR as AR. destruct kids; [reflexivity|discriminate AR]. } subst kids. destruct ws; [|discriminate LW]. inversion C1; subst. cbn [app rev] in *.
      inversion H2 as [|z0 o0 v s0 r s' R N Q|z0 o0 ks s0 r s' R AR' N Q]; subst; [|congruence]. inversion Q; subst. exists v, [], z1, o. split; [reflexivity|]. split; [exact N|]. split; [reflexivity|]. split; [|intros z' o' []].
      intros s'. apply (ar_ref z1 o v); auto using ar_nil.
  Qed.

  (* ---------- one move ---------- *)
  Variable T : tree.
  Definition refsOk (L : list item) : Prop := forall z o, In (z, o) L -> isRef z = true ->
    exists z' v, In (z', refOf z) L /\ isRef z' = false /\ nth_error hist o = Some v /\ nth_error hist (refOf z) = Some v.
  Record movable (L : list item) : Prop := { mv_dist : @NoDup nat (map snd L); mv_refs : refsOk L; mv_run : arun [] L [T] }.
  (* q is L with references by position *)
  Definition written (L : list item) (x : item) (c : Z) : Prop :=
    if isRef (fst x) then exists p, nth_error (map snd L) p = Some (refOf (fst x)) /\ c = zLoc (Z.of_nat p) else c = fst x.
  Definition concs (L : list item) (q : list Z) : Prop := Forall2 (written L) L q.
  Lemma written_code L x c : written L x c -> code x c.
  Proof. unfold written, code. destruct (isRef (fst x)); [intros [p [_ ->]]; right; split; [reflexivity|apply ref_zLoc]|intros ->; left; auto]. Qed.
  Lemma concs_code L q : concs L q -> Forall2 code L q.
  Proof. unfold concs. generalize L at 1. intros L0 H. induction H as [|x c l l' W H IH]; constructor; [exact (written_code _ _ _ W)|exact IH]. Qed.

  Lemma nth_mid {A} (a b : list A) x : nth_error (a ++ x :: b) (length a) = Some x.
  Proof. rewrite nth_error_app2, Nat.sub_diag by lia. reflexivity. Qed.
  Lemma snd_inj (L : list item) z z' o : NoDup (map snd L) -> In (z, o) L -> In (z', o) L -> z = z'.
  Proof.
    induction L as [|[y p] L IH]; intros ND I J; [destruct I|]. cbn [map snd] in ND. inversion ND as [|? ? N1 N2]; subst. destruct I as [I|I]; destruct J as [J|J].
    - congruence.
    - injection I as -> ->. destruct N1. apply (in_map snd) in J. exact J.
    - injection J as -> ->. destruct N1. apply (in_map snd) in I. exact I.
    - exact (IH N2 I J).
  Qed.
  Lemma nth_uniq (l : list nat) i j x : NoDup l -> nth_error l i = Some x -> nth_error l j = Some x -> i = j.
  Proof. intros ND A B. apply (proj1 (NoDup_nth_error l) ND i j); [apply nth_error_Some; congruence|congruence]. Qed.

  Lemma move_one L q s z o k : movable L -> concs L q -> nth_error L s = Some (z, o) -> isRef z = true -> nth_error (map snd L) k = Some (refOf z) -> s < k ->
    exists L' q', moveSub db q s k = Ok q' /\ movable L' /\ concs L' q' /\ length L' = length L /\ firstn s L' = firstn s L /\
      (forall z' o' v v', nth_error L' s = Some (z', o') -> isRef z' = true -> nth_error hist o = Some v -> nth_error hist o' = Some v' -> length (rpn v') < length (rpn v)) /\ Permutation L L'.
  Proof.
    intros [ND RO RUN] CQ NS RZ NK LT. pose proof (concs_code _ _ CQ) as CC. destruct (shape_one _ _ _ RUN CC) as [t [WT EQ]].
    pose proof (f2_len _ _ _ CQ) as LEN. assert (LK : k < length L) by (rewrite <- (map_length snd); apply nth_error_Some; congruence).
    destruct (nodeAt_total t k ltac:(rewrite <- EQ; lia)) as [path [u NA]]. destruct (node_split _ _ _ _ NA) as [qa [qb [ES LA]]]. pose proof (node_wf _ _ _ _ _ WT NA) as WU.
    pose proof (sz_pos u) as SU. set (m := length (rpn u)) in *.
    (* the pieces *)
    rewrite EQ, ES in CC. apply Forall2_app_inv_r in CC. destruct CC as [LA0 [L1 [CA [C1 E1]]]]. apply Forall2_app_inv_r in C1. destruct C1 as [P [C [CP [CB E2]]]]. subst L1.
    pose proof (f2_len _ _ _ CA) as LLA. pose proof (f2_len _ _ _ CP) as LLP.
    rewrite E1 in RUN. destruct (arun_split _ _ _ _ RUN) as [s1 [H1 H2]]. destruct (arun_split _ _ _ _ H2) as [s2 [H3 H4]]. destruct (frame_ok u WU _ _ _ H3 CP) as [w [P0 [zr [r [EP [NR [ES2 [FR SM]]]]]]]]. subst s2.
    assert (LP0 : length P0 = m - 1) by (rewrite EP, app_length in LLP; cbn [length] in LLP; fold m in LLP; lia).
    assert (KR : r = refOf z).
    { assert (X : nth_error L k = Some (zr, r)). { rewrite E1, EP, nth_error_app2 by lia. rewrite <- app_assoc. rewrite nth_error_app2 by lia. replace (k - length LA0 - length P0) with 0 by lia. reflexivity. }
      apply (map_nth_error snd) in X. rewrite NK in X. injection X as X. auto. }
    destruct (RO z o (nth_error_In _ _ NS) RZ) as [zt [v [IT [RT [HO HR]]]]]. rewrite <- KR in IT, HR.
    assert (ZR : zr = zt). { apply (snd_inj L zr zt r ND); [|exact IT]. rewrite E1, EP. apply in_app_iff. right. apply in_app_iff. left. apply in_app_iff. right. left. reflexivity. } subst zt.
    assert (EW : w = v) by congruence. subst v.
    (* the reference is not in the subproof *)
    assert (OUT : s < length LA0).
    { destruct (Nat.lt_ge_cases s (length LA0)) as [X|X]; [exact X|]. exfalso. assert (IN : In (z, o) P0).
      { apply (nth_error_In _ (s - length LA0)). rewrite E1, EP, nth_error_app2, <- app_assoc, nth_error_app1 in NS by lia. exact NS. }
      destruct (SM _ _ IN) as [v [V1 V2]]. rewrite HO in V1. injection V1 as <-. lia. }
    assert (NA0 : nth_error LA0 s = Some (z, o)) by (rewrite E1, nth_error_app1 in NS by lia; exact NS). destruct (nth_error_split _ _ NA0) as [A [B [EA LS]]].
    subst LA0. rewrite <- app_assoc in E1. cbn [app] in E1. rewrite app_length in LLA, OUT. cbn [length] in LLA, OUT.
    set (L' := A ++ P ++ B ++ (z, o) :: C).
    assert (PERM : Permutation L L').
    { rewrite E1. unfold L'. apply Permutation_app_head. transitivity (P ++ C ++ (z, o) :: B). { rewrite app_comm_cons, app_assoc. apply Permutation_trans with (((z, o) :: B) ++ (P ++ C)); [rewrite app_assoc; reflexivity|]. rewrite (app_assoc P C). apply Permutation_app_comm. }
      apply Permutation_app_head. transitivity (((z, o) :: B) ++ C); [apply Permutation_app_comm|]. cbn [app]. apply Permutation_middle. }
    assert (RUN' : arun [] L' [T]).
    { rewrite <- app_assoc in *. cbn [app] in *. destruct (arun_split _ _ _ _ H1) as [t1 [G1 G2]]. unfold L'. eapply arun_app; [exact G1|]. eapply arun_app; [apply FR|].
      inversion G2 as [|z0 o0 v s0 r0 s' R N Q|z0 o0 ks s0 r0 s' R AR' N Q]; subst; [|congruence]. rewrite HO in N. injection N as <-. eapply arun_app; [exact Q|]. apply (ar_ref z o w); auto. }
    assert (LENL : length L = length A + S (length B) + length P + length C) by (rewrite E1, !app_length; cbn [length]; rewrite !app_length; lia).
    assert (KK : k = length A + length B + length P) by (rewrite LLP; fold m; lia).
    (* what is written *)
    assert (CQ' : Forall2 (written L) (A ++ (z, o) :: B ++ P ++ C) q) by (rewrite <- E1; exact CQ).
    apply Forall2_app_inv_l in CQ'. destruct CQ' as [a [q1 [QA [Q1 EQ1]]]]. inversion Q1 as [|? x ? q2 QX Q2]; subst q1. apply Forall2_app_inv_l in Q2. destruct Q2 as [b [q3 [QB [Q3 EQ3]]]]. apply Forall2_app_inv_l in Q3. destruct Q3 as [p [c [QP [QC EQ4]]]]. subst q2 q3.
    pose proof (f2_len _ _ _ QA) as La. pose proof (f2_len _ _ _ QB) as Lb. pose proof (f2_len _ _ _ QP) as Lp. pose proof (f2_len _ _ _ QC) as Lc.
    assert (MS : moveSub db q s k = mapRes (renumber s k m (length q)) (a ++ p ++ b ++ x :: c)).
    { unfold moveSub. assert (SL : subproofLen db q k = Ok m). { rewrite EQ, ES. replace k with (length qa + m - 1) by (unfold m; lia). apply subproofLen_ctx. exact WU. } rewrite SL. cbn [rbind].
      assert (QE : q = a ++ x :: b ++ p ++ c) by exact EQ1. assert (Ls : s = length a) by lia.
      assert (NX : nth_error q s = Some x) by (rewrite QE, Ls; apply nth_mid). rewrite NX. cbn [rget rbind]. fold m in LLP.
      assert (W : firstn s q ++ firstn m (skipn (k + 1 - m) q) ++ firstn (k + 1 - m - (s + 1)) (skipn (s + 1) q) ++ [x] ++ skipn (k + 1) q = a ++ p ++ b ++ x :: c).
      { rewrite QE. f_equal; [rewrite Ls, firstn_app, firstn_all, Nat.sub_diag; cbn [firstn]; apply app_nil_r|]. f_equal.
        - replace (k + 1 - m) with (length (a ++ x :: b)) by (rewrite app_length; cbn [length]; lia). replace (a ++ x :: b ++ p ++ c) with ((a ++ x :: b) ++ p ++ c) by (rewrite <- app_assoc; reflexivity).
          rewrite skipn_app, skipn_all, Nat.sub_diag. cbn [skipn app]. replace m with (length p) by lia. rewrite firstn_app, firstn_all, Nat.sub_diag. cbn [firstn]. apply app_nil_r.
        - f_equal.
          + replace (a ++ x :: b ++ p ++ c) with ((a ++ [x]) ++ b ++ p ++ c) by (rewrite <- app_assoc; reflexivity). replace (s + 1) with (length (a ++ [x])) at 2 by (rewrite app_length; cbn [length]; lia).
            rewrite skipn_app, skipn_all, Nat.sub_diag. cbn [skipn app]. replace (k + 1 - m - (s + 1)) with (length b) by lia. rewrite firstn_app, firstn_all, Nat.sub_diag. cbn [firstn]. apply app_nil_r.
          + cbn [app]. f_equal. replace (a ++ x :: b ++ p ++ c) with ((a ++ x :: b ++ p) ++ c) by (rewrite <- !app_assoc; cbn [app]; rewrite <- !app_assoc; reflexivity).
            replace (k + 1) with (length (a ++ x :: b ++ p)) by (rewrite app_length; cbn [length]; rewrite app_length; lia). rewrite skipn_app, skipn_all, Nat.sub_diag. reflexivity. }
      rewrite W. replace (length (a ++ p ++ b ++ x :: c) =? length q) with true by (rewrite QE, !app_length; cbn [length]; rewrite !app_length; cbn [length]; lia). cbn [negb].
      replace (nth_error (a ++ p ++ b ++ x :: c) k) with (Some x). 2:{ replace (a ++ p ++ b ++ x :: c) with ((a ++ p ++ b) ++ x :: c) by (rewrite <- !app_assoc; reflexivity). replace k with (length (a ++ p ++ b)) by (rewrite !app_length; lia). symmetry. apply nth_mid. }
      cbn [rget rbind]. rewrite Z.eqb_refl. reflexivity. }
    rewrite MS.
    (* renumbering *)
    assert (SNDL : map snd L = map snd A ++ o :: map snd B ++ map snd P ++ map snd C) by (rewrite E1, map_app; cbn [map]; rewrite !map_app; reflexivity).
    assert (SNDL' : map snd L' = map snd A ++ map snd P ++ map snd B ++ o :: map snd C) by (unfold L'; rewrite !map_app; cbn [map]; reflexivity).
    assert (LENQ : length q = length L) by lia. fold m in LLP.
    assert (REN : forall y d, In y L -> written L y d -> exists d', renumber s k m (length q) d = Ok d' /\ written L' y d').
    { intros [z1 o1] d IY W. unfold written in *. cbn [fst] in *. destruct (isRef z1) eqn:R1.
      - destruct W as [p1 [N1 ->]]. destruct (ref_zLoc p1) as [X1 X2]. unfold renumber. replace (-1000 <? zLoc (Z.of_nat p1))%Z with false by (unfold isRef in X1; lia). cbn zeta. rewrite X2.
        assert (NEQ : p1 <> s).
        { intros ->. rewrite SNDL, <- LS in N1. rewrite <- (map_length snd A) in N1. rewrite nth_mid in N1. injection N1 as N1. destruct (RO z1 o1 IY R1) as [z2 [v2 [I2 [R2 _]]]]. rewrite <- N1 in I2.
          assert (z2 = z) by (apply (snd_inj L z2 z o ND I2); exact (nth_error_In _ _ NS)). congruence. }
        assert (LP1 : p1 < length L) by (rewrite <- (map_length snd); apply nth_error_Some; congruence).
        rewrite SNDL in N1. destruct (p1 <? s) eqn:B1; [|replace (p1 =? s) with false by lia; destruct (p1 + m <=? k) eqn:B2; [|destruct (p1 <=? k) eqn:B3; [|replace (p1 <? length q) with true by lia]]].
        + exists (zLoc (Z.of_nat p1)). split; [reflexivity|]. exists p1. split; [|reflexivity]. rewrite SNDL'. rewrite nth_error_app1 in * by (rewrite map_length; lia). exact N1.
        + eexists. split; [reflexivity|]. exists (p1 + m - 1). split; [|reflexivity]. rewrite SNDL'. rewrite nth_error_app2, map_length in N1 by (rewrite map_length; lia). destruct (p1 - length A) as [|i] eqn:EI; [lia|]. cbn [nth_error] in N1. rewrite nth_error_app1 in N1 by (rewrite map_length; lia).
          rewrite nth_error_app2, map_length by (rewrite map_length; lia). rewrite nth_error_app2, map_length by (rewrite map_length; lia). rewrite nth_error_app1 by (rewrite map_length; lia). replace (p1 + m - 1 - length A - length P) with i by lia. exact N1.
        + eexists. split; [reflexivity|]. exists (p1 + s + m - 1 - k). split; [|reflexivity]. rewrite SNDL'. rewrite nth_error_app2, map_length in N1 by (rewrite map_length; lia). destruct (p1 - length A) as [|i] eqn:EI; [lia|]. cbn [nth_error] in N1. rewrite nth_error_app2, map_length in N1 by (rewrite map_length; lia). rewrite nth_error_app1 in N1 by (rewrite map_length; lia).
          rewrite nth_error_app2, map_length by (rewrite map_length; lia). rewrite nth_error_app1 by (rewrite map_length; lia). replace (p1 + s + m - 1 - k - length A) with (i - length B) by lia. exact N1.
        + eexists. split; [reflexivity|]. exists p1. split; [|reflexivity]. rewrite SNDL'. rewrite nth_error_app2, map_length in N1 by (rewrite map_length; lia). destruct (p1 - length A) as [|i] eqn:EI; [lia|]. cbn [nth_error] in N1. rewrite nth_error_app2, map_length in N1 by (rewrite map_length; lia). rewrite nth_error_app2, map_length in N1 by (rewrite map_length; lia).
          rewrite nth_error_app2, map_length by (rewrite map_length; lia). rewrite nth_error_app2, map_length by (rewrite map_length; lia). rewrite nth_error_app2, map_length by (rewrite map_length; lia). replace (p1 - length A - length P - length B) with (S (i - length B - length P)) by lia. cbn [nth_error]. exact N1.
      - subst d. exists z1. split; [|reflexivity]. unfold renumber. replace (-1000 <? z1)%Z with true by (unfold isRef in R1; lia). reflexivity. }
    assert (WQ : Forall2 (fun y d => In y L /\ written L y d) L' (a ++ p ++ b ++ x :: c)).
    { assert (ADD : forall l l', Forall2 (written L) l l' -> (forall y, In y l -> In y L) -> Forall2 (fun y d => In y L /\ written L y d) l l').
      { intros l1 l1' F. induction F as [|y d l1 l1' W F IHF]; intros SB; constructor; [split; [apply SB; left; reflexivity|exact W]|apply IHF; intros y' I; apply SB; right; exact I]. }
      apply ADD; [|intros y I; apply (Permutation_in _ (Permutation_sym PERM)); exact I].
      unfold L'. apply Forall2_app; [exact QA|]. apply Forall2_app; [exact QP|]. apply Forall2_app; [exact QB|]. constructor; [exact QX|exact QC]. }
    assert (RES : exists q', mapRes (renumber s k m (length q)) (a ++ p ++ b ++ x :: c) = Ok q' /\ Forall2 (written L') L' q').
    { clear - WQ REN. revert WQ. generalize (a ++ p ++ b ++ x :: c). generalize L' at 1 3. intros l1 l1' F. induction F as [|y d l1 l1' [I W] F IHF]; [exists []; split; [reflexivity|constructor]|].
      destruct (REN y d I W) as [d' [D1 D2]]. destruct IHF as [q' [Q1 Q2]]. exists (d' :: q'). cbn [mapRes]. rewrite D1. cbn [rbind]. rewrite Q1. split; [reflexivity|constructor; assumption]. }
    destruct RES as [q' [MR CQ'']]. exists L', q'. split; [exact MR|]. split; [|split; [exact CQ''|split; [symmetry; exact (Permutation_length PERM)|split; [|split; [|exact PERM]]]]].
    - constructor; [apply (Permutation_NoDup (Permutation_map snd PERM)); exact ND| |exact RUN'].
      intros z1 o1 I R1. destruct (RO z1 o1 (Permutation_in _ (Permutation_sym PERM) I) R1) as [z2 [v2 [I2 R2]]]. exists z2, v2. split; [exact (Permutation_in _ PERM I2)|exact R2].
    - rewrite E1. unfold L'. rewrite <- LS, !firstn_app, !Nat.sub_diag, firstn_all. reflexivity.
    - intros z' o' v v' N' R' V V'. rewrite HO in V. injection V as <-. unfold L' in N'. rewrite <- LS, nth_error_app2, Nat.sub_diag, EP, <- app_assoc in N' by lia.
      destruct P0 as [|[z2 o2] P0]; cbn [app nth_error] in N'; [injection N' as -> ->; congruence|]. injection N' as -> ->. destruct (SM z' o' (or_introl eq_refl)) as [v2 [V2 V3]]. rewrite V' in V2. injection V2 as <-. exact V3.
  Qed.
End Flat.
