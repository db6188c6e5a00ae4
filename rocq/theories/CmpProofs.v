(* CmpProofs.v -- compressProof followed by parseCompressedProof is the identity. *)
From Coq Require Import Permutation.
From Verif Require Import Base MMSpec VerModel VerSpec TokModel ParModel ParSpec ParProofs ParCompr
  CmpModel CmpSpec CmpCodec.
Open Scope nat_scope.
Arguments Nat.max : simpl never.

(* ---------- list facts ---------- *)
Lemma zmemb_In x l : zmemb x l = true <-> In x l.
Proof.
  unfold zmemb. rewrite existsb_exists. split.
  - intros [y [H E]]. apply Z.eqb_eq in E. subst. auto.
  - intros H. exists x. split; auto. apply Z.eqb_refl.
Qed.

Lemma unionGo_spec : forall m2 v, exists t, nmbrUnionGo v m2 = v ++ t /\ NoDup t /\
  (forall x, In x t <-> In x m2 /\ ~ In x v).
Proof.
  induction m2 as [|y m2 IH]; intros v; simpl.
  - exists []. rewrite app_nil_r. split; auto. split; [constructor|]. simpl. tauto.
  - destruct (zmemb y v) eqn:E.
    + apply zmemb_In in E. destruct (IH v) as [t [H1 [H2 H3]]]. exists t. split; auto. split; auto.
      intros x. rewrite H3. split; [tauto|]. intros [[->|H] N]; tauto.
    + assert (N : ~ In y v) by (rewrite <- zmemb_In; congruence).
      destruct (IH (v ++ [y])) as [t [H1 [H2 H3]]]. exists (y :: t). rewrite H1, <- app_assoc. split; auto.
      split.
      * constructor; auto. rewrite H3. intros [_ K]. apply K, in_or_app. right. left. auto.
      * intros x. simpl. rewrite H3. split.
        -- intros [->|[A B]]; [tauto|]. split; auto. intros C. apply B, in_or_app. auto.
        -- intros [[->|A] B]; [auto|]. destruct (Z.eq_dec y x) as [->|Hne]; [auto|]. right. split; auto.
           intros C. apply in_app_or in C. destruct C as [C|[C|[]]]; auto.
Qed.

Lemma zindex_app x l1 l2 : In x l1 -> exists i, zindex x (l1 ++ l2) = Some i /\ nth_error l1 i = Some x.
Proof.
  induction l1 as [|y l1 IH]; intros H; [destruct H|]. simpl. destruct (Z.eqb_spec y x) as [->|Hne].
  - exists 0. auto.
  - destruct H as [H|H]; [congruence|]. destruct (IH H) as [i [E1 E2]]. rewrite E1. exists (S i). auto.
Qed.

Lemma NoDup_app_intro {A} (l1 l2 : list A) : NoDup l1 -> NoDup l2 ->
  (forall x, In x l1 -> In x l2 -> False) -> NoDup (l1 ++ l2).
Proof.
  induction l1 as [|a l1 IH]; intros H1 H2 H; simpl; auto. inversion H1; subst. constructor.
  - intros C. apply in_app_or in C. destruct C as [C|C]; auto. apply (H a); [left|]; auto.
  - apply IH; auto. intros x X1 X2. apply (H x); [right|]; auto.
Qed.

(* ---------- the split ---------- *)
Definition zIsLoc (z : Z) : bool := (z <=? -1000)%Z.
Definition zIsHyp (db : dbase) (z : Z) : bool :=
  (0 <=? z)%Z && match nth_error (db_stmts db) (Z.to_nat z) with
                 | Some st => match s_type st with S_a | S_p => false | _ => true end
                 | None => false end.
Definition zIsAsrt (db : dbase) (z : Z) : bool :=
  (0 <=? z)%Z && match nth_error (db_stmts db) (Z.to_nat z) with
                 | Some st => match s_type st with S_a | S_p => true | _ => false end
                 | None => false end.

Lemma splitLabels_spec db plen : forall l s,
  (forall z, In z l -> (z = zUnk \/ (exists i, z = zLoc (Z.of_nat i) /\ i < plen) \/
     exists m sm, z = Z.of_nat m /\ nth_error (db_stmts db) m = Some sm)) ->
  splitLabels db plen s l = Ok (mkSplit (sp_hyps s ++ filter (zIsHyp db) l)
                                        (sp_asrt s ++ filter (zIsAsrt db) l)
                                        (sp_flags s ++ map (fun z => Z.to_nat (-1000 - z)) (filter zIsLoc l))).
Proof.
  induction l as [|z l IH]; intros s H; cbn [splitLabels filter map].
  - rewrite !app_nil_r. destruct s; auto.
  - assert (Hl : forall z, In z l -> (z = zUnk \/ (exists i, z = zLoc (Z.of_nat i) /\ i < plen) \/
     exists m sm, z = Z.of_nat m /\ nth_error (db_stmts db) m = Some sm)) by (intros; apply H; right; auto).
    destruct (H z (or_introl eq_refl)) as [->|[[i [-> Hi]]|[m [sm [-> Hm]]]]].
    + unfold splitLabel. cbn. apply IH; auto.
    + unfold splitLabel. assert (E1 : (zLoc (Z.of_nat i) <? 0)%Z = true) by (apply Z.ltb_lt; unfold zLoc; lia).
      assert (E2 : (zLoc (Z.of_nat i) <=? -1000)%Z = true) by (apply Z.leb_le; unfold zLoc; lia).
      assert (E3 : (Z.of_nat plen <=? -1000 - zLoc (Z.of_nat i))%Z = false) by (apply Z.leb_gt; unfold zLoc; lia).
      rewrite E1, E2, E3. cbn [rbind]. rewrite IH by auto. cbn [sp_hyps sp_asrt sp_flags].
      assert (F1 : zIsHyp db (zLoc (Z.of_nat i)) = false).
      { unfold zIsHyp. destruct (Z.leb_spec 0 (zLoc (Z.of_nat i))); auto. unfold zLoc in *. lia. }
      assert (F2 : zIsAsrt db (zLoc (Z.of_nat i)) = false).
      { unfold zIsAsrt. destruct (Z.leb_spec 0 (zLoc (Z.of_nat i))); auto. unfold zLoc in *. lia. }
      unfold zIsLoc at 2. rewrite F1, F2, E2. cbn [map]. rewrite <- app_assoc. reflexivity.
    + unfold splitLabel. assert (E1 : (Z.of_nat m <? 0)%Z = false) by (apply Z.ltb_ge; lia).
      assert (E2 : (0 <=? Z.of_nat m)%Z = true) by (apply Z.leb_le; lia).
      assert (E3 : zIsLoc (Z.of_nat m) = false) by (apply Z.leb_gt; lia).
      assert (F1 : zIsHyp db (Z.of_nat m) = match s_type sm with S_a | S_p => false | _ => true end).
      { unfold zIsHyp. rewrite E2, Nat2Z.id, Hm. reflexivity. }
      assert (F2 : zIsAsrt db (Z.of_nat m) = match s_type sm with S_a | S_p => true | _ => false end).
      { unfold zIsAsrt. rewrite E2, Nat2Z.id, Hm. reflexivity. }
      rewrite E1, E3, F1, F2, Nat2Z.id, Hm. cbn [rget rbind].
      destruct (s_type sm); cbn [rbind]; rewrite IH by auto; cbn [sp_hyps sp_asrt sp_flags]; rewrite <- ?app_assoc; reflexivity.
Qed.

(* ---------- what compressProof returns ---------- *)
Definition isLocIn (pr : list pstep) (k : nat) : bool :=
  existsb (fun x => match x with Loc i => Nat.eqb i k | _ => false end) pr.
Lemma isLocIn_spec pr k : isLocIn pr k = true <-> In (Loc k) pr.
Proof.
  unfold isLocIn. rewrite existsb_exists. split.
  - intros [x [H E]]. destruct x; try discriminate. apply Nat.eqb_eq in E. subst. auto.
  - intros H. exists (Loc k). split; auto. apply Nat.eqb_refl.
Qed.

Lemma flagged_In fl k : flagged fl k = true <-> In k fl.
Proof.
  unfold flagged. rewrite existsb_exists. split.
  - intros [x [H E]]. apply Nat.eqb_eq in E. subst. auto.
  - intros H. exists k. split; auto. apply Nat.eqb_refl.
Qed.

Section C.
  Variable env : penv.
  Hypothesis WE : wf_env env.
  Hypothesis UE : uniq_env env.
  Variable n : nat.
  Variable st : stmtRec.
  Hypothesis Hn : stmtAt (e_db env) n st.
  Hypothesis Hp : s_type st = S_p.
  Let db := e_db env.
  Variable proof : list pstep.
  Hypothesis HG : goodProof db n st proof.
  Hypothesis HLoc : forall i, In (Loc i) proof ->
    exists m sm, nth_error proof i = Some (Stm m) /\ stmtAt db m sm /\ isAssertion sm.

  Let zs := map encStep proof.
  Let req := map Z.of_nat (s_reqHyps st).

  Lemma step_kinds z : In z zs -> (z = zUnk \/ (exists i, z = zLoc (Z.of_nat i) /\ i < length zs) \/
     exists m sm, z = Z.of_nat m /\ nth_error (db_stmts db) m = Some sm).
  Proof.
    intros H. apply in_map_iff in H. destruct H as [x [<- Hx]]. destruct x as [|i|m]; [left; auto| |].
    - right. left. exists i. split; auto. apply HLoc in Hx. destruct Hx as [m [sm [E _]]].
      unfold zs. rewrite map_length. apply nth_error_Some. congruence.
    - right. right. destruct (gp_ref _ _ _ _ HG m Hx) as [sm [E _]]. exists m, sm. auto.
  Qed.

  Lemma req_hyp h : In h (s_reqHyps st) -> exists sh, stmtAt db h sh /\ isHyp sh.
  Proof. intros H. destruct (we_hyps env WE n st h Hn Hp (or_introl H)) as [_ K]. exact K. Qed.

  Lemma zIsHyp_hyp h sh : stmtAt db h sh -> isHyp sh -> zIsHyp db (Z.of_nat h) = true.
  Proof.
    intros H1 H2. unfold zIsHyp. assert (E : (0 <=? Z.of_nat h)%Z = true) by (apply Z.leb_le; lia).
    rewrite E, Nat2Z.id. unfold stmtAt in H1. rewrite H1. destruct H2 as [T|T]; rewrite T; auto.
  Qed.
  Lemma zIsAsrt_asrt h sh : stmtAt db h sh -> isAssertion sh -> zIsAsrt db (Z.of_nat h) = true.
  Proof.
    intros H1 H2. unfold zIsAsrt. assert (E : (0 <=? Z.of_nat h)%Z = true) by (apply Z.leb_le; lia).
    rewrite E, Nat2Z.id. unfold stmtAt in H1. rewrite H1. destruct H2 as [T|T]; rewrite T; auto.
  Qed.

  Lemma filter_all {A} (f : A -> bool) l : (forall x, In x l -> f x = true) -> filter f l = l.
  Proof.
    induction l as [|a l IH]; intros H; simpl; auto. rewrite H by (left; auto). f_equal. apply IH. intros; apply H; right; auto.
  Qed.
  Lemma filter_none {A} (f : A -> bool) l : (forall x, In x l -> f x = false) -> filter f l = [].
  Proof.
    induction l as [|a l IH]; intros H; simpl; auto. rewrite H by (left; auto). apply IH. intros; apply H; right; auto.
  Qed.

  (* explicit labels and flags *)
  Record labelsOk (expl : list Z) (fl : list nat) : Prop := {
    lo_nodup : NoDup expl;
    lo_expl : forall z, In z expl <-> exists m, z = Z.of_nat m /\ In (Stm m) proof /\ ~ In m (s_reqHyps st);
    lo_fl : forall k, flagged fl k = isLocIn proof k }.

  Lemma compress_char order : orderOn order st proof ->
    exists expl fl, labelsOk expl fl /\
      compressProof order db n zs =
        (do t <- emitSteps (req ++ expl ++ localList fl (length zs)) fl 0 zs; Ok (expl, t)).
  Proof.
    intros HO. unfold compressProof. unfold stmtAt in Hn. fold db in Hn. rewrite Hn. cbn [rget rbind]. rewrite Hp.
    fold req. destruct (unionGo_spec zs req) as [t [E1 [E2 E3]]]. unfold nmbrUnion. rewrite E1.
    assert (Hreq : forall z, In z req -> zIsHyp db z = true).
    { intros z Hz. apply in_map_iff in Hz. destruct Hz as [h [<- Hh]]. destruct (req_hyp h Hh) as [sh [A B]].
      eapply zIsHyp_hyp; eauto. }
    rewrite splitLabels_spec.
    2:{ intros z Hz. apply in_app_or in Hz. destruct Hz as [Hz|Hz].
        - apply in_map_iff in Hz. destruct Hz as [h [<- Hh]]. destruct (req_hyp h Hh) as [sh [A B]].
          right. right. exists h, sh. auto.
        - apply E3 in Hz. apply step_kinds. tauto. }
    cbn [rbind sp_hyps sp_asrt sp_flags app].
    rewrite !filter_app. rewrite (filter_all _ req Hreq).
    assert (F2 : filter (zIsAsrt db) req = []).
    { apply filter_none. intros z Hz. generalize (Hreq z Hz). unfold zIsHyp, zIsAsrt.
      destruct (0 <=? z)%Z; auto. cbn [andb]. destruct (nth_error (db_stmts db) (Z.to_nat z)) as [sm|]; auto. destruct (s_type sm); auto; intros; congruence. }
    assert (F3 : filter zIsLoc req = []).
    { apply filter_none. intros z Hz. apply in_map_iff in Hz. destruct Hz as [h [<- Hh]]. apply Z.leb_gt. lia. }
    rewrite F2, F3. cbn [app]. set (fl := map (fun z => Z.to_nat (-1000 - z)) (filter zIsLoc t)).
    assert (Hlen : length req = length (s_reqHyps st)) by (unfold req; apply map_length).
    assert (Hsk : skipn (length (s_reqHyps st)) (req ++ filter (zIsHyp db) t) = filter (zIsHyp db) t).
    { rewrite <- Hlen, skipn_app, skipn_all, Nat.sub_diag. reflexivity. }
    assert (Hfs : firstn (length (s_reqHyps st)) (req ++ filter (zIsHyp db) t) = req).
    { rewrite <- Hlen, firstn_app, firstn_all, Nat.sub_diag. simpl. apply app_nil_r. }
    rewrite Hsk, Hfs.
    assert (Hfl : forall k, In k fl <-> In (Loc k) proof).
    { intros k. unfold fl. rewrite in_map_iff. split.
      - intros [z [Ez Hz]]. apply filter_In in Hz. destruct Hz as [Hz Lz]. apply E3 in Hz. destruct Hz as [Hz _].
        apply in_map_iff in Hz. destruct Hz as [x [<- Hx]]. unfold zIsLoc in Lz. apply Z.leb_le in Lz.
        destruct x as [|i|m]; cbn [encStep] in *; unfold zUnk, zLoc in *; try lia.
        assert (EE : k = i) by (rewrite <- Ez; lia). rewrite EE. exact Hx.
      - intros Hk. exists (zLoc (Z.of_nat k)). split; [unfold zLoc; lia|]. apply filter_In. split.
        + apply E3. split; [apply in_map_iff; exists (Loc k); auto|].
          intros C. apply in_map_iff in C. destruct C as [h [E _]]. unfold zLoc in E. lia.
        + apply Z.leb_le. unfold zLoc. lia. }
    assert (NDfl : NoDup fl).
    { unfold fl. assert (N : NoDup (filter zIsLoc t)) by (apply NoDup_filter; auto).
      assert (A : forall l, (forall z, In z l -> (z <= -1000)%Z) -> NoDup l -> NoDup (map (fun z => Z.to_nat (-1000 - z)) l)).
      { induction l as [|z l IH]; intros HH ND; cbn [map]; constructor.
        - intros C. apply in_map_iff in C. destruct C as [z' [Ez Hz']]. inversion ND; subst.
          assert (z = z'). { pose proof (HH z (or_introl eq_refl)). pose proof (HH z' (or_intror Hz')). lia. } subst. auto.
        - inversion ND; subst. apply IH; auto. intros; apply HH; right; auto. }
      apply A; auto. intros z Hz. apply filter_In in Hz. destruct Hz as [_ Hz]. apply Z.leb_le in Hz. auto. }
    assert (Hll : length (localList fl (length zs)) = length fl).
    { unfold localList. rewrite map_length. apply Permutation_length. apply NoDup_Permutation; auto.
      - apply NoDup_filter, seq_NoDup.
      - intros k. rewrite filter_In, in_seq, flagged_In. split; [tauto|]. intros Hk. split; auto.
        split; [lia|]. apply Hfl in Hk. apply HLoc in Hk. destruct Hk as [m [sm [E _]]].
        unfold zs. rewrite map_length. simpl. apply nth_error_Some. congruence. }
    rewrite Hll, Nat.eqb_refl. cbn [negb].
    assert (Ht : forall z, In z (filter (zIsHyp db) t ++ filter (zIsAsrt db) t) <->
                 exists m, z = Z.of_nat m /\ In (Stm m) proof /\ ~ In m (s_reqHyps st)).
    { intros z. rewrite in_app_iff, !filter_In. split.
      - intros K. assert (In z t /\ (0 <= z)%Z) as [K1 K2].
        { destruct K as [[K1 K2]|[K1 K2]]; split; auto; unfold zIsHyp, zIsAsrt in K2; apply andb_prop in K2;
            destruct K2 as [K2 _]; apply Z.leb_le in K2; auto. }
        apply E3 in K1. destruct K1 as [K1 K3]. apply in_map_iff in K1. destruct K1 as [x [<- Hx]].
        destruct x as [|i|m]; cbn [encStep] in K2; unfold zUnk, zLoc in K2; try lia.
        exists m. split; auto. split; auto. intros C. apply K3. apply in_map_iff. exists m. auto.
      - intros [m [-> [K1 K2]]]. assert (In (Z.of_nat m) t).
        { apply E3. split; [apply in_map_iff; exists (Stm m); auto|].
          intros C. apply in_map_iff in C. destruct C as [h [E Hh]]. assert (h = m) by lia. subst. auto. }
        destruct (gp_ref _ _ _ _ HG m K1) as [sm [A [[B _]|[B _]]]].
        + right. split; auto. eapply zIsAsrt_asrt; eauto.
        + left. split; auto. eapply zIsHyp_hyp; eauto. }
    assert (EL : explicitLabels st proof (filter (zIsHyp db) t ++ filter (zIsAsrt db) t)).
    { split; [|exact Ht]. apply NoDup_app_intro; try (apply NoDup_filter; auto).
      intros z Z1 Z2. apply filter_In in Z1, Z2. destruct Z1 as [_ Z1], Z2 as [_ Z2].
      revert Z1 Z2. unfold zIsHyp, zIsAsrt. destruct (0 <=? z)%Z; [|discriminate]. cbn [andb].
      destruct (nth_error (db_stmts db) (Z.to_nat z)) as [sm|]; [|discriminate]. destruct (s_type sm); discriminate. }
    destruct (HO _ EL) as [e [He1 He]]. rewrite He1. cbn [rbind].
    exists e, fl. split; [|reflexivity].
    constructor.
    - apply (Permutation_NoDup He). apply EL.
    - intros z. rewrite <- Ht. split; apply Permutation_in; auto. apply Permutation_sym; auto.
    - intros k. apply Bool.eq_iff_eq_true. rewrite flagged_In, isLocIn_spec. apply Hfl.
  Qed.

  (* ---------- reading it back ---------- *)
  Variable expl : list Z.
  Variable fl : list nat.
  Hypothesis LO : labelsOk expl fl.
  Variable max : nat.
  Variable bg : bool.
  Hypothesis Hmax : (Z.of_nat max <= maxLong)%Z.

  Definition mapAt (k : nat) : list Z :=
    req ++ expl ++ map (fun i => zLoc (Z.of_nat i)) (filter (flagged fl) (seq 0 k)).

  Definition runs (l : list nat) (s : cst) (l' : list nat) (s' : cst) : Prop :=
    length l' <= length l /\
    forall f, comprLoop (length l - length l' + f) env max bg l s = comprLoop f env max bg l' s'.

  Lemma runs_refl l s : runs l s l s.
  Proof. split; auto. intros f. rewrite Nat.sub_diag. reflexivity. Qed.
  Lemma runs_trans l1 s1 l2 s2 l3 s3 : runs l1 s1 l2 s2 -> runs l2 s2 l3 s3 -> runs l1 s1 l3 s3.
  Proof.
    intros [H1 K1] [H2 K2]. split; [lia|]. intros f.
    replace (length l1 - length l3 + f) with (length l1 - length l2 + (length l2 - length l3 + f)) by lia.
    rewrite K1. apply K2.
  Qed.
  Lemma runs_one c l s s' : (forall f, comprLoop (S f) env max bg (c :: l) s = comprLoop f env max bg l s') ->
    runs (c :: l) s l s'.
  Proof.
    intros H. split; [simpl; lia|]. intros f. replace (length (c :: l) - length l + f) with (S f) by (simpl length; lia). apply H.
  Qed.

  Lemma runs_blank c l s : isspace c = true -> runs (c :: l) s l s.
  Proof.
    intros H. apply runs_one. intros f. cbn [comprLoop].
    assert (Hc : c = 32 \/ 9 <= c <= 13).
    { unfold isspace in H. apply orb_prop in H. destruct H as [H|H].
      - left. apply Nat.eqb_eq. auto.
      - right. apply andb_prop in H. destruct H as [A B]. apply Nat.leb_le in A, B. lia. }
    assert (E1 : (128 <=? c) = false) by (apply Nat.leb_gt; lia).
    assert (E2 : (65 <=? c) = false) by (apply Nat.leb_gt; lia).
    assert (E3 : (85 <=? c) = false) by (apply Nat.leb_gt; lia).
    assert (E4 : (c =? 90) = false) by (apply Nat.eqb_neq; lia).
    rewrite E1, E2, E3, E4, H. reflexivity.
  Qed.

  Variable tail : list nat.

  (* the next character of a spaced text *)
  Lemma spaced_next c t tx s : spaced (c :: t) tx ->
    exists tx', spaced t tx' /\ runs (tx ++ tail) s (c :: tx' ++ tail) s.
  Proof.
    intros H. remember (c :: t) as u eqn:Eu. induction H as [|b u' tx Hb H IH|d u' tx H IH].
    - discriminate.
    - destruct (IH Eu) as [tx' [A B]]. exists tx'. split; auto.
      eapply runs_trans; [apply runs_blank; auto|exact B].
    - injection Eu as -> ->. exists tx. split; auto. apply runs_refl.
  Qed.
  Lemma spaced_end tx s : spaced [] tx -> runs (tx ++ tail) s tail s.
  Proof.
    intros H. remember [] as u eqn:Eu. induction H as [|b u' tx Hb H IH|d u' tx H IH].
    - apply runs_refl.
    - cbn [app]. eapply runs_trans; [apply runs_blank; auto|]. apply IH; auto.
    - discriminate.
  Qed.

  Lemma digit_run c l s : 85 <= c <= 89 -> (c_idx s * 5 + Z.of_nat (c - 85) + 1 <= maxLong)%Z ->
    runs (c :: l) s l (mkCst (if (c_idx s =? 0)%Z then Z.of_nat (c - 85) + 1
                              else c_idx s * 5 + Z.of_nat (c - 85) + 1 - (if bg then 1 else 0))%Z
                         (c_map s) (c_proof s) (c_cnt s) (c_err s)).
  Proof.
    intros Hc Ho. apply runs_one. intros f. cbn [comprLoop].
    assert (E1 : (128 <=? c) = false) by (apply Nat.leb_gt; lia).
    assert (E2 : (c <=? 84) = false) by (apply Nat.leb_gt; lia).
    assert (E3 : (85 <=? c) = true) by (apply Nat.leb_le; lia).
    assert (E4 : (c <=? 89) = true) by (apply Nat.leb_le; lia).
    rewrite E1, E2, E3, E4, andb_false_r. cbn [andb]. unfold digitStep.
    destruct (Z.ltb_spec maxLong (c_idx s * 5 + Z.of_nat (c - 85) + 1)); [lia|]. reflexivity.
  Qed.

  Lemma digits_run : forall f j t tx s, spaced (encDigits f j ++ t) tx -> j <= f -> 0 < j ->
    (Z.of_nat j <= maxLong)%Z -> bg = false \/ j <= 5 -> c_idx s = 0%Z ->
    exists tx', spaced t tx' /\
      runs (tx ++ tail) s (tx' ++ tail) (mkCst (Z.of_nat j) (c_map s) (c_proof s) (c_cnt s) (c_err s)).
  Proof.
    induction f as [|f IH]; intros j t tx s H Hf Hj Ho Hb Hi; [lia|]. cbn [encDigits] in H.
    destruct (Nat.eqb_spec j 0); [lia|]. rewrite <- app_assoc in H. cbn [app] in H.
    pose proof (div5 (j - 1)) as D. pose proof (mod5 (j - 1)) as M.
    destruct (Nat.eq_dec ((j - 1) / 5) 0) as [E|E].
    - rewrite E in *. assert (Z0 : encDigits f 0 = []) by (destruct f; reflexivity). rewrite Z0 in H. cbn [app] in H.
      destruct (spaced_next _ _ _ s H) as [tx' [A B]]. exists tx'. split; auto.
      eapply runs_trans; [exact B|].
      replace (Z.of_nat j) with (if (c_idx s =? 0)%Z then Z.of_nat (85 + (j - 1) mod 5 - 85) + 1
          else c_idx s * 5 + Z.of_nat (85 + (j - 1) mod 5 - 85) + 1 - (if bg then 1 else 0))%Z.
      2:{ rewrite Hi. cbn [Z.eqb]. lia. }
      apply digit_run; [lia|]. rewrite Hi. lia.
    - assert (Hb' : bg = false \/ (j - 1) / 5 <= 5) by (destruct Hb; [left; auto|right; lia]).
      destruct (IH ((j - 1) / 5) _ tx s H) as [tx1 [A B]]; auto; try lia.
      destruct (spaced_next _ _ _ (mkCst (Z.of_nat ((j - 1) / 5)) (c_map s) (c_proof s) (c_cnt s) (c_err s)) A)
        as [tx' [A' B']]. exists tx'. split; auto.
      eapply runs_trans; [exact B|]. eapply runs_trans; [exact B'|].
      set (s1 := mkCst (Z.of_nat ((j - 1) / 5)) (c_map s) (c_proof s) (c_cnt s) (c_err s)) in *.
      replace (Z.of_nat j) with (if (c_idx s1 =? 0)%Z then Z.of_nat (85 + (j - 1) mod 5 - 85) + 1
          else c_idx s1 * 5 + Z.of_nat (85 + (j - 1) mod 5 - 85) + 1 - (if bg then 1 else 0))%Z.
      2:{ unfold s1. cbn [c_idx]. destruct (Z.eqb_spec (Z.of_nat ((j - 1) / 5)) 0); [lia|].
          destruct Hb as [->|Hb]; [lia|]. exfalso. lia. }
      apply (digit_run _ _ s1); [lia|]. unfold s1. cbn [c_idx]. lia.
  Qed.

  (* a whole label: index lab < length of the map *)
  Lemma label_run lab t tx s z : spaced (encodeLabel lab ++ t) tx -> c_idx s = 0%Z ->
    (Z.of_nat lab <= maxLong)%Z -> bg = false \/ lab < 120 ->
    nth_error (c_map s) lab = Some z ->
    length (c_proof s) < max -> c_cnt s < max ->
    (exists cnt', (isLeaf env z = Ok None /\ cnt' = S (c_cnt s) \/
       exists sm, isLeaf env z = Ok (Some sm) /\ length (s_reqHyps sm) <= c_cnt s /\
         cnt' = S (c_cnt s - length (s_reqHyps sm))) /\
    exists tx', spaced t tx' /\
      runs (tx ++ tail) s (tx' ++ tail) (mkCst 0 (c_map s) (c_proof s ++ [z]) cnt' (c_err s)))
    \/ ~ (isLeaf env z = Ok None \/ exists sm, isLeaf env z = Ok (Some sm) /\ length (s_reqHyps sm) <= c_cnt s).
  Proof.
    intros H Hi Ho Hb Hz Hl Hc.
    unfold encodeLabel in H. rewrite <- app_assoc in H. cbn [app] in H.
    pose proof (div20 lab) as D. pose proof (mod20 lab) as M.
    assert (exists tx1 s1, spaced (65 + lab mod 20 :: t) tx1 /\ runs (tx ++ tail) s (tx1 ++ tail) s1 /\
      s1 = mkCst (Z.of_nat (lab / 20)) (c_map s) (c_proof s) (c_cnt s) (c_err s)) as [tx1 [s1 [A [B Es1]]]].
    { destruct (Nat.eq_dec (lab / 20) 0) as [E|E].
      - exists tx, s. rewrite E in *. cbn [encDigits app] in H. split; auto. split; [apply runs_refl|].
        destruct s; cbn in *; subst; reflexivity.
      - assert (Hb' : bg = false \/ lab / 20 <= 5) by (destruct Hb; [left; auto|right; lia]).
        destruct (digits_run (lab / 20) (lab / 20) _ tx s H) as [tx1 [A B]]; auto; try lia.
        eauto. }
    destruct (spaced_next _ _ _ s1 A) as [tx2 [A2 B2]].
    assert (LS : forall f, comprLoop (S f) env max bg (65 + lab mod 20 :: tx2 ++ tail) s1 =
       (do x <- letterStep env max (Z.of_nat (lab mod 20)) s1;
        let '(s', adv) := x in comprLoop f env max bg (if adv then tx2 ++ tail else 65 + lab mod 20 :: tx2 ++ tail) s')).
    { intros f. set (c := 65 + lab mod 20). cbn [comprLoop].
      assert (E1 : (128 <=? c) = false) by (apply Nat.leb_gt; unfold c; lia).
      assert (E2 : (65 <=? c) = true) by (apply Nat.leb_le; unfold c; lia).
      assert (E3 : (c <=? 84) = true) by (apply Nat.leb_le; unfold c; lia).
      rewrite E1, E2, E3. cbn [andb]. replace (c - 65) with (lab mod 20) by (unfold c; lia). reflexivity. }
    assert (LSt : letterStep env max (Z.of_nat (lab mod 20)) s1 =
      (do leaf <- isLeaf env z;
      match leaf with
      | None => Ok (mkCst 0 (c_map s) (c_proof s ++ [z]) (S (c_cnt s)) (c_err s), true)
      | Some sm =>
          let nh := length (s_reqHyps sm) in
          if (c_cnt s <? nh)%nat then
            Ok (mkCst (Z.of_nat lab) (c_map s) (c_proof s) (S (c_cnt s)) (raise 3 (c_err s)), false)
          else Ok (mkCst 0 (c_map s) (c_proof s ++ [z]) (S (c_cnt s - nh)) (c_err s), true)
      end)).
    { unfold letterStep. subst s1. cbn [c_idx c_map c_proof c_cnt c_err].
      replace (Z.of_nat (lab / 20) * 20 + Z.of_nat (lab mod 20))%Z with (Z.of_nat lab) by lia.
      destruct (Z.ltb_spec maxLong (Z.of_nat lab)); [lia|].
      assert (lab < length (c_map s)) by (apply nth_error_Some; congruence).
      destruct (Z.leb_spec (Z.of_nat (length (c_map s))) (Z.of_nat lab)); [lia|].
      rewrite Nat2Z.id, Hz. cbn [rget rbind].
      destruct (Nat.leb_spec max (length (c_proof s))); [lia|].
      destruct (isLeaf env z) as [[sm|]| | |]; cbn [rbind]; auto;
        (destruct (Nat.leb_spec max (c_cnt s)); [lia|]); auto.
      destruct (Nat.ltb_spec (c_cnt s) (length (s_reqHyps sm))); auto.
      destruct (Nat.leb_spec max (c_cnt s - length (s_reqHyps sm))); [lia|]. auto. }
    destruct (isLeaf env z) as [[sm|]| | |] eqn:El; cbn [rbind] in LSt.
    - destruct (Nat.ltb_spec (c_cnt s) (length (s_reqHyps sm))) as [Hlt|Hge]; cbv zeta in LSt.
      + right. intros [?|[sm' [E C]]]; [discriminate|]. injection E as <-. lia.
      + left. exists (S (c_cnt s - length (s_reqHyps sm))). split; [right; eauto|].
        exists tx2. split; auto. eapply runs_trans; [exact B|]. eapply runs_trans; [exact B2|].
        apply runs_one. intros f. rewrite LS, LSt. destruct (Nat.ltb_spec (c_cnt s) (length (s_reqHyps sm))); [lia|].
        reflexivity.
    - left. exists (S (c_cnt s)). split; [left; auto|].
      exists tx2. split; auto. eapply runs_trans; [exact B|]. eapply runs_trans; [exact B2|].
      apply runs_one. intros f. rewrite LS, LSt. reflexivity.
    - right. intros [?|[sm' [E C]]]; discriminate.
    - right. intros [?|[sm' [E C]]]; discriminate.
    - right. intros [?|[sm' [E C]]]; discriminate.
  Qed.

  Lemma seq_snoc k : seq 0 (S k) = seq 0 k ++ [k].
  Proof. rewrite seq_S. reflexivity. Qed.
  Lemma mapAt_S k : mapAt (S k) = if flagged fl k then mapAt k ++ [zLoc (Z.of_nat k)] else mapAt k.
  Proof.
    unfold mapAt. rewrite seq_snoc, filter_app. cbn [filter]. destruct (flagged fl k).
    - rewrite map_app. cbn [map]. rewrite <- !app_assoc. reflexivity.
    - rewrite app_nil_r. reflexivity.
  Qed.
  Lemma mapAt_prefix k k' : k <= k' -> exists r, mapAt k' = mapAt k ++ r.
  Proof.
    induction 1 as [|k' H [r E]]; [exists []; rewrite app_nil_r; auto|].
    rewrite mapAt_S. destruct (flagged fl k'); [|eauto]. rewrite E, <- app_assoc. eauto.
  Qed.

  Lemma balanced_le d0 : forall pr d d', balanced d0 pr d = Some d' -> d' <= d + length pr.
  Proof.
    induction pr as [|x pr IH]; intros d d' H; cbn [balanced length] in *.
    - injection H as <-. lia.
    - destruct x as [|i|m]; try (apply IH in H; lia).
      destruct (nth_error _ m) as [sm|]; [|discriminate].
      destruct (s_type sm); try discriminate; try (apply IH in H; lia);
        (destruct (_ <=? _); [|discriminate]); apply IH in H; lia.
  Qed.

  Lemma In_split_nth {A} (l : list A) pre x post : l = pre ++ x :: post -> nth_error l (length pre) = Some x.
  Proof. intros ->. rewrite nth_error_app2, Nat.sub_diag by auto. reflexivity. Qed.

  Lemma entry_known pre x post : proof = pre ++ x :: post -> x <> Unk -> In (encStep x) (mapAt (length pre)).
  Proof.
    intros E Hx. assert (Hin : In x proof) by (rewrite E; apply in_or_app; right; left; auto).
    destruct x as [|i|m]; [congruence| |].
    - unfold mapAt. apply in_or_app. right. apply in_or_app. right. apply in_map_iff. exists i. split; auto.
      apply filter_In. rewrite in_seq. split.
      + destruct (gp_loc _ _ _ _ HG (length pre) i) as [Hi _]; [eapply In_split_nth; eauto|]. lia.
      + rewrite (lo_fl _ _ LO). apply isLocIn_spec. auto.
    - unfold mapAt. cbn [encStep]. destruct (in_dec Nat.eq_dec m (s_reqHyps st)) as [H|H].
      + apply in_or_app. left. apply in_map_iff. eauto.
      + apply in_or_app. right. apply in_or_app. left. apply (lo_expl _ _ LO). eauto.
  Qed.

  Lemma flagged_step k : flagged fl k = true -> exists m sm, nth_error proof k = Some (Stm m) /\ stmtAt db m sm /\ isAssertion sm.
  Proof. intros H. rewrite (lo_fl _ _ LO) in H. apply isLocIn_spec in H. auto. Qed.

  Definition hasUnk (l : list pstep) : bool := existsb (fun x => match x with Unk => true | _ => false end) l.
  Definition markUnk (l : list pstep) (e : perr) : perr := if hasUnk l then atLeast 1 e else e.

  Lemma atLeast_idem e : atLeast 1 (atLeast 1 e) = atLeast 1 e.
  Proof. unfold atLeast. cbn [p_flag p_count]. f_equal. lia. Qed.

  Lemma pstep_unk x : x = Unk \/ x <> Unk.
  Proof. destruct x; [left; auto|right; discriminate|right; discriminate]. Qed.

  Lemma leaf_bal x cnt c1 : x <> Unk -> balanced db [x] cnt = Some c1 ->
    (isLeaf env (encStep x) = Ok None /\ c1 = S cnt) \/
    (exists m sm, x = Stm m /\ isLeaf env (encStep x) = Ok (Some sm) /\ length (s_reqHyps sm) <= cnt /\
       c1 = S (cnt - length (s_reqHyps sm))).
  Proof.
    intros Hx H. destruct x as [|i|m]; [congruence| |]; cbn [encStep balanced] in *.
    - left. injection H as <-. split; auto. unfold isLeaf.
      destruct (Z.ltb_spec (zLoc (Z.of_nat i)) 0); auto. unfold zLoc in *. lia.
    - unfold isLeaf. assert (E : (Z.of_nat m <? 0)%Z = false) by (apply Z.ltb_ge; lia). rewrite E, Nat2Z.id.
      fold db. destruct (nth_error (db_stmts db) m) as [sm|]; [|discriminate]. cbn [rget rbind].
      destruct (s_type sm); try discriminate.
      1,2: right; exists m, sm; destruct (Nat.leb_spec (length (s_reqHyps sm)) cnt); [|discriminate];
        injection H as <-; auto.
      all: left; injection H as <-; auto.
  Qed.

  Lemma z_run l s m sm pre : length (c_map s) < max -> c_idx s = 0%Z ->
    c_proof s = map encStep (pre ++ [Stm m]) -> stmtAt db m sm -> isAssertion sm ->
    runs (90 :: l) s l (mkCst 0 (c_map s ++ [zLoc (Z.of_nat (length pre))]) (c_proof s) (c_cnt s) (c_err s)).
  Proof.
    intros Hl Hi Hpr Hm Ha. apply runs_one. intros f. cbn [comprLoop].
    change (128 <=? 90) with false. change (65 <=? 90) with true. change (90 <=? 84) with false.
    change (85 <=? 90) with true. change (90 <=? 89) with false. change (90 =? 90) with true. cbn [andb].
    unfold zStep. destruct (Nat.leb_spec max (length (c_map s))); [lia|].
    rewrite Hpr, Hi, map_app, rev_app_distr. cbn [map rev app].
    assert (El : isLeaf env (encStep (Stm m)) = Ok (Some sm)).
    { unfold isLeaf. cbn [encStep]. assert (E : (Z.of_nat m <? 0)%Z = false) by (apply Z.ltb_ge; lia). rewrite E, Nat2Z.id.
      unfold stmtAt, db in Hm. rewrite Hm. cbn [rget rbind]. destruct Ha as [T|T]; rewrite T; auto. }
    rewrite El. cbn [rbind]. rewrite app_length, map_length. cbn [length]. cbn [Z.eqb].
    replace (-1000 - (Z.of_nat (length pre + 1) - 1))%Z with (zLoc (Z.of_nat (length pre))) by (unfold zLoc; lia).
    reflexivity.
  Qed.

  Lemma emit_run labels : (exists r, labels = mapAt (length proof) ++ r) ->
    length proof < max -> length (mapAt (length proof)) <= max ->
    bg = false \/ length (mapAt (length proof)) <= 120 ->
    forall rest pre cnt e t tx, proof = pre ++ rest ->
    emitSteps labels fl (length pre) (map encStep rest) = Ok t -> spaced t tx ->
    balanced db pre 0 = Some cnt ->
    exists cnt', balanced db proof 0 = Some cnt' /\
      runs (tx ++ tail) (mkCst 0 (mapAt (length pre)) (map encStep pre) cnt e)
           tail (mkCst 0 (mapAt (length proof)) zs cnt' (markUnk rest e)).
  Proof.
    intros [lr HL] HM1 HM2 HB. induction rest as [|x rest IH]; intros pre cnt e t tx Ep Ht Hs Hbal.
    - cbn [map emitSteps] in Ht. injection Ht as <-. rewrite app_nil_r in Ep. subst pre.
      exists cnt. split; auto. cbn. apply spaced_end. auto.
    - assert (Hk : length pre < length proof) by (rewrite Ep, app_length; simpl; lia).
      assert (Hcnt : cnt <= length pre) by (apply balanced_le in Hbal; lia).
      assert (Hx : nth_error proof (length pre) = Some x) by (eapply In_split_nth; eauto).
      assert (Ep' : proof = (pre ++ [x]) ++ rest) by (rewrite <- app_assoc; auto).
      assert (Hlen' : length (pre ++ [x]) = S (length pre)) by (rewrite app_length; simpl; lia).
      assert (Hbx : exists c1, balanced db [x] cnt = Some c1 /\ balanced db (pre ++ [x]) 0 = Some c1).
      { destruct HG as [[HW _] _ _]. fold db in HW. rewrite Ep in HW. rewrite balanced_app, Hbal in HW.
        change (x :: rest) with ([x] ++ rest) in HW. rewrite balanced_app in HW.
        destruct (balanced db [x] cnt) as [c1|] eqn:E; [|discriminate]. exists c1. split; auto.
        rewrite balanced_app, Hbal. auto. }
      destruct Hbx as [c1 [Hb1 Hb2]].
      cbn [map emitSteps] in Ht.
      destruct (pstep_unk x) as [->|Hne].
      + (* unknown *)
        cbn [encStep] in Ht. rewrite Z.eqb_refl in Ht. apply rbind_ok in Ht. destruct Ht as [t1 [Ht1 Ht]]. injection Ht as <-.
        destruct (spaced_next _ _ _ (mkCst 0 (mapAt (length pre)) (map encStep pre) cnt e) Hs) as [tx1 [A B]].
        assert (Hf : flagged fl (length pre) = false).
        { destruct (flagged fl (length pre)) eqn:F; auto. apply flagged_step in F. destruct F as [m [sm [F _]]]. congruence. }
        rewrite <- Hlen' in Ht1.
        destruct (IH (pre ++ [Unk]) c1 (atLeast 1 e) t1 tx1 Ep' Ht1 A Hb2) as [cnt' [C1 C2]].
        exists cnt'. split; auto. eapply runs_trans; [exact B|].
        cbn [balanced] in Hb1. injection Hb1 as <-.
        replace (markUnk (Unk :: rest) e) with (markUnk rest (atLeast 1 e)).
        2:{ unfold markUnk. cbn. destruct (hasUnk rest); auto. rewrite atLeast_idem. reflexivity. }
        eapply runs_trans; [|exact C2]. rewrite Hlen', mapAt_S, Hf, map_app.
        apply runs_one. intros f. cbn [comprLoop chQ]. change (128 <=? 63) with false. change (65 <=? 63) with false.
        change (85 <=? 63) with false. change (63 =? 90) with false. change (isspace 63) with false.
        change (63 =? 36) with false. change (63 =? 63) with true. cbn [andb]. unfold qStep.
        cbn [c_idx c_proof c_cnt c_map c_err]. rewrite map_length.
        destruct (Nat.leb_spec max (length pre)); [lia|]. destruct (Nat.leb_spec max cnt); [lia|]. reflexivity.
      + (* a label *)
        assert (Eu : (encStep x =? zUnk)%Z = false).
        { apply Z.eqb_neq. destruct x; [congruence| |]; cbn [encStep]; unfold zLoc, zUnk; lia. }
        rewrite Eu in Ht.
        assert (Hin : In (encStep x) (mapAt (length pre))) by (eapply entry_known; eauto).
        destruct (mapAt_prefix (length pre) (length proof)) as [r2 Er2]; [lia|].
        destruct (zindex_app _ (mapAt (length pre)) (r2 ++ lr) Hin) as [lab [Z1 Z2]].
        assert (Z1' : zindex (encStep x) labels = Some lab) by (rewrite HL, Er2, <- app_assoc; exact Z1).
        rewrite Z1' in Ht. apply rbind_ok in Ht. destruct Ht as [t1 [Ht1 Ht]]. injection Ht as <-.
        assert (Hlab : lab < length (mapAt (length pre))) by (apply nth_error_Some; congruence).
        assert (Hml : length (mapAt (length pre)) <= length (mapAt (length proof))) by (rewrite Er2, app_length; lia).
        assert (Hb' : bg = false \/ lab < 120) by (destruct HB; [left|right]; auto; lia).
        set (s0 := mkCst 0 (mapAt (length pre)) (map encStep pre) cnt e).
        destruct (leaf_bal x cnt c1 Hne Hb1) as [LB|LB].
        all: destruct (label_run lab _ tx s0 (encStep x) Hs eq_refl) as [[cnt1 [K [tx1 [A B]]]]|K];
          [unfold maxLong in *; lia|exact Hb'|exact Z2|unfold s0; cbn [c_proof]; rewrite map_length; lia|unfold s0; cbn [c_cnt]; lia| |].
        2:{ exfalso. apply K. left. tauto. }
        3:{ exfalso. apply K. right. destruct LB as [m [sm [_ [L1 [L2 _]]]]]. exists sm. auto. }
        all: assert (Ec : cnt1 = c1);
          [unfold s0 in K; cbn [c_cnt] in K;
           first [destruct LB as [L1 L2]; rewrite L1 in K; destruct K as [[_ K]|[sm [K _]]]; [congruence|discriminate]
                 |destruct LB as [m [sm [_ [L1 [L2 L3]]]]]; rewrite L1 in K; destruct K as [[K _]|[sm' [K1 [_ K2]]]]; [discriminate|];
                  injection K1 as <-; congruence]|].
        all: subst cnt1; unfold s0 in B; cbn [c_map c_proof c_err] in B.
        all: assert (FIN : exists tx2, spaced t1 tx2 /\
               runs (tx1 ++ tail) (mkCst 0 (mapAt (length pre)) (map encStep pre ++ [encStep x]) c1 e)
                    (tx2 ++ tail) (mkCst 0 (mapAt (S (length pre))) (map encStep (pre ++ [x])) c1 e)).
        1,3: rewrite mapAt_S; destruct (flagged fl (length pre)) eqn:F;
          [destruct (flagged_step _ F) as [m [sm [F1 [F2 F3]]]];
           assert (x = Stm m) by congruence; subst x; cbn [app] in A;
           destruct (spaced_next _ _ _ (mkCst 0 (mapAt (length pre)) (map encStep pre ++ [encStep (Stm m)]) c1 e) A) as [tx2 [A2 B2]];
           exists tx2; split; auto; eapply runs_trans; [exact B2|];
           replace (map encStep (pre ++ [Stm m])) with (map encStep pre ++ [encStep (Stm m)]) by (rewrite map_app; reflexivity);
           apply (z_run _ (mkCst 0 (mapAt (length pre)) (map encStep pre ++ [encStep (Stm m)]) c1 e) m sm pre);
             cbn [c_map c_idx c_proof]; auto;
             [destruct (mapAt_prefix (S (length pre)) (length proof)) as [r3 Er3]; [lia|];
              rewrite Er3, app_length, mapAt_S, F, app_length in HM2; cbn [length] in HM2; lia
             |rewrite map_app; reflexivity]
          |cbn [app] in A; exists tx1; split; auto; rewrite map_app; apply runs_refl].
        all: destruct FIN as [tx2 [A2 B2]]; rewrite <- Hlen' in Ht1;
          destruct (IH (pre ++ [x]) c1 e t1 tx2 Ep' Ht1 A2 Hb2) as [cnt' [C1 C2]];
          exists cnt'; (split; [exact C1|]);
          (eapply runs_trans; [exact B|]); (eapply runs_trans; [exact B2|]);
          replace (markUnk (x :: rest) e) with (markUnk rest e) by (destruct x; [congruence| |]; reflexivity);
          rewrite Hlen' in C2; exact C2.
  Qed.

  Definition flCount (k len : nat) : nat := length (filter (flagged fl) (seq k len)).

  Lemma encode_nonempty lab : 1 <= length (encodeLabel lab).
  Proof. unfold encodeLabel. rewrite app_length. simpl. lia. Qed.

  Lemma emit_total labels : (exists r, labels = mapAt (length proof) ++ r) ->
    forall rest pre, proof = pre ++ rest ->
    exists t, emitSteps labels fl (length pre) (map encStep rest) = Ok t /\
      length rest + flCount (length pre) (length rest) <= length t.
  Proof.
    intros [lr HL]. induction rest as [|x rest IH]; intros pre Ep.
    - exists []. split; auto.
    - assert (Ep' : proof = (pre ++ [x]) ++ rest) by (rewrite <- app_assoc; auto).
      assert (Hlen' : length (pre ++ [x]) = S (length pre)) by (rewrite app_length; simpl; lia).
      assert (Hx : nth_error proof (length pre) = Some x) by (eapply In_split_nth; eauto).
      destruct (IH (pre ++ [x]) Ep') as [t [Ht Hl]]. rewrite Hlen' in *.
      cbn [map emitSteps]. unfold flCount in *. cbn [seq filter length].
      destruct (pstep_unk x) as [->|Hne].
      + cbn [encStep]. rewrite Z.eqb_refl, Ht. cbn [rbind]. exists (chQ :: t). split; auto.
        destruct (flagged fl (length pre)) eqn:F; [|cbn [length]; lia].
        apply flagged_step in F. destruct F as [m [sm [F _]]]. congruence.
      + assert (Eu : (encStep x =? zUnk)%Z = false).
        { apply Z.eqb_neq. destruct x; [congruence| |]; cbn [encStep]; unfold zLoc, zUnk; lia. }
        rewrite Eu. assert (Hin : In (encStep x) (mapAt (length pre))) by (eapply entry_known; eauto).
        assert (Hk : length pre < length proof) by (rewrite Ep, app_length; simpl; lia).
        destruct (mapAt_prefix (length pre) (length proof)) as [r2 Er2]; [lia|].
        destruct (zindex_app _ (mapAt (length pre)) (r2 ++ lr) Hin) as [lab [Z1 Z2]].
        assert (Z1' : zindex (encStep x) labels = Some lab) by (rewrite HL, Er2, <- app_assoc; exact Z1).
        rewrite Z1', Ht. cbn [rbind]. eexists. split; [reflexivity|].
        rewrite !app_length. pose proof (encode_nonempty lab).
        destruct (flagged fl (length pre)); cbn [length]; lia.
  Qed.

  (* ---------- the label list ---------- *)
  Let ctab := entries env Z.of_nat (s_optHyps st)
             ++ entries env (fun h => (-1000 - Z.of_nat h)%Z) (s_reqHyps st).

  Lemma find_total tab l j : In (l, j) tab -> exists j', e_find env tab l = Some j' /\ In (l, j') tab.
  Proof.
    intros H. destruct (e_find env tab l) as [j'|] eqn:E.
    - exists j'. split; auto. apply (we_some env WE). auto.
    - exfalso. exact (we_none env WE _ _ E _ H).
  Qed.

  Lemma ctab_entry l z : In (l, z) ctab -> exists h, l = e_name env h /\
    ((In h (s_optHyps st) /\ z = Z.of_nat h) \/ (In h (s_reqHyps st) /\ z = (-1000 - Z.of_nat h)%Z)).
  Proof.
    intros H. apply in_app_or in H. unfold entries in H. destruct H as [H|H]; apply in_map_iff in H;
      destruct H as [h [E Hh]]; pose proof (f_equal fst E) as E1; pose proof (f_equal snd E) as E2; cbn [fst snd] in *;
      exists h; split; auto.
  Qed.
  Lemma hyp_labelled h : In h (s_reqHyps st) \/ In h (s_optHyps st) -> exists sh, stmtAt db h sh /\ isHyp sh /\ 0 < h.
  Proof. intros H. destruct (we_hyps env WE n st h Hn Hp H) as [H0 [sh [A B]]]. eauto. Qed.

  Lemma labelCode_expl z e : In z expl -> labelCode env n ctab (e_name env (Z.to_nat z)) e = Ok (z, e).
  Proof.
    intros Hz. apply (lo_expl _ _ LO) in Hz. destruct Hz as [m [-> [Hm Hnr]]]. rewrite Nat2Z.id.
    destruct (gp_ref _ _ _ _ HG m Hm) as [sm [Hs [[Ha Hlt]|[Hh Hro]]]].
    - (* assertion *)
      unfold labelCode. destruct (e_find env ctab (e_name env m)) as [j|] eqn:Ef.
      + exfalso. apply (we_some env WE) in Ef. apply ctab_entry in Ef. destruct Ef as [h [En Hh]].
        assert (Hh' : In h (s_reqHyps st) \/ In h (s_optHyps st)) by tauto.
        destruct (hyp_labelled h Hh') as [sh [A [B _]]].
        assert (m = h). { apply (ue_name env UE m h sm sh); auto; [left; auto|right; auto]. } subst h.
        assert (sm = sh) by (unfold stmtAt, db in *; congruence). subst sh.
        destruct Ha, B; congruence.
      + destruct (find_total (e_keys env) (e_name env m) (Z.of_nat m)) as [j [E1 E2]].
        { apply (ue_keys env UE m sm); auto. }
        rewrite E1. apply (we_keys env WE) in E2. destruct E2 as [m' [sm' [_ [-> [Hs' [Ha' En']]]]]].
        assert (m' = m). { apply (ue_name env UE m' m sm' sm); auto; left; auto. } subst m'.
        rewrite Nat2Z.id. unfold stmtAt in Hs'. rewrite Hs'. cbn [rget rbind].
        assert (El : (Z.of_nat n <=? Z.of_nat m)%Z = false) by (apply Z.leb_gt; lia). rewrite El.
        destruct Ha' as [T|T]; rewrite T; reflexivity.
    - (* optional hypothesis *)
      destruct Hro as [Hro|Hro]; [contradiction|].
      destruct (hyp_labelled m (or_intror Hro)) as [_ [_ [_ Hm0]]].
      destruct (find_total ctab (e_name env m) (Z.of_nat m)) as [j [E1 E2]].
      { apply in_or_app. left. unfold entries. apply in_map_iff. exists m. auto. }
      unfold labelCode. rewrite E1. apply ctab_entry in E2. destruct E2 as [h [En Hh2]].
      assert (Hh' : In h (s_reqHyps st) \/ In h (s_optHyps st)) by tauto.
      destruct (hyp_labelled h Hh') as [sh [A [B _]]].
      assert (m = h). { apply (ue_name env UE m h sm sh); auto; right; auto. } subst h.
      destruct Hh2 as [[_ ->]|[C _]]; [|contradiction].
      destruct (Z.ltb_spec (Z.of_nat m) 0); [lia|]. destruct (Z.leb_spec (Z.of_nat m) 0); [lia|]. reflexivity.
  Qed.

  Lemma labelCodes_expl e : forall l, (forall z, In z l -> In z expl) ->
    labelCodes env n ctab (map (fun z => e_name env (Z.to_nat z)) l) e = Ok (l, e).
  Proof.
    induction l as [|z l IH]; intros H; cbn [map labelCodes]; auto.
    rewrite labelCode_expl by (apply H; left; auto). cbn [rbind]. rewrite IH by (intros; apply H; right; auto).
    reflexivity.
  Qed.

  Lemma names_chars z : In z expl -> e_name env (Z.to_nat z) <> [] /\
    Forall (fun c => labelChar c = true) (e_name env (Z.to_nat z)).
  Proof.
    intros Hz. apply (lo_expl _ _ LO) in Hz. destruct Hz as [m [-> [Hm _]]]. rewrite Nat2Z.id.
    destruct (gp_ref _ _ _ _ HG m Hm) as [sm [Hs Hk]]. apply (ue_chars env UE m sm); auto.
    destruct Hk as [[Ha _]|[Hh _]]; [left|right]; auto.
  Qed.
End C.

(* ---------- layout ---------- *)
Lemma isspace_range c : isspace c = true -> c = 32 \/ 9 <= c <= 13.
Proof.
  unfold isspace. intros H. apply orb_prop in H. destruct H as [H|H].
  - left. apply Nat.eqb_eq. auto.
  - right. apply andb_prop in H. destruct H as [A B]. apply Nat.leb_le in A, B. lia.
Qed.
Lemma labelChar_range c : labelChar c = true ->
  (48 <= c <= 57) \/ (65 <= c <= 90) \/ (97 <= c <= 122) \/ c = 45 \/ c = 95 \/ c = 46.
Proof.
  unfold labelChar. rewrite !orb_true_iff, !andb_true_iff, !Nat.leb_le, !Nat.eqb_eq. lia.
Qed.

Lemma skipWs_blanks : forall w k c t, blanks w -> length w < k -> isgraph c = true -> c <> 36 ->
  skipWs k (w ++ c :: t) = Ok (c :: t).
Proof.
  induction w as [|b w IH]; intros k c t Hb Hk Hg Hd; (destruct k as [|k]; [simpl in Hk; lia|]); cbn [app skipWs].
  - destruct (Nat.eqb_spec c chDollar); [contradiction|]. rewrite Hg. reflexivity.
  - apply Forall_inv in Hb as Hb1. apply Forall_inv_tail in Hb. apply isspace_range in Hb1.
    destruct (Nat.eqb_spec b chDollar); [unfold chDollar in *; lia|].
    assert (E : isgraph b = false).
    { unfold isgraph. destruct (Nat.leb_spec 33 b); auto. lia. }
    rewrite E. apply IH; auto. simpl in Hk. lia.
Qed.
Lemma whiteSpace_blanks w c t : blanks w -> isgraph c = true -> c <> 36 ->
  whiteSpace (w ++ c :: t) = Ok (c :: t).
Proof. intros. apply skipWs_blanks; auto. rewrite app_length. lia. Qed.

Lemma proofTokenGo_label l c t : Forall (fun c => labelChar c = true) l -> isspace c = true ->
  proofTokenGo (l ++ c :: t) = length l.
Proof.
  induction l as [|x l IH]; intros H Hc; cbn [app proofTokenGo].
  - apply isspace_range in Hc. destruct (Nat.eqb_spec c chDollar); [unfold chDollar in *; lia|].
    assert (E : isgraph c = false) by (unfold isgraph; destruct (Nat.leb_spec 33 c); auto; lia).
    rewrite E. reflexivity.
  - apply Forall_inv in H as Hx. apply Forall_inv_tail in H. apply labelChar_range in Hx.
    destruct (Nat.eqb_spec x chDollar); [unfold chDollar in *; lia|].
    assert (E : isgraph x = true) by (unfold isgraph; rewrite andb_true_iff, !Nat.leb_le; lia).
    assert (E2 : proofSpecial x = false).
    { unfold proofSpecial, chColon, chQ, chOpen, chClose, chEq. rewrite !orb_false_iff, !Nat.eqb_neq. lia. }
    rewrite E, E2. cbn [negb]. rewrite IH by auto. reflexivity.
Qed.

Lemma labelChar_head l x r : l = x :: r -> Forall (fun c => labelChar c = true) l ->
  isgraph x = true /\ x <> 36 /\ proofSpecial x = false /\ x <> chClose.
Proof.
  intros -> H. apply Forall_inv in H. apply labelChar_range in H. repeat split.
  - unfold isgraph; rewrite andb_true_iff, !Nat.leb_le; lia.
  - lia.
  - unfold proofSpecial, chColon, chQ, chOpen, chClose, chEq. rewrite !orb_false_iff, !Nat.eqb_neq. lia.
  - unfold chClose. lia.
Qed.

Lemma labelList_laid : forall names lt X, labelsLaid names lt ->
  (forall l, In l names -> l <> [] /\ Forall (fun c => labelChar c = true) l) ->
  forall k, length (lt ++ X) < k ->
  exists ls, labelList k (lt ++ X) = Ok (ls, true, X) /\ map fst ls = names /\
    exists Y Z, last (map snd ls) X = Y ++ X /\ lt = Z ++ Y.
Proof.
  intros names lt X H. induction H as [w Hw|w l c ls t Hw Hc H IH]; intros HN k Hk;
    (destruct k as [|k]; [lia|]); cbn [labelList].
  - rewrite <- app_assoc. cbn [app]. rewrite whiteSpace_blanks by (auto; discriminate). cbn [rbind].
    unfold proofTokenLen. cbn. exists []. split; auto. split; auto. exists [], (w ++ [chClose]). rewrite app_nil_r. auto.
  - destruct (HN l (or_introl eq_refl)) as [Hl1 Hl2]. destruct l as [|x l']; [congruence|].
    destruct (labelChar_head _ _ _ eq_refl Hl2) as [G1 [G2 [G3 G4]]].
    rewrite <- app_assoc. cbn [app]. rewrite <- app_assoc. cbn [app].
    rewrite whiteSpace_blanks by auto. cbn [rbind].
    assert (ET : proofTokenLen (x :: l' ++ c :: t ++ X) = S (length l')).
    { unfold proofTokenLen. rewrite G3. exact (proofTokenGo_label (x :: l') c (t ++ X) Hl2 Hc). }
    rewrite ET. unfold isTok, firstChar. cbn [nth_error].
    destruct (Nat.eqb_spec x chClose); [contradiction|].
    assert (ES : skipn (S (length l')) (x :: l' ++ c :: t ++ X) = c :: t ++ X).
    { cbn [skipn]. rewrite skipn_app, skipn_all, Nat.sub_diag. reflexivity. }
    assert (EF : firstn (S (length l')) (x :: l' ++ c :: t ++ X) = x :: l').
    { cbn [firstn]. rewrite firstn_app, firstn_all, Nat.sub_diag. simpl. rewrite app_nil_r. reflexivity. }
    rewrite ES, EF.
    (* one more blank before t *)
    assert (HB : labelsLaid ls (c :: t)).
    { inversion H; subst.
      - change (c :: w0 ++ [chClose]) with ((c :: w0) ++ [chClose]). constructor. constructor; auto.
      - change (c :: w0 ++ l ++ c0 :: t0) with ((c :: w0) ++ l ++ c0 :: t0). constructor; auto. constructor; auto. }
    assert (HI : exists ls', labelList k (c :: t ++ X) = Ok (ls', true, X) /\ map fst ls' = ls /\
       exists Y Z, last (map snd ls') X = Y ++ X /\ c :: t = Z ++ Y).
    { destruct k as [|k]; [rewrite !app_length in Hk; simpl in Hk; lia|].
      (* labelList on a leading blank behaves as without it *)
      assert (WS : whiteSpace (c :: t ++ X) = whiteSpace (t ++ X)).
      { unfold whiteSpace. cbn [length]. cbn [skipWs]. apply isspace_range in Hc.
        destruct (Nat.eqb_spec c chDollar); [unfold chDollar in *; lia|].
        assert (E : isgraph c = false) by (unfold isgraph; destruct (Nat.leb_spec 33 c); auto; lia).
        rewrite E. reflexivity. }
      destruct (IH (fun l Hl => HN l (or_intror Hl)) (S k)) as [ls' [I1 [I2 [Y [Z0 [I3 I4]]]]]].
      { clear -Hk. repeat (rewrite app_length in * || cbn [length] in *). lia. }
      exists ls'. cbn [labelList] in I1 |- *. rewrite WS. split; [exact I1|]. split; auto.
      exists Y, (c :: Z0). split; auto. rewrite I4. reflexivity. }
    destruct HI as [ls' [I1 [I2 [Y [Z0 [I3 I4]]]]]]. rewrite I1. cbn [rbind].
    exists ((x :: l', x :: l' ++ c :: t ++ X) :: ls'). split; auto. split; [cbn [map fst]; congruence|].
    cbn [map snd]. destruct ls' as [|p ls'].
    + cbn [last map]. exists (x :: l' ++ c :: t), w. split; auto. cbn [app]. rewrite <- app_assoc. reflexivity.
    + cbn [map] in I3 |- *. exists Y, (w ++ x :: l' ++ Z0). split.
      * cbn [last] in I3 |- *. exact I3.
      * rewrite I4. rewrite <- app_assoc. cbn [app]. rewrite <- app_assoc. reflexivity.
Qed.

Lemma hasPair_app a b : forall l r, hasPair2 a b r = true -> hasPair2 a b (l ++ r) = true.
Proof.
  induction l as [|x l IH]; intros r H; auto. cbn [app]. specialize (IH r H).
  destruct (l ++ r) as [|y q] eqn:E; [discriminate|]. cbn [hasPair2] in *. rewrite IH. apply orb_true_r.
Qed.
Lemma hasPair_app_l a b : forall l r, hasPair2 a b l = true -> hasPair2 a b (l ++ r) = true.
Proof.
  induction l as [|x l IH]; intros r H; [discriminate|]. destruct l as [|y l]; [discriminate|].
  change (((x =? a) && (y =? b)) || hasPair2 a b (y :: l) = true) in H.
  change (((x =? a) && (y =? b)) || hasPair2 a b ((y :: l) ++ r) = true).
  apply orb_prop in H. destruct H as [H|H]; [rewrite H; auto|].
  rewrite (IH r H). apply orb_true_r.
Qed.

Lemma spaced_len s t : spaced s t -> length s <= length t.
Proof. induction 1; simpl; lia. Qed.
Lemma labelsLaid_len names lt : labelsLaid names lt -> (forall l, In l names -> l <> []) ->
  2 * length names + 1 <= length lt.
Proof.
  induction 1 as [w Hw|w l c ls t Hw Hc H IH]; intros HN.
  - rewrite app_length. simpl. lia.
  - specialize (IH (fun l0 Hl => HN l0 (or_intror Hl))). specialize (HN l (or_introl eq_refl)).
    rewrite !app_length. simpl. rewrite ?app_length. destruct l; [congruence|]. simpl. lia.
Qed.

