(* VerStep.v -- what one unification (assignVar as called by verifyProof) computes. *)
From Verif Require Import Base MMSpec VerModel VerSpec VerMatch.
Open Scope nat_scope.

Lemma Forall2_len {A B} (R : A -> B -> Prop) l l' : Forall2 R l l' -> length l = length l'.
Proof. induction 1; simpl; congruence. Qed.

Lemma scan_mono fuel fuel' isvar sep vars sc ins s r :
  fuel <= fuel' -> scan fuel isvar sep vars sc ins s = r -> r <> Fuel ->
  scan fuel' isvar sep vars sc ins s = r.
Proof.
  revert fuel' s. induction fuel as [|f IH]; intros f' s Hle H Hr.
  - simpl in H. congruence.
  - destruct f' as [|f']; [lia|]. simpl in *.
    destruct (scanDone sc ins s); auto.
    destruct (scanStep isvar sep vars sc ins s) as [[s'|] | | |]; cbn [rbind] in *; auto.
    apply IH; auto. lia.
Qed.

Lemma assignVar_mono fuel fuel' db sc ins n ss stp step unk err r :
  fuel <= fuel' -> assignVar fuel db sc ins n ss stp step unk err = r -> r <> Fuel ->
  assignVar fuel' db sc ins n ss stp step unk err = r.
Proof.
  intros Hle H Hr. unfold assignVar in *.
  destruct (negb _); auto.
  destruct (scan fuel _ _ _ _ _ (mkMst 0 0 [])) as [o | | |] eqn:E1; cbn [rbind] in H;
    try (rewrite (scan_mono _ _ _ _ _ _ _ _ _ Hle E1) by congruence; cbn [rbind]; auto; fail).
  rewrite (scan_mono _ _ _ _ _ _ _ _ _ Hle E1) by congruence. cbn [rbind].
  destruct o as [s|]; auto.
  destruct (negb _); auto.
  destruct (dvCheck _ _ _ _ _ _ _ _); cbn [rbind] in *; auto.
  destruct (assemble _ _ _ _ _); cbn [rbind] in *; auto.
  destruct (backtrack _ _ _ _ _) as [[s1|] | | |]; cbn [rbind] in *; auto.
  destruct (scan fuel _ _ _ _ _ s1) as [o | | |] eqn:E2; cbn [rbind] in H;
    rewrite (scan_mono _ _ _ _ _ _ _ _ _ Hle E2) by congruence; cbn [rbind]; auto.
Qed.

(* ---------- $d check ---------- *)
Lemma hasPair_In a b l : hasPair a b l = true <-> In (a, b) l.
Proof.
  unfold hasPair. rewrite existsb_exists. split.
  - intros [[x y] [Hi H]]. simpl in H. apply andb_true_iff in H.
    rewrite !Nat.eqb_eq in H. destruct H as [-> ->]. exact Hi.
  - intros H. exists (a, b). simpl. now rewrite !Nat.eqb_refl.
Qed.

Lemma firstPair_skip a b l : In (a, b) l \/ In (b, a) l ->
  firstPair a l < length l /\ (forall x y, x = a \/ y = a -> In (x, y) l ->
    In (x, y) (skipn (firstPair a l) l)).
Proof.
  induction l as [|[x y] l IH]; simpl; intros H; [tauto|].
  destruct (Nat.eqb x a || Nat.eqb y a) eqn:E; simpl.
  - split; [lia|]. auto.
  - apply orb_false_iff in E. rewrite !Nat.eqb_neq in E. destruct E as [E1 E2].
    destruct IH as [IH1 IH2].
    { destruct H as [[H|H]|[H|H]]; auto; injection H; intros; subst; tauto. }
    split; [lia|]. intros x' y' Hxy [H'|H']; auto.
    injection H' as <- <-. tauto.
Qed.

Lemma firstPair_none a l : length l <= firstPair a l -> forall b, ~ In (a, b) l /\ ~ In (b, a) l.
Proof.
  induction l as [|[x y] l IH]; simpl; intros H b; [tauto|].
  destruct (Nat.eqb x a || Nat.eqb y a) eqn:E; [lia|].
  apply orb_false_iff in E. rewrite !Nat.eqb_neq in E.
  destruct (IH ltac:(lia) b). split; intros [H'|H']; try tauto; injection H'; intros; subst; tauto.
Qed.

Lemma In_skipn {A} (x : A) n l : In x (skipn n l) -> In x l.
Proof. intros H. rewrite <- (firstn_skipn n l). apply in_or_app. auto. Qed.

Lemma dvPair_In step x y a b req opt d :
  (forall u v, In (u, v) req \/ In (u, v) opt -> u < v) ->
  In d (dvPair step x y a b req opt) <->
    (a = b /\ d = DDisjCommon step x y a) \/
     (a <> b /\ ~ In (a, b) req /\ ~ In (a, b) opt /\ ~ In (b, a) req /\ ~ In (b, a) opt /\
      d = DDisjMissing step x y a b).
Proof.
  intros Hord. unfold dvPair. destruct (Nat.eqb a b) eqn:E.
  - apply Nat.eqb_eq in E. simpl. split; [intros [H|[]]; auto|].
    intros [[_ H]|[H _]]; auto; tauto.
  - apply Nat.eqb_neq in E.
    assert (O1 : b < a -> ~ In (a, b) req /\ ~ In (a, b) opt)
      by (intros L; split; intros Hc; specialize (Hord a b); intuition lia).
    assert (O2 : a <= b -> ~ In (b, a) req /\ ~ In (b, a) opt)
      by (intros L; split; intros Hc; specialize (Hord b a); intuition lia).
    destruct (b <? a) eqn:L; [apply Nat.ltb_lt in L|apply Nat.ltb_ge in L].
    + destruct (O1 L) as [N1 N2]. destruct (hasPair b a req || hasPair b a opt) eqn:H.
      * apply orb_true_iff in H. rewrite !hasPair_In in H. simpl. tauto.
      * apply orb_false_iff in H. destruct H as [H1 H2].
        assert (~ In (b, a) req) by (rewrite <- hasPair_In; congruence).
        assert (~ In (b, a) opt) by (rewrite <- hasPair_In; congruence).
        simpl. split; [intros [<-|[]]; right; auto 8|]. intros [[? _]|H']; [tauto|].
        left. symmetry. tauto.
    + destruct (O2 L) as [N1 N2]. destruct (hasPair a b req || hasPair a b opt) eqn:H.
      * apply orb_true_iff in H. rewrite !hasPair_In in H. simpl. tauto.
      * apply orb_false_iff in H. destruct H as [H1 H2].
        assert (~ In (a, b) req) by (rewrite <- hasPair_In; congruence).
        assert (~ In (a, b) opt) by (rewrite <- hasPair_In; congruence).
        simpl. split; [intros [<-|[]]; right; auto 8|]. intros [[? _]|H']; [tauto|].
        left. symmetry. tauto.
Qed.

Lemma dvScanA_In isvar step x y req opt As Bs d :
  (forall u v, In (u, v) req \/ In (u, v) opt -> u < v) ->
  In d (dvScanA isvar step x y req opt As Bs) <->
  exists a b, In a As /\ In b Bs /\ isvar a = true /\ isvar b = true /\
    ((a = b /\ d = DDisjCommon step x y a) \/
     (a <> b /\ ~ In (a, b) req /\ ~ In (a, b) opt /\ ~ In (b, a) req /\ ~ In (b, a) opt /\
      d = DDisjMissing step x y a b)).
Proof.
  intros Hord. unfold dvScanA. rewrite in_flat_map.
  assert (K : forall a b,
    In d (if firstPair a req <? length req
      then dvPair step x y a b (skipn (firstPair a req) req) opt
      else dvPair step x y a b [] (skipn (firstPair a opt) opt)) <->
    ((a = b /\ d = DDisjCommon step x y a) \/
     (a <> b /\ ~ In (a, b) req /\ ~ In (a, b) opt /\ ~ In (b, a) req /\ ~ In (b, a) opt /\
      d = DDisjMissing step x y a b))).
  { intros a b. destruct (firstPair a req <? length req) eqn:L.
    - rewrite dvPair_In.
      2:{ intros u v [H|H]; [apply In_skipn in H|]; auto. }
      assert (E1 : In (a, b) (skipn (firstPair a req) req) <-> In (a, b) req).
      { split; [apply In_skipn|]. intros H. apply (firstPair_skip a b); auto. }
      assert (E2 : In (b, a) (skipn (firstPair a req) req) <-> In (b, a) req).
      { split; [apply In_skipn|]. intros H. apply (firstPair_skip a b); auto. }
      rewrite E1, E2. tauto.
    - apply Nat.ltb_ge in L. destruct (firstPair_none a req L b) as [N1 N2].
      rewrite dvPair_In.
      2:{ intros u v [H|H]; [destruct H|apply In_skipn in H]; auto. }
      assert (E1 : In (a, b) (skipn (firstPair a opt) opt) <-> In (a, b) opt).
      { split; [apply In_skipn|]. intros H. apply (firstPair_skip a b); auto. }
      assert (E2 : In (b, a) (skipn (firstPair a opt) opt) <-> In (b, a) opt).
      { split; [apply In_skipn|]. intros H. apply (firstPair_skip a b); auto. }
      rewrite E1, E2. simpl. tauto. }
  split.
  - intros [a [Ha H]]. destruct (isvar a) eqn:Va; [|destruct H].
    assert (exists b, In b Bs /\ isvar b = true /\
      In d (if firstPair a req <? length req
      then dvPair step x y a b (skipn (firstPair a req) req) opt
      else dvPair step x y a b [] (skipn (firstPair a opt) opt))) as [b [Hb [Vb Hd]]].
    { destruct (firstPair a req <? length req); unfold dvScanB in H; apply in_flat_map in H;
        destruct H as [b [Hb H]]; destruct (isvar b) eqn:Vb; try destruct H; exists b; simpl; auto. }
    exists a, b. apply K in Hd. auto.
  - intros [a [b [Ha [Hb [Va [Vb H]]]]]]. exists a. split; auto. rewrite Va.
    apply K in H. destruct (firstPair a req <? length req); unfold dvScanB;
      apply in_flat_map; exists b; rewrite Vb; auto.
Qed.

(* ---------- assembling the two big strings ---------- *)
Definition isnil {A} (l : list A) : bool := match l with [] => true | _ => false end.
Definition bigS (sep : nat) (l : list (list nat)) : list nat := flat_map (fun m => m ++ [sep]) l.
Fixpoint mask (maths insts : list (list nat)) : list (list nat) :=
  match maths, insts with
  | m :: ms, i :: is => (if isnil i then [] else m) :: mask ms is
  | _, _ => []
  end.

Lemma mask_len maths insts : length maths = length insts -> length (mask maths insts) = length insts.
Proof. revert insts. induction maths; intros [|i is]; simpl; intros; try lia. rewrite IHmaths; lia. Qed.

Lemma bigHyps_spec db hyps maths insts :
  Forall2 (fun h m => exists sh, stmtAt db h sh /\ s_math sh = m) hyps maths ->
  length hyps = length insts ->
  bigHyps db hyps insts =
    Ok (bigS (db_sep db) (mask maths insts), bigS (db_sep db) insts, existsb isnil insts).
Proof.
  intros H. revert insts. induction H as [|h m hyps maths [sh [Hs Hm]] HF IH]; intros [|i is] Hl;
    simpl in Hl; try discriminate; auto.
  simpl bigHyps. rewrite (IH is) by lia. cbn [rbind].
  destruct i as [|a i]; simpl; auto.
  unfold stmtAt in Hs. rewrite Hs. simpl. unfold bigS. simpl. rewrite Hm, <- !app_assoc. reflexivity.
Qed.

Lemma cnt_one sep : cnt sep [sep] = 1.
Proof. unfold cnt. simpl. destruct (Nat.eq_dec sep sep); congruence. Qed.

Lemma bigS_cnt sep l : (forall m, In m l -> ~ In sep m) -> cnt sep (bigS sep l) = length l.
Proof.
  induction l as [|a l IH]; intros Hl; auto.
  unfold bigS. cbn [flat_map length]. fold (bigS sep l).
  rewrite !cnt_app, cnt_one, IH by (intros; apply Hl; simpl; auto).
  rewrite (cnt_notin sep a) by (apply Hl; simpl; auto). lia.
Qed.

Lemma bigS_last sep l : exists F, sep :: bigS sep l = F ++ [sep] /\
  ((forall m, In m l -> ~ In sep m) -> cnt sep F = length l).
Proof.
  destruct (rev l) as [|m r] eqn:E.
  - assert (l = []) as -> by (rewrite <- (rev_involutive l), E; reflexivity).
    exists []. split; auto.
  - assert (l = rev r ++ [m]) as -> by (rewrite <- (rev_involutive l), E; reflexivity).
    exists (sep :: bigS sep (rev r) ++ m). split.
    + unfold bigS. rewrite flat_map_app. simpl. rewrite app_nil_r, <- app_assoc. reflexivity.
    + intros H. change (sep :: bigS sep (rev r) ++ m) with ([sep] ++ bigS sep (rev r) ++ m).
      rewrite !cnt_app, cnt_one, bigS_cnt, (cnt_notin sep m), app_length.
      * simpl. lia.
      * apply H. apply in_or_app. simpl; auto.
      * intros m' Hm. apply H. apply in_or_app. auto.
Qed.

Lemma sep_split (sep : nat) a b c d : a ++ sep :: b = c ++ sep :: d -> ~ In sep a -> ~ In sep c ->
  a = c /\ b = d.
Proof.
  revert c. induction a as [|x a IH]; intros [|y c] H Ha Hc; simpl in *.
  - injection H as ->. auto.
  - injection H as -> H. exfalso; auto.
  - injection H as -> H. exfalso; auto.
  - injection H as -> H. destruct (IH c H) as [-> ->]; auto.
Qed.

Lemma subst_sepfree isvar sep sg m :
  ~ In sep m -> (forall t, In t m -> isvar t = true -> ~ In sep (sg t)) -> ~ In sep (subst isvar sg m).
Proof.
  intros Hm Hs H. unfold subst in H. apply in_flat_map in H. destruct H as [t [Ht H]].
  destruct (isvar t) eqn:E.
  - eapply Hs; eauto.
  - destruct H as [->|[]]. auto.
Qed.

Lemma subst_bigS isvar sep sg ms insts :
  isvar sep = false ->
  (forall m, In m ms -> ~ In sep m) -> (forall m, In m insts -> ~ In sep m) ->
  (forall t, In t (bigS sep ms) -> isvar t = true -> ~ In sep (sg t)) ->
  subst isvar sg (bigS sep ms) = bigS sep insts -> Forall2 (fun m i => subst isvar sg m = i) ms insts.
Proof.
  intros Hsv. revert insts. induction ms as [|m ms IH]; intros [|i is] Hm Hi Hs H.
  - constructor.
  - simpl in H. apply (f_equal (@length nat)) in H. rewrite !app_length in H. simpl in H. lia.
  - simpl in H. rewrite !subst_app in H. apply (f_equal (@length nat)) in H.
    rewrite !app_length in H. unfold subst in H. simpl in H. rewrite Hsv in H. simpl in H. lia.
  - simpl in H. rewrite !subst_app in H. unfold subst in H at 2. simpl in H. rewrite Hsv in H.
    rewrite <- !app_assoc in H. simpl in H.
    apply sep_split in H.
    + destruct H as [E1 E2]. constructor; auto. apply IH; auto.
      * intros; apply Hm; simpl; auto.
      * intros; apply Hi; simpl; auto.
      * intros t Ht. apply Hs. simpl. apply in_or_app. auto.
    + apply subst_sepfree; [apply Hm; simpl; auto|]. intros t Ht. apply Hs. simpl.
      rewrite <- app_assoc. apply in_or_app. auto.
    + apply Hi. simpl; auto.
Qed.

Lemma subst_bigS_conv isvar sep sg ms insts :
  isvar sep = false -> Forall2 (fun m i => subst isvar sg m = i) ms insts ->
  subst isvar sg (bigS sep ms) = bigS sep insts.
Proof.
  intros Hsv H. induction H as [|m i ms insts E HF IH]; auto.
  simpl. rewrite !subst_app, IH, E. f_equal. f_equal. unfold subst. simpl. rewrite Hsv. reflexivity.
Qed.

(* values of variables are inside the instances, hence separator free *)
Lemma unif_sepfree isvar sep sg ms insts :
  Forall2 (fun m i => subst isvar sg m = i) ms insts -> (forall m, In m insts -> ~ In sep m) ->
  forall t m, In m ms -> In t m -> isvar t = true -> ~ In sep (sg t).
Proof.
  intros H Hi t m Hm Ht Hv Hs. induction H as [|m0 i ms insts E HF IH]; [destruct Hm|].
  destruct Hm as [->|Hm].
  - apply (Hi i); [simpl; auto|]. rewrite <- E. unfold subst. apply in_flat_map.
    exists t. rewrite Hv. auto.
  - apply IH; auto. intros; apply Hi; simpl; auto.
Qed.

(* ---------- assignVar ---------- *)
Section Assign.
  Variable isvar : nat -> bool.
  Variable sep : nat.
  Variable Sc In_ : list nat.
  Hypothesis sep_con : isvar sep = false.
  Hypothesis sep_cnt : cnt sep Sc = cnt sep In_.
  Let Sch := Sc ++ [sep].
  Let Ins := In_ ++ [sep].
  Let vars := extractVars isvar Sch.

  Lemma val_get asg t i : length asg = length vars -> indexOf t vars = Some i ->
    exists st len, asgGet asg i = Some (st, len) /\
       firstn len (skipn st Ins) = val isvar sep Sc In_ asg t.
  Proof.
    intros Hl Hi. destruct (asgGet_Some sep Sc In_ sep_cnt asg i) as [st [len Hg]].
    { rewrite Hl. eapply indexOf_lt; eauto. }
    exists st, len. split; auto. unfold val. fold Sch vars. rewrite Hi, Hg. reflexivity.
  Qed.

  Lemma assemble_spec asg m : length asg = length vars ->
    (forall t, In t m -> isvar t = true -> In t vars) ->
    assemble isvar vars Ins asg m = Ok (subst isvar (val isvar sep Sc In_ asg) m).
  Proof.
    intros Hl. induction m as [|t m IH]; intros Hv; simpl; auto.
    rewrite IH by (intros; apply Hv; simpl; auto). cbn [rbind].
    destruct (isvar t) eqn:E.
    - destruct (indexOf_In t vars) as [i Hi]; [apply Hv; simpl; auto|]. rewrite Hi.
      destruct (val_get asg t i Hl Hi) as [st [len [Hg Hf]]]. rewrite Hg, Hf. reflexivity.
    - reflexivity.
  Qed.

  Lemma dvCheck_spec step asg req opt pairs : length asg = length vars ->
    (forall u v, In (u, v) req \/ In (u, v) opt -> u < v) ->
    (forall x y, In (x, y) pairs -> In x vars /\ In y vars) ->
    exists ds, dvCheck isvar step vars Ins asg req opt pairs = Ok ds /\
      forall d, In d ds <-> violation isvar step req opt pairs (val isvar sep Sc In_ asg) d.
  Proof.
    intros Hl Hord. induction pairs as [|[x y] pairs IH]; intros Hv; simpl.
    - exists []. split; auto. intros d. split; [intros []|]. intros (x&y&a&b&[]&_).
    - destruct (Hv x y) as [Hx Hy]; [simpl; auto|].
      destruct (indexOf_In x vars Hx) as [ix Hix]. destruct (indexOf_In y vars Hy) as [iy Hiy].
      rewrite Hix, Hiy.
      destruct (val_get asg x ix Hl Hix) as [sx [lx [Gx Fx]]]. rewrite Gx.
      destruct (val_get asg y iy Hl Hiy) as [sy [ly [Gy Fy]]]. rewrite Gy.
      destruct IH as [ds [E Hds]]; [intros; apply Hv; simpl; auto|].
      rewrite E. cbn [rbind]. eexists. split; [reflexivity|]. intros d.
      rewrite in_app_iff, dvScanA_In by auto. rewrite Fx, Fy, Hds. unfold violation. split.
      + intros [(a&b&H)|(x'&y'&a&b&H1&H)].
        * exists x, y, a, b. split; [simpl; auto|exact H].
        * exists x', y', a, b. split; [simpl; auto|exact H].
      + intros (x'&y'&a&b&[H1|H1]&H).
        * injection H1 as <- <-. left. eauto.
        * right. exists x', y', a, b. auto.
  Qed.

  Variable db : dbase.
  Hypothesis db_iv : db_isvar db = isvar.
  Hypothesis db_sp : db_sep db = sep.
  Variable ss stp : stmtRec.
  Hypothesis vars_len : length vars = length (s_reqVars ss).
  Hypothesis vars_math : forall t, In t (s_math ss) -> isvar t = true -> In t vars.
  Hypothesis vars_disj : forall x y, In (x, y) (s_reqDisj ss) -> In x vars /\ In y vars.
  Hypothesis disj_ord : forall u v, In (u, v) (s_reqDisj stp) \/ In (u, v) (s_optDisj stp) -> u < v.

  (* the three possible outcomes of a unification *)
  Inductive outcome (step n : nat) (unk : bool) (err : nat)
    : list nat * list diag * nat -> Prop :=
  | oc_none :
      (forall sg, ~ sol isvar sep Sc In_ sg) ->
      outcome step n unk err ([], gated err [DNoUnify step n], err + 1)
  | oc_one : forall sg ds,
      sol isvar sep Sc In_ sg ->
      (forall sg', sol isvar sep Sc In_ sg' -> forall t, In t vars -> sg' t = sg t) ->
      (forall d, In d ds <->
         violation isvar step (s_reqDisj stp) (s_optDisj stp) (s_reqDisj ss) sg d) ->
      outcome step n unk err (subst isvar sg (s_math ss), gated err ds, err)
  | oc_many : forall sg sg2 t ds,
      sol isvar sep Sc In_ sg -> sol isvar sep Sc In_ sg2 -> In t vars -> sg2 t <> sg t ->
      (forall d, In d ds <->
         violation isvar step (s_reqDisj stp) (s_optDisj stp) (s_reqDisj ss) sg d) ->
      outcome step n unk err
        (if unk then ([], gated err ds, err)
         else (subst isvar sg2 (s_math ss), gated err ds ++ gated err [DNotUnique step], err + 1)).

  Lemma assign_core fuel step n unk err :
    fuelBound isvar sep Sc In_ <= fuel ->
    exists r, assignVar fuel db Sch Ins n ss stp step unk err = Ok r /\ outcome step n unk err r.
  Proof.
    intros Hf. unfold assignVar. rewrite db_iv, db_sp. fold vars.
    rewrite vars_len, Nat.eqb_refl. cbn [negb].
    pose proof (match_first isvar sep Sc In_ sep_con sep_cnt fuel Hf) as H1.
    fold Sch in H1. fold Ins in H1. fold vars in H1.
    destruct H1 as [[E1 Hno]|[s [E1 [HI [Hd [Hl [Hs Hle]]]]]]]; rewrite E1; cbn [rbind].
    { eexists. split; [reflexivity|]. apply oc_none. exact Hno. }
    rewrite Hd, Hl, <- vars_len, Nat.eqb_refl. cbn [andb negb].
    destruct (dvCheck_spec step (m_asg s) (s_reqDisj stp) (s_optDisj stp) (s_reqDisj ss) Hl disj_ord vars_disj)
      as [ds [Eds Hds]].
    rewrite Eds. cbn [rbind].
    rewrite (assemble_spec (m_asg s) (s_math ss) Hl vars_math). cbn [rbind].
    pose proof (match_second isvar sep Sc In_ sep_con sep_cnt fuel s Hf HI Hd Hle) as H2.
    cbv zeta in H2. fold Sch in H2. fold Ins in H2. fold vars in H2.
    destruct H2 as [[E2 Hu]|[s1 [E2 [[E3 Hu]|[s2 [E3 [HI2 [Hd2 [Hl2 [Hs2 [t [Ht Hne]]]]]]]]]]]];
      rewrite E2; cbn [rbind].
    - eexists. split; [reflexivity|]. apply oc_one with (ds := ds); auto.
    - rewrite E3. cbn [rbind]. eexists. split; [reflexivity|]. apply oc_one with (ds := ds); auto.
    - rewrite E3. cbn [rbind]. rewrite Hd2, Hl2, Nat.eqb_refl. cbn [andb negb].
      pose proof (oc_many step n unk err (val isvar sep Sc In_ (m_asg s))
                    (val isvar sep Sc In_ (m_asg s2)) t ds Hs Hs2 Ht Hne Hds) as Ho.
      destruct unk.
      + eexists. split; [reflexivity|]. exact Ho.
      + rewrite (assemble_spec (m_asg s2) (s_math ss) Hl2 vars_math). cbn [rbind].
        eexists. split; [reflexivity|]. exact Ho.
  Qed.
End Assign.

(* ---------- one assertion step, in terms of the database ---------- *)
Section Step.
  Variable db : dbase.
  Hypothesis WF : wf_db db.
  Let isvar := db_isvar db.
  Let sep := db_sep db.

  (* outcomes for fully known hypotheses, no matcher notions left *)
  Inductive stepOutcome (stp ss : stmtRec) (insts : list (list nat)) (step n err : nat)
    : list nat * list diag * nat -> Prop :=
  | so_none :
      (forall sg, ~ unifier db ss insts sg) ->
      stepOutcome stp ss insts step n err ([], gated err [DNoUnify step n], err + 1)
  | so_one : forall sg ds,
      unifier db ss insts sg ->
      (forall sg', unifier db ss insts sg' -> forall t, In t (s_reqVars ss) -> sg' t = sg t) ->
      (forall d, In d ds <->
         violation isvar step (s_reqDisj stp) (s_optDisj stp) (s_reqDisj ss) sg d) ->
      stepOutcome stp ss insts step n err (subst isvar sg (s_math ss), gated err ds, err)
  | so_many : forall sg sg2 t ds,
      unifier db ss insts sg -> unifier db ss insts sg2 ->
      In t (s_reqVars ss) -> sg2 t <> sg t ->
      (forall d, In d ds <->
         violation isvar step (s_reqDisj stp) (s_optDisj stp) (s_reqDisj ss) sg d) ->
      stepOutcome stp ss insts step n err
        (subst isvar sg2 (s_math ss), gated err ds ++ gated err [DNotUnique step], err + 1).

  (* outcomes when some hypothesis is unknown *)
  Inductive stepOutcomeU (stp ss : stmtRec) (insts : list (list nat)) (step n err : nat)
    : list nat * list diag * nat -> Prop :=
  | su_undet : forall t,
      In t (s_reqVars ss) -> ~ determined db ss insts t ->
      stepOutcomeU stp ss insts step n err ([], [], err)
  | su_none :
      (forall sg, ~ punifier db ss insts sg) ->
      stepOutcomeU stp ss insts step n err ([], gated err [DNoUnify step n], err + 1)
  | su_one : forall sg ds,
      punifier db ss insts sg ->
      (forall sg', punifier db ss insts sg' -> forall t, In t (s_reqVars ss) -> sg' t = sg t) ->
      (forall d, In d ds <->
         violation isvar step (s_reqDisj stp) (s_optDisj stp) (s_reqDisj ss) sg d) ->
      stepOutcomeU stp ss insts step n err (subst isvar sg (s_math ss), gated err ds, err)
  | su_many : forall sg sg2 t ds,
      punifier db ss insts sg -> punifier db ss insts sg2 ->
      In t (s_reqVars ss) -> sg2 t <> sg t ->
      (forall d, In d ds <->
         violation isvar step (s_reqDisj stp) (s_optDisj stp) (s_reqDisj ss) sg d) ->
      stepOutcomeU stp ss insts step n err ([], gated err ds, err).

  Lemma hypMaths_exist n ss : stmtAt db n ss -> isAssertion ss -> exists maths, hypMaths db ss maths.
  Proof.
    intros Hn Ha. unfold hypMaths.
    assert (H : forall h, In h (s_reqHyps ss) -> exists sh, stmtAt db h sh /\ isHyp sh)
      by (intros h; eapply (wf_hyps db WF); eauto).
    induction (s_reqHyps ss) as [|h l IH].
    - exists []. constructor.
    - destruct (H h) as [sh [Hs _]]; [simpl; auto|].
      destruct IH as [ms Hms]; [intros; apply H; simpl; auto|].
      exists (s_math sh :: ms). constructor; eauto.
  Qed.

  Lemma hypMaths_In ss maths m : hypMaths db ss maths -> In m maths ->
    exists h sh, In h (s_reqHyps ss) /\ stmtAt db h sh /\ s_math sh = m.
  Proof.
    unfold hypMaths. intros H. induction H as [|h m' hs ms [sh [H1 H2]] HF IH]; intros Hm; [destruct Hm|].
    destruct Hm as [->|Hm].
    - exists h, sh. simpl; auto.
    - destruct (IH Hm) as [h' [sh' H']]. exists h', sh'. simpl. tauto.
  Qed.

  Lemma hypMaths_In' ss maths h sh : hypMaths db ss maths -> In h (s_reqHyps ss) -> stmtAt db h sh ->
    In (s_math sh) maths.
  Proof.
    unfold hypMaths. intros H. induction H as [|h' m' hs ms [sh' [H1 H2]] HF IH]; intros Hh Hs; [destruct Hh|].
    destruct Hh as [->|Hh]; [|right; auto].
    left. unfold stmtAt in *. congruence.
  Qed.

  Lemma unifier_maths ss maths insts sg : hypMaths db ss maths ->
    (unifier db ss insts sg <-> Forall2 (fun m i => subst isvar sg m = i) maths insts).
  Proof.
    unfold hypMaths, unifier. intros H. revert insts.
    induction H as [|h m hs ms [sh [H1 H2]] HF IH]; intros insts.
    - split; intros H; inversion H; constructor.
    - split; intros K; inversion K as [|a b la lb E1 E2 E3 E4]; constructor.
      + destruct E1 as [sh' [K1 K2]]. rewrite <- K2. unfold isvar, stmtAt in *.
        assert (sh' = sh) as -> by congruence. now rewrite H2.
      + apply IH. auto.
      + exists sh. split; auto. now rewrite H2.
      + apply IH. auto.
  Qed.

  Lemma mask_In maths insts m : In m (mask maths insts) -> m = [] \/ In m maths.
  Proof.
    revert insts. induction maths as [|a ms IH]; intros [|i is]; simpl; try tauto.
    intros [H|H].
    - destruct (isnil i); auto.
    - apply IH in H. tauto.
  Qed.

  Lemma mask_known maths insts : existsb isnil insts = false -> length maths = length insts ->
    mask maths insts = maths.
  Proof.
    revert insts. induction maths as [|a ms IH]; intros [|i is]; simpl; intros H Hl; try discriminate; auto.
    apply orb_false_iff in H. destruct H as [-> H]. f_equal. apply IH; auto.
  Qed.

  Lemma punifier_mask ss maths insts sg : hypMaths db ss maths -> length maths = length insts ->
    (punifier db ss insts sg <-> Forall2 (fun m i => subst isvar sg m = i) (mask maths insts) insts).
  Proof.
    unfold hypMaths, punifier. intros H. revert insts.
    induction H as [|h m hs ms [sh [H1 H2]] HF IH]; intros [|i is] Hl; simpl in Hl; try discriminate.
    - split; intros H; constructor.
    - specialize (IH is ltac:(lia)). simpl. split; intros K; inversion K as [|a b la lb E1 E2 E3 E4]; constructor.
      + destruct i as [|a0 i]; [reflexivity|]. simpl. destruct E1 as [E1|[sh' [K1 K2]]]; [discriminate|].
        unfold isvar, stmtAt in *. assert (sh' = sh) as -> by congruence. now rewrite <- H2.
      + apply IH. auto.
      + destruct i as [|a0 i]; [left; reflexivity|]. right. exists sh. split; auto.
        simpl in E1. rewrite H2. exact E1.
      + apply IH. auto.
  Qed.

  Lemma mask_determined ss maths insts t : hypMaths db ss maths -> length maths = length insts ->
    (determined db ss insts t <-> exists m, In m (mask maths insts) /\ In t m).
  Proof.
    unfold hypMaths, determined. intros H. revert insts.
    induction H as [|h m hs ms [sh [H1 H2]] HF IH]; intros [|i is] Hl; simpl in Hl; try discriminate.
    - split; [intros [h [e [sh [[] _]]]]|intros [m [[] _]]].
    - specialize (IH is ltac:(lia)). simpl. split.
      + intros [h' [e [sh' [[E|Hin] [Hne [Hs Ht]]]]]].
        * injection E as <- <-. unfold stmtAt in *. assert (sh' = sh) as -> by congruence.
          exists m. split; [left; destruct i; [congruence|reflexivity]|congruence].
        * destruct (proj1 IH) as [m' [Hm' Ht']]; [exists h', e, sh'; auto|]. exists m'. auto.
      + intros [m' [[E|Hin] Ht]].
        * destruct i as [|a i]; simpl in E; subst m'; [destruct Ht|].
          exists h, (a :: i), sh. split; [auto|]. split; [discriminate|]. split; auto. congruence.
        * destruct (proj2 IH) as [h' [e [sh' [K1 K2]]]]; [eauto|]. exists h', e, sh'. auto.
  Qed.

  Lemma maths_sepfree ss n maths m : stmtAt db n ss -> hypMaths db ss maths -> In m maths -> ~ In sep m.
  Proof.
    intros Hn Hm Hin. destruct (hypMaths_In _ _ _ Hm Hin) as [h [sh [_ [Hs <-]]]].
    eapply (wf_sep_fresh db WF); eauto.
  Qed.

  Lemma bigS_In sepx l t : In t (bigS sepx l) -> t = sepx \/ exists m, In m l /\ In t m.
  Proof.
    unfold bigS. rewrite in_flat_map. intros [m [Hm Ht]]. apply in_app_or in Ht.
    destruct Ht as [Ht|[Ht|[]]]; eauto.
  Qed.

  Lemma In_bigS sepx l t m : In m l -> In t m -> In t (bigS sepx l).
  Proof. intros H1 H2. unfold bigS. apply in_flat_map. exists m. split; auto. apply in_or_app; auto. Qed.

  Lemma stepCall_spec stp k ss n insts step err :
    stmtAt db k stp -> stmtAt db n ss -> isAssertion ss ->
    length insts = length (s_reqHyps ss) -> (forall i, In i insts -> ~ In sep i) ->
    exists F r, (forall fuel, F <= fuel -> stepCall fuel db stp ss n insts step err = Ok r) /\
      ~ In sep (fst (fst r)) /\ (err = 0 -> snd (fst r) = [] -> snd r = 0) /\
      (existsb isnil insts = false -> stepOutcome stp ss insts step n err r) /\
      (existsb isnil insts = true -> stepOutcomeU stp ss insts step n err r).
  Proof.
    intros Hk Hn Ha Hlen Hsf.
    destruct (hypMaths_exist _ _ Hn Ha) as [maths Hm].
    assert (Hlm : length maths = length insts).
    { unfold hypMaths in Hm. apply Forall2_len in Hm. lia. }
    unfold stepCall. rewrite (bigHyps_spec db _ maths insts Hm) by lia. cbn [rbind].
    fold sep. set (ms := mask maths insts). set (unk := existsb isnil insts).
    destruct (bigS_last sep ms) as [Sc [ESc CSc]].
    destruct (bigS_last sep insts) as [In_ [EIn CIn]].
    rewrite ESc, EIn.
    assert (Hmsf : forall m, In m ms -> ~ In sep m).
    { intros m H. apply mask_In in H. destruct H as [->|H]; [simpl; auto|].
      eapply maths_sepfree; eauto. }
    assert (Hcnt : cnt sep Sc = cnt sep In_).
    { rewrite CSc, CIn by auto. unfold ms. rewrite mask_len by auto. reflexivity. }
    set (vars := extractVars isvar (Sc ++ [sep])).
    assert (Hvin : forall t, In t vars <-> isvar t = true /\ exists m, In m ms /\ In t m).
    { intros t. unfold vars. rewrite extractVars_In, <- ESc. split.
      - intros [[<-|H] Hv].
        + unfold sep, isvar in Hv. rewrite (wf_sep_con db WF) in Hv. discriminate.
        + apply bigS_In in H. destruct H as [->|H].
          * unfold sep, isvar in Hv. rewrite (wf_sep_con db WF) in Hv. discriminate.
          * auto.
      - intros [Hv [m [H1 H2]]]. split; auto. right. eapply In_bigS; eauto. }
    assert (Hvreq : forall t, In t vars -> In t (s_reqVars ss)).
    { intros t Ht. apply Hvin in Ht. destruct Ht as [Hv [m [H1 H2]]].
      apply mask_In in H1. destruct H1 as [->|H1]; [destruct H2|].
      destruct (hypMaths_In _ _ _ Hm H1) as [h [sh [Hh [Hs <-]]]].
      apply (wf_reqVars db WF n ss Hn Ha). split; eauto. }
    assert (NDv : NoDup vars) by apply extractVars_NoDup.
    assert (Hknown : unk = false -> ms = maths) by (intros; apply mask_known; auto).
    assert (Hklen : unk = false -> length vars = length (s_reqVars ss)).
    { intros Hu. apply Nat.le_antisymm.
      - apply NoDup_incl_length; auto.
      - apply NoDup_incl_length; [eapply (wf_reqVars_nodup db WF); eauto|].
        intros t Ht. apply Hvin. apply (wf_reqVars db WF n ss Hn Ha) in Ht.
        destruct Ht as [Hv [h [sh [Hh [Hs Hin]]]]]. split; auto.
        exists (s_math sh). rewrite (Hknown Hu). split; auto. eapply hypMaths_In'; eauto. }
    destruct (Nat.eq_dec (length vars) (length (s_reqVars ss))) as [Hvl|Hvl].
    - assert (Hreqv : forall t, In t (s_reqVars ss) -> In t vars).
      { apply NoDup_length_incl; auto. lia. }
      assert (Hvm : forall t, In t (s_math ss) -> isvar t = true -> In t vars).
      { intros t Ht Hv. apply Hreqv. eapply (wf_vars_math db WF); eauto. }
      assert (Hvd : forall x y, In (x, y) (s_reqDisj ss) -> In x vars /\ In y vars).
      { intros x y H. destruct (wf_vars_disj db WF n ss Hn Ha x y H). auto. }
      destruct (assign_core isvar sep Sc In_ (wf_sep_con db WF) Hcnt db eq_refl eq_refl ss stp Hvl Hvm Hvd
                 (wf_disj_ord db WF k stp Hk) (fuelBound isvar sep Sc In_) step n unk err (le_n _))
        as [r [Er Ho]].
      assert (Hsol : forall sg, sol isvar sep Sc In_ sg <->
          Forall2 (fun m i => subst isvar sg m = i) ms insts).
      { intros sg. unfold sol. fold vars. rewrite <- ESc, <- EIn.
        assert (Hcons : forall l, subst isvar sg (sep :: l) = sep :: subst isvar sg l).
        { intros l. unfold subst. simpl. unfold sep at 1, isvar at 1. rewrite (wf_sep_con db WF). reflexivity. }
        rewrite Hcons. split.
        - intros [H1 H2]. injection H1 as H1. eapply subst_bigS; eauto.
          + apply (wf_sep_con db WF).
          + intros t Ht Hv. apply H2. apply Hvin. split; auto.
            apply bigS_In in Ht. destruct Ht as [->|Ht]; auto.
            unfold sep, isvar in Hv. rewrite (wf_sep_con db WF) in Hv. discriminate.
        - intros H. split.
          + f_equal. apply subst_bigS_conv; auto. apply (wf_sep_con db WF).
          + intros t Ht. apply Hvin in Ht. destruct Ht as [Hv [m [H1 H2]]].
            eapply unif_sepfree; eauto. }
      exists (fuelBound isvar sep Sc In_), r. split; [|split; [|split; [|split]]].
      + intros fuel Hf. eapply assignVar_mono; eauto. congruence.
      + assert (Hsub : forall sg, sol isvar sep Sc In_ sg -> ~ In sep (subst isvar sg (s_math ss))).
        { intros sg [_ Hs]. apply subst_sepfree; [eapply (wf_sep_fresh db WF); eauto|].
          intros t Ht Hv. apply Hs. apply Hvm; auto. }
        destruct Ho; simpl; auto. destruct unk; simpl; auto.
      + intros ->. destruct Ho; simpl; try discriminate; auto. destruct unk; simpl; auto.
        intros Hnil. apply app_eq_nil in Hnil. destruct Hnil; discriminate.
      + intros Hu. fold unk in Hu. rewrite Hu in Ho.
        assert (Hsu : forall sg, sol isvar sep Sc In_ sg <-> unifier db ss insts sg).
        { intros sg. rewrite Hsol, (Hknown Hu). symmetry. apply unifier_maths; auto. }
        destruct Ho as [Hno|sg ds H1 H2 H3|sg sg2 t ds H1 H2 H3 H4 H5].
        * apply so_none. intros sg Hs. apply (Hno sg). apply Hsu. exact Hs.
        * apply so_one; auto.
          -- apply Hsu; auto.
          -- intros sg' Hs t Ht. apply H2; auto. apply Hsu; auto.
        * apply so_many with (sg := sg) (t := t); auto; try (apply Hsu; auto).
      + intros Hu. fold unk in Hu. rewrite Hu in Ho.
        assert (Hsu : forall sg, sol isvar sep Sc In_ sg <-> punifier db ss insts sg).
        { intros sg. rewrite Hsol. symmetry. apply punifier_mask; auto. }
        destruct Ho as [Hno|sg ds H1 H2 H3|sg sg2 t ds H1 H2 H3 H4 H5].
        * apply su_none. intros sg Hs. apply (Hno sg). apply Hsu. exact Hs.
        * apply su_one; auto.
          -- apply Hsu; auto.
          -- intros sg' Hs t Ht. apply H2; auto. apply Hsu; auto.
        * apply su_many with (sg := sg) (sg2 := sg2) (t := t); auto; try (apply Hsu; auto).
    - assert (Hu : unk = true).
      { destruct unk; auto. }
      exists 0, ([], [], err). split; [|split; [|split; [auto|split]]].
      + intros fuel _. unfold assignVar. fold isvar. fold vars.
        apply Nat.eqb_neq in Hvl. rewrite Hvl, Hu. reflexivity.
      + simpl; auto.
      + intros H. fold unk in H. congruence.
      + intros _. destruct (Forall_Exists_dec (fun t => In t vars) (fun t => in_dec Nat.eq_dec t vars) (s_reqVars ss)) as [HF|HE].
        * exfalso. apply Hvl. apply Nat.le_antisymm.
          -- apply NoDup_incl_length; auto.
          -- apply NoDup_incl_length; [eapply (wf_reqVars_nodup db WF); eauto|].
             intros t Ht. rewrite Forall_forall in HF. auto.
        * apply Exists_exists in HE. destruct HE as [t [Ht Hn']]. apply su_undet with (t := t); auto.
          intros Hdet. apply Hn'. apply Hvin.
          split; [apply (wf_reqVars db WF n ss Hn Ha) in Ht; tauto|].
          apply (mask_determined ss maths insts t Hm Hlm). exact Hdet.
  Qed.
End Step.
