(* PfaFloat.v -- proofs about PfaModel: DELETE FLOATING_HYPOTHESES *)
From Coq Require Import ZifyBool ZifyNat.
From Verif Require Import SrcProofs Base VerModel VerSpec ParModel SqModel SqSpec SqProofs SqAttr SqGood TrcWork StmScope StmTab VerStep NmbProofs PfaModel PfaSpec PfaProofs PfaMore.
Open Scope nat_scope.

Fixpoint dropKids (db : dbase) (z : Z) (kids : list tree) (j : nat) : list tree :=
  match kids with
  | [] => []
  | k :: ks => (if essAt db z j then dropFloating db k else unknown) :: dropKids db z ks (S j)
  end.
Fixpoint keptKids (db : dbase) (z : Z) (kids : list tree) (j o : nat) : list nat :=
  match kids with
  | [] => []
  | k :: ks => (if essAt db z j then keptSteps db k o else [o + length (rpn k) - 1]) ++ keptKids db z ks (S j) (o + length (rpn k))
  end.
Lemma drop_eq db z kids : dropFloating db (Node z kids) = Node z (dropKids db z kids 0).
Proof. cbn [dropFloating]. f_equal. generalize 0 as j. induction kids as [|k kids IH]; intros j; [reflexivity|]. cbn [dropKids]. f_equal. apply IH. Qed.
Lemma kept_eq db z kids o : keptSteps db (Node z kids) o = keptKids db z kids 0 o ++ [o + length (flat_map rpn kids)].
Proof.
  cbn [keptSteps].
  assert (G : forall kids j o, (fix go (kids : list tree) (j o : nat) {struct kids} : list nat :=
         match kids with
         | [] => [o]
         | k :: ks => (if essAt db z j then keptSteps db k o else [o + length (rpn k) - 1]) ++ go ks (S j) (o + length (rpn k))
         end) kids j o = keptKids db z kids j o ++ [o + length (flat_map rpn kids)]); [|apply G].
  clear. induction kids as [|k kids IH]; intros j o.
  - cbn [keptKids flat_map length app]. f_equal. lia.
  - cbn [keptKids flat_map]. rewrite <- app_assoc, IH, app_length, Nat.add_assoc. reflexivity.
Qed.
Lemma dropKids_snoc db z ks k : forall j, dropKids db z (ks ++ [k]) j = dropKids db z ks j ++ [if essAt db z (j + length ks) then dropFloating db k else unknown].
Proof.
  induction ks as [|x ks IH]; intros j; cbn [app dropKids length]; [rewrite Nat.add_0_r; reflexivity|].
  rewrite IH. replace (S j + length ks) with (j + S (length ks)) by lia. reflexivity.
Qed.
Lemma keptKids_snoc db z ks k : forall j o, keptKids db z (ks ++ [k]) j o =
  keptKids db z ks j o ++ (if essAt db z (j + length ks) then keptSteps db k (o + length (flat_map rpn ks)) else [o + length (flat_map rpn ks) + length (rpn k) - 1]).
Proof.
  induction ks as [|x ks IH]; intros j o; cbn [app keptKids length flat_map].
  - rewrite !Nat.add_0_r, app_nil_r. reflexivity.
  - rewrite IH. rewrite <- app_assoc. do 2 f_equal. rewrite app_length. replace (S j + length ks) with (j + S (length ks)) by lia.
    rewrite !Nat.add_assoc. reflexivity.
Qed.
Lemma kept_len db t : forall o, length (keptSteps db t o) = sz (dropFloating db t).
Proof.
  induction t as [z kids IH] using tree_ind2. intros o. rewrite kept_eq, drop_eq, sz_node, app_length. cbn [length]. f_equal.
  generalize 0 as j. revert o. induction IH as [|k kids E F IHk]; intros o j; [reflexivity|].
  cbn [keptKids dropKids flat_map]. rewrite !app_length, IHk. f_equal. destruct (essAt db z j); [apply E|reflexivity].
Qed.
Lemma keptKids_len db z kids : forall j o, length (keptKids db z kids j o) = length (flat_map rpn (dropKids db z kids j)).
Proof.
  induction kids as [|k kids IH]; intros j o; [reflexivity|]. cbn [keptKids dropKids flat_map]. rewrite !app_length, IH. f_equal.
  destruct (essAt db z j); [apply kept_len|reflexivity].
Qed.

Section F.
  Variables (db : dbase) (s0 : pip) (flags : list Z).
  Hypothesis LT : length (tg s0) = length (pf s0).
  Hypothesis LS : length (sr s0) = length (pf s0).
  Hypothesis LU : length (us s0) = length (pf s0).
  Hypothesis UN : forall k, nth_error (pf s0) k = Some zUnk -> nth_error (sr s0) k = Some [].

  Definition inv (s : pip) (e : nat) (b : list Z) (tb sb ub : list (list Z)) : Prop :=
    pf s = firstn e (pf s0) ++ b /\ tg s = firstn e (tg s0) ++ tb /\
    sr s = firstn e (sr s0) ++ sb /\ us s = firstn e (us s0) ++ ub.
  Definition srv (z : Z) (k : nat) : list Z := if (z =? zUnk)%Z then [] else nth k (sr s0) [].
  Definition moved (l : list (list Z)) (ks : list nat) : list (list Z) := map (fun k => nth k l []) ks.

  Lemma firstn_snoc {A} (l : list A) n d : n < length l -> firstn (S n) l = firstn n l ++ [nth n l d].
  Proof.
    intros H. destruct (nth_error l n) as [x|] eqn:E; [|apply nth_error_None in E; lia]. rewrite (nth_error_nth _ _ d E).
    apply firstn_S, E.
  Qed.
  Lemma inv_back s e b tb sb ub : inv s (S e) b tb sb ub -> e < length (pf s0) ->
    inv s e (nth e (pf s0) 0%Z :: b) (nth e (tg s0) [] :: tb) (nth e (sr s0) [] :: sb) (nth e (us s0) [] :: ub).
  Proof.
    intros [I1 [I2 [I3 I4]]] H. unfold inv. rewrite I1, I2, I3, I4.
    rewrite (firstn_snoc (pf s0) e 0%Z), (firstn_snoc (tg s0) e []), (firstn_snoc (sr s0) e []), (firstn_snoc (us s0) e []) by lia.
    rewrite <- !app_assoc. auto.
  Qed.
  Lemma inv_nth s e b tb sb ub k : inv s e b tb sb ub -> k < e -> e <= length (pf s0) -> nth_error (pf s) k = nth_error (pf s0) k.
  Proof.
    intros [I1 _] H L. rewrite I1, nth_error_app1 by (rewrite firstn_length; lia). apply nth_error_firstn_lt. lia.
  Qed.
  Lemma cut1 {A} (l : list A) e r a : a <= e -> e <= length l -> firstn a (firstn e l ++ r) = firstn a l.
  Proof. intros H L. rewrite firstn_app, firstn_firstn, firstn_length. replace (a - Nat.min e (length l)) with 0 by lia. rewrite firstn_O, app_nil_r. f_equal. lia. Qed.
  Lemma cut2 {A} (l : list A) e r : e <= length l -> skipn e (firstn e l ++ r) = r.
  Proof. intros L. rewrite skipn_app, firstn_length. rewrite skipn_all2 by (rewrite firstn_length; lia). replace (e - Nat.min e (length l)) with 0 by lia. reflexivity. Qed.
  Lemma cut3 {A} (l : list A) e r d : e < length l -> skipn e (firstn (S e) l ++ r) = nth e l d :: r.
  Proof.
    intros L. rewrite (firstn_snoc l e d L), <- app_assoc. rewrite cut2 by lia. reflexivity.
  Qed.

  (* a floating block *)
  Lemma float_block k a c fa fc : wfTree db k -> pf s0 = a ++ rpn k ++ c -> flags = fa ++ repeat 0%Z (sz k) ++ fc -> length fa = length a ->
    forall f s b tb sb ub, length a + sz k <= f -> inv s (length a + sz k) b tb sb ub ->
    exists f' s', deleteFloatLoop f db flags s (length a + sz k) = deleteFloatLoop f' db flags s' (length a) /\ length a <= f' /\
      inv s' (length a) (zUnk :: b) (nth (length a + sz k - 1) (tg s0) [] :: tb) ([] :: sb) (nth (length a + sz k - 1) (us s0) [] :: ub).
  Proof.
    intros W E EF LF f s b tb sb ub Hf I. pose proof (sz_pos k) as Pk.
    assert (LP : length (pf s0) = length a + sz k + length c) by (rewrite E, !app_length; lia).
    destruct f as [|f]; [lia|]. assert (X : deleteFloatLoop (S f) db flags s (length a + sz k) = deleteFloatLoop (S f) db flags s (S (length a + sz k - 1))) by (f_equal; lia).
    rewrite X. clear X. cbn [deleteFloatLoop].
    replace (nth_error flags (length a + sz k - 1)) with (Some 0%Z).
    2:{ symmetry. rewrite EF. rewrite nth_error_app2 by lia. rewrite nth_error_app1 by (rewrite repeat_length; lia). apply nth_error_repeat. lia. }
    cbn [rget rbind]. replace (0 =? 1)%Z with false by reflexivity. cbv iota.
    assert (NR : nth_error (pf s0) (length a + sz k - 1) = Some (rootOf k)).
    { rewrite E, nth_error_app2 by lia. rewrite nth_error_app1 by lia. rewrite <- rpn_last. f_equal. lia. }
    rewrite (inv_nth _ _ _ _ _ _ _ I) by lia. rewrite NR. cbn [rget rbind].
    destruct (rootOf k =? zUnk)%Z eqn:EU.
    - apply Z.eqb_eq in EU. assert (SK : sz k = 1).
      { destruct k as [z kids]. cbn [rootOf] in EU. subst z. apply wf_node in W. destruct W as [A _]. cbn in A. injection A as A.
        destruct kids; [reflexivity|discriminate]. }
      rewrite SK in *. replace (length a + 1 - 1) with (length a) in * by lia. exists f, s. split; [reflexivity|]. split; [lia|].
      replace (length a + 1) with (S (length a)) in I by lia. apply inv_back in I; [|lia].
      rewrite (nth_error_nth _ _ 0%Z NR), EU in I. rewrite EU in NR.
      rewrite (nth_error_nth _ _ [] (UN _ NR)) in I. exact I.
    - destruct I as [I1 [I2 [I3 I4]]].
      assert (PS : pf s = a ++ rpn k ++ b).
      { rewrite I1, E. rewrite app_assoc. replace (length a + sz k) with (length (a ++ rpn k)) by (rewrite app_length; lia).
        rewrite firstn_app, firstn_all, Nat.sub_diag, firstn_O, app_nil_r, <- app_assoc. reflexivity. }
      assert (SL : subproofLen db (pf s) (length a + sz k - 1) = Ok (sz k)) by (rewrite PS; apply subproofLen_ctx, W).
      assert (NS : nth_error (pf s) (length a + sz k - 1) = Some (rootOf k)).
      { rewrite I1, nth_error_app1 by (rewrite firstn_length; lia). rewrite nth_error_firstn_lt by lia. exact NR. }
      destruct (nth_error (sr s) (length a + sz k - 1)) as [src|] eqn:ES.
      2:{ apply nth_error_None in ES. rewrite I3, app_length, firstn_length in ES. lia. }
      rewrite SL. cbn [rbind]. unfold deleteSubProof. rewrite NS. cbn [rget rbind]. rewrite EU, SL. cbn [rbind]. rewrite ES. cbn [rget rbind].
      eexists f, _. split; [replace (length a + sz k - 1 + 1 - sz k) with (length a) by lia; reflexivity|]. split; [lia|].
      unfold inv. cbn [pf tg sr us]. replace (length a + sz k - 1 + 1) with (length a + sz k) by lia.
      rewrite I1, I2, I3, I4. rewrite !cut1, !cut2 by lia.
      assert (X : forall l : list (list Z), firstn (length a + sz k) l = firstn (S (length a + sz k - 1)) l) by (intros; f_equal; lia).
      rewrite !X. rewrite !(cut3 _ _ _ []) by lia. auto.
  Qed.

  Definition blockOk (t : tree) : Prop := forall a c fa fc,
    pf s0 = a ++ rpn t ++ c -> flags = fa ++ essl db t ++ fc -> length fa = length a ->
    forall f s b tb sb ub, length a + sz t <= f -> inv s (length a + sz t) b tb sb ub ->
    exists f' s', deleteFloatLoop f db flags s (length a + sz t) = deleteFloatLoop f' db flags s' (length a) /\ length a <= f' /\
      inv s' (length a) (rpn (dropFloating db t) ++ b) (moved (tg s0) (keptSteps db t (length a)) ++ tb)
        (zipw srv (rpn (dropFloating db t)) (keptSteps db t (length a)) ++ sb) (moved (us s0) (keptSteps db t (length a)) ++ ub).

  Lemma essAt_isE z j h : hypOf db z j = Some h -> essAt db z j = isE db h.
  Proof. intros H. unfold essAt, isE. rewrite H. reflexivity. Qed.

  Lemma kids_block z : forall kids hs a c fa fc, Forall (fun k => wfTree db k /\ blockOk k) kids -> length hs = length kids ->
    (forall j h, nth_error hs j = Some h -> hypOf db z j = Some h) ->
    pf s0 = a ++ flat_map rpn kids ++ c -> flags = fa ++ concat (zipw (essB db) kids hs) ++ fc -> length fa = length a ->
    forall f s b tb sb ub, length a + length (flat_map rpn kids) <= f -> inv s (length a + length (flat_map rpn kids)) b tb sb ub ->
    exists f' s', deleteFloatLoop f db flags s (length a + length (flat_map rpn kids)) = deleteFloatLoop f' db flags s' (length a) /\ length a <= f' /\
      inv s' (length a) (flat_map rpn (dropKids db z kids 0) ++ b) (moved (tg s0) (keptKids db z kids 0 (length a)) ++ tb)
        (zipw srv (flat_map rpn (dropKids db z kids 0)) (keptKids db z kids 0 (length a)) ++ sb) (moved (us s0) (keptKids db z kids 0 (length a)) ++ ub).
  Proof.
    induction kids as [|k kids IH] using rev_ind; intros hs a c fa fc FK LH HH E EF LF f s b tb sb ub Hf I.
    - cbn [flat_map length] in *. rewrite Nat.add_0_r in *. exists f, s. split; [reflexivity|]. split; [lia|]. exact I.
    - destruct hs as [|h hs _] using rev_ind; [rewrite app_length in LH; simpl in LH; lia|].
      rewrite !app_length in LH. cbn [length] in LH. assert (LH' : length hs = length kids) by lia.
      apply Forall_app in FK. destruct FK as [FK1 FK2]. inversion FK2 as [|? ? [Wk Bk] _]; subst.
      rewrite zipw_app in EF by lia. rewrite concat_app in EF. cbn [zipw concat] in EF. rewrite app_nil_r in EF.
      rewrite flat_map_app in *. cbn [flat_map] in *. rewrite app_nil_r in *. rewrite app_length in *.
      set (a' := a ++ flat_map rpn kids). set (fa' := fa ++ concat (zipw (essB db) kids hs)).
      assert (LC : length (concat (zipw (essB db) kids hs)) = length (flat_map rpn kids)).
      { apply concat_len. apply zipw_len; [lia|]. intros k0 h0 Ik. unfold essB. rewrite Forall_forall in FK1.
        destruct (isE db h0); [apply essl_len, FK1, Ik|apply repeat_length]. }
      assert (LA : length fa' = length a') by (unfold fa', a'; rewrite !app_length; lia).
      assert (LA2 : length a' = length a + length (flat_map rpn kids)) by (unfold a'; rewrite app_length; lia).
      assert (E1 : pf s0 = a' ++ rpn k ++ c) by (unfold a'; rewrite E, <- !app_assoc; reflexivity).
      assert (EF1 : flags = fa' ++ essB db k h ++ fc) by (unfold fa'; rewrite EF, <- !app_assoc; reflexivity).
      assert (EA : essAt db z (length kids) = isE db h).
      { apply essAt_isE, HH. rewrite <- LH', nth_error_app2, Nat.sub_diag by lia. reflexivity. }
      assert (HH' : forall j h0, nth_error hs j = Some h0 -> hypOf db z j = Some h0).
      { intros j h0 N. apply HH. rewrite nth_error_app1; [exact N|]. apply nth_error_Some. congruence. }
      rewrite Nat.add_assoc, <- LA2 in *.
      rewrite dropKids_snoc, keptKids_snoc, <- LA2. rewrite flat_map_app. cbn [flat_map]. rewrite app_nil_r. cbn [plus]. rewrite EA.
      unfold essB in EF1. destruct (isE db h).
      + destruct (Bk a' c fa' fc E1 EF1 LA f s b tb sb ub Hf I) as [f1 [s1 [R1 [F1 I1]]]]. rewrite R1. rewrite LA2 in F1, I1 |- *.
        assert (X1 : pf s0 = a ++ flat_map rpn kids ++ rpn k ++ c) by (rewrite E, <- !app_assoc; reflexivity).
        assert (X2 : flags = fa ++ concat (zipw (essB db) kids hs) ++ essl db k ++ fc) by (rewrite EF1; unfold fa'; rewrite <- !app_assoc; reflexivity).
        destruct (IH hs a (rpn k ++ c) fa (essl db k ++ fc) FK1 LH' HH' X1 X2 LF f1 s1 _ _ _ _ F1 I1) as [f2 [s2 [R2 [F2 I2]]]].
        exists f2, s2. split; [exact R2|]. split; [exact F2|].
        unfold moved in *. rewrite !map_app. rewrite zipw_app by (symmetry; apply keptKids_len). rewrite <- !app_assoc. exact I2.
      + destruct (float_block k a' c fa' fc Wk E1 EF1 LA f s b tb sb ub Hf I) as [f1 [s1 [R1 [F1 I1]]]]. rewrite R1. rewrite LA2 in F1, I1 |- *.
        assert (X1 : pf s0 = a ++ flat_map rpn kids ++ rpn k ++ c) by (rewrite E, <- !app_assoc; reflexivity).
        assert (X2 : flags = fa ++ concat (zipw (essB db) kids hs) ++ repeat 0%Z (sz k) ++ fc) by (rewrite EF1; unfold fa'; rewrite <- !app_assoc; reflexivity).
        destruct (IH hs a (rpn k ++ c) fa (repeat 0%Z (sz k) ++ fc) FK1 LH' HH' X1 X2 LF f1 s1 _ _ _ _ F1 I1) as [f2 [s2 [R2 [F2 I2]]]].
        exists f2, s2. split; [exact R2|]. split; [exact F2|].
        unfold moved in *. rewrite !map_app. rewrite zipw_app by (symmetry; apply keptKids_len). rewrite <- !app_assoc. exact I2.
  Qed.

  Lemma block_ok t : wfTree db t -> blockOk t.
  Proof.
    induction t as [z kids IH] using tree_ind2. intros W a c fa fc E EF LF f s b tb sb ub Hf I.
    destruct (wf_node _ _ _ W) as [A F]. pose proof (hypsOf_len db z _ A) as HL.
    assert (LP : length (pf s0) = length a + sz (Node z kids) + length c) by (rewrite E, !app_length; lia).
    rewrite sz_node in Hf, I |- *. rewrite sz_node in LP. destruct f as [|f]; [lia|].
    rewrite Nat.add_assoc, Nat.add_1_r in *. cbn [deleteFloatLoop].
    rewrite essl_eq in EF. rewrite <- app_assoc in EF.
    assert (LC : length (concat (zipw (essB db) kids (hypsOf db z))) = length (flat_map rpn kids)).
    { apply concat_len. apply zipw_len; [lia|]. intros k0 h0 Ik. unfold essB. rewrite Forall_forall in F.
      destruct (isE db h0); [apply essl_len, F, Ik|apply repeat_length]. }
    replace (nth_error flags (length a + length (flat_map rpn kids))) with (Some 1%Z).
    2:{ symmetry. rewrite EF, app_assoc. rewrite nth_error_app2 by (rewrite app_length; lia).
        replace (_ - _) with 0 by (rewrite app_length; lia). reflexivity. }
    cbn [rget rbind]. replace (1 =? 1)%Z with true by reflexivity. cbv iota. apply inv_back in I; [|lia].
    cbn [rpn] in E. rewrite <- app_assoc in E.
    assert (NZ : nth_error (pf s0) (length a + length (flat_map rpn kids)) = Some z).
    { rewrite E, app_assoc, nth_error_app2 by (rewrite app_length; lia). replace (_ - _) with 0 by (rewrite app_length; lia). reflexivity. }
    assert (Y1 : Forall (fun k => wfTree db k /\ blockOk k) kids) by (rewrite Forall_forall in *; intros k Ik; split; [auto|apply IH; auto]).
    assert (Y2 : forall j h, nth_error (hypsOf db z) j = Some h -> hypOf db z j = Some h).
    { intros j h N. unfold hypOf, hypsOf in *. destruct (z <? 0)%Z; [destruct j; discriminate|].
      destruct (nth_error (db_stmts db) (Z.to_nat z)) as [st|]; [|destruct j; discriminate].
      destruct (s_type st); try (destruct j; discriminate); exact N. }
    assert (Y3 : length a + length (flat_map rpn kids) <= f) by lia.
    destruct (kids_block z kids (hypsOf db z) a ([z] ++ c) fa ([1%Z] ++ fc) Y1 HL Y2 E EF LF f s _ _ _ _ Y3 I) as [f1 [s1 [R1 [F1 I1]]]].
    exists f1, s1. split; [exact R1|]. split; [exact F1|]. rewrite drop_eq, kept_eq. cbn [rpn]. unfold moved in *. rewrite !map_app.
    rewrite zipw_app by (symmetry; apply keptKids_len). rewrite <- !app_assoc. cbn [map zipw app].
    rewrite (nth_error_nth _ _ 0%Z NZ) in I1. unfold srv at 2. destruct (z =? zUnk)%Z eqn:EZ; [|exact I1].
    apply Z.eqb_eq in EZ. subst z. rewrite (nth_error_nth _ _ [] (UN _ NZ)) in I1. exact I1.
  Qed.
End F.

Lemma drop_wf db t : wfTree db t -> wfTree db (dropFloating db t).
Proof.
  induction t as [z kids IH] using tree_ind2. intros W. destruct (wf_node _ _ _ W) as [A F]. rewrite drop_eq.
  assert (L : forall kids j, length (dropKids db z kids j) = length kids) by (clear; induction kids as [|k kids IH]; intros j; cbn [dropKids length]; [|rewrite IH]; reflexivity).
  constructor; [rewrite L; exact A|]. clear -IH F. generalize 0 as j. induction kids as [|k kids IHk]; intros j; [constructor|].
  inversion IH; subst. inversion F; subst. cbn [dropKids]. constructor; [destruct (essAt db z j); [auto|apply wf_unknown]|auto].
Qed.
Lemma drop_norefs db t : noRefs (rpn t) -> noRefs (rpn (dropFloating db t)).
Proof.
  induction t as [z kids IH] using tree_ind2. intros N. destruct (norefs_node _ _ N) as [R F]. rewrite drop_eq. cbn [rpn].
  intros y I. rewrite in_app_iff in I. destruct I as [I|[<-|[]]]; [|exact R].
  revert I. generalize 0 as j. clear -IH F. induction kids as [|k kids IHk]; intros j I; [destruct I|].
  inversion IH; subst. inversion F; subst. cbn [dropKids flat_map] in I. rewrite in_app_iff in I. destruct I as [I|I]; [|eapply IHk; eassumption].
  destruct (essAt db z j); [eapply H1; eassumption|]. cbn in I. destruct I as [<-|[]]. reflexivity.
Qed.
Lemma zipw_length {A B C} (f : A -> B -> C) a : forall b, length a = length b -> length (zipw f a b) = length a.
Proof. induction a as [|x a IH]; intros [|y b] L; try discriminate; [reflexivity|]. simpl in *. f_equal. apply IH. lia. Qed.

Theorem delete_floating_ok db s T : wf_db db -> pipOk db s T -> legalCodes (rpn T) ->
  exists s', deleteFloating db s = Ok s' /\ pipOk db s' (dropFloating db T) /\
    tg s' = map (fun k => nth k (tg s) []) (keptSteps db T 0) /\
    us s' = map (fun k => nth k (us s) []) (keptSteps db T 0) /\
    forall i z k, nth_error (pf s') i = Some z -> nth_error (keptSteps db T 0) i = Some k ->
      nth_error (sr s') i = Some (if (z =? zUnk)%Z then [] else nth k (sr s) []).
Proof.
  intros WD P LC. pose proof P as [P1 P2 P3 P4 P5 P6 P7]. unfold deleteFloating. rewrite P2.
  rewrite (essential_ok db T WD P1 LC) by lia. cbn [rbind].
  destruct (block_ok db s (essl db T) P4 P5 P6 P7 T P1 [] [] [] []) with (f := sz T) (s := s) (b := @nil Z) (tb := @nil (list Z)) (sb := @nil (list Z)) (ub := @nil (list Z))
    as [f' [s' [R [_ I]]]]; cbn [app length plus]; rewrite ?app_nil_r; auto.
  { unfold inv. rewrite P2 in *. rewrite !app_nil_r. rewrite !firstn_all2 by lia. auto. }
  cbn [plus length] in R, I. rewrite R. assert (E : deleteFloatLoop f' db (essl db T) s' 0 = Ok s') by (destruct f'; reflexivity).
  exists s'. split; [exact E|]. destruct I as [I1 [I2 [I3 I4]]]. rewrite firstn_O in *. cbn [app] in *. rewrite app_nil_r in *.
  pose proof (kept_len db T 0) as KL. unfold moved in *.
  assert (SR : forall i z k, nth_error (pf s') i = Some z -> nth_error (keptSteps db T 0) i = Some k ->
      nth_error (sr s') i = Some (if (z =? zUnk)%Z then [] else nth k (sr s) [])).
  { intros i z k N1 N2. rewrite I3. rewrite I1 in N1. change (if (z =? zUnk)%Z then [] else nth k (sr s) []) with (srv s z k). apply zipw_nth; assumption. }
  split; [|split; [exact I2|split; [exact I4|exact SR]]].
  constructor; auto.
  - apply drop_wf, P1.
  - apply drop_norefs, P3.
  - rewrite I2, map_length, I1. exact KL.
  - rewrite I3, I1. apply zipw_length. symmetry. exact KL.
  - rewrite I4, map_length, I1. exact KL.
  - intros k N. destruct (nth_error (keptSteps db T 0) k) as [i|] eqn:Ek.
    + rewrite (SR _ _ _ N Ek). reflexivity.
    + apply nth_error_None in Ek. assert (k < length (pf s')) by (apply nth_error_Some; congruence). rewrite I1 in H. lia.
Qed.
