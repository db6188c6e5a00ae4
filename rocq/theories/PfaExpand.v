(* PfaExpand.v -- proofs about PfaModel: expandProof *)
From Coq Require Import ZifyBool ZifyNat.
From Verif Require Import SrcProofs Base MMSpec VerModel VerSpec ParModel SqModel SqSpec SqProofs SqAttr SqPack SqGood SqValid TrcWork StmScope StmTab VerStep VerProofs NmbProofs PfaModel PfaSpec PfaProofs PfaMore.
Open Scope nat_scope.

Lemma expandSteps_app db req hyps a b : expandSteps db req hyps (a ++ b) =
  (do x <- expandSteps db req hyps a; do y <- expandSteps db req hyps b; Ok (x ++ y)).
Proof.
  induction a as [|z a IH]; [cbn [app expandSteps rbind]; destruct (expandSteps db req hyps b); reflexivity|].
  cbn [app expandSteps]. destruct (expandStep db req hyps z) as [v| | |]; cbn [rbind]; try reflexivity. rewrite IH.
  destruct (expandSteps db req hyps a) as [v1| | |]; cbn [rbind]; try reflexivity.
  destruct (expandSteps db req hyps b) as [v2| | |]; cbn [rbind]; try reflexivity. rewrite <- app_assoc. reflexivity.
Qed.
Lemma findHyp_at z req : forall ks, findHyp z req (map rpn ks) = match hypAt req ks z with Some t => Some (rpn t) | None => None end.
Proof.
  induction req as [|h req IH]; intros [|k ks]; try reflexivity. cbn [findHyp hypAt map]. destruct (Z.of_nat h =? z)%Z; [reflexivity|apply IH].
Qed.
Lemma hypAt_in req : forall ks z t, hypAt req ks z = Some t -> In t ks.
Proof.
  induction req as [|h req IH]; intros [|k ks] z t E; try discriminate. cbn [hypAt] in E. destruct (Z.of_nat h =? z)%Z; [injection E as ->; left; reflexivity|].
  right. eapply IH. exact E.
Qed.
Lemma hypAt_some req : forall ks z, length ks = length req -> In z (map Z.of_nat req) -> exists t, hypAt req ks z = Some t.
Proof.
  induction req as [|h req IH]; intros [|k ks] z L I; try discriminate; [destruct I|]. cbn [hypAt]. destruct (Z.of_nat h =? z)%Z eqn:E; [eauto|].
  cbn [map In] in I. destruct I as [I|I]; [lia|]. apply IH; [simpl in L; lia|exact I].
Qed.
(* every $e statement of the source proof is one of req *)
Definition essIn (db : dbase) (req : list nat) (p : list Z) : Prop :=
  forall z st, In z p -> (0 <= z)%Z -> nth_error (db_stmts db) (Z.to_nat z) = Some st -> s_type st = S_e -> In (Z.to_nat z) req.

Lemma graft_node db req ks z st kids : (z <? 0)%Z = false -> nth_error (db_stmts db) (Z.to_nat z) = Some st -> isAssertion st ->
  graft db req ks (Node z kids) = Node z (map (graft db req ks) kids).
Proof. intros Z0 E A. cbn [graft]. rewrite E, Z0. destruct A as [-> | ->]; reflexivity. Qed.
Lemma graft_hyp db req ks z st kids : (z <? 0)%Z = false -> nth_error (db_stmts db) (Z.to_nat z) = Some st -> isHyp st ->
  graft db req ks (Node z kids) = match hypAt req ks z with Some t => t | None => unknown end.
Proof. intros Z0 E A. cbn [graft]. rewrite E, Z0. destruct A as [-> | ->]; reflexivity. Qed.
Lemma graft_neg db req ks z kids : (z < 0)%Z -> graft db req ks (Node z kids) = Node z kids.
Proof. intros Z0. cbn [graft]. replace (z <? 0)%Z with true by lia. destruct (nth_error _ _); reflexivity. Qed.

(* the three kinds of node *)
Lemma node_cases db z kids : wfTree db (Node z kids) ->
  (z < 0)%Z /\ kids = [] \/
  (0 <= z)%Z /\ exists st, nth_error (db_stmts db) (Z.to_nat z) = Some st /\
    (isHyp st /\ kids = [] \/ isAssertion st /\ length kids = length (s_reqHyps st)).
Proof.
  intros W. destruct (wf_node _ _ _ W) as [A _]. apply arity_cases in A. destruct A as [[A1 A2]|[A1 [st [A2 A3]]]].
  - left. split; [exact A1|]. destruct kids; [reflexivity|discriminate].
  - right. split; [exact A1|]. exists st. split; [exact A2|]. unfold isHyp, isAssertion. destruct A3 as [[A3 A4]|[A3 A4]]; [left|right; auto].
    split; [tauto|]. destruct kids; [reflexivity|discriminate].
Qed.
Lemma wf_kid db z kids k : wfTree db (Node z kids) -> In k kids -> wfTree db k.
Proof. intros W I. apply wf_node in W. destruct W as [_ W]. rewrite Forall_forall in W. apply W, I. Qed.
Lemma in_kid z kids k x : In k kids -> In x (rpn k) -> In x (rpn (Node z kids)).
Proof. intros I J. cbn [rpn]. rewrite in_app_iff. left. apply in_flat_map. eauto. Qed.
Lemma in_root z kids : In z (rpn (Node z kids)).
Proof. cbn [rpn]. rewrite in_app_iff. right. left. reflexivity. Qed.

Lemma expandSteps_graft db req ks s : wfTree db s -> noRefs (rpn s) -> legalCodes (rpn s) -> essIn db req (rpn s) -> length ks = length req ->
  expandSteps db req (map rpn ks) (rpn s) = Ok (rpn (graft db req ks s)).
Proof.
  intros W NR LC EI LK. induction s as [z kids IH] using tree_ind2.
  assert (K : expandSteps db req (map rpn ks) (flat_map rpn kids) = Ok (flat_map rpn (map (graft db req ks) kids))).
  { assert (X : forall k, In k kids -> expandSteps db req (map rpn ks) (rpn k) = Ok (rpn (graft db req ks k))).
    { intros k I. rewrite Forall_forall in IH. apply IH; auto.
      - eapply wf_kid; eassumption.
      - intros x J. apply NR. eapply in_kid; eassumption.
      - intros x J. apply LC. eapply in_kid; eassumption.
      - intros x st J. apply EI. eapply in_kid; eassumption. }
    clear -X. induction kids as [|k kids IHk]; [reflexivity|]. cbn [flat_map map]. rewrite expandSteps_app.
    rewrite X by (left; reflexivity). cbn [rbind]. rewrite IHk by (intros; apply X; right; assumption). reflexivity. }
  cbn [rpn]. rewrite expandSteps_app, K. cbn [rbind expandSteps]. unfold expandStep.
  pose proof (in_root z kids) as IR. destruct (node_cases db z kids W) as [[C1 C2]|[C1 [st [C2 [[C3 C4]|[C3 C4]]]]]].
  - replace (z <? 0)%Z with true by lia. destruct (LC z IR) as [L|[L|L]]; [lia| |rewrite (NR z IR) in L; discriminate].
    subst z kids. rewrite Z.eqb_refl. cbn [rbind]. rewrite graft_neg by exact C1. reflexivity.
  - replace (z <? 0)%Z with false by lia. rewrite C2. cbn [rget rbind]. subst kids. rewrite findHyp_at.
    rewrite (graft_hyp db req ks z st) by (auto; lia). cbn [map flat_map].
    destruct (hypAt req ks z) as [t|] eqn:EH.
    + destruct C3 as [-> | ->]; cbn [rbind app]; rewrite app_nil_r; reflexivity.
    + destruct C3 as [C3|C3]; rewrite C3; cbn [rbind]; [|reflexivity]. exfalso.
      destruct (hypAt_some req ks z LK) as [t E]; [|congruence]. apply in_map_iff. exists (Z.to_nat z). split; [lia|].
      apply (EI z st); auto.
  - replace (z <? 0)%Z with false by lia. rewrite C2. cbn [rget rbind]. rewrite (graft_node db req ks z st) by (auto; lia).
    destruct C3 as [-> | ->]; reflexivity.
Qed.

Lemma graft_wf db req ks s : wfTree db s -> Forall (wfTree db) ks -> wfTree db (graft db req ks s).
Proof.
  intros W F. induction s as [z kids IH] using tree_ind2. destruct (node_cases db z kids W) as [[C1 C2]|[C1 [st [C2 [[C3 C4]|[C3 C4]]]]]].
  - rewrite graft_neg by exact C1. exact W.
  - rewrite (graft_hyp db req ks z st) by (auto; lia). destruct (hypAt req ks z) as [t|] eqn:E; [|apply wf_unknown].
    rewrite Forall_forall in F. apply F. eapply hypAt_in. exact E.
  - rewrite (graft_node db req ks z st) by (auto; lia). destruct (wf_node _ _ _ W) as [A FK]. constructor; [rewrite map_length; exact A|].
    rewrite Forall_forall in *. intros x I. apply in_map_iff in I. destruct I as [k [<- I]]. apply IH; auto.
Qed.
Lemma graft_in db req ks s x : wfTree db s -> In x (rpn (graft db req ks s)) ->
  (exists k, In k ks /\ In x (rpn k)) \/ x = zUnk \/
  (In x (rpn s) /\ (x < 0)%Z) \/ (In x (rpn s) /\ (0 <= x)%Z /\ exists st, nth_error (db_stmts db) (Z.to_nat x) = Some st /\ isAssertion st).
Proof.
  intros W. induction s as [z kids IH] using tree_ind2. destruct (node_cases db z kids W) as [[C1 C2]|[C1 [st [C2 [[C3 C4]|[C3 C4]]]]]]; intros I.
  - rewrite graft_neg in I by exact C1. subst kids. destruct I as [<-|[]]. right. right. left. split; [left; reflexivity|exact C1].
  - rewrite (graft_hyp db req ks z st) in I by (auto; lia). destruct (hypAt req ks z) as [t|] eqn:E.
    + left. exists t. split; [eapply hypAt_in; exact E|exact I].
    + right. left. destruct I as [<-|[]]. reflexivity.
  - rewrite (graft_node db req ks z st) in I by (auto; lia). cbn [rpn] in I. rewrite in_app_iff in I. destruct I as [I|[<-|[]]].
    + apply in_flat_map in I. destruct I as [y [I J]]. apply in_map_iff in I. destruct I as [k [<- I]]. rewrite Forall_forall in IH.
      pose proof (wf_kid _ _ _ _ W I) as Wk.
      destruct (IH k I Wk J) as [H|[H|[[H1 H2]|[H1 H2]]]]; [left; exact H|right; left; exact H|right; right; left|right; right; right];
        (split; [eapply in_kid; eassumption|exact H2]).
    + right. right. right. split; [apply in_root|]. split; [exact C1|]. exists st. auto.
Qed.

(* ---------- one expansion ---------- *)
Lemma hypProofs_ok db : forall kids a b acc, Forall (wfTree db) kids ->
  hypProofs db (a ++ flat_map rpn kids ++ b) (length kids) (length a + length (flat_map rpn kids)) acc = Ok (map rpn kids ++ acc, length a).
Proof.
  induction kids as [|k kids IH] using rev_ind; intros a b acc F.
  - cbn [flat_map length hypProofs]. rewrite Nat.add_0_r. reflexivity.
  - apply Forall_app in F. destruct F as [F1 F2]. inversion F2 as [|? ? Wk _]; subst. pose proof (sz_pos k) as Pk.
    rewrite app_length. cbn [length]. rewrite (Nat.add_comm (length kids)). cbn [plus hypProofs].
    rewrite flat_map_app. cbn [flat_map]. rewrite app_nil_r, app_length.
    destruct (length a + (length (flat_map rpn kids) + sz k)) as [|h] eqn:Eh; [lia|].
    set (L := a ++ (flat_map rpn kids ++ rpn k) ++ b).
    assert (EL : L = (a ++ flat_map rpn kids) ++ rpn k ++ b) by (unfold L; rewrite <- !app_assoc; reflexivity).
    assert (SL : subproofLen db L h = Ok (sz k)).
    { rewrite EL. replace h with (length (a ++ flat_map rpn kids) + sz k - 1) by (rewrite app_length; lia). apply subproofLen_ctx, Wk. }
    rewrite SL. cbn [rbind]. replace (S h - sz k) with (length a + length (flat_map rpn kids)) by lia.
    assert (FS : firstn (sz k) (skipn (length a + length (flat_map rpn kids)) L) = rpn k).
    { rewrite EL. rewrite <- app_length. rewrite skipn_app, skipn_all, Nat.sub_diag. cbn [app skipn].
      rewrite firstn_app, firstn_all, Nat.sub_diag, firstn_O, app_nil_r. reflexivity. }
    rewrite FS. unfold L. rewrite <- app_assoc. rewrite IH by exact F1. rewrite map_app, <- app_assoc. reflexivity.
Qed.
Lemma lastUse_spec src : forall l o, match lastUse src l o with
  | Some i => o <= i /\ nth_error l (i - o) = Some src
  | None => ~ In src l end.
Proof.
  induction l as [|z l IH]; intros o; cbn [lastUse]; [intros []|]. specialize (IH (S o)). destruct (lastUse src l (S o)) as [i|].
  - destruct IH as [I1 I2]. split; [lia|]. replace (i - o) with (S (i - S o)) by lia. exact I2.
  - destruct (z =? src)%Z eqn:E.
    + split; [lia|]. rewrite Nat.sub_diag. cbn [nth_error]. f_equal. lia.
    + intros [H|H]; [lia|contradiction].
Qed.

Section X.
  Variables (db : dbase) (src : nat) (st : stmtRec) (s : tree).
  Hypothesis ES : nth_error (db_stmts db) src = Some st.
  Hypothesis TP : s_type st = S_p.
  Hypothesis W : wfTree db s.
  Hypothesis NR : noRefs (rpn s).
  Hypothesis LC : legalCodes (rpn s).
  Hypothesis EI : essIn db (s_reqHyps st) (rpn s).
  Hypothesis NS : ~ In (Z.of_nat src) (rpn s).
  Let req := s_reqHyps st.
  Let c := sz s.

  Fixpoint wgt (t : tree) : nat :=
    match t with Node z ks => let w := list_sum (map wgt ks) in if (z =? Z.of_nat src)%Z then 1 + c * w else w end.
  Lemma in_sum (l : list nat) x : In x l -> x <= list_sum l.
  Proof. induction l as [|y l IH]; [intros []|]. cbn [list_sum fold_right In]. change (fold_right Nat.add 0 l) with (list_sum l). intros [->|I]; [lia|]. specialize (IH I). lia. Qed.
  Lemma wgt_unknown : wgt unknown = 0.
  Proof. unfold unknown. cbn [wgt]. replace (zUnk =? Z.of_nat src)%Z with false by (unfold zUnk; lia). reflexivity. Qed.
  Lemma sum_app a b : list_sum (a ++ b) = list_sum a + list_sum b.
  Proof. apply list_sum_app. Qed.
  Lemma wgt_graft ks : forall t, wfTree db t -> ~ In (Z.of_nat src) (rpn t) -> wgt (graft db req ks t) <= sz t * list_sum (map wgt ks).
  Proof.
    intros t. induction t as [z kids IH] using tree_ind2. intros Wt Nt.
    assert (ZN : (z =? Z.of_nat src)%Z = false) by (apply Z.eqb_neq; intros ->; apply Nt, in_root).
    destruct (node_cases db z kids Wt) as [[C1 C2]|[C1 [st' [C2 [[C3 C4]|[C3 C4]]]]]].
    - rewrite graft_neg by exact C1. subst kids. cbn [wgt]. rewrite ZN. cbn. lia.
    - rewrite (graft_hyp db req ks z st') by (auto; lia). pose proof (sz_pos (Node z kids)). destruct (hypAt req ks z) as [t|] eqn:E.
      + apply hypAt_in in E. pose proof (in_sum (map wgt ks) (wgt t) (in_map _ _ _ E)). nia.
      + rewrite wgt_unknown. lia.
    - rewrite (graft_node db req ks z st') by (auto; lia). cbn [wgt]. rewrite ZN. rewrite sz_node, map_map.
      assert (X : list_sum (map (fun x => wgt (graft db req ks x)) kids) <= length (flat_map rpn kids) * list_sum (map wgt ks)); [|lia].
      assert (Y : forall k, In k kids -> wgt (graft db req ks k) <= sz k * list_sum (map wgt ks)).
      { intros k I. rewrite Forall_forall in IH. apply IH; [exact I|eapply wf_kid; eassumption|]. intros J. apply Nt. eapply in_kid; eassumption. }
      clear -Y. induction kids as [|k kids IHk]; [simpl; lia|]. cbn [map flat_map list_sum fold_right]. rewrite app_length.
      change (fold_right Nat.add 0 (map (fun x => wgt (graft db req ks x)) kids)) with (list_sum (map (fun x => wgt (graft db req ks x)) kids)).
      assert (Z : list_sum (map (fun x => wgt (graft db req ks x)) kids) <= length (flat_map rpn kids) * list_sum (map wgt ks)) by (apply IHk; intros; apply Y; right; assumption).
      specialize (Y k (or_introl eq_refl)). nia.
  Qed.
  Lemma put_wgt v T path T' : putAt v T path T' -> forall k u, nodeAt T k path u -> wgt v < wgt u -> wgt T' < wgt T.
  Proof.
    induction 1 as [t|z ks1 kd ks2 path k' P IH]; intros k u N L.
    - inversion N; subst. exact L.
    - inversion N as [|? ? ? c0 k0 ? ? Nc Q]; subst. rewrite nth_error_app2, Nat.sub_diag in Nc by lia. injection Nc as <-.
      specialize (IH _ _ Q L). cbn [wgt]. rewrite !map_app. cbn [map]. rewrite !sum_app. cbn [list_sum fold_right].
      pose proof (sz_pos s). destruct (z =? Z.of_nat src)%Z; unfold c in *; nia.
  Qed.
  Lemma put_expanded v T path T' : putAt v T path T' -> forall k u, nodeAt T k path u ->
    expanded db src req s v = expanded db src req s u -> expanded db src req s T' = expanded db src req s T.
  Proof.
    induction 1 as [t|z ks1 kd ks2 path k' P IH]; intros k u N E.
    - inversion N; subst. exact E.
    - inversion N as [|? ? ? c0 k0 ? ? Nc Q]; subst. rewrite nth_error_app2, Nat.sub_diag in Nc by lia. injection Nc as <-.
      specialize (IH _ _ Q E). cbn [expanded]. rewrite !map_app. cbn [map]. rewrite IH. reflexivity.
  Qed.
  Lemma expanded_node z ks : expanded db src req s (Node z ks) =
    if (z =? Z.of_nat src)%Z then graft db req (map (expanded db src req s) ks) s else Node z (map (expanded db src req s) ks).
  Proof. reflexivity. Qed.
  Lemma expanded_graft ks : forall t, wfTree db t -> ~ In (Z.of_nat src) (rpn t) ->
    expanded db src req s (graft db req ks t) = graft db req (map (expanded db src req s) ks) t.
  Proof.
    intros t. induction t as [z kids IH] using tree_ind2. intros Wt Nt.
    assert (ZN : (z =? Z.of_nat src)%Z = false) by (apply Z.eqb_neq; intros ->; apply Nt, in_root).
    assert (HM : forall rq ks0, hypAt rq (map (expanded db src req s) ks0) z = match hypAt rq ks0 z with Some t => Some (expanded db src req s t) | None => None end).
    { clear. induction rq as [|h rq IH]; intros [|k ks0]; try reflexivity. cbn [hypAt map]. destruct (Z.of_nat h =? z)%Z; [reflexivity|apply IH]. }
    destruct (node_cases db z kids Wt) as [[C1 C2]|[C1 [st' [C2 [[C3 C4]|[C3 C4]]]]]].
    - rewrite !graft_neg by exact C1. subst kids. rewrite expanded_node, ZN. reflexivity.
    - rewrite !(graft_hyp db req _ z st') by (auto; lia). rewrite HM. destruct (hypAt req ks z) as [t|]; [reflexivity|].
      unfold unknown. rewrite expanded_node. replace (zUnk =? Z.of_nat src)%Z with false by (unfold zUnk; lia). reflexivity.
    - rewrite !(graft_node db req _ z st') by (auto; lia). rewrite expanded_node, ZN, map_map. f_equal. apply map_ext_in.
      intros k I. rewrite Forall_forall in IH. apply IH; [exact I|eapply wf_kid; eassumption|]. intros J. apply Nt. eapply in_kid; eassumption.
  Qed.
  Lemma expanded_id T : ~ In (Z.of_nat src) (rpn T) -> expanded db src req s T = T.
  Proof.
    induction T as [z kids IH] using tree_ind2. intros N. rewrite expanded_node.
    replace (z =? Z.of_nat src)%Z with false by (symmetry; apply Z.eqb_neq; intros ->; apply N, in_root).
    f_equal. rewrite <- map_id. apply map_ext_in. intros k I. rewrite Forall_forall in IH. apply IH; [exact I|]. intros J. apply N. eapply in_kid; eassumption.
  Qed.

  Lemma expandLoop_ok : forall fuel T, wfTree db T -> wgt T < fuel ->
    expandLoop fuel db src req (rpn s) (rpn T) = Ok (rpn (expanded db src req s T)).
  Proof.
    induction fuel as [|f IH]; intros T WT Hf; [lia|]. cbn [expandLoop].
    pose proof (lastUse_spec (Z.of_nat src) (rpn T) 0) as LU. destruct (lastUse (Z.of_nat src) (rpn T) 0) as [step|].
    - destruct LU as [_ LU]. rewrite Nat.sub_0_r in LU.
      assert (B : step < sz T) by (apply nth_error_Some; congruence).
      destruct (nodeAt_total T step B) as [path [u N]]. pose proof (nodeAt_root _ _ _ _ N) as R. rewrite LU in R. injection R as R.
      destruct u as [z ks]. cbn [rootOf] in R. subst z.
      pose proof (node_wf _ _ _ _ _ WT N) as Wu. destruct (wf_node _ _ _ Wu) as [A F].
      assert (LK : length ks = length req).
      { unfold arity in A. replace (Z.of_nat src <? 0)%Z with false in A by lia. rewrite Nat2Z.id, ES, TP in A. injection A as A. unfold req. lia. }
      rewrite (subLen_node db T step path _ WT N). cbn [rbind]. destruct (node_split _ _ _ _ N) as [a [b [E L]]].
      assert (HP : hypProofs db (rpn T) (length req) step [] = Ok (map rpn ks, length a)).
      { rewrite E, <- LK. rewrite sz_node in L. replace step with (length a + length (flat_map rpn ks)) by lia. cbn [rpn]. rewrite <- app_assoc.
        rewrite hypProofs_ok by exact F. rewrite app_nil_r. reflexivity. }
      rewrite HP. cbn [rbind fst snd].
      rewrite sz_node in *. replace (step - length a =? length (flat_map rpn ks) + 1 - 1) with true by lia. cbn [negb].
      rewrite expandSteps_graft by auto. cbn [rbind].
      assert (Wg : wfTree db (graft db req ks s)) by (apply graft_wf; assumption).
      destruct (put_ok db T step path (Node (Z.of_nat src) ks) (graft db req ks s) WT N Wg) as [T' [P1 [P2 [P3 _]]]].
      unfold splice in P2. rewrite sz_node in P2. rewrite <- P2.
      assert (WG : wgt (graft db req ks s) < wgt (Node (Z.of_nat src) ks)).
      { cbn [wgt]. rewrite Z.eqb_refl. pose proof (wgt_graft ks s W NS). unfold c. lia. }
      rewrite IH; [|exact P3|pose proof (put_wgt _ _ _ _ P1 _ _ N WG); lia].
      f_equal. f_equal. apply (put_expanded _ _ _ _ P1 _ _ N). rewrite expanded_graft by assumption.
      rewrite expanded_node, Z.eqb_refl. reflexivity.
    - rewrite expanded_id by exact LU. reflexivity.
  Qed.

  Lemma expanded_wf T : wfTree db T -> wfTree db (expanded db src req s T).
  Proof.
    induction T as [z kids IH] using tree_ind2. intros WT. destruct (wf_node _ _ _ WT) as [A F]. rewrite expanded_node.
    assert (FK : Forall (wfTree db) (map (expanded db src req s) kids)).
    { rewrite Forall_forall in *. intros x I. apply in_map_iff in I. destruct I as [k [<- I]]. apply IH; auto. }
    destruct (z =? Z.of_nat src)%Z; [apply graft_wf; assumption|]. constructor; [rewrite map_length; exact A|exact FK].
  Qed.
  (* what the result is made of *)
  Lemma expanded_in T x : In x (rpn (expanded db src req s T)) ->
    (In x (rpn T) /\ x <> Z.of_nat src) \/ x = zUnk \/
    (In x (rpn s) /\ (0 <= x)%Z /\ exists sx, nth_error (db_stmts db) (Z.to_nat x) = Some sx /\ isAssertion sx).
  Proof.
    induction T as [z kids IH] using tree_ind2. rewrite expanded_node.
    assert (K : forall y, In y (flat_map rpn (map (expanded db src req s) kids)) -> y = x ->
      (In x (rpn (Node z kids)) /\ x <> Z.of_nat src) \/ x = zUnk \/
      (In x (rpn s) /\ (0 <= x)%Z /\ exists sx, nth_error (db_stmts db) (Z.to_nat x) = Some sx /\ isAssertion sx)).
    { intros y I ->. apply in_flat_map in I. destruct I as [t [I J]]. apply in_map_iff in I. destruct I as [k [<- I]].
      rewrite Forall_forall in IH. destruct (IH k I J) as [[H1 H2]|H]; [left; split; [eapply in_kid; eassumption|exact H2]|right; exact H]. }
    destruct (z =? Z.of_nat src)%Z eqn:E; intros I.
    - apply graft_in in I; [|exact W]. destruct I as [[k [I J]]|[H|[[H1 H2]|[H1 H2]]]].
      + apply (K x); [apply in_flat_map; eauto|reflexivity].
      + right. left. exact H.
      + right. left. destruct (LC x H1) as [L|[L|L]]; [lia|exact L|]. rewrite (NR x H1) in L. discriminate.
      + right. right. auto.
    - cbn [rpn] in I. rewrite in_app_iff in I. destruct I as [I|[<-|[]]]; [eapply K; [exact I|reflexivity]|]. left. split; [apply in_root|lia].
  Qed.
End X.
