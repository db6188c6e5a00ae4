(* SqAttr.v -- indentation, essential flags and target hypotheses. *)
From Verif Require Import Base VerModel VerSpec ParModel SqModel SqSpec SqProofs SqPack.
Open Scope nat_scope.

(* ---------- positions ---------- *)
Lemma nodeAt_bound t k path u : nodeAt t k path u -> k < sz t.
Proof.
  induction 1 as [t|z kids j c k path u Hj _ IH].
  - pose proof (sz_pos t). lia.
  - rewrite sz_node. apply nth_error_split in Hj. destruct Hj as [a [b [-> L]]]. subst j.
    rewrite firstn_app_exact, flat_map_app. simpl. rewrite !app_length. lia.
Qed.

Lemma flat_split (kids : list tree) k : k < length (flat_map rpn kids) ->
  exists j c k', nth_error kids j = Some c /\ k' < sz c /\ k = length (flat_map rpn (firstn j kids)) + k'.
Proof.
  revert k. induction kids as [|c kids IH]; intros k H; simpl in H; [lia|].
  rewrite app_length in H. destruct (le_lt_dec (sz c) k) as [G|G].
  - destruct (IH (k - sz c)) as [j [c' [k' [A [B C]]]]]; [lia|].
    exists (S j), c', k'. split; [exact A|]. split; [exact B|]. simpl. rewrite app_length. lia.
  - exists 0, c, k. simpl. auto.
Qed.

Lemma nodeAt_total t : forall k, k < sz t -> exists path u, nodeAt t k path u.
Proof.
  induction t as [z kids IH] using tree_ind2. intros k Hk. rewrite sz_node in Hk.
  destruct (Nat.eq_dec k (length (flat_map rpn kids))) as [->|N].
  - exists [], (Node z kids). replace (length (flat_map rpn kids)) with (sz (Node z kids) - 1) by (rewrite sz_node; lia).
    constructor.
  - destruct (flat_split kids k) as [j [c [k' [A [B ->]]]]]; [lia|].
    rewrite Forall_forall in IH. destruct (IH c (nth_error_In _ _ A) k' B) as [path [u P]].
    exists ((z, j) :: path), u. constructor 2 with c; assumption.
Qed.

Lemma flat_firstn_le (kids : list tree) : forall i j c, i < j -> nth_error kids i = Some c ->
  length (flat_map rpn (firstn i kids)) + sz c <= length (flat_map rpn (firstn j kids)).
Proof.
  induction kids as [|a kids IH]; intros [|i] [|j] c L N; simpl in *; try lia; try discriminate.
  - inversion N; subst. rewrite app_length. lia.
  - rewrite !app_length. specialize (IH i j c ltac:(lia) N). lia.
Qed.

Lemma nodeAt_unique t k path u : nodeAt t k path u -> forall path' u', nodeAt t k path' u' -> path = path' /\ u = u'.
Proof.
  intros H. induction H as [t|z kids j c k path u Hj H IH]; intros path' u' H'.
  - remember (sz t - 1) as kk eqn:EK.
    destruct H' as [t'|z kids j c k path u Hj H1]; [auto|]. exfalso.
    pose proof (nodeAt_bound _ _ _ _ H1) as B. rewrite sz_node in EK.
    pose proof (flat_firstn_le kids j (S j) c ltac:(lia) Hj) as Q.
    assert (Q2 : length (flat_map rpn (firstn (S j) kids)) <= length (flat_map rpn kids)).
    { rewrite <- (firstn_skipn (S j) kids) at 2. rewrite flat_map_app, app_length. lia. }
    lia.
  - assert (B := nodeAt_bound _ _ _ _ H).
    remember (length (flat_map rpn (firstn j kids)) + k) as kk eqn:EK.
    remember (Node z kids) as tt eqn:ET.
    destruct H' as [t'|z' kids' j' c' k' path' u' Hj' H'].
    + exfalso. subst t'. rewrite sz_node in EK.
      pose proof (flat_firstn_le kids j (S j) c ltac:(lia) Hj) as Q.
      assert (Q2 : length (flat_map rpn (firstn (S j) kids)) <= length (flat_map rpn kids)).
      { rewrite <- (firstn_skipn (S j) kids) at 2. rewrite flat_map_app, app_length. lia. }
      lia.
    + inversion ET; subst z' kids'. assert (B' := nodeAt_bound _ _ _ _ H').
      destruct (lt_eq_lt_dec j j') as [[L|E]|L].
      * pose proof (flat_firstn_le kids j j' c L Hj). lia.
      * subst j'. assert (c' = c) by congruence. subst c'. assert (k' = k) by lia. subst k'.
        destruct (IH _ _ H') as [-> ->]. auto.
      * pose proof (flat_firstn_le kids j' j c' L Hj'). lia.
Qed.

(* a list assembled from one block per kid *)
Lemma nth_blocks (kids : list tree) (gl : list (list Z)) :
  Forall2 (fun c l => length l = sz c) kids gl ->
  forall j c k l suf, nth_error kids j = Some c -> nth_error gl j = Some l -> k < sz c ->
  nth_error (concat gl ++ suf) (length (flat_map rpn (firstn j kids)) + k) = nth_error l k.
Proof.
  induction 1 as [|c0 l0 kids gl L _ IH]; intros j c k l suf Hj Hl Hk; [destruct j; discriminate|].
  destruct j as [|j]; simpl in *.
  - inversion Hj; inversion Hl; subst. rewrite <- app_assoc. rewrite nth_error_app1 by lia. reflexivity.
  - rewrite app_length, <- app_assoc. rewrite nth_error_app2 by lia.
    replace (sz c0 + length (flat_map rpn (firstn j kids)) + k - length l0)
      with (length (flat_map rpn (firstn j kids)) + k) by lia.
    eapply IH; eassumption.
Qed.

Lemma rpn_last t : nth_error (rpn t) (sz t - 1) = Some (rootOf t).
Proof.
  destruct t as [z kids]. simpl. rewrite app_length. simpl.
  replace (length (flat_map rpn kids) + 1 - 1) with (length (flat_map rpn kids)) by lia.
  rewrite nth_error_app2 by lia. rewrite Nat.sub_diag. reflexivity.
Qed.
Lemma sz_eqb0 t : (sz t =? 0) = false.
Proof. apply Nat.eqb_neq. pose proof (sz_pos t). lia. Qed.

Lemma kid_len db k pre suf : wfTree db k ->
  subLen (S (length (pre ++ rpn k))) db (pre ++ rpn k ++ suf) (length (pre ++ rpn k)) = Ok (sz k).
Proof. intros W. apply subLen_tree; [exact W|]. rewrite app_length. lia. Qed.

(* ---------- indentation ---------- *)
Fixpoint depths (t : tree) (l : Z) : list Z :=
  match t with Node z kids => concat (map (fun k => depths k (l + 1)%Z) kids) ++ [l] end.

Lemma concat_len (kids : list tree) (gl : list (list Z)) :
  Forall2 (fun c l => length l = sz c) kids gl -> length (concat gl) = length (flat_map rpn kids).
Proof. induction 1; simpl; [reflexivity|]. rewrite !app_length. congruence. Qed.

Lemma depths_len t : forall l, length (depths t l) = sz t.
Proof.
  induction t as [z kids IH] using tree_ind2. intros l. simpl. rewrite !app_length. f_equal.
  apply concat_len. clear -IH. induction IH; simpl; constructor; auto.
Qed.

Lemma indLoop_ok db rec (g : tree -> list Z) suf : forall kids acc,
  Forall (fun k => wfTree db k /\ rec (rpn k) = Ok (g k)) kids ->
  indLoop rec db (flat_map rpn kids ++ suf) (length kids) (length (flat_map rpn kids)) acc
    = Ok (concat (map g kids) ++ acc, 0).
Proof.
  intros kids. revert suf. induction kids as [|k kids IH] using rev_ind; intros suf acc F; [reflexivity|].
  apply Forall_app in F. destruct F as [F1 F2]. inversion F2 as [|? ? [W E] _]; subst.
  rewrite app_length. simpl length. rewrite Nat.add_1_r. cbn [indLoop].
  rewrite flat_map_app. simpl flat_map. rewrite app_nil_r, <- app_assoc.
  rewrite kid_len by exact W. cbn [rbind].
  replace (length (flat_map rpn kids ++ rpn k) - sz k) with (length (flat_map rpn kids)) by (rewrite app_length; lia).
  rewrite skipn_app_exact, firstn_app_exact, E. cbn [rbind].
  rewrite IH by exact F1. rewrite map_app, concat_app. simpl. rewrite app_nil_r, <- app_assoc. reflexivity.
Qed.

Lemma indentation_ok db t : wfTree db t -> forall fuel l, sz t <= fuel ->
  getIndentation fuel db (rpn t) l = Ok (depths t l).
Proof.
  induction t as [z kids IH] using tree_ind2. intros W fuel l Hf. inversion W as [? ? A F]; subst.
  destruct fuel as [|f]; [rewrite sz_node in Hf; lia|].
  cbn [getIndentation]. rewrite sz_eqb0, rpn_last. cbn [rget rbind rootOf].
  assert (E1 : kids = [] -> (sz (Node z kids) =? 1) = true /\ depths (Node z kids) l = [l]).
  { intros ->. split; reflexivity. }
  apply arity_cases in A. destruct A as [[A1 A2]|[A1 [st [A2 A3]]]].
  - apply Z.ltb_lt in A1. rewrite A1. destruct kids; [|discriminate].
    destruct (E1 eq_refl) as [-> ->]. reflexivity.
  - replace (z <? 0)%Z with false by (symmetry; apply Z.ltb_ge; exact A1).
    rewrite A2. cbn [rget rbind].
    destruct A3 as [[A3 A4]|[A3 A4]].
    + destruct kids; [|discriminate]. destruct (E1 eq_refl) as [-> ->].
      destruct A4 as [-> | ->]; reflexivity.
    + assert (L : indLoop (fun sub => getIndentation f db sub (l + 1)%Z) db (rpn (Node z kids))
                   (length (s_reqHyps st)) (sz (Node z kids) - 1) []
                  = Ok (concat (map (fun k => depths k (l + 1)%Z) kids) ++ [], 0)).
      { rewrite <- A3. replace (sz (Node z kids) - 1) with (length (flat_map rpn kids)) by (rewrite sz_node; lia).
        simpl rpn. apply (indLoop_ok db _ (fun k => depths k (l + 1)%Z) [z]).
        rewrite Forall_forall in *. intros k Hk. split; [auto|]. apply IH; auto.
        apply sz_kid in Hk. rewrite sz_node in Hf. lia. }
      rewrite app_nil_r in L.
      destruct A4 as [-> | ->]; rewrite L; reflexivity.
Qed.

Lemma depths_at t k path u : nodeAt t k path u -> forall l,
  nth_error (depths t l) k = Some (l + Z.of_nat (length path))%Z.
Proof.
  induction 1 as [t|z kids j c k path u Hj H IH]; intros l.
  - destruct t as [z kids]. simpl length. simpl rpn. simpl depths.
    replace (length (flat_map rpn kids ++ [z]) - 1) with (length (concat (map (fun k => depths k (l + 1)%Z) kids))).
    + rewrite nth_error_app2 by lia. rewrite Nat.sub_diag. simpl. f_equal. lia.
    + rewrite app_length. simpl. rewrite (concat_len kids); [lia|].
      clear. induction kids; simpl; constructor; [apply depths_len|assumption].
  - simpl depths. rewrite (nth_blocks kids) with (c := c) (l := depths c (l + 1)%Z).
    + rewrite IH. f_equal. simpl length. lia.
    + clear. induction kids; simpl; constructor; [apply depths_len|assumption].
    + exact Hj.
    + rewrite nth_error_map, Hj. reflexivity.
    + eapply nodeAt_bound. exact H.
Qed.

(* ---------- per-hypothesis blocks ---------- *)
Fixpoint zipw {A B C} (f : A -> B -> C) (a : list A) (b : list B) : list C :=
  match a, b with
  | x :: a', y :: b' => f x y :: zipw f a' b'
  | _, _ => []
  end.
Lemma zipw_app {A B C} (f : A -> B -> C) a a' b b' : length a = length b ->
  zipw f (a ++ a') (b ++ b') = zipw f a b ++ zipw f a' b'.
Proof. revert b. induction a; intros [|y b] L; try discriminate; [reflexivity|]. simpl. f_equal. auto. Qed.
Lemma zipw_nth {A B C} (f : A -> B -> C) a b j x y : nth_error a j = Some x -> nth_error b j = Some y ->
  nth_error (zipw f a b) j = Some (f x y).
Proof.
  revert b j. induction a; intros [|y' b] [|j] H1 H2; simpl in *; try discriminate.
  - congruence.
  - auto.
Qed.
Lemma zipw_len (f : tree -> nat -> list Z) kids hs : length kids = length hs ->
  (forall k h, In k kids -> length (f k h) = sz k) ->
  Forall2 (fun c l => length l = sz c) kids (zipw f kids hs).
Proof.
  revert hs. induction kids; intros [|h hs] L H; try discriminate; simpl; constructor.
  - apply H. left. reflexivity.
  - apply IHkids; [simpl in L; lia|]. intros. apply H. right. assumption.
Qed.

(* hypotheses of the statement at the root *)
Definition hypsOf (db : dbase) (z : Z) : list nat :=
  if (z <? 0)%Z then [] else
  match nth_error (db_stmts db) (Z.to_nat z) with
  | Some st => match s_type st with S_a | S_p => s_reqHyps st | _ => [] end
  | None => []
  end.
Lemma hypsOf_len db z n : arity db z = Some n -> length (hypsOf db z) = n.
Proof.
  unfold arity, hypsOf. destruct (z <? 0)%Z; [intros H; inversion H; reflexivity|].
  destruct (nth_error _ _) as [st|]; [|discriminate].
  destruct (s_type st); intros H; inversion H; reflexivity.
Qed.

(* ---------- target hypotheses ---------- *)
Fixpoint targets (db : dbase) (t : tree) (own : nat) : list Z :=
  match t with
  | Node z kids =>
      concat ((fix go ks hs := match ks, hs with
               | k :: ks', h :: hs' => targets db k h :: go ks' hs'
               | _, _ => [] end) kids (hypsOf db z)) ++ [Z.of_nat own]
  end.
Lemma targets_eq db z kids own :
  targets db (Node z kids) own = concat (zipw (targets db) kids (hypsOf db z)) ++ [Z.of_nat own].
Proof.
  simpl. do 2 f_equal. generalize (hypsOf db z). induction kids; intros [|h hs]; simpl; try reflexivity.
  f_equal. apply IHkids.
Qed.
Lemma targets_len db t : wfTree db t -> forall own, length (targets db t own) = sz t.
Proof.
  induction t as [z kids IH] using tree_ind2. intros W own. inversion W as [? ? A F]; subst.
  rewrite targets_eq, sz_node, app_length. f_equal. apply concat_len.
  apply zipw_len; [symmetry; apply hypsOf_len, A|]. rewrite Forall_forall in *. auto.
Qed.

(* proof-string codes that can occur *)
Definition legalCodes (p : list Z) : Prop := forall z, In z p -> (0 <= z)%Z \/ z = zUnk \/ isRef z = true.
Lemma legal_kid z kids k : legalCodes (rpn (Node z kids)) -> In k kids -> legalCodes (rpn k).
Proof. intros H Hk y Hy. apply H. simpl. apply in_or_app. left. apply in_flat_map. eauto. Qed.

Lemma sz1_kids db z kids own : sz (Node z kids) <= 1 -> targets db (Node z kids) own = [Z.of_nat own].
Proof.
  rewrite sz_node. intros H. destruct kids as [|k kids].
  - reflexivity.
  - simpl in H. rewrite app_length in H. pose proof (sz_pos k). lia.
Qed.

Lemma tgtLoop_ok db rec suf : forall kids hs acc, length kids = length hs ->
  Forall (fun k => wfTree db k /\ (1 < sz k -> forall h, rec (rpn k) h = Ok (targets db k h))) kids ->
  tgtLoop rec db (flat_map rpn kids ++ suf) (rev hs) (length (flat_map rpn kids)) acc
    = Ok (concat (zipw (targets db) kids hs) ++ acc, 0).
Proof.
  intros kids. revert suf. induction kids as [|k kids IH] using rev_ind; intros suf hs acc L F.
  - destruct hs; [reflexivity|discriminate].
  - destruct hs as [|h hs _] using rev_ind; [rewrite app_length in L; simpl in L; lia|].
    rewrite !app_length in L. simpl in L.
    apply Forall_app in F. destruct F as [F1 F2]. inversion F2 as [|? ? [W E] _]; subst.
    rewrite rev_app_distr. cbn [rev app tgtLoop].
    rewrite flat_map_app. simpl flat_map. rewrite app_nil_r, <- app_assoc.
    rewrite kid_len by exact W. cbn [rbind].
    replace (length (flat_map rpn kids ++ rpn k) - sz k) with (length (flat_map rpn kids)) by (rewrite app_length; lia).
    rewrite skipn_app_exact, firstn_app_exact.
    assert (G : (if 1 <? sz k then rec (rpn k) h else Ok [Z.of_nat h]) = Ok (targets db k h)).
    { destruct (1 <? sz k) eqn:G.
      - apply Nat.ltb_lt in G. apply E, G.
      - apply Nat.ltb_ge in G. destruct k. rewrite sz1_kids by exact G. reflexivity. }
    rewrite G. cbn [rbind]. rewrite IH by (try exact F1; lia).
    rewrite zipw_app by lia. rewrite concat_app. simpl. rewrite app_nil_r, <- app_assoc. reflexivity.
Qed.

Lemma targetHyp_ok db t : wfTree db t -> legalCodes (rpn t) -> isRef (rootOf t) = false ->
  forall fuel own, sz t <= fuel -> getTargetHyp fuel db (rpn t) own = Ok (targets db t own).
Proof.
  induction t as [z kids IH] using tree_ind2. intros W LC RR fuel own Hf. inversion W as [? ? A F]; subst.
  destruct fuel as [|f]; [rewrite sz_node in Hf; lia|].
  cbn [getTargetHyp]. rewrite sz_eqb0, rpn_last. cbn [rget rbind rootOf].
  assert (HL := hypsOf_len db z _ A).
  assert (E1 : kids = [] -> (sz (Node z kids) =? 1) = true /\ targets db (Node z kids) own = [Z.of_nat own]).
  { intros ->. split; reflexivity. }
  assert (A0 := A). apply arity_cases in A. destruct A as [[A1 A2]|[A1 [st [A2 A3]]]].
  - assert (A1' := A1). apply Z.ltb_lt in A1. rewrite A1. destruct kids; [|discriminate].
    destruct (E1 eq_refl) as [-> ->]. simpl negb. cbv iota.
    destruct (LC z) as [C|[C|C]]; [left; reflexivity|lia| |simpl in RR; congruence].
    rewrite C. reflexivity.
  - replace (z <? 0)%Z with false by (symmetry; apply Z.ltb_ge; exact A1).
    rewrite A2. cbn [rget rbind].
    destruct A3 as [[A3 A4]|[A3 A4]].
    + destruct kids; [|discriminate]. destruct (E1 eq_refl) as [-> ->].
      destruct A4 as [-> | ->]; reflexivity.
    + assert (HE : hypsOf db z = s_reqHyps st).
      { unfold hypsOf. replace (z <? 0)%Z with false by (symmetry; apply Z.ltb_ge; exact A1).
        rewrite A2. destruct A4 as [-> | ->]; reflexivity. }
      assert (L : tgtLoop (getTargetHyp f db) db (rpn (Node z kids))
                   (rev (s_reqHyps st)) (sz (Node z kids) - 1) []
                  = Ok (concat (zipw (targets db) kids (hypsOf db z)) ++ [], 0)).
      { replace (sz (Node z kids) - 1) with (length (flat_map rpn kids)) by (rewrite sz_node; lia).
        rewrite HE. simpl rpn. apply tgtLoop_ok; [lia|].
        rewrite Forall_forall in *. intros k Hk. split; [auto|]. intros Sk h. apply IH; auto.
        - eapply legal_kid; eassumption.
        - destruct k as [zk kk]. simpl. destruct (isRef zk) eqn:Rk; [|reflexivity].
          pose proof (F _ Hk) as Wk. inversion Wk as [? ? Ak _]; subst.
          apply (isRef_arity db) in Ak; [|exact Rk]. rewrite sz_node in Sk. destruct kk; [simpl in Sk; lia|discriminate].
        - apply sz_kid in Hk. rewrite sz_node in Hf. lia. }
      rewrite app_nil_r in L. rewrite targets_eq.
      destruct A4 as [-> | ->]; rewrite L; reflexivity.
Qed.

Lemma targets_at db t k path u : nodeAt t k path u -> wfTree db t -> forall own,
  exists h, targetOf db own path = Some h /\ nth_error (targets db t own) k = Some (Z.of_nat h).
Proof.
  induction 1 as [t|z kids j c k path u Hj H IH]; intros W own.
  - exists own. split; [reflexivity|]. destruct t as [z kids]. inversion W as [? ? A F]; subst.
    rewrite targets_eq. rewrite sz_node.
    replace (length (flat_map rpn kids) + 1 - 1) with (length (concat (zipw (targets db) kids (hypsOf db z)))).
    + rewrite nth_error_app2 by lia. rewrite Nat.sub_diag. reflexivity.
    + rewrite (concat_len kids); [lia|]. apply zipw_len; [symmetry; apply hypsOf_len, A|].
      intros. apply targets_len. rewrite Forall_forall in F. auto.
  - inversion W as [? ? A F]; subst.
    assert (HL := hypsOf_len db z _ A).
    destruct (nth_error (hypsOf db z) j) as [h|] eqn:Hh.
    2:{ apply nth_error_None in Hh. assert (j < length kids) by (apply nth_error_Some; congruence). lia. }
    assert (HO : hypOf db z j = Some h).
    { unfold hypOf, hypsOf in *. destruct (z <? 0)%Z; [destruct j; discriminate|].
      destruct (nth_error (db_stmts db) (Z.to_nat z)) as [st|]; [|destruct j; discriminate].
      destruct (s_type st); try (destruct j; discriminate); exact Hh. }
    simpl targetOf. rewrite HO. rewrite Forall_forall in F.
    destruct (IH (F c (nth_error_In _ _ Hj)) h) as [h' [T1 T2]]. exists h'. split; [exact T1|].
    rewrite targets_eq. rewrite (nth_blocks kids) with (c := c) (l := targets db c h).
    + exact T2.
    + apply zipw_len; [lia|]. intros. apply targets_len. auto.
    + exact Hj.
    + apply zipw_nth; assumption.
    + eapply nodeAt_bound. exact H.
Qed.

(* ---------- essential flags ---------- *)
Definition isE (db : dbase) (h : nat) : bool :=
  match nth_error (db_stmts db) h with
  | Some sh => match s_type sh with S_e => true | _ => false end
  | None => false
  end.
Fixpoint essl (db : dbase) (t : tree) : list Z :=
  match t with
  | Node z kids =>
      concat ((fix go ks hs := match ks, hs with
               | k :: ks', h :: hs' => (if isE db h then essl db k else repeat 0%Z (sz k)) :: go ks' hs'
               | _, _ => [] end) kids (hypsOf db z)) ++ [1%Z]
  end.
Definition essB (db : dbase) (k : tree) (h : nat) : list Z := if isE db h then essl db k else repeat 0%Z (sz k).
Lemma essl_eq db z kids : essl db (Node z kids) = concat (zipw (essB db) kids (hypsOf db z)) ++ [1%Z].
Proof.
  simpl. do 2 f_equal. generalize (hypsOf db z). induction kids; intros [|h hs]; simpl; try reflexivity.
  f_equal. apply IHkids.
Qed.
Lemma essl_len db t : wfTree db t -> length (essl db t) = sz t.
Proof.
  induction t as [z kids IH] using tree_ind2. intros W. inversion W as [? ? A F]; subst.
  rewrite essl_eq, sz_node, app_length. f_equal. apply concat_len.
  apply zipw_len; [symmetry; apply hypsOf_len, A|]. rewrite Forall_forall in *.
  intros k h Hk. unfold essB. destruct (isE db h); [auto|apply repeat_length].
Qed.

Lemma essLoop_ok db rec suf : forall kids hs acc, length kids = length hs ->
  Forall (fun k => wfTree db k /\ rec (rpn k) = Ok (essl db k)) kids ->
  (forall h, In h hs -> nth_error (db_stmts db) h <> None) ->
  essLoop rec db (flat_map rpn kids ++ suf) (rev hs) (length (flat_map rpn kids)) acc
    = Ok (concat (zipw (essB db) kids hs) ++ acc, 0).
Proof.
  intros kids. revert suf. induction kids as [|k kids IH] using rev_ind; intros suf hs acc L F HN.
  - destruct hs; [reflexivity|discriminate].
  - destruct hs as [|h hs _] using rev_ind; [rewrite app_length in L; simpl in L; lia|].
    rewrite !app_length in L. simpl in L.
    apply Forall_app in F. destruct F as [F1 F2]. inversion F2 as [|? ? [W E] _]; subst.
    rewrite rev_app_distr. cbn [rev app essLoop].
    rewrite flat_map_app. simpl flat_map. rewrite app_nil_r, <- app_assoc.
    rewrite kid_len by exact W. cbn [rbind].
    replace (length (flat_map rpn kids ++ rpn k) - sz k) with (length (flat_map rpn kids)) by (rewrite app_length; lia).
    rewrite skipn_app_exact, firstn_app_exact.
    destruct (nth_error (db_stmts db) h) as [sh|] eqn:Nh.
    2:{ exfalso. apply (HN h); [apply in_or_app; right; left; reflexivity|exact Nh]. }
    cbn [rget rbind].
    assert (G : match s_type sh with S_e => rec (rpn k) | _ => Ok (repeat 0%Z (sz k)) end = Ok (essB db k h)).
    { unfold essB, isE. rewrite Nh. destruct (s_type sh); try reflexivity. exact E. }
    rewrite G. cbn [rbind]. rewrite IH; [|lia|exact F1|intros h' H'; apply HN; apply in_or_app; auto].
    rewrite zipw_app by lia. rewrite concat_app. simpl. rewrite app_nil_r, <- app_assoc. reflexivity.
Qed.

Lemma essential_ok db t : wf_db db -> wfTree db t -> legalCodes (rpn t) -> forall fuel, sz t <= fuel ->
  getEssential fuel db (rpn t) = Ok (essl db t).
Proof.
  intros WD. induction t as [z kids IH] using tree_ind2. intros W LC fuel Hf. inversion W as [? ? A F]; subst.
  destruct fuel as [|f]; [rewrite sz_node in Hf; lia|].
  cbn [getEssential]. rewrite sz_eqb0, rpn_last. cbn [rget rbind rootOf].
  assert (HL := hypsOf_len db z _ A).
  assert (E1 : kids = [] -> (sz (Node z kids) =? 1) = true /\ essl db (Node z kids) = [1%Z]).
  { intros ->. split; reflexivity. }
  apply arity_cases in A. destruct A as [[A1 A2]|[A1 [st [A2 A3]]]].
  - assert (A1' := A1). apply Z.ltb_lt in A1. rewrite A1. destruct kids; [|discriminate].
    destruct (E1 eq_refl) as [-> ->]. simpl negb at 1. cbv iota.
    destruct (LC z) as [C|[C|C]]; [left; reflexivity|lia| |].
    + rewrite C. reflexivity.
    + unfold isRef in C. apply Z.leb_le in C. replace (-1000 <? z)%Z with false by (symmetry; apply Z.ltb_ge; lia).
      rewrite andb_false_r. reflexivity.
  - replace (z <? 0)%Z with false by (symmetry; apply Z.ltb_ge; exact A1).
    rewrite A2. cbn [rget rbind].
    destruct A3 as [[A3 A4]|[A3 A4]].
    + destruct kids; [|discriminate]. destruct (E1 eq_refl) as [-> ->].
      destruct A4 as [-> | ->]; reflexivity.
    + assert (HE : hypsOf db z = s_reqHyps st).
      { unfold hypsOf. replace (z <? 0)%Z with false by (symmetry; apply Z.ltb_ge; exact A1).
        rewrite A2. destruct A4 as [-> | ->]; reflexivity. }
      assert (L : essLoop (getEssential f db) db (rpn (Node z kids))
                   (rev (s_reqHyps st)) (sz (Node z kids) - 1) []
                  = Ok (concat (zipw (essB db) kids (hypsOf db z)) ++ [], 0)).
      { replace (sz (Node z kids) - 1) with (length (flat_map rpn kids)) by (rewrite sz_node; lia).
        rewrite HE. simpl rpn. apply essLoop_ok; [lia| |].
        - rewrite Forall_forall in *. intros k Hk. split; [auto|]. apply IH; auto.
          + eapply legal_kid; eassumption.
          + apply sz_kid in Hk. rewrite sz_node in Hf. lia.
        - intros h Hh N. destruct (wf_hyps db WD (Z.to_nat z) st h A2 A4 Hh) as [sh [Sh _]].
          unfold stmtAt in Sh. congruence. }
      rewrite app_nil_r in L. rewrite essl_eq.
      destruct A4 as [-> | ->]; rewrite L; reflexivity.
Qed.

Lemma essl_at db t k path u : nodeAt t k path u -> wfTree db t ->
  (nth_error (essl db t) k = Some 1%Z /\ Forall (isEssHyp db) path) \/
  (nth_error (essl db t) k = Some 0%Z /\ ~ Forall (isEssHyp db) path).
Proof.
  induction 1 as [t|z kids j c k path u Hj H IH]; intros W.
  - left. split; [|constructor]. destruct t as [z kids]. inversion W as [? ? A F]; subst.
    rewrite essl_eq. rewrite sz_node.
    replace (length (flat_map rpn kids) + 1 - 1) with (length (concat (zipw (essB db) kids (hypsOf db z)))).
    + rewrite nth_error_app2 by lia. rewrite Nat.sub_diag. reflexivity.
    + rewrite (concat_len kids); [lia|]. apply zipw_len; [symmetry; apply hypsOf_len, A|].
      intros. unfold essB. destruct (isE db h); [|apply repeat_length]. apply essl_len.
      rewrite Forall_forall in F. auto.
  - inversion W as [? ? A F]; subst.
    assert (HL := hypsOf_len db z _ A).
    destruct (nth_error (hypsOf db z) j) as [h|] eqn:Hh.
    2:{ apply nth_error_None in Hh. assert (j < length kids) by (apply nth_error_Some; congruence). lia. }
    assert (HO : hypOf db z j = Some h).
    { unfold hypOf, hypsOf in *. destruct (z <? 0)%Z; [destruct j; discriminate|].
      destruct (nth_error (db_stmts db) (Z.to_nat z)) as [st|]; [|destruct j; discriminate].
      destruct (s_type st); try (destruct j; discriminate); exact Hh. }
    rewrite Forall_forall in F. specialize (IH (F c (nth_error_In _ _ Hj))).
    rewrite essl_eq. rewrite (nth_blocks kids) with (c := c) (l := essB db c h).
    + unfold essB. destruct (isE db h) eqn:Eh.
      * assert (HH : isEssHyp db (z, j)).
        { unfold isE in Eh. destruct (nth_error (db_stmts db) h) as [sh|] eqn:N; [|discriminate].
          exists h, sh. simpl. split; [exact HO|]. split; [exact N|].
          destruct (s_type sh); try discriminate. reflexivity. }
        destruct IH as [[I1 I2]|[I1 I2]]; [left|right]; (split; [exact I1|]).
        -- constructor; assumption.
        -- intros G. inversion G; subst. contradiction.
      * right. split.
        -- pose proof (nodeAt_bound _ _ _ _ H) as B. clear -B. revert k B. generalize (sz c).
           induction n; intros k B; [lia|]. destruct k; [reflexivity|]. simpl. apply IHn. lia.
        -- intros G. inversion G as [|? ? [h' [sh [G1 [G2 G3]]]] _]; subst. simpl in G1.
           assert (h' = h) by congruence. subst h'. unfold isE in Eh. rewrite G2, G3 in Eh. discriminate.
    + apply zipw_len; [lia|]. intros k0 h0 Hk0. unfold essB. destruct (isE db h0); [|apply repeat_length].
      apply essl_len. auto.
    + exact Hj.
    + apply zipw_nth; assumption.
    + eapply nodeAt_bound. exact H.
Qed.
