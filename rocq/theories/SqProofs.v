(* SqProofs.v -- subproof length, packing and unpacking. *)
From Verif Require Import Base VerModel ParModel SqModel SqSpec.
Open Scope nat_scope.

Section TreeInd.
  Variable P : tree -> Prop.
  Variable f : forall z kids, Forall P kids -> P (Node z kids).
  Fixpoint tree_ind2 (t : tree) : P t :=
    match t with
    | Node z kids =>
        f z kids ((fix go (l : list tree) : Forall P l :=
                     match l with
                     | [] => Forall_nil P
                     | x :: r => Forall_cons x (tree_ind2 x) (go r)
                     end) kids)
    end.
End TreeInd.

Notation sz t := (length (rpn t)).

Lemma sz_node z kids : sz (Node z kids) = length (flat_map rpn kids) + 1.
Proof. simpl. rewrite app_length. reflexivity. Qed.
Lemma sz_pos t : 1 <= sz t.
Proof. destruct t. rewrite sz_node. lia. Qed.
Lemma sz_kid k kids : In k kids -> sz k <= length (flat_map rpn kids).
Proof.
  induction kids as [|a r IH]; intros H; [destruct H|]. simpl. rewrite app_length.
  destruct H as [->|H]; [lia|]. apply IH in H. lia.
Qed.

(* ---------- shape runs ---------- *)
Fixpoint srun (db : dbase) (stk : list tree) (p : list Z) : option (list tree) :=
  match p with
  | [] => Some stk
  | z :: r =>
      match arity db z with
      | Some n => if n <=? length stk
                  then srun db (Node z (rev (firstn n stk)) :: skipn n stk) r else None
      | None => None
      end
  end.

Lemma srun_app db p q stk :
  srun db stk (p ++ q) = match srun db stk p with Some s => srun db s q | None => None end.
Proof.
  revert stk. induction p as [|z p IH]; intros stk; [reflexivity|]. simpl.
  destruct (arity db z) as [n|]; [|reflexivity].
  destruct (n <=? length stk); [apply IH|reflexivity].
Qed.

Lemma Forall_firstn' {A} (P : A -> Prop) n l : Forall P l -> Forall P (firstn n l).
Proof. intros H. revert n. induction H; intros [|n]; simpl; constructor; auto. Qed.
Lemma Forall_skipn' {A} (P : A -> Prop) n l : Forall P l -> Forall P (skipn n l).
Proof. intros H. revert n. induction H; intros [|n]; simpl; auto. Qed.

Lemma srun_flat db p : forall stk stk',
  srun db stk p = Some stk' -> Forall (wfTree db) stk ->
  Forall (wfTree db) stk' /\ flat_map rpn (rev stk') = flat_map rpn (rev stk) ++ p.
Proof.
  induction p as [|z p IH]; intros stk stk' H W.
  - inversion H; subst. rewrite app_nil_r. auto.
  - simpl in H. destruct (arity db z) as [n|] eqn:A; [|discriminate].
    destruct (n <=? length stk) eqn:L; [|discriminate]. apply Nat.leb_le in L.
    apply IH in H.
    + destruct H as [H1 H2]. split; [exact H1|]. rewrite H2.
      simpl. rewrite flat_map_app. simpl. rewrite app_nil_r.
      rewrite app_assoc, <- flat_map_app. rewrite <- app_assoc. f_equal.
      * rewrite <- rev_app_distr, firstn_skipn. reflexivity.
    + constructor; [|apply Forall_skipn'; exact W].
      constructor.
      * rewrite rev_length, firstn_length. rewrite A. f_equal. lia.
      * apply Forall_rev, Forall_firstn', W.
Qed.

Lemma srun_frame db p : forall s s' b, srun db s p = Some s' -> srun db (s ++ b) p = Some (s' ++ b).
Proof.
  induction p as [|z p IH]; intros s s' b H; [inversion H; reflexivity|].
  simpl in *. destruct (arity db z) as [n|]; [|discriminate].
  destruct (n <=? length s) eqn:L; [|discriminate]. apply Nat.leb_le in L.
  rewrite app_length. replace (n <=? length s + length b) with true by (symmetry; apply Nat.leb_le; lia).
  rewrite firstn_app, skipn_app. replace (n - length s) with 0 by lia. simpl.
  rewrite app_nil_r. apply (IH _ _ b) in H. exact H.
Qed.

Lemma srun_rpns db kids :
  Forall (fun t => forall stk r, srun db stk (rpn t ++ r) = srun db (t :: stk) r) kids ->
  forall stk r, srun db stk (flat_map rpn kids ++ r) = srun db (rev kids ++ stk) r.
Proof.
  induction 1 as [|k kids Hk _ IH]; intros stk r; [reflexivity|].
  simpl. rewrite <- app_assoc, Hk, IH. rewrite <- app_assoc. reflexivity.
Qed.

Lemma srun_rpn db t : wfTree db t ->
  forall stk r, srun db stk (rpn t ++ r) = srun db (t :: stk) r.
Proof.
  induction t as [z kids IH] using tree_ind2. intros W stk r. inversion W as [? ? A F]; subst.
  assert (K : Forall (fun t => forall stk r, srun db stk (rpn t ++ r) = srun db (t :: stk) r) kids).
  { rewrite Forall_forall in *. intros x Hx. apply IH; auto. }
  simpl. rewrite <- app_assoc, srun_rpns by exact K. simpl. rewrite A.
  rewrite app_length, rev_length.
  replace (length kids <=? length kids + length stk) with true by (symmetry; apply Nat.leb_le; lia).
  rewrite <- (rev_length kids). rewrite firstn_app, Nat.sub_diag, firstn_all. simpl. rewrite app_nil_r.
  rewrite skipn_app, Nat.sub_diag, skipn_all. simpl. rewrite rev_involutive. reflexivity.
Qed.

Lemma srun_nonempty db p : forall s s', srun db s p = Some s' -> p <> [] -> s' <> [].
Proof.
  induction p as [|z p IH]; intros s s' H N; [congruence|]. simpl in H.
  destruct (arity db z); [|discriminate]. destruct (_ <=? _); [|discriminate].
  destruct p; [inversion H; discriminate|]. eapply IH; [exact H|discriminate].
Qed.

(* in any string that runs, the top of the stack after k steps is the subproof
   ending there *)
Lemma srun_top db p stk : srun db [] p = Some stk ->
  Forall (wfTree db) stk /\ flat_map rpn (rev stk) = p.
Proof. intros H. apply srun_flat in H; [exact H|constructor]. Qed.

Lemma srun_top_cons db p t stk : srun db [] p = Some (t :: stk) ->
  wfTree db t /\ Forall (wfTree db) stk /\ p = flat_map rpn (rev stk) ++ rpn t.
Proof.
  intros H. apply srun_top in H. destruct H as [W F]. inversion W; subst.
  split; [assumption|]. split; [assumption|]. simpl.
  rewrite flat_map_app. simpl. rewrite app_nil_r. reflexivity.
Qed.

(* ---------- nmbrGetSubproofLen ---------- *)
Lemma arity_cases db z n : arity db z = Some n ->
  ((z < 0)%Z /\ n = 0) \/
  ((0 <= z)%Z /\ exists st, nth_error (db_stmts db) (Z.to_nat z) = Some st /\
     ((n = 0 /\ (s_type st = S_e \/ s_type st = S_f)) \/
      (n = length (s_reqHyps st) /\ (s_type st = S_a \/ s_type st = S_p)))).
Proof.
  unfold arity. destruct (z <? 0)%Z eqn:Z0.
  - intros H. inversion H. left. apply Z.ltb_lt in Z0. auto.
  - apply Z.ltb_ge in Z0. destruct (nth_error _ _) as [st|]; [|discriminate].
    intros H. right. split; [exact Z0|]. exists st. split; [reflexivity|].
    destruct (s_type st); inversion H; auto.
Qed.

Lemma subLoop_kids rec pre : forall kids,
  (forall a k b, kids = a ++ k :: b ->
     rec (length (pre ++ flat_map rpn a ++ rpn k)) = Ok (sz k)) ->
  subLoop rec (length kids) (length (pre ++ flat_map rpn kids)) = Ok (length pre).
Proof.
  induction kids as [|k kids IH] using rev_ind; intros H; simpl.
  - rewrite app_nil_r. reflexivity.
  - rewrite app_length. simpl. rewrite Nat.add_1_r. simpl.
    rewrite flat_map_app. simpl. rewrite app_nil_r.
    rewrite (H kids k []) by reflexivity. simpl.
    replace (length (pre ++ flat_map rpn kids ++ rpn k) - sz k) with (length (pre ++ flat_map rpn kids)).
    + apply IH. intros a k' b E. apply (H a k' (b ++ [k])). rewrite E, <- app_assoc. reflexivity.
    + rewrite !app_length. lia.
Qed.

Lemma subLen_tree db t : wfTree db t -> forall fuel pre suf, sz t <= fuel ->
  subLen fuel db (pre ++ rpn t ++ suf) (length (pre ++ rpn t)) = Ok (sz t).
Proof.
  induction t as [z kids IH] using tree_ind2. intros W fuel pre suf Hf.
  inversion W as [? ? A F]; subst.
  destruct fuel as [|f]; [rewrite sz_node in Hf; lia|].
  assert (E : length (pre ++ rpn (Node z kids)) = S (length (pre ++ flat_map rpn kids))).
  { simpl. rewrite !app_length. simpl. lia. }
  rewrite E. simpl subLen.
  assert (G : nth_error (pre ++ rpn (Node z kids) ++ suf) (length (pre ++ flat_map rpn kids)) = Some z).
  { replace (pre ++ rpn (Node z kids) ++ suf) with ((pre ++ flat_map rpn kids) ++ z :: suf)
      by (simpl; rewrite <- !app_assoc; reflexivity).
    rewrite nth_error_app2 by lia. rewrite Nat.sub_diag. reflexivity. }
  simpl in G. rewrite G. cbn [rget rbind].
  apply arity_cases in A. destruct A as [[A1 A2]|[A1 [st [A2 A3]]]].
  - apply Z.ltb_lt in A1. rewrite A1. destruct kids; [reflexivity|discriminate].
  - replace (z <? 0)%Z with false by (symmetry; apply Z.ltb_ge; exact A1).
    rewrite A2. cbn [rget rbind].
    destruct A3 as [[A3 A4]|[A3 A4]].
    + destruct kids; [|discriminate]. destruct A4 as [-> | ->]; reflexivity.
    + assert (L : subLoop (subLen f db (pre ++ (flat_map rpn kids ++ [z]) ++ suf)) (length (s_reqHyps st))
                   (length (pre ++ flat_map rpn kids)) = Ok (length pre)).
      { rewrite <- A3. apply subLoop_kids. intros a k b Ek.
        rewrite Forall_forall in IH, F.
        assert (Hk : In k kids) by (rewrite Ek; apply in_or_app; right; left; reflexivity).
        pose proof (IH k Hk (F k Hk) f (pre ++ flat_map rpn a) (flat_map rpn b ++ [z] ++ suf)) as R.
        assert (EL : pre ++ (flat_map rpn kids ++ [z]) ++ suf
                     = (pre ++ flat_map rpn a) ++ rpn k ++ flat_map rpn b ++ [z] ++ suf).
        { rewrite Ek, flat_map_app. simpl. rewrite <- !app_assoc. reflexivity. }
        rewrite EL, (app_assoc pre). apply R.
        apply sz_kid in Hk. rewrite sz_node in Hf. lia. }
      rewrite L. cbn [rbind].
      assert (T : S (length (pre ++ flat_map rpn kids)) - length pre = sz (Node z kids)).
      { rewrite sz_node, app_length. lia. }
      destruct A4 as [-> | ->]; cbn [rbind]; f_equal; exact T.
Qed.

Lemma getSubproofLen_top db p stk t suf : srun db [] p = Some (t :: stk) ->
  getSubproofLen db (p ++ suf) (length p - 1) = Ok (sz t) /\ 1 <= sz t <= length p.
Proof.
  intros H. apply srun_top_cons in H. destruct H as [W [_ E]]. subst p.
  pose proof (sz_pos t) as L. rewrite app_length.
  split; [|lia]. unfold getSubproofLen.
  replace (S (length (flat_map rpn (rev stk)) + sz t - 1)) with (length (flat_map rpn (rev stk) ++ rpn t))
    by (rewrite app_length; lia).
  rewrite <- app_assoc. apply subLen_tree; [exact W|]. rewrite app_length. lia.
Qed.

(* ---------- subproofLen (mmpfas.c) ---------- *)
Lemma spLoop_0 db proof p : spLoop db proof p 0 = Ok p.
Proof. destruct p; reflexivity. Qed.

Lemma spLoop_trees db kids :
  Forall (fun t => forall pre suf l,
     spLoop db (pre ++ rpn t ++ suf) (length (pre ++ rpn t)) (S l)
       = spLoop db (pre ++ rpn t ++ suf) (length pre) l) kids ->
  forall pre suf l,
    spLoop db (pre ++ flat_map rpn kids ++ suf) (length (pre ++ flat_map rpn kids)) (length kids + l)
    = spLoop db (pre ++ flat_map rpn kids ++ suf) (length pre) l.
Proof.
  induction kids as [|k kids IH] using rev_ind; intros H pre suf l; simpl.
  - rewrite app_nil_r. reflexivity.
  - apply Forall_app in H. destruct H as [H1 H2]. inversion H2; subst.
    replace (length (kids ++ [k]) + l) with (S (length kids + l)) by (rewrite app_length; simpl; lia).
    rewrite flat_map_app. simpl flat_map. rewrite app_nil_r.
    pose proof (H3 (pre ++ flat_map rpn kids) suf (length kids + l)) as R.
    rewrite <- !app_assoc in R. rewrite <- !app_assoc. rewrite R.
    apply (IH H1 pre (rpn k ++ suf) l).
Qed.

Lemma spLoop_tree db t : wfTree db t -> forall pre suf l,
  spLoop db (pre ++ rpn t ++ suf) (length (pre ++ rpn t)) (S l)
    = spLoop db (pre ++ rpn t ++ suf) (length pre) l.
Proof.
  induction t as [z kids IH] using tree_ind2. intros W pre suf l.
  inversion W as [? ? A F]; subst.
  assert (E : length (pre ++ rpn (Node z kids)) = S (length (pre ++ flat_map rpn kids))).
  { simpl. rewrite !app_length. simpl. lia. }
  rewrite E. cbn [spLoop].
  assert (G : nth_error (pre ++ rpn (Node z kids) ++ suf) (length (pre ++ flat_map rpn kids)) = Some z).
  { replace (pre ++ rpn (Node z kids) ++ suf) with ((pre ++ flat_map rpn kids) ++ z :: suf)
      by (simpl; rewrite <- !app_assoc; reflexivity).
    rewrite nth_error_app2 by lia. rewrite Nat.sub_diag. reflexivity. }
  rewrite G. cbn [rget rbind].
  assert (K : Forall (fun t => forall pre suf l,
     spLoop db (pre ++ rpn t ++ suf) (length (pre ++ rpn t)) (S l)
       = spLoop db (pre ++ rpn t ++ suf) (length pre) l) kids).
  { rewrite Forall_forall in *. intros x Hx. apply IH; auto. }
  apply arity_cases in A. destruct A as [[A1 A2]|[A1 [st [A2 A3]]]].
  - apply Z.ltb_lt in A1. rewrite A1. destruct kids; [|discriminate]. simpl. rewrite app_nil_r. reflexivity.
  - replace (z <? 0)%Z with false by (symmetry; apply Z.ltb_ge; exact A1).
    rewrite A2. cbn [rget rbind].
    destruct A3 as [[A3 A4]|[A3 A4]].
    + destruct kids; [|discriminate]. simpl. rewrite app_nil_r. destruct A4 as [-> | ->]; reflexivity.
    + pose proof (spLoop_trees db kids K pre ([z] ++ suf) l) as R.
      rewrite <- A3. rewrite (Nat.add_comm l).
      simpl rpn. rewrite <- (app_assoc _ [z] suf).
      destruct A4 as [-> | ->]; exact R.
Qed.

Lemma subproofLen_top db p stk t suf : srun db [] p = Some (t :: stk) ->
  subproofLen db (p ++ suf) (length p - 1) = Ok (sz t).
Proof.
  intros H. apply srun_top_cons in H. destruct H as [W [_ E]]. subst p.
  pose proof (sz_pos t) as L. unfold subproofLen.
  replace (S (length (flat_map rpn (rev stk) ++ rpn t) - 1)) with (length (flat_map rpn (rev stk) ++ rpn t))
    by (rewrite app_length; lia).
  rewrite <- app_assoc. rewrite (spLoop_tree db t W). rewrite spLoop_0. cbn [rbind]. f_equal.
  rewrite app_length. lia.
Qed.
