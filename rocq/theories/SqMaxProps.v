(* SqMaxProps.v -- C45: packing shares every repeated subproof of more than one step. *)
From Verif Require Import Base MMSpec VerModel VerSpec VerExample TokModel ParModel ParSpec CmpModel CmpSpec
  CmpProofs CmpRound ParExample ParWit ParProps SqModel SqSpec SqProofs SqPack SqValid SqAttr SqGood SqMax SqProps.
Open Scope nat_scope.

(* What the sentence says of a packed proof: q is its list of steps, hist the
   subproof (fully expanded) each of its steps proves; two steps that are not
   references to an earlier step never prove the same subproof of more than one
   step. *)
Definition sharesAll (q : list pstep) (hist : list tree) : Prop :=
  forall i j a b z k ks,
    nth_error q i = Some a -> nth_error q j = Some b ->
    (forall r, a <> Loc r) -> (forall r, b <> Loc r) ->
    nth_error hist i = Some (Node z (k :: ks)) -> nth_error hist j = Some (Node z (k :: ks)) ->
    i = j.

Lemma enc_notloc a : (forall r, a <> Loc r) -> isRef (encStep a) = false.
Proof.
  destruct a; intros H; try reflexivity; [destruct (H _ eq_refl)|unfold encStep, isRef; apply Z.leb_gt; lia].
Qed.

Lemma shares_all db n st p : wf_db db -> goodProof db n st p ->
  exists u q hist t,
    (forall fuel, 2 * length u < fuel -> unsquishProof fuel db (map encStep p) = Ok (map encStep u)) /\
    squishProof db (map encStep u) = Ok (map encStep q) /\
    denotes db (map encStep p) t /\ map encStep u = rpn t /\
    prun db [] [] (map encStep q) = Some (hist, [t]) /\ sharesAll q hist.
Proof.
  intros W G. destruct (repack_valid db n st p W G) as (u & q & U & Q & _).
  destruct (unpack_tree db n st p G) as (t & D & WT & NR & UT).
  assert (E : map encStep u = rpn t).
  { specialize (U (S (2 * length u + 2 * length (rpn t))) ltac:(lia)).
    specialize (UT (S (2 * length u + 2 * length (rpn t))) ltac:(lia)). congruence. }
  destruct (squish_max db t WT NR) as (q' & H & E1 & E2 & E3).
  rewrite E in Q. assert (q' = map encStep q) by congruence. subst q'.
  exists u, q, H, t. rewrite E. split; [intros f Hf; rewrite U by exact Hf; congruence|].
  split; [exact Q|]. split; [exact D|]. split; [reflexivity|]. split; [exact E2|].
  intros i j a b z k ks Ai Bj NA NB Ti Tj.
  apply (E3 i j (encStep a) (encStep b) (Node z (k :: ks))); auto using enc_notloc, map_nth_error.
  unfold multi. cbn. discriminate.
Qed.

(* ---------------- C45 ---------------- *)
Theorem C45_packing_shares_all : forall db n st p, wf_db db -> goodProof db n st p ->
  exists u q hist t,
    (forall fuel, 2 * length u < fuel -> unsquishProof fuel db (map encStep p) = Ok (map encStep u)) /\
    squishProof db (map encStep u) = Ok (map encStep q) /\
    denotes db (map encStep p) t /\ map encStep u = rpn t /\
    prun db [] [] (map encStep q) = Some (hist, [t]) /\ sharesAll q hist.
Proof. exact shares_all. Qed.

(* the same for a proof that is already unpacked *)
Theorem C45_pack_unpacked : forall db t, wfTree db t -> noRefs (rpn t) ->
  exists q hist, squishProof db (rpn t) = Ok q /\ prun db [] [] q = Some (hist, [t]) /\
    forall i j a b z k ks,
      nth_error q i = Some a -> nth_error q j = Some b -> isRef a = false -> isRef b = false ->
      nth_error hist i = Some (Node z (k :: ks)) -> nth_error hist j = Some (Node z (k :: ks)) -> i = j.
Proof.
  intros db t W N. destruct (squish_max db t W N) as (q & H & E1 & E2 & E3). exists q, H. split; [exact E1|]. split; [exact E2|].
  intros i j a b z k ks Ai Bj NA NB Ti Tj. apply (E3 i j a b (Node z (k :: ks))); auto. unfold multi. cbn. discriminate.
Qed.

(* ---------------- examples ---------------- *)
Example ex_C45_hyps := C45_packing_shares_all ex_db 7 _ ex_p ex_db_wf ex_p_good.
(* a proof in which a repeated subproof contains a smaller repeated subproof *)
Definition ex_pair (t : tree) : tree := Node 4%Z [t; t].
Definition ex_leaf : tree := Node 3%Z [].
Definition ex_deep : tree := Node 5%Z [ex_pair (ex_pair (ex_pair ex_leaf))].
Example ex_C45_deep : squishProof ex_db (rpn ex_deep) = Ok [3; 3; 4; -1002; 4; -1004; 4; 5]%Z.
Proof. vm_compute. reflexivity. Qed.
Example ex_C45_deep_wf : wfTree ex_db ex_deep.
Proof. repeat (constructor; [reflexivity|repeat constructor]). Qed.

Print Assumptions C45_packing_shares_all.
Print Assumptions C45_pack_unpacked.
