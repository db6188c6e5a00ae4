(* PfaAssign.v -- proofs about PfaModel: ASSIGN *)
From Coq Require Import ZifyBool ZifyNat.
From Verif Require Import SrcProofs Base VerModel VerSpec ParModel SqModel SqSpec SqProofs SqAttr SqGood TrcWork StmScope StmTab VerStep NmbProofs PfaModel PfaSpec PfaProofs PfaMore.
Open Scope nat_scope.

Lemma setNth_at {A} (a : list A) x b y : setNth (a ++ x :: b) (length a) y = Ok (a ++ y :: b).
Proof.
  unfold setNth. rewrite app_length. cbn [length]. replace (length a <? length a + S (length b)) with true by lia.
  rewrite firstn_app, firstn_all, Nat.sub_diag, firstn_O, app_nil_r. do 2 f_equal. f_equal.
  replace (S (length a)) with (length (a ++ [x])) by (rewrite app_length; simpl; lia).
  replace (a ++ x :: b) with ((a ++ [x]) ++ b) by (rewrite <- app_assoc; reflexivity).
  rewrite skipn_app, skipn_all, Nat.sub_diag. reflexivity.
Qed.
Lemma subproofLen_unk db proof pos : nth_error proof pos = Some zUnk -> subproofLen db proof pos = Ok 1.
Proof.
  intros N. unfold subproofLen. cbn [spLoop]. rewrite N. cbn [rget rbind]. replace (zUnk <? 0)%Z with true by reflexivity.
  rewrite spLoop_0. cbn [rbind]. f_equal. lia.
Qed.
Lemma initHyps_ok db m proof f : forall hs X A B, length X = length hs ->
  (forall h, In h hs -> exists sh, nth_error (db_stmts db) h = Some sh /\ dummyMath db m (s_math sh) = f h) ->
  (forall i, i < length hs -> nth_error proof (length A + i) = Some zUnk) ->
  initHyps db m proof (rev hs) (length A + length hs - 1) (A ++ X ++ B) = Ok (A ++ map f hs ++ B).
Proof.
  induction hs as [|h hs IH] using rev_ind; intros X A B LX HS HU.
  - destruct X; [reflexivity|discriminate].
  - rewrite app_length in *. cbn [length] in *. destruct X as [|x X _] using rev_ind; [simpl in LX; lia|].
    rewrite app_length in LX. cbn [length] in LX. rewrite rev_app_distr. cbn [rev app initHyps].
    destruct (HS h) as [sh [E1 E2]]; [rewrite in_app_iff; right; left; reflexivity|]. rewrite E1. cbn [rget rbind].
    replace (A ++ (X ++ [x]) ++ B) with ((A ++ X) ++ x :: B) by (rewrite <- !app_assoc; reflexivity).
    replace (length A + (length hs + 1) - 1) with (length (A ++ X)) by (rewrite app_length; lia).
    rewrite setNth_at. cbn [rbind]. rewrite E2.
    destruct (rev hs) as [|h' r] eqn:ER.
    + assert (hs = []) by (rewrite <- (rev_involutive hs), ER; reflexivity). subst hs.
      destruct X; [|simpl in LX; lia]. rewrite app_nil_r. reflexivity.
    + assert (LH : 1 <= length hs) by (rewrite <- rev_length, ER; simpl; lia).
      rewrite subproofLen_unk. 2:{ rewrite app_length. replace (length X) with (length hs) by lia. apply HU. lia. }
      cbn [rbind]. replace (length (A ++ X) <? 1) with false by (rewrite app_length; lia).
      replace (length (A ++ X) - 1) with (length A + length hs - 1) by (rewrite app_length; lia).
      rewrite <- app_assoc. rewrite (IH X A (f h :: B)); [|lia| |].
      * rewrite map_app, <- !app_assoc. reflexivity.
      * intros h0 I. apply HS. rewrite in_app_iff. left. exact I.
      * intros i Hi. apply HU. lia.
Qed.

(* the renaming *)
Lemma find_combine : forall (l : list nat) o i v, NoDup l -> nth_error l i = Some v ->
  find (fun p => fst p =? v) (rev (combine l (seq o (length l)))) = Some (v, o + i).
Proof.
  assert (FA : forall A (p : A -> bool) l1 l2, find p (l1 ++ l2) = match find p l1 with Some x => Some x | None => find p l2 end).
  { intros A p l1 l2. induction l1 as [|x l1 IH]; [reflexivity|]. simpl. destruct (p x); [reflexivity|exact IH]. }
  induction l as [|w l IH]; intros o i v ND N; [destruct i; discriminate|].
  cbn [length seq combine rev]. rewrite FA. inversion ND as [|? ? ND1 ND2]; subst. destruct i as [|i].
  - cbn [nth_error] in N. injection N as ->.
    destruct (find (fun p => fst p =? v) (rev (combine l (seq (S o) (length l))))) as [[a b]|] eqn:E.
    + apply find_some in E. destruct E as [E1 E2]. cbn [fst] in E2. apply Nat.eqb_eq in E2. subst a.
      apply in_rev in E1. apply in_combine_l in E1. contradiction.
    + cbn [find fst]. rewrite Nat.eqb_refl, Nat.add_0_r. reflexivity.
  - cbn [nth_error] in N. rewrite (IH (S o) i v ND2 N). do 2 f_equal. lia.
Qed.
Lemma dummyOf_at mt dv reqVars old i v : NoDup reqVars -> nth_error reqVars i = Some v ->
  dummyOf mt dv reqVars old v = Z.of_nat (mt + 1 + dv + i).
Proof. intros ND N. unfold dummyOf. rewrite (find_combine reqVars 0 i v ND N). reflexivity. Qed.

Lemma premise_rpn n h : rpn (premiseNode n h) = repeat zUnk h ++ [Z.of_nat n].
Proof. cbn [premiseNode rpn]. f_equal. induction h as [|h IH]; [reflexivity|]. cbn [repeat flat_map]. rewrite IH. reflexivity. Qed.
Lemma premise_sz n h : sz (premiseNode n h) = h + 1.
Proof. rewrite premise_rpn, app_length, repeat_length. reflexivity. Qed.
Lemma premise_norefs n h : noRefs (rpn (premiseNode n h)).
Proof.
  rewrite premise_rpn. intros z I. rewrite in_app_iff in I. destruct I as [I|[<-|[]]].
  - apply repeat_spec in I. subst z. reflexivity.
  - unfold isRef. lia.
Qed.
Lemma premise_wf db n h : arity db (Z.of_nat n) = Some h -> wfTree db (premiseNode n h).
Proof.
  intros A. constructor; [rewrite repeat_length; exact A|]. apply Forall_forall. intros t I. apply repeat_spec in I. subst t. apply wf_unknown.
Qed.
Lemma splice_mid {A} (l : list A) k new : k < length l -> splice l k 1 new = firstn k l ++ new ++ skipn (k + 1) l.
Proof. intros H. unfold splice. replace (k + 1 - 1) with k by lia. reflexivity. Qed.


Lemma pip_sr_change db s T x : pipOk db s T -> length x = length (sr s) ->
  (forall i, nth_error (pf s) i = Some zUnk -> nth_error x i = Some []) -> forall t, length t = length (tg s) ->
  pipOk db (mkPip (pf s) t x (us s)) T.
Proof. intros [P1 P2 P3 P4 P5 P6 P7] L H t Lt. constructor; cbn [pf tg sr us]; auto; lia. Qed.

Theorem assign_ok db mt old s T k path n st dv : wf_db db -> pipOk db s T -> nodeAt T k path unknown ->
  nth_error (db_stmts db) n = Some st -> isAssertion st ->
  let h := length (s_reqHyps st) in
  exists s' T' m, assignStatement db mt old s n k dv = Ok (s', dv + length (s_reqVars st)) /\
    pipOk db s' T' /\ putAt (premiseNode n h) T path T' /\
    (forall i v, nth_error (s_reqVars st) i = Some v -> m v = Z.of_nat (mt + 1 + dv + i)) /\
    pf s' = splice (pf s) k 1 (repeat zUnk h ++ [Z.of_nat n]) /\
    sr s' = splice (sr s) k 1 (repeat [] h ++ [renamed db m (s_math st)]) /\
    tg s' = splice (tg s) k 1 (map (fun x => renamed db m (mathAt db x)) (s_reqHyps st) ++ [nth k (tg s) []]) /\
    us s' = splice (us s) k 1 (repeat [] h ++ [nth k (us s) []]).
Proof.
  intros WD P N Es IA h. pose proof P as [P1 P2 P3 P4 P5 P6 P7]. pose proof (nodeAt_bound _ _ _ _ N) as B.
  pose proof (nodeAt_root _ _ _ _ N) as R. cbn [rootOf unknown] in R. rewrite <- P2 in R.
  assert (AR : arity db (Z.of_nat n) = Some h).
  { unfold arity. replace (Z.of_nat n <? 0)%Z with false by lia. rewrite Nat2Z.id, Es. destruct IA as [-> | ->]; reflexivity. }
  destruct (add_ok db s T k path unknown (premiseNode n h) P N R (premise_wf _ _ _ AR) (premise_norefs _ _))
    as [s1 [T1 [A1 [A2 [A3 [A4 [A5 [A6 [A7 A8]]]]]]]]].
  rewrite premise_sz in *. rewrite premise_rpn in *. replace (h + 1 - 1) with h in * by lia.
  set (m := dummyOf mt dv (s_reqVars st) old).
  assert (B' : k < length (pf s)) by (rewrite P2; exact B).
  assert (Lk : length (firstn k (sr s)) = k) by (rewrite firstn_length; lia).
  assert (Lt : length (firstn k (tg s)) = k) by (rewrite firstn_length; lia).
  assert (Lp : length (firstn k (pf s)) = k) by (rewrite firstn_length; lia).
  rewrite splice_mid in A5 by lia. rewrite splice_mid in A6 by lia. rewrite splice_mid in A7 by lia. rewrite splice_mid in A8 by lia.
  assert (S1 : sr s1 = (firstn k (sr s) ++ repeat [] h) ++ [] :: skipn (k + 1) (sr s)).
  { rewrite A7, repeat_app, <- !app_assoc. reflexivity. }
  assert (SN : forall y, setNth (sr s1) (k + h) y = Ok (firstn k (sr s) ++ (repeat [] h ++ [y]) ++ skipn (k + 1) (sr s))).
  { intros y. rewrite S1. replace (k + h) with (length (firstn k (sr s) ++ repeat ([] : list Z) h)) by (rewrite app_length, Lk, repeat_length; reflexivity).
    rewrite setNth_at, <- !app_assoc. reflexivity. }
  assert (NH : nth_error (pf s1) (k + h) = Some (Z.of_nat n)).
  { rewrite A5, nth_error_app2 by lia. rewrite Lp. rewrite nth_error_app1 by (rewrite app_length, repeat_length; simpl; lia).
    rewrite nth_error_app2 by (rewrite repeat_length; lia). rewrite repeat_length. replace (k + h - k - h) with 0 by lia. reflexivity. }
  assert (TG : (match s_reqHyps st with
     | [] => Ok (tg s1)
     | _ => if k + h =? 0 then UB else initHyps db m (pf s1) (rev (s_reqHyps st)) (k + h - 1) (tg s1)
     end) = Ok (firstn k (tg s) ++ (map (fun x => renamed db m (mathAt db x)) (s_reqHyps st) ++ [nth k (tg s) []]) ++ skipn (k + 1) (tg s))).
  { assert (I := initHyps_ok db m (pf s1) (fun x => renamed db m (mathAt db x)) (s_reqHyps st) (repeat [] h) (firstn k (tg s)) ([nth k (tg s) []] ++ skipn (k + 1) (tg s))).
    rewrite Lt in I. rewrite A6. rewrite <- !app_assoc. destruct (s_reqHyps st) as [|h0 hs] eqn:EH.
    - reflexivity.
    - replace (k + h =? 0) with false by (unfold h; simpl; lia). apply I.
      + rewrite repeat_length. reflexivity.
      + intros x Ix. rewrite <- EH in Ix. destruct (wf_hyps db WD n st x Es IA Ix) as [sh [Sh _]]. unfold stmtAt in Sh.
        exists sh. split; [exact Sh|]. unfold mathAt. rewrite Sh. reflexivity.
      + intros i Hi. rewrite A5, nth_error_app2 by lia. rewrite Lp. assert (Hi' : i < h) by exact Hi. rewrite nth_error_app1 by (rewrite app_length, repeat_length; clearbody h; simpl; lia).
        rewrite nth_error_app1 by (rewrite repeat_length; clearbody h; lia). apply nth_error_repeat. clearbody h; lia. }
  set (s' := mkPip (pf s1) (firstn k (tg s) ++ (map (fun x => renamed db m (mathAt db x)) (s_reqHyps st) ++ [nth k (tg s) []]) ++ skipn (k + 1) (tg s))
     (firstn k (sr s) ++ (repeat [] h ++ [renamed db m (s_math st)]) ++ skipn (k + 1) (sr s)) (us s1)).
  exists s', T1, m. split.
  { unfold assignStatement. rewrite R. cbn [rget rbind]. rewrite Z.eqb_refl. cbn [negb]. rewrite Es. cbn [rget rbind]. cbv zeta. fold h.
    rewrite A1. cbn [rbind]. unfold initStep. rewrite NH. cbn [rget rbind].
    replace (Z.of_nat n <? 0)%Z with false by lia. rewrite Nat2Z.id, Es. cbn [rget rbind]. cbv zeta. fold m.
    destruct IA as [-> | ->]; rewrite SN; cbn [rbind]; rewrite TG; reflexivity. }
  split.
  { pose proof A2 as [Q1 Q2 Q3 Q4 Q5 Q6 Q7]. apply (pip_sr_change db s1 T1); auto.
    - rewrite A7, !app_length, !repeat_length. cbn [length]. lia.
    - intros i Ni. specialize (Q7 i Ni). rewrite S1 in Q7. destruct (Nat.eq_dec i (k + h)) as [->|NE]; [rewrite NH in Ni; unfold zUnk in Ni; injection Ni as Ni; lia|].
      rewrite <- !app_assoc. cbn [app]. rewrite app_assoc.
      destruct (Nat.lt_ge_cases i (k + h)).
      + rewrite nth_error_app1 in Q7 |- * by (rewrite app_length, Lk, repeat_length; lia). exact Q7.
      + rewrite nth_error_app2 in Q7 |- * by (rewrite app_length, Lk, repeat_length; lia). rewrite app_length, Lk, repeat_length in Q7 |- *.
        destruct (i - (k + h)) eqn:Ei; [lia|]. exact Q7.
    - rewrite A6, !app_length, map_length, repeat_length. reflexivity. }
  split; [exact A3|]. split.
  { intros i v Nv. apply dummyOf_at; [|exact Nv]. eapply (wf_reqVars_nodup db WD); [exact Es|exact IA]. }
  cbn [pf tg sr us s']. rewrite (splice_mid (pf s)), (splice_mid (sr s)), (splice_mid (tg s)), (splice_mid (us s)) by lia. auto.
Qed.

Theorem assign_hyp_ok db mt old s T k path n st dv : pipOk db s T -> nodeAt T k path unknown ->
  nth_error (db_stmts db) n = Some st -> isHyp st -> s_reqHyps st = [] ->
  exists s' T', assignStatement db mt old s n k dv = Ok (s', dv) /\
    pipOk db s' T' /\ putAt (Node (Z.of_nat n) []) T path T' /\
    pf s' = splice (pf s) k 1 [Z.of_nat n] /\ sr s' = splice (sr s) k 1 [map Z.of_nat (s_math st)] /\
    tg s' = tg s /\ us s' = us s.
Proof.
  intros P N Es IH EH. pose proof P as [P1 P2 P3 P4 P5 P6 P7]. pose proof (nodeAt_bound _ _ _ _ N) as B.
  pose proof (nodeAt_root _ _ _ _ N) as R. cbn [rootOf unknown] in R. rewrite <- P2 in R.
  assert (AR : arity db (Z.of_nat n) = Some 0).
  { unfold arity. replace (Z.of_nat n <? 0)%Z with false by lia. rewrite Nat2Z.id, Es. destruct IH as [-> | ->]; reflexivity. }
  destruct (add_ok db s T k path unknown (premiseNode n 0) P N R (premise_wf _ _ _ AR) (premise_norefs _ _))
    as [s1 [T1 [A1 [A2 [A3 [A4 [A5 [A6 [A7 A8]]]]]]]]].
  rewrite premise_sz in *. rewrite premise_rpn in *. cbn [plus Nat.sub repeat app] in *.
  assert (B' : k < length (pf s)) by (rewrite P2; exact B).
  assert (ID : forall l : list (list Z), length l = length (pf s) -> splice l k 1 [nth k l []] = l).
  { intros l Ll. rewrite splice_mid by lia. destruct (nth_error l k) as [x|] eqn:Ex; [|apply nth_error_None in Ex; lia].
    cbn [app]. rewrite <- (nth_skipn_cons _ _ _ [] Ex). apply firstn_skipn. }
  rewrite ID in A6, A8 by assumption.
  assert (Lk : length (firstn k (sr s)) = k) by (rewrite firstn_length; lia).
  assert (SN : forall y, setNth (sr s1) k y = Ok (splice (sr s) k 1 [y])).
  { intros y. rewrite A7, !splice_mid by lia. cbn [app]. pose proof (setNth_at (firstn k (sr s)) [] (skipn (k + 1) (sr s)) y) as X. rewrite Lk in X. exact X. }
  assert (NH : nth_error (pf s1) k = Some (Z.of_nat n)).
  { rewrite A5, splice_nth by lia. replace (k <? k + 1 - 1) with false by lia. cbn [length]. replace (k <? k + 1 - 1 + 1) with true by lia.
    replace (k - (k + 1 - 1)) with 0 by lia. reflexivity. }
  exists (mkPip (pf s1) (tg s1) (splice (sr s) k 1 [map Z.of_nat (s_math st)]) (us s1)), T1. split.
  { unfold assignStatement. rewrite R. cbn [rget rbind]. rewrite Z.eqb_refl. cbn [negb]. rewrite Es. cbn [rget rbind]. cbv zeta.
    rewrite EH. cbn [length repeat app]. rewrite A1. cbn [rbind]. unfold initStep. rewrite Nat.add_0_r, NH. cbn [rget rbind].
    replace (Z.of_nat n <? 0)%Z with false by lia. rewrite Nat2Z.id, Es. cbn [rget rbind].
    destruct IH as [-> | ->]; rewrite SN; reflexivity. }
  split.
  { pose proof A2 as [Q1 Q2 Q3 Q4 Q5 Q6 Q7]. apply (pip_sr_change db s1 T1); auto.
    - rewrite A7, !splice_len by lia. reflexivity.
    - intros i Ni. specialize (Q7 i Ni). destruct (Nat.eq_dec i k) as [->|NE]; [rewrite NH in Ni; unfold zUnk in Ni; injection Ni as Ni; lia|].
      rewrite A7 in Q7. rewrite splice_nth in Q7 |- * by lia. cbn [length] in *. destruct (i <? k + 1 - 1) eqn:E1; [exact Q7|].
      replace (i <? k + 1 - 1 + 1) with false in * by lia. exact Q7. }
  split; [exact A3|]. cbn [pf tg sr us]. auto.
Qed.
