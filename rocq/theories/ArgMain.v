(* ArgMain.v *)
From Coq Require Import NArith.
From Verif Require Import Base VerModel VerSpec ParModel SqSpec SqModel SqProofs SqAttr VstrModel VstrSpec VstrProofs VstrEdit VstrProps
  LabModel LabSpec LabProofs MatchModel MatchSpec MatchProofs FatlSpec FatlProofs DateModel DateSpec DateProofs ArgModel ArgSpec ArgProofs ArgStr.
Open Scope nat_scope.

Lemma find_msg fuel db pf neg v r msg : findUnknown fuel db pf neg v = Ok (r, msg) -> (msg = SM_none <-> r <> (-1)%Z) /\
  (r = (-1)%Z \/ (1 <= r)%Z).
Proof.
  unfold findUnknown. intros H. apply rbind_ok in H. destruct H as [ess [_ H]]. apply rbind_ok in H. destruct H as [k [_ H]].
  destruct (Nat.eqb_spec k 0) as [K|K]; injection H as <- <-.
  - split; [|left; reflexivity]. destruct (v =? 0)%Z; split; congruence.
  - split; [|right; lia]. split; [lia|reflexivity].
Qed.
Lemma step_msg fuel db s pf all r msg : getStepNum fuel db s pf all = Ok (r, msg) -> (msg = SM_none <-> r <> (-1)%Z).
Proof.
  unfold getStepNum. intros H. apply rbind_ok in H. destruct H as [caps [_ H]]. apply rbind_ok in H. destruct H as [v [_ H]].
  do 3 (apply rbind_ok in H; destruct H as [? [_ H]]). apply rbind_ok in H. destruct H as [c0 [_ H]].
  destruct ((0 <=? v)%Z && strEq caps (DateModel.str v)) eqn:B.
  { apply andb_prop in B. destruct B as [B _]. apply Z.leb_le in B.
    destruct ((Z.of_nat (length pf) <? v)%Z || (v <? 1)%Z); injection H as <- <-; split; try congruence; lia. }
  do 2 (match type of H with (if ?b then _ else _) = _ => destruct b end; [apply find_msg in H; tauto|]).
  do 2 (match type of H with (if ?b then _ else _) = _ => destruct b end;
    [apply rbind_ok in H; destruct H as [t [_ H]]; match type of H with (if ?b then _ else _) = _ => destruct b end; [apply find_msg in H; tauto|injection H as <- <-; split; congruence]|]).
  repeat match type of H with (if ?b then _ else _) = _ => destruct b end; injection H as <- <-; split; congruence.
Qed.

Lemma step_main db T fuel s all l : wf_db db -> wfTree db T -> legalCodes (rpn T) -> length (rpn T) <= fuel ->
  isStr s -> length s <= 15 -> unknowns db T l ->
  exists r msg, getStepNum fuel db s (rpn T) all = Ok (r, msg) /\ (msg = SM_none <-> r <> (-1)%Z) /\
    (forall a, reads s a -> r = match designates (length (rpn T)) l all a with Some k => Z.of_nat k | None => (-1)%Z end) /\
    ((forall a, ~ reads s a) -> r = (-1)%Z).
Proof.
  intros WD W LC HF HS L15 U. rewrite (unknowns_unique db T l _ U (unknowns_ok db T W)).
  destruct (step_ok db T fuel s all WD W LC HF HS L15) as [msg [[a [Ra E]]|[NR [E M]]]].
  - eexists. exists msg. split; [exact E|]. split; [eapply step_msg; exact E|]. split.
    + intros b Rb. rewrite (reads_det s b a Rb Ra). reflexivity.
    + intros NR. destruct (NR a Ra).
  - eexists. exists msg. split; [exact E|]. split; [eapply step_msg; exact E|]. split; [|reflexivity]. intros a Ra. destruct (NR a Ra).
Qed.

(* the relative numbers shown can be typed *)
Lemma unk_pos ess pf n k : k < n -> unkTest ess pf k = true ->
  nth_error (rev (unkList ess pf n)) (length (filter (unkTest ess pf) (seq (S k) (n - S k)))) = Some k.
Proof.
  intros L T. unfold unkList. replace n with (k + (S (n - S k))) at 1 by lia.
  rewrite seq_app, filter_app. cbn [Nat.add seq filter]. rewrite T. rewrite rev_app_distr. cbn [rev].
  rewrite <- app_assoc. rewrite nth_error_app2 by (rewrite rev_length; lia). rewrite rev_length, Nat.sub_diag. reflexivity.
Qed.
Lemma rel_main db T fuel : wf_db db -> wfTree db T -> legalCodes (rpn T) -> length (rpn T) <= fuel ->
  exists rs, getRelStepNums fuel db (rpn T) = Ok rs /\ length rs = length (rpn T) /\
    forall k, k < length (rpn T) ->
      (~ unknownEss db T k /\ nth_error rs k = Some (Z.of_nat (S k))) \/
      (unknownEss db T k /\ exists j, nth_error rs k = Some (- Z.of_nat j)%Z /\
         forall d all, isDecimal (N.of_nat j) d -> length d <= 14 ->
           getStepNum fuel db (45 :: d) (rpn T) all = Ok (Z.of_nat (S k), SM_none)).
Proof.
  intros WD W LC HF. unfold getRelStepNums. rewrite (essential_ok db T WD W LC fuel HF). cbn [rbind].
  assert (LE : length (essl db T) = length (rpn T)) by (apply essl_len, W).
  destruct (relLoop_ok (essl db T) (rpn T) LE (length (rpn T)) 0%Z [] ltac:(lia)) as [out [R [LO K]]].
  exists out. rewrite R, app_nil_r. split; [reflexivity|]. split; [exact LO|]. intros k Hk.
  pose proof (unknowns_ok db T W) as UO. pose proof UO as [U _]. specialize (U k). unfold unkList in U. rewrite filter_In, in_seq in U.
  rewrite (K k Hk). destruct (unkTest (essl db T) (rpn T) k) eqn:TK.
  - right. split; [apply U; split; [split; [apply Nat.le_0_l|exact Hk]|reflexivity]|]. eexists. split; [rewrite Z.sub_0_l; reflexivity|].
    intros d all D L14.
    assert (IS : isStr (45 :: d)) by (constructor; [lia|eapply isStr_dec; exact D]).
    destruct (step_main db T fuel (45 :: d) all _ WD W LC HF IS ltac:(cbn; lia) UO) as (r & msg & E & M & A & _).
    specialize (A _ (rd_minus d _ D)). cbn [designates] in A.
    rewrite (unk_pos (essl db T) (rpn T) (length (rpn T)) k Hk TK) in A. cbn [option_map] in A.
    rewrite E. subst r. f_equal. f_equal. apply M. lia.
  - left. split; [|reflexivity]. intros Q. apply U in Q. destruct Q as [_ Q]. discriminate Q.
Qed.
