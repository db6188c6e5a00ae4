(* SqMax.v -- nmbrSquishProof shares every repeated subproof of more than one step. *)
From Verif Require Import Base VerModel ParModel SqModel SqSpec SqProofs SqPack.
Open Scope nat_scope.

Definition kidsOf (t : tree) : list tree := match t with Node _ k => k end.
Definition multi (t : tree) : Prop := kidsOf t <> [].

(* every step of p that is no reference proves a tree satisfying P *)
Definition prunP (P : tree -> Prop) (db : dbase) (H S : list tree) (p : list Z) : Prop :=
  forall A y B H2 S2 n, p = A ++ y :: B -> isRef y = false -> prun db H S A = Some (H2, S2) ->
    arity db y = Some n -> n <= length S2 -> P (Node y (rev (firstn n S2))).
Lemma prunP_tl P db H S z p H1 S1 : prunP P db H S (z :: p) -> prun db H S [z] = Some (H1, S1) -> prunP P db H1 S1 p.
Proof.
  intros HP HZ A y B H2 S2 n E NR PA AR L. apply (HP (z :: A) y B H2 S2 n); auto; [now rewrite E|].
  change (z :: A) with ([z] ++ A). rewrite prun_app, HZ. exact PA.
Qed.
Lemma prunP_weak (P P' : tree -> Prop) db H S p : (forall t, P t -> P' t) -> prunP P db H S p -> prunP P' db H S p.
Proof. intros W HP A y B H2 S2 n E NR PA AR L. apply W. eapply HP; eauto. Qed.
(* replacing a tree by a reference to an earlier step proving it *)
Lemma prunP_replace P db H1 S1 A T b zr m :
  wfTree db T -> refsBelow m (rpn T) -> refsBelow m b -> m <= length H1 -> isRef zr = true -> refOf zr < length H1 ->
  nth_error H1 (refOf zr) = Some (expand H1 T) ->
  prunP P db H1 S1 (A ++ rpn T ++ b) -> prunP P db H1 S1 (A ++ zr :: b).
Proof.
  intros W RT RB LM RZ LZ NZ HP A' y B' H2 S2 n E NR PA AR L.
  destruct (le_lt_dec (length A') (length A)) as [LE|LT].
  - (* in A *)
    assert (EA : exists A'', A = A' ++ A'' /\ A'' ++ zr :: b = y :: B').
    { exists (skipn (length A') A). assert (F := f_equal (firstn (length A')) E). rewrite firstn_app_exact in F.
      rewrite firstn_app in F. replace (length A' - length A) with 0 in F by lia. cbn in F. rewrite app_nil_r in F.
      split; [rewrite <- F at 1; symmetry; apply firstn_skipn|].
      assert (G := f_equal (skipn (length A')) E). rewrite skipn_app_exact, skipn_app in G.
      replace (length A' - length A) with 0 in G by lia. exact G. }
    destruct EA as (A'' & -> & E2). destruct A'' as [|y' A''].
    + cbn in E2. assert (zr = y) by congruence. congruence.
    + cbn in E2. assert (y' = y) by congruence. subst y'.
      apply (HP A' y (A'' ++ rpn T ++ b) H2 S2 n); auto. now rewrite <- app_assoc.
  - assert (EB : exists b1, A' = A ++ zr :: b1 /\ b = b1 ++ y :: B').
    { assert (EQ : (A ++ [zr]) ++ b = A' ++ y :: B') by (rewrite <- app_assoc; exact E).
      assert (LZ' : length (A ++ [zr]) <= length A') by (rewrite app_length; cbn; lia).
      exists (skipn (length (A ++ [zr])) A').
      assert (F := f_equal (skipn (length (A ++ [zr]))) EQ). rewrite skipn_app_exact, skipn_app in F.
      replace (length (A ++ [zr]) - length A') with 0 in F by lia. cbn [skipn] in F. split; [|exact F].
      assert (G := f_equal (firstn (length (A ++ [zr]))) EQ). rewrite firstn_app_exact, firstn_app in G.
      replace (length (A ++ [zr]) - length A') with 0 in G by lia. cbn [firstn] in G. rewrite app_nil_r in G.
      change (zr :: skipn (length (A ++ [zr])) A') with ([zr] ++ skipn (length (A ++ [zr])) A'). rewrite app_assoc.
      rewrite G at 1. symmetry. apply firstn_skipn. }
    destruct EB as (b1 & -> & ->). apply refsBelow_app in RB. destruct RB as [RB1 _].
    rewrite prun_app in PA. destruct (prun db H1 S1 A) as [[H3 S3]|] eqn:PA1; [|discriminate].
    destruct (prun_len db A H1 S1 H3 S3 PA1) as (X & EX & LX).
    cbn [prun] in PA. rewrite RZ in PA. rewrite EX in PA at 1. rewrite nth_error_app1 in PA by exact LZ. rewrite NZ in PA.
    assert (RT3 : refsBelow (length H3) (rpn T)) by (eapply refsBelow_le; [|exact RT]; rewrite EX, app_length; lia).
    destruct (prun_tree db T W H3 RT3) as (XT & LXT & EXT).
    assert (EE : expand H3 T = expand H1 T).
    { rewrite EX. apply expand_app. eapply refsBelow_le; [|exact RT]. exact LM. }
    assert (Q : exists H2', prun db H1 S1 (A ++ rpn T ++ b1) = Some (H2', S2)).
    { rewrite prun_app, PA1. rewrite EXT, EE.
      eapply prun_agree with (m := m); [exact RB1| | | |exact PA].
      - rewrite app_length, EX, app_length. lia.
      - rewrite app_length, EX, app_length. lia.
      - rewrite EX, <- !app_assoc. rewrite !firstn_app. replace (m - length H1) with 0 by lia. reflexivity. }
    destruct Q as (H2' & Q). apply (HP (A ++ rpn T ++ b1) y B' H2' S2 n); auto. now rewrite <- !app_assoc.
Qed.

(* ---------- the match loop leaves no occurrence ---------- *)
Lemma occ_left (s a b : list Z) k : occursAt s a k -> occursAt s (a ++ b) k.
Proof. intros (x & y & -> & L). exists x, (y ++ b). split; [|exact L]. now rewrite <- !app_assoc. Qed.
Lemma occ_in (s l : list Z) k i : occursAt s l k -> k <= i -> i < k + length s -> exists z, nth_error l i = Some z /\ In z s.
Proof.
  intros (a & b & -> & L) L1 L2. rewrite nth_error_app2 by lia. rewrite nth_error_app1 by lia.
  destruct (nth_error s (i - length a)) as [z|] eqn:E; [|apply nth_error_None in E; lia].
  exists z. split; [reflexivity|]. eapply nth_error_In; exact E.
Qed.
Lemma occ_restrict (s a : list Z) (z : Z) b k : occursAt s (a ++ z :: b) k -> k + length s <= length a -> occursAt s a k.
Proof.
  intros (x & y & E & L) LL. exists x, (firstn (length a - length (x ++ s)) y). split; [|exact L].
  assert (F := f_equal (firstn (length a)) E). rewrite firstn_app_exact in F. rewrite app_assoc, firstn_app in F.
  rewrite (firstn_all2 (x ++ s)) in F by (rewrite app_length; lia). rewrite <- app_assoc in F. exact F.
Qed.
Lemma sqMatch_none step sub base : 1 <= length sub -> ~ In (zLoc (Z.of_nat step)) sub ->
  forall fuel start newP found newP' found',
  (forall k, base <= k -> k < start - 1 -> ~ occursAt sub newP k) ->
  sqMatch fuel step start newP sub found = Ok (newP', found') ->
  forall k, base <= k -> ~ occursAt sub newP' k.
Proof.
  intros L1 NI. induction fuel as [|fuel IH]; intros start newP found newP' found' HB H; [discriminate|]. cbn [sqMatch] in H.
  destruct (nmbrInstr start newP sub) as [|m] eqn:IN.
  - apply Ok_inj in H. injection H as <- _. intros k Hk. destruct (le_lt_dec (start - 1) k) as [G|G]; [|now apply HB].
    exact (nmbrInstr_none _ _ _ IN k G).
  - apply nmbrInstr_some in IN. destruct IN as (M1 & (a & b & -> & LA) & M3). subst m.
    rewrite firstn_app_exact in H.
    assert (SK : skipn (length a + length sub) (a ++ sub ++ b) = b) by (rewrite <- app_length, app_assoc; apply skipn_app_exact).
    rewrite SK in H. cbn [app] in H. eapply IH; [|exact H]. intros k Hk HS O.
    destruct (le_lt_dec (k + length sub) (length a)) as [G|G].
    + apply occ_restrict in O; [|exact G]. apply (occ_left _ _ (sub ++ b)) in O.
      destruct (le_lt_dec (start - 1) k) as [G1|G1]; [apply (M3 k); [lia|exact O]|]. apply (HB k Hk G1 O).
    + destruct (occ_in _ _ _ (length a) O ltac:(lia) ltac:(lia)) as (z & E1 & E2).
      rewrite nth_error_app2 in E1 by lia. rewrite Nat.sub_diag in E1. cbn [nth_error] in E1. assert (z = zLoc (Z.of_nat step)) by congruence. subst z. contradiction.
Qed.

Lemma nth_tree db p H S : prun db [] [] p = Some (H, S) -> forall j y, nth_error p j = Some y -> isRef y = false ->
  exists kids, nth_error H j = Some (Node y kids) /\ arity db y = Some (length kids).
Proof.
  intros E j y Hj NR. apply nth_error_split in Hj. destruct Hj as (A & B & -> & LA). rewrite prun_app in E.
  destruct (prun db [] [] A) as [[H1 S1]|] eqn:PA; [|discriminate]. destruct (prun_len _ _ _ _ _ _ PA) as (X & EX & LX). cbn in EX. subst X.
  cbn [prun] in E. rewrite NR in E. destruct (arity db y) as [n|] eqn:AR; [|discriminate]. destruct (n <=? length S1) eqn:L; [|discriminate].
  apply Nat.leb_le in L. destruct (prun_len _ _ _ _ _ _ E) as (X & EX & _). exists (rev (firstn n S1)). rewrite EX, <- app_assoc.
  rewrite nth_error_app2 by lia. replace (j - length H1) with 0 by lia. split; [reflexivity|].
  rewrite rev_length, firstn_length. f_equal. lia.
Qed.
Lemma expand_size H t k : In k (kidsOf t) -> isRef (rootOf t) = false -> sz (expand H k) < sz (expand H t).
Proof.
  destruct t as [z kids]. cbn [kidsOf rootOf]. intros HI NR. cbn [expand]. rewrite NR. rewrite sz_node.
  assert (In (expand H k) (map (expand H) kids)) by now apply in_map. apply sz_kid in H0. lia.
Qed.

Lemma flat_in (ts : list tree) t z : In t ts -> In z (rpn t) -> In z (flat_map rpn ts).
Proof. intros A B. apply in_flat_map. eauto. Qed.
Lemma root_in t : In (rootOf t) (rpn t).
Proof. destruct t as [z kids]. cbn. apply in_or_app. right. now left. Qed.

Section Local.
  Variables (db : dbase) (P : tree -> Prop) (H1 : list tree) (T : tree) (sh1 : list tree).
  Hypothesis RB : refsBelow (length H1) (flat_map rpn (T :: sh1)).
  Lemma local_run : forall p H2 S2,
    prun db H1 (map (expand H1) (T :: sh1)) p = Some (H2, S2) ->
    prunP P db H1 (map (expand H1) (T :: sh1)) p ->
    exists p1 new U rest, p = p1 ++ flat_map rpn (rev new) /\ S2 = map (expand H2) (new ++ U :: rest) /\
      sz (expand H2 T) <= sz (expand H2 U) /\ Forall (wfTree db) new /\ Forall (fun c => In (rootOf c) p) new /\
      Forall (fun c => isRef (rootOf c) = false -> P (expand H2 c)) new /\
      refsBelow (length H2) (flat_map rpn (new ++ U :: rest)).
  Proof.
    induction p as [|y p IH] using rev_ind; intros H2 S2 HR HP.
    - cbn [prun] in HR. injection HR as <- <-. exists [], [], T, sh1. repeat split; auto.
    - rewrite prun_app in HR. destruct (prun db H1 (map (expand H1) (T :: sh1)) p) as [[H3 S3]|] eqn:HR1; [|discriminate].
      destruct (IH H3 S3 eq_refl) as (p1 & new & U & rest & EP & ES & SU & WN & IN & PN & RN).
      { intros A x B Ha Sa n E NR PA AR L. apply (HP A x (B ++ [y]) Ha Sa n); auto. rewrite E, <- app_assoc. reflexivity. }
      assert (RT3 : refsBelow (length H3) (rpn T)).
      { destruct (prun_len _ _ _ _ _ _ HR1) as (X & -> & _). eapply refsBelow_le; [rewrite app_length; apply Nat.le_add_r|].
        intros w Hw. apply RB. cbn. apply in_or_app. now left. }
      assert (EXP : forall t c, In c (new ++ U :: rest) -> expand (H3 ++ [t]) c = expand H3 c).
      { intros t c Hc. apply expand_app. intros w Hw. apply RN. eapply flat_in; eauto. }
      cbn [prun] in HR. destruct (isRef y) eqn:RY.
      + destruct (nth_error H3 (refOf y)) as [t|] eqn:N; [|discriminate]. injection HR as <- <-.
        assert (LY : refOf y < length H3) by (apply nth_error_Some; congruence).
        exists p1, (Node y [] :: new), U, rest. split; [|split; [|split; [|split; [|split; [|split]]]]].
        * cbn [rev]. rewrite flat_map_app. cbn. rewrite EP, <- app_assoc. reflexivity.
        * cbn [map app]. cbn [expand]. rewrite RY. rewrite app_nth1 by exact LY. rewrite (nth_error_nth _ _ _ N). f_equal.
          rewrite ES. apply map_ext_in. intros c Hc. symmetry. now apply EXP.
        * rewrite (expand_app H3 [t] T RT3), EXP by (apply in_or_app; right; now left). exact SU.
        * constructor; [|exact WN]. constructor; [now apply isRef_arity0|constructor].
        * constructor; [cbn; apply in_or_app; right; now left|]. eapply Forall_impl; [|exact IN]. intros c Hc. apply in_or_app. now left.
        * constructor; [cbn [rootOf]; congruence|]. rewrite Forall_forall in *. intros c Hc Hr. rewrite EXP by (apply in_or_app; now left). auto.
        * cbn [app flat_map rpn]. intros w [<-|Hw] Rw; rewrite app_length; cbn; [lia|]. specialize (RN w Hw Rw). lia.
      + destruct (arity db y) as [n|] eqn:AR; [|discriminate]. destruct (n <=? length S3) eqn:LE; [|discriminate]. apply Nat.leb_le in LE.
        injection HR as <- <-. set (t := Node y (rev (firstn n S3))).
        assert (Pt : P t) by (apply (HP p y [] H3 S3 n); auto).
        destruct (le_lt_dec n (length new)) as [G|G].
        * set (c0 := Node y (rev (firstn n new))).
          assert (SUB : forall c, In c (firstn n new) -> In c (new ++ U :: rest)).
          { intros c Hc. apply in_or_app. left. rewrite <- (firstn_skipn n new). apply in_or_app. now left. }
          assert (FS : firstn n S3 = map (expand H3) (firstn n new)).
          { rewrite ES, firstn_map, firstn_app. replace (n - length new) with 0 by lia. cbn [firstn]. now rewrite app_nil_r. }
          assert (E0 : expand (H3 ++ [t]) c0 = t).
          { unfold c0, t. cbn [expand]. rewrite RY. f_equal. rewrite FS, map_rev. f_equal. apply map_ext_in. intros c Hc. apply EXP. auto. }
          exists p1, (c0 :: skipn n new), U, rest. split; [|split; [|split; [|split; [|split; [|split]]]]].
          -- cbn [rev]. rewrite flat_map_app. unfold c0. cbn [flat_map rpn]. rewrite app_nil_r. rewrite app_assoc, app_assoc.
             rewrite <- (app_assoc p1), <- flat_map_app, <- rev_app_distr, firstn_skipn, <- EP. reflexivity.
          -- cbn [map app]. rewrite E0. f_equal. rewrite ES, skipn_map, skipn_app. replace (n - length new) with 0 by lia. cbn [skipn].
             apply map_ext_in. intros c Hc. symmetry. apply EXP. apply in_app_or in Hc. apply in_or_app. destruct Hc as [Hc|Hc]; [|now right].
             left. rewrite <- (firstn_skipn n new). apply in_or_app. now right.
          -- rewrite (expand_app H3 [t] T RT3), EXP by (apply in_or_app; right; now left). exact SU.
          -- constructor; [|now apply Forall_skipn']. constructor; [rewrite AR, rev_length, firstn_length; f_equal; lia|].
             apply Forall_rev. now apply Forall_firstn'.
          -- constructor; [cbn; apply in_or_app; right; now left|]. apply Forall_skipn'. eapply Forall_impl; [|exact IN]. intros c Hc. apply in_or_app. now left.
          -- constructor; [intros _; rewrite E0; exact Pt|]. apply Forall_skipn'. rewrite Forall_forall in *. intros c Hc Hr.
             rewrite EXP by (apply in_or_app; now left). auto.
          -- eapply refsBelow_le; [rewrite app_length; apply Nat.le_add_r|]. intros w Hw Rw.
             cbn [app flat_map] in Hw. unfold c0 in Hw. cbn [rpn] in Hw. apply in_app_or in Hw. destruct Hw as [Hw|Hw].
             ++ apply in_app_or in Hw. destruct Hw as [Hw|[<-|[]]]; [|congruence]. apply RN; [|exact Rw]. apply In_stk_flat in Hw.
                rewrite <- (firstn_skipn n new), <- app_assoc, flat_map_app. apply in_or_app. now left.
             ++ apply RN; [|exact Rw]. rewrite <- (firstn_skipn n new), <- app_assoc, flat_map_app. apply in_or_app. now right.
        * set (all := new ++ U :: rest) in *. set (c0 := Node y (rev (firstn n all))).
          assert (SUB : forall c, In c (firstn n all) -> In c all).
          { intros c Hc. rewrite <- (firstn_skipn n all). apply in_or_app. now left. }
          assert (UI : In U (firstn n all)).
          { unfold all. rewrite firstn_app. apply in_or_app. right. destruct (n - length new) eqn:Z; [lia|]. now left. }
          assert (E0 : expand (H3 ++ [t]) c0 = t).
          { unfold c0, t. cbn [expand]. rewrite RY. f_equal. rewrite ES, firstn_map, map_rev. f_equal. apply map_ext_in. intros c Hc. apply EXP. auto. }
          exists (p ++ [y]), [], c0, (skipn n all). split; [|split; [|split; [|split; [|split; [|split]]]]].
          -- cbn. now rewrite app_nil_r.
          -- cbn [map app]. rewrite E0. f_equal. rewrite ES, skipn_map. apply map_ext_in. intros c Hc. symmetry. apply EXP.
             rewrite <- (firstn_skipn n all). apply in_or_app. now right.
          -- rewrite (expand_app H3 [t] T RT3). pose proof (expand_size (H3 ++ [t]) c0 U) as SZ.
             specialize (SZ ltac:(cbn; now apply in_rev in UI) RY). rewrite EXP in SZ by auto. lia.
          -- constructor.
          -- constructor.
          -- constructor.
          -- eapply refsBelow_le; [rewrite app_length; apply Nat.le_add_r|]. intros w Hw Rw.
             cbn [app flat_map] in Hw. unfold c0 in Hw. cbn [rpn] in Hw. apply in_app_or in Hw. destruct Hw as [Hw|Hw].
             ++ apply in_app_or in Hw. destruct Hw as [Hw|[<-|[]]]; [|congruence]. apply RN; [|exact Rw]. apply In_stk_flat in Hw.
                rewrite <- (firstn_skipn n all), flat_map_app. apply in_or_app. now left.
             ++ apply RN; [|exact Rw]. rewrite <- (firstn_skipn n all), flat_map_app. apply in_or_app. now right.
  Qed.
End Local.

(* t is proved by no step of Q that is no reference, unless it is a single step *)
Definition newT (Q : list Z) (H : list tree) (t : tree) : Prop :=
  multi t -> forall j y, nth_error Q j = Some y -> isRef y = false -> nth_error H j <> Some t.
Definition uniq (Q : list Z) (H : list tree) : Prop :=
  forall i j x y t, nth_error Q i = Some x -> nth_error Q j = Some y -> isRef x = false -> isRef y = false ->
    nth_error H i = Some t -> nth_error H j = Some t -> multi t -> i = j.
Lemma map_eq_elem (f g : tree -> tree) : forall ks kids,
  (forall c c', In c kids -> In c' ks -> f c' = g c -> c' = c) -> map f ks = map g kids -> ks = kids.
Proof.
  induction ks as [|k ks IH]; intros [|c kids] HE E; try discriminate; [reflexivity|]. cbn in E.
  assert (E1 : f k = g c) by congruence. assert (E2 : map f ks = map g kids) by congruence. f_equal.
  - apply HE; auto; now left.
  - apply IH; auto. intros a b Ha Hb. apply HE; now right.
Qed.
Lemma inner_nonref db w : inner db w -> isRef w = false.
Proof. intros [L _]. unfold isRef. apply Z.leb_gt. lia. Qed.
Lemma inner_multi db p H S j w t : prun db [] [] p = Some (H, S) -> nth_error p j = Some w -> inner db w -> nth_error H j = Some t -> multi t.
Proof.
  intros E Hj IW Ht. destruct (nth_tree db p H S E j w Hj (inner_nonref _ _ IW)) as (kids & E1 & AR). rewrite Ht in E1.
  assert (t = Node w kids) by congruence. subst t. intros K. cbn in K. subst kids. destruct IW as [_ N]. apply N. exact AR.
Qed.
Lemma expand_nonref H c : isRef (rootOf c) = false -> expand H c = Node (rootOf c) (map (expand H) (kidsOf c)).
Proof. destruct c as [z kids]. cbn. now intros ->. Qed.
Lemma expand_ref H c j t : isRef (rootOf c) = true -> refOf (rootOf c) = j -> nth_error H j = Some t -> expand H c = t.
Proof. destruct c as [z kids]. cbn. intros -> <- E. now apply nth_error_nth. Qed.
Lemma ref_leaf db c : wfTree db c -> isRef (rootOf c) = true -> kidsOf c = [].
Proof. intros W R. destruct W as [z kids A F]. cbn in *. apply isRef_arity in A; [|exact R]. now destruct kids. Qed.

Lemma no_copy db Q z H1 S1 T sh1 R Hf Sf :
  prun db [] [] (Q ++ [z]) = Some (H1, S1) -> S1 = map (expand H1) (T :: sh1) ->
  refsBelow (length H1) (flat_map rpn (T :: sh1)) ->
  isRef (rootOf T) = false -> multi T -> nth_error H1 (length Q) = Some (expand H1 T) ->
  prun db H1 S1 R = Some (Hf, Sf) ->
  prunP (newT Q H1) db H1 S1 R -> uniq Q H1 ->
  (forall y, In y R -> isRef y = true -> exists w, nth_error (Q ++ [z]) (refOf y) = Some w /\ inner db w) ->
  (forall c, In c (kidsOf T) -> isRef (rootOf c) = true ->
     kidsOf c = [] /\ exists w, nth_error Q (refOf (rootOf c)) = Some w /\ inner db w) ->
  (forall c, In c (kidsOf T) -> isRef (rootOf c) = false -> multi c ->
     (exists j y, nth_error Q j = Some y /\ isRef y = false /\ nth_error H1 j = Some (expand H1 c)) /\
     forall y, In y R -> isRef y = true -> refOf y < length Q -> nth_error H1 (refOf y) <> Some (expand H1 c)) ->
  (forall k, ~ occursAt (rpn T) R k) ->
  prunP (fun t => t <> expand H1 T) db H1 S1 R.
Proof.
  intros PQ ES RB NRT MT NT PR NEW UQ RK KR KN NO A y B H2 S2 n ER NRY PA AR LE EQ.
  assert (LH : length H1 = length (Q ++ [z])) by (destruct (prun_len _ _ _ _ _ _ PQ) as (X & -> & LX); exact LX).
  assert (LQ : length (Q ++ [z]) = S (length Q)) by (rewrite app_length; cbn; lia).
  subst S1. destruct (prun_len _ _ _ _ _ _ PA) as (X2 & EH2 & _).
  assert (NEWA : prunP (newT Q H1) db H1 (map (expand H1) (T :: sh1)) A).
  { intros A' x B' Ha Sa m E N1 N2 N3 N4. apply (NEW A' x (B' ++ y :: B) Ha Sa m); auto. rewrite ER, E, <- app_assoc. reflexivity. }
  destruct (local_run db _ H1 T sh1 RB A H2 S2 PA NEWA) as (p1 & new & U & rest & EA & ES2 & SU & WN & IN & PN & RN).
  assert (RT : refsBelow (length H1) (rpn T)) by (intros w Hw; apply RB; cbn; apply in_or_app; now left).
  assert (E12 : forall c, refsBelow (length H1) (rpn c) -> expand H2 c = expand H1 c) by (intros c Hc; rewrite EH2; now apply expand_app).
  rewrite (expand_nonref H1 T NRT) in EQ. assert (EY : y = rootOf T) by congruence.
  assert (EK : rev (firstn n S2) = map (expand H1) (kidsOf T)) by congruence.
  assert (KS : forall c, In c (kidsOf T) -> sz (expand H1 c) < sz (expand H1 T)) by (intros c Hc; now apply expand_size).
  assert (KB : forall c, In c (kidsOf T) -> refsBelow (length H1) (rpn c)).
  { intros c Hc. destruct T as [zt kt]. cbn in Hc. eapply refsBelow_kid; eauto. }
  destruct (le_lt_dec n (length new)) as [G|G].
  2:{ assert (UI : In (expand H2 U) (map (expand H1) (kidsOf T))).
      { rewrite <- EK, ES2, <- in_rev, map_app, firstn_app, map_length. apply in_or_app. right. destruct (n - length new) eqn:Z; [lia|]. now left. }
      apply in_map_iff in UI. destruct UI as (c & E & Hc). apply KS in Hc. rewrite E in Hc. rewrite (E12 T RT) in SU. lia. }
  assert (FS : firstn n S2 = map (expand H2) (firstn n new)).
  { rewrite ES2, firstn_map, firstn_app. replace (n - length new) with 0 by lia. cbn [firstn]. now rewrite app_nil_r. }
  rewrite FS, <- map_rev in EK.
  assert (KK : rev (firstn n new) = kidsOf T).
  { apply (map_eq_elem (expand H2) (expand H1)); [|exact EK]. intros c c' Hc Hc' EE.
    assert (HN : In c' new).
    { apply in_rev in Hc'. rewrite <- (firstn_skipn n new). apply in_or_app. now left. }
    rewrite Forall_forall in WN, IN, PN. specialize (WN _ HN). specialize (IN _ HN). specialize (PN _ HN). cbn beta in IN, PN.
    assert (INR : In (rootOf c') R) by (rewrite ER; apply in_or_app; now left).
    pose proof (KS c Hc) as SC.
    (* a reference in R to a step that proves the kid *)
    assert (REF : isRef (rootOf c') = true -> exists t, nth_error H1 (refOf (rootOf c')) = Some t /\ t = expand H1 c /\ multi t /\ refOf (rootOf c') < length Q /\
               exists w, nth_error Q (refOf (rootOf c')) = Some w /\ isRef w = false).
    { intros Hr. destruct (RK _ INR Hr) as (w & Hw & IW).
      assert (LW : refOf (rootOf c') < length (Q ++ [z])) by (apply nth_error_Some; congruence).
      destruct (nth_error H1 (refOf (rootOf c'))) as [t|] eqn:Ht; [|apply nth_error_None in Ht; lia].
      exists t. split; [reflexivity|]. assert (ET : t = expand H1 c).
      { rewrite <- EE. symmetry. apply (expand_ref H2 c' (refOf (rootOf c')) t Hr eq_refl). rewrite EH2. rewrite nth_error_app1 by lia. exact Ht. }
      split; [exact ET|]. split; [exact (inner_multi db _ H1 _ _ w t PQ Hw IW Ht)|].
      assert (LL : refOf (rootOf c') < length Q).
      { destruct (Nat.eq_dec (refOf (rootOf c')) (length Q)) as [E|]; [|lia]. exfalso. rewrite E in Ht. rewrite NT in Ht.
        assert (t = expand H1 T) by congruence. subst t. rewrite H in SC. lia. }
      split; [exact LL|]. exists w. split; [|exact (inner_nonref _ _ IW)]. now rewrite nth_error_app1 in Hw by exact LL. }
    destruct (isRef (rootOf c)) eqn:RC.
    - destruct (KR c Hc RC) as (KC & w & Hw & IW).
      assert (LW : refOf (rootOf c) < length Q) by (apply nth_error_Some; congruence).
      destruct (nth_error H1 (refOf (rootOf c))) as [t|] eqn:Ht; [|apply nth_error_None in Ht; lia].
      assert (ET : expand H1 c = t) by exact (expand_ref H1 c _ t RC eq_refl Ht).
      assert (MM : multi t).
      { apply (inner_multi db _ H1 _ (refOf (rootOf c)) w t PQ); [|exact IW|exact Ht]. now rewrite nth_error_app1 by exact LW. }
      destruct (isRef (rootOf c')) eqn:RC'.
      + destruct (REF eq_refl) as (t' & Ht' & ET' & _ & _ & w' & Hw' & NW').
        assert (EJ : refOf (rootOf c') = refOf (rootOf c)).
        { apply (UQ _ _ w' w t); auto; [exact (inner_nonref _ _ IW)|congruence]. }
        pose proof (ref_leaf db c' WN RC') as KC'. destruct c as [zc kc], c' as [zc' kc']. cbn in *. subst kc kc'. f_equal.
        unfold isRef in *. apply Z.leb_le in RC, RC'. unfold refOf in EJ. lia.
      + exfalso. specialize (PN eq_refl). rewrite EE, ET in PN. exact (PN MM _ w Hw (inner_nonref _ _ IW) Ht).
    - destruct (kidsOf c) as [|k0 ks0] eqn:KC.
      + (* a single step *)
        assert (EC : expand H1 c = Node (rootOf c) []) by (rewrite expand_nonref by exact RC; now rewrite KC).
        destruct (isRef (rootOf c')) eqn:RC'.
        * exfalso. destruct (REF eq_refl) as (t' & _ & ET' & MM & _). rewrite ET', EC in MM. now apply MM.
        * rewrite (expand_nonref H2 c' RC'), EC in EE. destruct c as [zc kc], c' as [zc' kc']. cbn in *. subst kc.
          assert (zc' = zc) by congruence. assert (EM : map (expand H2) kc' = []) by congruence. destruct kc'; [now subst|discriminate].
      + exfalso. assert (MC : multi c) by (unfold multi; rewrite KC; discriminate).
        assert (ME : multi (expand H1 c)) by (rewrite expand_nonref by exact RC; unfold multi; cbn [kidsOf]; rewrite KC; discriminate).
        destruct (KN c Hc RC MC) as [(j & w & Hj & NW & EH) NREF]. destruct (isRef (rootOf c')) eqn:RC'.
        * destruct (REF eq_refl) as (t' & Ht' & ET' & _ & LL & _). apply (NREF _ INR RC' LL). congruence.
        * specialize (PN eq_refl). rewrite EE in PN. exact (PN ME j w Hj NW EH). }
  apply (NO (length (p1 ++ flat_map rpn (rev (skipn n new))))). exists (p1 ++ flat_map rpn (rev (skipn n new))), B. split; [|reflexivity].
  rewrite ER, EA. rewrite <- (firstn_skipn n new) at 1. rewrite rev_app_distr, flat_map_app, KK. destruct T as [zt kt]. cbn [rpn kidsOf rootOf] in *.
  subst y. rewrite <- !app_assoc. reflexivity.
Qed.

(* ---------- the match loop again: as sqMatch_ok, and P is kept ---------- *)
Lemma sqMatch_P P db t0 Q H1 S1 T U shN :
  wfTree db T -> 2 <= sz T ->
  srun db [] Q = Some (U :: shN) -> sz T <= sz U ->
  length H1 = length Q ->
  refsBelow (length Q) (rpn T) ->
  nth_error H1 (length Q - 1) = Some (expand H1 T) ->
  forall fuel start R found,
    length (Q ++ R) < fuel ->
    length Q + 3 <= start + sz T ->
    refsBelow (length Q) R ->
    (exists Hf, prun db H1 S1 R = Some (Hf, [t0])) ->
    (exists sh, srun db [] (Q ++ R) = Some sh) ->
    prunP P db H1 S1 R ->
    exists R' found',
      sqMatch fuel (length Q - 1) start (Q ++ R) (rpn T) found = Ok (Q ++ R', found') /\
      length R' <= length R /\
      refsBelow (length Q) R' /\
      (exists Hf, prun db H1 S1 R' = Some (Hf, [t0])) /\
      (found' = false -> R' = R) /\
      (forall z, In z R' -> In z R \/ z = zLoc (Z.of_nat (length Q - 1))) /\
      prunP P db H1 S1 R'.
Proof.
  intros W L2 SQ LU LH RT NX.
  assert (Qne : 1 <= length Q).
  { destruct Q; [|simpl; lia]. simpl in SQ. discriminate. }
  induction fuel as [|fuel IH]; intros start R found Hfuel Hstart RR [Hf PR] [sh SR] HPP; [lia|].
  cbn [sqMatch].
  destruct (nmbrInstr start (Q ++ R) (rpn T)) as [|m] eqn:IN.
  - exists R, found. split; [reflexivity|]. split; [lia|]. split; [exact RR|].
    split; [eauto|]. split; [reflexivity|]. split; [auto|exact HPP].
  - apply nmbrInstr_some in IN. destruct IN as [M1 [[a [b [EQ LA]]] _]].
    (* the match lies beyond Q *)
    assert (MQ : length Q <= m).
    { destruct (le_lt_dec (length Q) m) as [G|G]; [exact G|exfalso].
      (* j: how much of the match lies in Q *)
      assert (EQQ : Q = a ++ firstn (length Q - m) (rpn T)).
      { assert (E1 : firstn (length Q) (Q ++ R) = Q) by apply firstn_app_exact.
        rewrite EQ in E1. rewrite <- E1 at 1. rewrite firstn_app, LA.
        rewrite (firstn_all2 a) by lia. f_equal.
        rewrite firstn_app. replace (length Q - m - sz T) with 0 by lia. simpl. apply app_nil_r. }
      pose proof (srun_rpn db T W [] []) as ST. rewrite app_nil_r in ST. simpl in ST.
      rewrite <- (firstn_skipn (length Q - m) (rpn T)) in ST. rewrite srun_app in ST.
      destruct (srun db [] (firstn (length Q - m) (rpn T))) as [ts|] eqn:STS; [|discriminate].
      assert (SQ' := SQ). rewrite EQQ, srun_app in SQ'.
      destruct (srun db [] a) as [st0|] eqn:SA; [|discriminate].
      pose proof (srun_frame db _ [] ts st0 STS) as FR. simpl in FR. rewrite FR in SQ'.
      assert (TS : ts <> []).
      { eapply srun_nonempty; [exact STS|]. intros E. apply (f_equal (@length Z)) in E.
        rewrite firstn_length in E. simpl in E. lia. }
      destruct ts as [|U' ts]; [congruence|]. simpl in SQ'. inversion SQ'; subst U' shN.
      apply srun_top_cons in STS. destruct STS as [_ [_ E]].
      apply (f_equal (@length Z)) in E. rewrite firstn_length, app_length in E. lia. }
    (* split R *)
    assert (EA : exists A, a = Q ++ A /\ R = A ++ rpn T ++ b).
    { exists (skipn (length Q) a).
      assert (E1 : firstn (length Q) (Q ++ R) = Q) by apply firstn_app_exact.
      rewrite EQ in E1. rewrite firstn_app in E1. replace (length Q - length a) with 0 in E1 by lia.
      simpl in E1. rewrite app_nil_r in E1.
      split; [rewrite <- E1 at 1; symmetry; apply firstn_skipn|].
      assert (E2 : skipn (length Q) (Q ++ R) = R) by apply skipn_app_exact.
      rewrite EQ in E2. rewrite <- E2 at 1. rewrite skipn_app.
      replace (length Q - length a) with 0 by lia. reflexivity. }
    destruct EA as [A [Ea ER]].
    set (zr := zLoc (Z.of_nat (length Q - 1))).
    assert (EN : firstn m (Q ++ R) ++ [zr] ++ skipn (m + sz T) (Q ++ R) = Q ++ A ++ zr :: b).
    { rewrite EQ. rewrite <- LA. rewrite firstn_app_exact.
      assert (SK : skipn (length a + sz T) (a ++ rpn T ++ b) = b).
      { rewrite <- app_length, app_assoc. apply skipn_app_exact. }
      rewrite SK, Ea, <- app_assoc. reflexivity. }
    rewrite EN.
    (* runs *)
    rewrite ER in PR. rewrite prun_app in PR.
    destruct (prun db H1 S1 A) as [[H2 S2]|] eqn:PA; [|discriminate].
    destruct (prun_len db A H1 S1 H2 S2 PA) as [XA [EH2 LXA]].
    assert (RT2 : refsBelow (length H2) (rpn T)).
    { eapply refsBelow_le; [|exact RT]. rewrite EH2, app_length. lia. }
    destruct (prun_tree db T W H2 RT2) as [XT [LXT EXT]]. rewrite EXT in PR.
    assert (EE : expand H2 T = expand H1 T).
    { rewrite EH2. apply expand_app. rewrite LH. exact RT. }
    rewrite EE in PR.
    rewrite ER in RR. apply refsBelow_app in RR. destruct RR as [RA RR].
    apply refsBelow_app in RR. destruct RR as [_ RB].
    assert (PR' : exists Hf', prun db H1 S1 (A ++ zr :: b) = Some (Hf', [t0])).
    { rewrite prun_app, PA. simpl. unfold zr. rewrite isRef_zLoc, refOf_zLoc.
      rewrite EH2. rewrite nth_error_app1 by lia. rewrite NX. rewrite <- EH2.
      eapply prun_agree with (m := length Q); [exact RB| | | |exact PR].
      - rewrite EH2, !app_length. lia.
      - rewrite EH2, !app_length. lia.
      - rewrite EH2, <- !app_assoc. rewrite <- LH, !firstn_app_exact. reflexivity. }
    assert (SR' : exists sh', srun db [] (Q ++ A ++ zr :: b) = Some sh').
    { rewrite ER in SR. rewrite app_assoc in SR. rewrite srun_app in SR.
      rewrite app_assoc, srun_app. destruct (srun db [] (Q ++ A)) as [s|]; [|discriminate].
      rewrite srun_rpn in SR by exact W. simpl. rewrite (isRef_arity0 db zr) by apply isRef_zLoc. simpl.
      clear - SR. revert SR.
      assert (G : forall (b : list Z) s s' sh, length s = length s' -> srun db s b = Some sh ->
                  exists sh', srun db s' b = Some sh').
      { clear. induction b as [|y b IH]; intros s s' sh L E; simpl in *; [eauto|].
        destruct (arity db y) as [n|]; [|discriminate]. rewrite <- L.
        destruct (n <=? length s) eqn:LE; [|discriminate].
        eapply IH; [|exact E]. simpl. rewrite !skipn_length. lia. }
      intros E. eapply G; [|exact E]. reflexivity. }
    assert (RR' : refsBelow (length Q) (A ++ zr :: b)).
    { apply refsBelow_app. split; [exact RA|]. intros y [<-|Hy] Ry.
      - unfold zr. rewrite refOf_zLoc. lia.
      - apply RB; assumption. }
    assert (LL : length (A ++ zr :: b) < length R).
    { rewrite ER, !app_length. simpl. lia. }
    destruct (IH (S m + 2 - sz T) (A ++ zr :: b) true) as [R' [f' [E1 [E2 [E3 [E4 [E5 [E6 E7]]]]]]]].
    + rewrite app_length in Hfuel. rewrite app_length. lia.
    + lia.
    + exact RR'.
    + exact PR'.
    + exact SR'.
    + rewrite ER in HPP. apply (prunP_replace P db H1 S1 A T b zr (length Q)); auto; try lia; unfold zr; [apply isRef_zLoc|rewrite refOf_zLoc; lia|].
      rewrite refOf_zLoc. exact NX.
    + exists R', f'. split; [exact E1|]. split; [lia|]. split; [exact E3|]. split; [exact E4|].
      split.
      * (* a found match is never forgotten *)
        intros ->. exfalso. clear - E1.
        assert (G := sqMatch_true).
        eapply G. exact E1.
      * split; [|exact E7]. intros z Hz. apply E6 in Hz. destruct Hz as [Hz|Hz]; [|auto].
        apply in_app_or in Hz. rewrite ER. destruct Hz as [Hz|[Hz|Hz]].
        -- left. apply in_or_app. auto.
        -- right. symmetry. exact Hz.
        -- left. apply in_or_app. right. apply in_or_app. auto.
Qed.


(* ---------- the outer loop again: no two steps of the result prove the same tree ---------- *)
Lemma sqLoop_max db t0 : forall fuel Q DQ R H S sh shN,
  length R < fuel ->
  prun db [] [] Q = Some (H, S) ->
  (exists Hf, prun db H S R = Some (Hf, [t0])) ->
  srun db [] DQ = Some sh -> S = map (expand H) sh -> refsBelow (length Q) DQ ->
  srun db [] Q = Some shN -> Forall2 szle sh shN ->
  refsBelow (length Q) (Q ++ R) ->
  (forall z, In z (Q ++ R) -> isRef z = true -> exists y, nth_error Q (refOf z) = Some y /\ inner db y) ->
  uniq Q H -> prunP (newT Q H) db H S R ->
  (forall c, In c sh -> isRef (rootOf c) = true -> exists w, nth_error Q (refOf (rootOf c)) = Some w /\ inner db w) ->
  (forall c, In c sh -> isRef (rootOf c) = false -> multi c ->
     (exists j y, nth_error Q j = Some y /\ isRef y = false /\ nth_error H j = Some (expand H c)) /\
     forall y, In y R -> isRef y = true -> nth_error H (refOf y) <> Some (expand H c)) ->
  exists p' Hp, sqLoop fuel db (length Q) (length DQ) (Q ++ R) (DQ ++ R) = Ok p' /\
    prun db [] [] p' = Some (Hp, [t0]) /\ uniq p' Hp.
Proof.
  induction fuel as [|fuel IH]; intros Q DQ R H S sh shN Hfuel PQ [Hf PR] SD ES RD SN FN RB RK UQ NEW STK STM; [lia|].
  cbn [sqLoop].
  destruct R as [|z R].
  - rewrite app_nil_r in *. rewrite Nat.ltb_irrefl. exists Q, H. split; [reflexivity|].
    simpl in PR. assert (S = [t0]) by congruence. split; [rewrite PQ; congruence|exact UQ].
  - replace (length Q <? length (Q ++ z :: R)) with true
      by (symmetry; apply Nat.ltb_lt; rewrite app_length; simpl; lia).
    destruct (prun_len db Q [] [] H S PQ) as [XQ [EXQ LQ]]. simpl in EXQ. subst XQ.
    (* one step *)
    change (z :: R) with ([z] ++ R) in PR. rewrite prun_app in PR.
    destruct (prun db H S [z]) as [[H1 S1]|] eqn:PZ; [|discriminate].
    assert (LH1 : length H1 = length (Q ++ [z])).
    { destruct (prun_len db [z] H S H1 S1 PZ) as [X [-> LX]]. rewrite !app_length. simpl in *. lia. }
    pose proof (srun_top db DQ sh SD) as [WSH FSH].
    assert (RSH : refsBelow (length H) (flat_map rpn sh)).
    { rewrite LQ. intros y Hy. apply RD. rewrite <- FSH. apply In_stk_flat. rewrite rev_involutive.
      exact Hy. }
    destruct (prun_srun db [z] H sh H1 S1 RSH) as [sh' [SZ [ES1 RS1]]].
    { rewrite <- ES. exact PZ. }
    assert (SD1 : srun db [] (DQ ++ [z]) = Some sh') by (rewrite srun_app, SD; exact SZ).
    destruct sh' as [|T sh'].
    { exfalso. eapply srun_nonempty; [exact SD1| |reflexivity]. destruct DQ; discriminate. }
    destruct (srun_step_le db z sh (T :: sh') shN FN SZ) as [shN' [SN1 FN1]].
    inversion FN1 as [|? U ? shN'' LTU FN2]; subst shN'.
    assert (SQ1 : srun db [] (Q ++ [z]) = Some (U :: shN'')) by (rewrite srun_app, SN; exact SN1).
    assert (PQ1 : prun db [] [] (Q ++ [z]) = Some (H1, S1)) by (rewrite prun_app, PQ; exact PZ).
    assert (X1 : nth_error H1 (length (Q ++ [z]) - 1) = Some (expand H1 T)).
    { destruct (prun_last db Q z [] [] H1 S1 PQ1) as [xx [ss [h [E1 E2]]]].
      rewrite E1 in ES1. simpl in ES1. assert (Ex : xx = expand H1 T) by congruence. rewrite <- LH1, <- Ex, E2.
      rewrite app_length. simpl. rewrite nth_error_app2 by lia.
      replace (length h + 1 - 1 - length h) with 0 by lia. reflexivity. }
    pose proof (srun_top_cons db _ _ _ SD1) as [WT [WSH' ED1]].
    destruct (getSubproofLen_top db (DQ ++ [z]) sh' T R SD1) as [GS LT].
    rewrite <- app_assoc in GS. rewrite app_length in GS, LT. simpl in GS, LT.
    replace (length DQ + 1 - 1) with (length DQ) in GS by lia.
    rewrite GS. cbn [rbind].
    assert (RT : refsBelow (length (Q ++ [z])) (rpn T)).
    { rewrite <- LH1. intros y Hy. apply RS1. simpl. apply in_or_app. auto. }
    assert (RB1 : refsBelow (length (Q ++ [z])) ((Q ++ [z]) ++ R)).
    { rewrite <- app_assoc. eapply refsBelow_le; [|exact RB]. rewrite app_length. lia. }
    assert (RD1 : refsBelow (length (Q ++ [z])) (DQ ++ [z])).
    { apply refsBelow_app. split.
      - eapply refsBelow_le; [|exact RD]. rewrite app_length. lia.
      - intros y [<-|[]] Ry. eapply RB1; [|exact Ry]. apply in_or_app. left. apply in_or_app. right. left. reflexivity. }
    assert (RK1 : forall y, In y ((Q ++ [z]) ++ R) -> isRef y = true ->
              exists w, nth_error (Q ++ [z]) (refOf y) = Some w /\ inner db w).
    { rewrite <- app_assoc. intros y Hy Ry. destruct (RK y Hy Ry) as [w [N1 N2]]. exists w.
      split; [|exact N2]. rewrite nth_error_app1; [exact N1|]. apply nth_error_Some. congruence. }
    assert (EQ1 : Q ++ z :: R = (Q ++ [z]) ++ R) by (rewrite <- app_assoc; reflexivity).
    assert (ED : DQ ++ z :: R = (DQ ++ [z]) ++ R) by (rewrite <- app_assoc; reflexivity).
    assert (LL : forall (a : list Z) b, length (a ++ [b]) = Datatypes.S (length a)) by (intros; rewrite app_length; simpl; lia).
    rewrite EQ1, ED.
    destruct (prun_len db [z] H S H1 S1 PZ) as [X [EH1 LX]]. destruct X as [|xt [|xt' X]]; try discriminate LX. clear LX.
    assert (Lz : length (Q ++ [z]) = Datatypes.S (length Q)) by apply LL.
    assert (NQ : nth_error H1 (length Q) = Some xt).
    { rewrite EH1, nth_error_app2 by lia. rewrite LQ, Nat.sub_diag. reflexivity. }
    assert (NH : forall j, j < length Q -> nth_error H1 j = nth_error H j).
    { intros j Hj. rewrite EH1. apply nth_error_app1. lia. }
    assert (EX : xt = expand H1 T).
    { rewrite Lz in X1. cbn [Nat.sub] in X1. rewrite Nat.sub_0_r in X1. congruence. }
    assert (TF : exists nz, arity db z = Some nz /\ nz <= length sh /\ T = Node z (rev (firstn nz sh)) /\ sh' = skipn nz sh).
    { cbn [srun] in SZ. destruct (arity db z) as [nz|]; [|discriminate]. destruct (nz <=? length sh) eqn:LN; [|discriminate].
      exists nz. apply Nat.leb_le in LN. injection SZ as <- <-. auto. }
    destruct TF as (nz & ARZ & LN & ETT & ESH).
    assert (INS : forall c, In c (firstn nz sh) -> In c sh) by (intros c Hc; rewrite <- (firstn_skipn nz sh); apply in_or_app; now left).
    assert (INS' : forall c, In c sh' -> In c sh) by (intros c Hc; rewrite <- (firstn_skipn nz sh), <- ESH; apply in_or_app; now right).
    assert (KSH : forall c, In c (kidsOf T) -> In c sh).
    { intros c Hc. rewrite ETT in Hc. cbn [kidsOf] in Hc. apply in_rev in Hc. auto. }
    assert (EXP : forall c, In c sh -> expand H1 c = expand H c).
    { intros c Hc. rewrite EH1. apply expand_app. intros w Hw. apply RSH. eapply flat_in; eauto. }
    assert (NXT : isRef z = false -> newT Q H xt).
    { intros RZ. assert (EXX : xt = Node z (rev (firstn nz S))).
      { cbn [prun] in PZ. rewrite RZ, ARZ in PZ. destruct (nz <=? length S); [|discriminate]. injection PZ as PZ _. rewrite <- PZ in EH1.
        apply app_inj_tail in EH1. symmetry. apply EH1. }
      rewrite EXX. apply (NEW [] z R H S nz); auto. rewrite ES, map_length. exact LN. }
    assert (NEW1 : prunP (newT Q H1) db H1 S1 R).
    { apply (prunP_weak (newT Q H)); [|exact (prunP_tl _ _ _ _ _ _ _ _ NEW PZ)].
      intros t Ht MM j y Hj NR. rewrite NH by (apply nth_error_Some; congruence). exact (Ht MM j y Hj NR). }
    assert (NQ1 : forall j y, nth_error (Q ++ [z]) j = Some y -> nth_error Q j = Some y /\ j < length Q \/ j = length Q /\ y = z).
    { intros j y Hj. destruct (le_lt_dec (length Q) j) as [G|G].
      - right. rewrite nth_error_app2 in Hj by exact G. destruct (j - length Q) as [|q] eqn:EJ; [|destruct q; discriminate].
        cbn in Hj. split; [lia|congruence].
      - left. rewrite nth_error_app1 in Hj by exact G. auto. }
    assert (UQ1 : uniq (Q ++ [z]) H1).
    { intros i j a b t Hi Hj NA NB Ti Tj MM. apply NQ1 in Hi, Hj. destruct Hi as [[Hi Li]|[-> ->]]; destruct Hj as [[Hj Lj]|[-> ->]].
      - rewrite NH in Ti, Tj by assumption. exact (UQ i j a b t Hi Hj NA NB Ti Tj MM).
      - exfalso. rewrite NH in Ti by assumption. rewrite NQ in Tj. assert (t = xt) by congruence. subst t. exact (NXT NB MM i a Hi NA Ti).
      - exfalso. rewrite NH in Tj by assumption. rewrite NQ in Ti. assert (t = xt) by congruence. subst t. exact (NXT NA MM j b Hj NB Tj).
      - reflexivity. }
    assert (UQ0 : uniq Q H1).
    { intros i j a b t Hi Hj NA NB Ti Tj MM. rewrite NH in Ti, Tj by (apply nth_error_Some; congruence). exact (UQ i j a b t Hi Hj NA NB Ti Tj MM). }
    assert (STK1 : forall c, In c sh' -> isRef (rootOf c) = true -> exists w, nth_error (Q ++ [z]) (refOf (rootOf c)) = Some w /\ inner db w).
    { intros c Hc Rc. destruct (STK c (INS' c Hc) Rc) as (w & Hw & IW). exists w. split; [|exact IW]. rewrite nth_error_app1; [exact Hw|].
      apply nth_error_Some. congruence. }
    assert (RL : forall y, In y R -> isRef y = true -> refOf y < length Q).
    { intros y Hy Ry. apply RB; [|exact Ry]. apply in_or_app. right. now right. }
    assert (STM1 : forall c, In c sh' -> isRef (rootOf c) = false -> multi c ->
     (exists j y, nth_error (Q ++ [z]) j = Some y /\ isRef y = false /\ nth_error H1 j = Some (expand H1 c)) /\
     forall y, In y R -> isRef y = true -> nth_error H1 (refOf y) <> Some (expand H1 c)).
    { intros c Hc Rc MC. destruct (STM c (INS' c Hc) Rc MC) as ((j & y & Hj & NY & EJ) & NN). rewrite (EXP c (INS' c Hc)).
      assert (Lj : j < length Q) by (apply nth_error_Some; congruence). split.
      - exists j, y. rewrite nth_error_app1 by exact Lj. rewrite NH by exact Lj. auto.
      - intros w Hw Rw. rewrite NH by auto. apply NN; auto. now right. }
    destruct (sz T <=? 1) eqn:LE.
    + rewrite <- (LL Q z), <- (LL DQ z).
      eapply IH; [simpl in Hfuel; lia|exact PQ1|eexists; exact PR|exact SD1|exact ES1|exact RD1
                 |exact SQ1|exact FN1|exact RB1|exact RK1|exact UQ1| | |].
      * apply (prunP_weak (newT Q H1)); [|exact NEW1]. intros t Ht MM j y Hj NR HJ. apply NQ1 in Hj. destruct Hj as [[Hj Lj]|[-> ->]].
        -- exact (Ht MM j y Hj NR HJ).
        -- rewrite NQ in HJ. assert (t = xt) by congruence. subst t. apply MM. rewrite EX, ETT. cbn [expand]. rewrite NR. cbn [kidsOf].
           rewrite ETT, sz_node in LE. apply Nat.leb_le in LE. destruct (rev (firstn nz sh)) as [|k ks]; [reflexivity|].
           cbn [flat_map] in LE. rewrite app_length in LE. pose proof (sz_pos k). lia.
      * intros c [<-|Hc] Rc; [|auto]. rewrite ETT in *. cbn [rootOf] in *. apply RK1; [|exact Rc]. apply in_or_app. left. apply in_or_app. right. now left.
      * intros c [<-|Hc] Rc MC; [|auto]. exfalso. apply MC. rewrite ETT in *. cbn [kidsOf].
        rewrite sz_node in LE. apply Nat.leb_le in LE. destruct (rev (firstn nz sh)) as [|k ks]; [reflexivity|].
        cbn [flat_map] in LE. rewrite app_length in LE. pose proof (sz_pos k). lia.
    + apply Nat.leb_gt in LE.
      assert (Zpos : inner db z).
      { simpl in SZ. destruct (arity db z) as [n|] eqn:AZ; [|discriminate].
        destruct (n <=? length sh); [|discriminate]. split.
        - apply arity_cases in AZ. destruct AZ as [[A1 A2]|[A1 _]]; [|exact A1]. subst n.
          assert (ET : T = Node z []) by (cbn in SZ; congruence). rewrite ET in LE. cbn in LE. lia.
        - intros E0. assert (n = 0) by congruence. subst n.
          assert (ET : T = Node z []) by (cbn in SZ; congruence). rewrite ET in LE. cbn in LE. lia. }
      set (F := flat_map rpn (rev sh')) in *.
      assert (LF : length DQ + 1 - sz T = length F).
      { apply (f_equal (@length Z)) in ED1. rewrite !app_length in ED1. simpl in ED1. lia. }
      assert (ESUB : firstn (sz T) (skipn (length DQ + 1 - sz T) ((DQ ++ [z]) ++ R)) = rpn T).
      { rewrite LF, ED1, <- app_assoc, skipn_app_exact, firstn_app_exact. reflexivity. }
      rewrite ESUB.
      assert (NZ : isRef z = false) by exact (inner_nonref _ _ Zpos).
      assert (RTT : rootOf T = z) by now rewrite ETT.
      assert (MT : multi T).
      { unfold multi. rewrite ETT. cbn [kidsOf]. intros E0. rewrite ETT, E0 in LE. cbn in LE. lia. }
      assert (MX : multi xt).
      { rewrite EX, expand_nonref by (rewrite RTT; exact NZ). unfold multi in *. cbn [kidsOf]. destruct (kidsOf T); [congruence|discriminate]. }
      destruct (sqMatch_P (newT Q H1) db t0 (Q ++ [z]) H1 S1 T U shN'' WT ltac:(lia) SQ1 LTU LH1 RT X1
                  (Datatypes.S (length ((Q ++ [z]) ++ R))) (length Q + 2) R false)
        as [R' [found' [EM [LR' [RR' [PR' [EF [INR NEW2]]]]]]]].
      { lia. }
      { rewrite LL. lia. }
      { apply refsBelow_app in RB1. tauto. }
      { eexists; exact PR. }
      { assert (PT : prun db [] [] ((Q ++ [z]) ++ R) = Some (Hf, [t0])) by (rewrite prun_app, PQ1; exact PR).
        apply prun_srun0 in PT. destruct PT as [s [E _]]. eauto. }
      { exact NEW1. }
      replace (length (Q ++ [z]) - 1) with (length Q) in EM by (rewrite LL; lia).
      rewrite EM. cbn [rbind].
      assert (NOZ : ~ In (zLoc (Z.of_nat (length Q))) (rpn T)).
      { intros HI. rewrite ETT in HI. cbn [rpn] in HI. apply in_app_or in HI. destruct HI as [HI|[HI|[]]].
        - apply In_stk_flat in HI. assert (Q1 : refOf (zLoc (Z.of_nat (length Q))) < length H).
          { apply RSH; [|apply isRef_zLoc]. rewrite <- (firstn_skipn nz sh), flat_map_app. apply in_or_app. now left. }
          rewrite refOf_zLoc in Q1. lia.
        - rewrite HI in NZ. rewrite isRef_zLoc in NZ. discriminate. }
      assert (NO : forall k, ~ occursAt (rpn T) R' k).
      { intros k (a & b & E & La). refine (sqMatch_none (length Q) (rpn T) (length (Q ++ [z])) _ NOZ _ _ _ _ _ _ _ EM (length (Q ++ [z]) + k) _ _); try lia.
        exists ((Q ++ [z]) ++ a), b. split; [rewrite E, <- !app_assoc; reflexivity|rewrite app_length; lia]. }
      assert (RK2 : forall y, In y R' -> isRef y = true -> exists w, nth_error (Q ++ [z]) (refOf y) = Some w /\ inner db w).
      { intros y Hy Ry. apply INR in Hy. destruct Hy as [Hy|Hy].
        - apply RK1; [apply in_or_app; auto|exact Ry].
        - subst y. rewrite refOf_zLoc, Lz. cbn [Nat.sub]. rewrite Nat.sub_0_r. exists z. split; [|exact Zpos].
          rewrite nth_error_app2 by lia. rewrite Nat.sub_diag. reflexivity. }
      assert (NEW3 : prunP (newT (Q ++ [z]) H1) db H1 S1 R').
      { destruct PR' as [Hf' PR'].
        assert (NC : prunP (fun t => t <> expand H1 T) db H1 S1 R').
        { apply (no_copy db Q z H1 S1 T sh' R' Hf' [t0]); auto.
          - rewrite RTT. exact NZ.
          - rewrite NQ, EX. reflexivity.
          - intros c Hc Rc. split; [|apply STK; auto]. rewrite Forall_forall in WSH. apply (ref_leaf db); auto.
          - intros c Hc Rc MC. destruct (STM c (KSH c Hc) Rc MC) as ((j & y & Hj & NY & EJ) & NN). rewrite (EXP c (KSH c Hc)). split.
            + exists j, y. rewrite NH by (apply nth_error_Some; congruence). auto.
            + intros y' Hy' Ry' Ly'. rewrite NH by exact Ly'. apply INR in Hy'. destruct Hy' as [Hy'|Hy']; [apply NN; auto; now right|].
              subst y'. rewrite refOf_zLoc, Lz in Ly'. lia. }
        intros A y B Hy2 Sy2 m E NR PA AR L MM j w Hj NW HJ. apply NQ1 in Hj. destruct Hj as [[Hj Lj]|[-> ->]].
        - exact (NEW2 A y B Hy2 Sy2 m E NR PA AR L MM j w Hj NW HJ).
        - rewrite NQ in HJ. injection HJ as HJ. apply (NC A y B Hy2 Sy2 m E NR PA AR L). rewrite <- HJ. exact EX. }
      destruct found'.
      * assert (EFN : firstn (length DQ + 1 - sz T) ((DQ ++ [z]) ++ R) = F).
        { rewrite LF, ED1, <- app_assoc, firstn_app_exact. reflexivity. }
        rewrite EFN.
        assert (ESK : skipn (length Q + 1) ((Q ++ [z]) ++ R') = R').
        { rewrite <- (LL Q z) at 1 || idtac. replace (length Q + 1) with (length (Q ++ [z])) by (rewrite LL; lia).
          apply skipn_app_exact. }
        rewrite ESK, LF.
        set (zr := zLoc (Z.of_nat (length Q))).
        replace (F ++ [zr] ++ R') with ((F ++ [zr]) ++ R') by (rewrite <- app_assoc; reflexivity).
        rewrite <- (LL Q z), <- (LL F zr).
        destruct (IH (Q ++ [z]) (F ++ [zr]) R' H1 S1 (Node zr [] :: sh') (U :: shN''))
          as (p' & Hp & E1 & E2 & E3).
        -- simpl in Hfuel. lia.
        -- exact PQ1.
        -- exact PR'.
        -- rewrite srun_app. unfold F. rewrite srun_forest by exact WSH'. simpl.
           rewrite (isRef_arity0 db zr) by apply isRef_zLoc. reflexivity.
        -- rewrite ES1. simpl. unfold zr. rewrite isRef_zLoc, refOf_zLoc. f_equal.
           symmetry. apply nth_error_nth.
           rewrite LL in X1. simpl in X1. rewrite Nat.sub_0_r in X1. exact X1.
        -- apply refsBelow_app. split.
           ++ rewrite <- LH1. intros y Hy. apply RS1. simpl. apply in_or_app. right.
              apply In_stk_flat. exact Hy.
           ++ intros y [<-|[]] _. unfold zr. rewrite refOf_zLoc, LL. lia.
        -- exact SQ1.
        -- constructor; [|exact FN2]. unfold szle. simpl. apply sz_pos.
        -- apply refsBelow_app. split; [apply refsBelow_app in RB1; tauto|exact RR'].
        -- intros y Hy Ry. apply in_app_or in Hy. destruct Hy as [Hy|Hy].
           ++ apply RK1; [apply in_or_app; auto|exact Ry].
           ++ apply INR in Hy. destruct Hy as [Hy|Hy].
              ** apply RK1; [apply in_or_app; auto|exact Ry].
              ** subst y. rewrite refOf_zLoc. rewrite LL. simpl. rewrite Nat.sub_0_r.
                 exists z. split; [|exact Zpos]. rewrite nth_error_app2 by lia. rewrite Nat.sub_diag. reflexivity.
        -- exact UQ1.
        -- exact NEW3.
        -- intros c [<-|Hc] Rc; [|auto]. cbn [rootOf]. unfold zr. rewrite refOf_zLoc. exists z. split; [|exact Zpos].
           rewrite nth_error_app2 by lia. rewrite Nat.sub_diag. reflexivity.
        -- intros c [<-|Hc] Rc MC; [exfalso; apply MC; reflexivity|]. destruct (STM1 c Hc Rc MC) as (EJ & NN). split; [exact EJ|].
           intros y Hy Ry. apply INR in Hy. destruct Hy as [Hy|Hy]; [auto|]. subst y. rewrite refOf_zLoc, Lz. cbn [Nat.sub]. rewrite Nat.sub_0_r, NQ.
           intros EC. destruct (STM c (INS' c Hc) Rc MC) as ((j & y & Hj & NY & EJ') & _). rewrite (EXP c (INS' c Hc)) in EC.
           apply (NXT NZ MX j y Hj NY). rewrite EJ'. congruence.
        -- exists p', Hp. auto.
      * rewrite (EF eq_refl). rewrite <- (LL Q z), <- (LL DQ z).
        eapply IH; [simpl in Hfuel; lia|exact PQ1|eexists; exact PR|exact SD1|exact ES1|exact RD1
                   |exact SQ1|exact FN1|exact RB1|exact RK1|exact UQ1| | |].
        -- rewrite <- (EF eq_refl). exact NEW3.
        -- intros c [<-|Hc] Rc; [|auto]. rewrite RTT in Rc. congruence.
        -- intros c [<-|Hc] Rc MC; [|auto]. split.
           ++ exists (length Q), z. split; [rewrite nth_error_app2 by lia; rewrite Nat.sub_diag; reflexivity|]. split; [exact NZ|]. rewrite NQ, EX. reflexivity.
           ++ intros y Hy Ry EC. destruct (RK y) as (w & Hw & IW); [apply in_or_app; right; now right|exact Ry|].
              rewrite NH in EC by auto. rewrite <- EX in EC. exact (NXT NZ MX _ w Hw (inner_nonref _ _ IW) EC).
Qed.


Theorem squish_max db t : wfTree db t -> noRefs (rpn t) ->
  exists q H, squishProof db (rpn t) = Ok q /\ prun db [] [] q = Some (H, [t]) /\ uniq q H.
Proof.
  intros W N. unfold squishProof.
  destruct (sqLoop_max db t (S (sz t)) [] [] (rpn t) [] [] [] []) as (q & H & Hq).
  - lia.
  - reflexivity.
  - assert (R0 : refsBelow 0 (rpn t)) by (intros z Hz Rz; rewrite (N z Hz) in Rz; discriminate).
    destruct (prun_tree db t W [] R0) as [X [LX EX]]. specialize (EX [] []).
    rewrite app_nil_r in EX. simpl in EX. exists X. rewrite EX.
    rewrite expand_noRefs by exact N. reflexivity.
  - reflexivity.
  - reflexivity.
  - intros z [].
  - reflexivity.
  - constructor.
  - simpl. intros z Hz Rz. rewrite (N z Hz) in Rz. discriminate.
  - simpl. intros z Hz Rz. rewrite (N z Hz) in Rz. discriminate.
  - intros i j xt y u Hi. destruct i; discriminate.
  - intros A y B Hy2 Sy2 nz E NR PA AR L MM j w Hj. destruct j; discriminate.
  - intros c [].
  - intros c [].
  - exists q, H. exact Hq.
Qed.
