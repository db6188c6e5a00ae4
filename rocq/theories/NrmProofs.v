(* NrmProofs.v -- nmbrCvtRToVString: local labels, room, and the tokens read back. *)
From Coq Require Import NArith Nnat ZifyBool ZifyNat.
From Verif Require Import Base MMSpec VerModel VerSpec TokModel ParModel ParSpec CmpSpec FatlSpec FatlProofs DateModel DateProofs CmdModel
  SavModel CheckPar NrmModel NrmSpec.
Open Scope nat_scope.

Definition num (k : nat) : list nat := DateModel.str (Z.of_nat k).
Lemma num_dec k : isDecimal (N.of_nat k) (num k).
Proof. unfold num. rewrite str_print. replace (N.of_nat k) with (Z.to_N (Z.of_nat k)) by lia. apply printInt_ok. lia. Qed.
Lemma num_inj a b : num a = num b -> a = b.
Proof.
  intros E. pose proof (num_dec a) as (_ & _ & A & _). pose proof (num_dec b) as (_ & _ & B & _). rewrite E in A. rewrite A in B. lia.
Qed.
Lemma num_word k : labelWord (num k).
Proof.
  destruct (num_dec k) as (A & B & _ & _). split; [exact A|]. eapply Forall_impl; [|exact B]. intros c H. cbn beta in H. unfold labelChar. lia.
Qed.

(* ---- number of digits ---- *)
Lemma digitCount_bound : forall fuel i, i < fuel -> i < 10 ^ digitCount fuel i.
Proof.
  induction fuel as [|f IH]; intros i H; [lia|]. cbn [digitCount]. destruct (Nat.eqb_spec i 0) as [->|N]; [cbn; lia|].
  assert (i / 10 < f) as L by (assert (i / 10 < i) by (apply Nat.div_lt; lia); lia). specialize (IH _ L).
  rewrite Nat.pow_succ_r'. pose proof (Nat.div_mod i 10 ltac:(lia)). pose proof (Nat.mod_upper_bound i 10 ltac:(lia)). lia.
Qed.
Lemma num_len k n : 0 < k -> k <= n -> length (num k) <= digitCount (S n) n.
Proof.
  intros K L. pose proof (digitCount_bound (S n) n ltac:(lia)) as B. destruct (num_dec k) as (D1 & D2 & D3 & D4).
  fold (val10 (num k)) in D3. destruct (num k) as [|x l] eqn:E; [congruence|].
  rewrite val10_cons in D3. inversion D2 as [|? ? X _]; subst.
  assert (x <> 48) as NX. { intros ->. specialize (D4 eq_refl). injection D4 as ->. cbn in D3. lia. }
  assert (1 <= N.of_nat (x - 48))%N by lia.
  assert (10 ^ N.of_nat (length l) <= N.of_nat n)%N as Q by nia.
  cbn [length]. set (d := digitCount (S n) n) in *. clearbody d. apply Nat.lt_nge. intros G.
  assert (d <= length l) by lia.
  assert (10 ^ d <= 10 ^ length l) by (apply Nat.pow_le_mono_r; lia).
  assert (10 ^ length l <= n); [|lia].
  assert (PW : forall a, N.of_nat (10 ^ a) = (10 ^ N.of_nat a)%N).
  { induction a as [|a IH]; [reflexivity|]. rewrite Nat.pow_succ_r', Nat2N.inj_succ, N.pow_succ_r', Nat2N.inj_mul, IH. reflexivity. }
  rewrite <- PW in Q. lia.
Qed.

Section Env.
  Variable env : penv.
  Hypothesis WE : wf_env env.
  Hypothesis UE : uniq_env env.
  Let db := e_db env.

  Lemma hasLabel_iff sm : hasLabel sm = true <-> labelled sm.
  Proof. unfold hasLabel, labelled, isAssertion, isHyp. destruct (s_type sm); split; intros; try reflexivity; try discriminate; intuition discriminate. Qed.
  Lemma in_allLabels t : In t (allLabels env) <-> exists m sm, stmtAt db m sm /\ labelled sm /\ e_name env m = t.
  Proof.
    unfold allLabels. rewrite in_map_iff. split.
    - intros (m & E & H). apply filter_In in H. destruct H as [_ H]. fold db in H. destruct (nth_error (db_stmts db) m) as [sm|] eqn:S; [|discriminate].
      exists m, sm. split; [exact S|]. split; [now apply hasLabel_iff|exact E].
    - intros (m & sm & A & B & E). exists m. split; [exact E|]. apply filter_In. fold db. unfold stmtAt in A. rewrite A. split; [|now apply hasLabel_iff].
      apply in_seq. assert (m < length (db_stmts db)) by (apply nth_error_Some; congruence). lia.
  Qed.
  Lemma inLabels_iff t : inLabels env t = true <-> In t (allLabels env).
  Proof.
    unfold inLabels. rewrite existsb_exists. split.
    - intros (x & I & E). unfold seqb in E. destruct (list_eq_dec Nat.eq_dec x t); [now subst|discriminate].
    - intros I. exists t. split; [exact I|]. unfold seqb. destruct (list_eq_dec Nat.eq_dec t t); congruence.
  Qed.
  Lemma name_label m sm : stmtAt db m sm -> labelled sm -> In (e_name env m) (allLabels env).
  Proof. intros A B. apply in_allLabels. eauto. Qed.

  Lemma free_go : forall fuel next, (exists k, freeNumber fuel env next = Ok k /\ next <= k /\ inLabels env (num k) = false /\ forall j, next <= j < k -> inLabels env (num j) = true) \/
    forall j, next <= j < next + fuel -> inLabels env (num j) = true.
  Proof.
    induction fuel as [|f IH]; intros next; [right; intros; lia|]. cbn [freeNumber]. fold (num next).
    destruct (inLabels env (num next)) eqn:E.
    - destruct (IH (S next)) as [(k & A & B & C & D)|H].
      + left. exists k. split; [exact A|]. split; [lia|]. split; [exact C|]. intros j J. destruct (Nat.eq_dec j next) as [->|]; [exact E|]. apply D. lia.
      + right. intros j J. destruct (Nat.eq_dec j next) as [->|]; [exact E|]. apply H. lia.
    - left. exists next. split; [reflexivity|]. split; [lia|]. split; [exact E|]. intros; lia.
  Qed.
  Lemma free_ok next : exists k, freeNumber (S (length (allLabels env))) env next = Ok k /\ next <= k /\ ~ In (num k) (allLabels env) /\
    forall j, next <= j < k -> In (num j) (allLabels env).
  Proof.
    destruct (free_go (S (length (allLabels env))) next) as [(k & A & B & C & D)|H].
    - exists k. split; [exact A|]. split; [exact B|]. split; [intros I; apply inLabels_iff in I; congruence|]. intros j J. apply inLabels_iff, D, J.
    - exfalso. set (f := S (length (allLabels env))) in *.
      assert (ND : NoDup (map num (seq next f))).
      { apply FinFun.Injective_map_NoDup; [intros a b; apply num_inj|apply seq_NoDup]. }
      assert (IN : incl (map num (seq next f)) (allLabels env)).
      { intros t I. apply in_map_iff in I. destruct I as (j & <- & I). apply in_seq in I. apply inLabels_iff, H. lia. }
      pose proof (NoDup_incl_length ND IN) as L. rewrite map_length, seq_length in L. exact (Nat.nle_succ_diag_l _ L).
  Qed.

  (* ---- the pieces ---- *)
  Variable q : list pstep.
  Definition decl (k : nat) : bool := existsb (Z.eqb (zLoc (Z.of_nat k))) (map encStep q).
  Lemma decl_iff k : decl k = true <-> In (Loc k) q.
  Proof.
    unfold decl. rewrite existsb_exists. split.
    - intros (z & I & E). apply in_map_iff in I. destruct I as (x & <- & I). apply Z.eqb_eq in E. unfold zLoc in E.
      destruct x as [|i|m]; cbn [encStep] in E; unfold zUnk, zLoc in E; try lia. assert (i = k) by lia. now subst.
    - intros I. exists (encStep (Loc k)). split; [now apply in_map|]. apply Z.eqb_refl.
  Qed.
  Definition chunk (nm : nat -> nat) (k : nat) (x : pstep) : list nat :=
    match x with
    | Unk => [chQ]
    | Loc i => num (nm i)
    | Stm m => if decl k then num (nm k) ++ chColon :: e_name env m else e_name env m
    end.
  Fixpoint chunks (nm : nat -> nat) (k : nat) (l : list pstep) : list (list nat) :=
    match l with [] => [] | x :: r => chunk nm k x :: chunks nm (S k) r end.

  (* statements are in the table, references go back *)
  Definition stmOk (m : nat) : Prop := 0 < m /\ exists sm, stmtAt db m sm /\ labelled sm.
  Hypothesis SO : forall m, In (Stm m) q -> stmOk m.
  Hypothesis LB : forall k i, nth_error q k = Some (Loc i) -> i < k.
  (* only assertions are referred to *)
  Hypothesis LA : forall i, In (Loc i) q -> exists m sm, nth_error q i = Some (Stm m) /\ stmtAt db m sm /\ isAssertion sm.

  Lemma putAt_len i v l : i < length l -> length (putAt i v l) = length l.
  Proof. intros H. unfold putAt. rewrite app_length, firstn_length. cbn [length]. rewrite skipn_length. lia. Qed.
  Lemma putAt_same i v l : i < length l -> nth_error (putAt i v l) i = Some v.
  Proof. intros H. unfold putAt. rewrite nth_error_app2; rewrite firstn_length; [|lia]. replace (i - Nat.min i (length l)) with 0 by lia. reflexivity. Qed.
  Lemma nth_firstn {A} : forall i j (l : list A), j < i -> nth_error (firstn i l) j = nth_error l j.
  Proof. induction i as [|i IH]; intros [|j] [|x l] H; try lia; try reflexivity. cbn. apply IH. lia. Qed.
  Lemma putAt_before i v l j : j < i -> i < length l -> nth_error (putAt i v l) j = nth_error l j.
  Proof. intros H1 H2. unfold putAt. rewrite nth_error_app1 by (rewrite firstn_length; lia). now apply nth_firstn. Qed.

  Definition numbered (next k : nat) (nm : nat -> nat) : Prop :=
    (forall i, k <= i -> In (Loc i) q -> next <= nm i /\ ~ In (num (nm i)) (allLabels env)) /\
    (forall i j, k <= i -> i < j -> In (Loc i) q -> In (Loc j) q -> nm i < nm j) /\
    ((forall j, 0 < j -> ~ In (num j) (allLabels env)) -> next <= S k -> 0 < next -> forall i, k <= i -> In (Loc i) q -> nm i <= S i).

  Lemma pieces_ok : forall l pre next names, q = pre ++ l -> length names = length q -> exists nm,
    pieces env (map encStep q) (length pre) next names (map encStep l) = Ok (chunks nm (length pre) l) /\
    (forall i, i < length pre -> nth_error names i = Some (nm i)) /\ numbered next (length pre) nm.
  Proof.
    induction l as [|x l IH]; intros pre next names E L; cbn [map pieces chunks].
    - exists (fun i => nth i names 0). split; [reflexivity|].
      rewrite app_nil_r in E. subst pre. split; [intros i H; apply nth_error_nth'; lia|].
      assert (NL : forall i, length q <= i -> In (Loc i) q -> False).
      { intros i H I. destruct (LA i I) as (m & sm & A & _). assert (i < length q) by (apply nth_error_Some; congruence). lia. }
      split; [|split]; intros; exfalso; eauto.
    - assert (EX : nth_error q (length pre) = Some x) by (rewrite E, nth_error_app2, Nat.sub_diag by lia; reflexivity).
      assert (LP : length pre < length q) by (apply nth_error_Some; congruence).
      assert (E' : q = (pre ++ [x]) ++ l) by (rewrite <- app_assoc; exact E).
      assert (LS : length (pre ++ [x]) = S (length pre)) by (rewrite app_length; cbn; lia).
      assert (NODECL : ~ In (Loc (length pre)) q -> forall nm, numbered next (S (length pre)) nm -> numbered next (length pre) nm).
      { intros ND nm (B1 & B2 & B3). split; [|split].
        - intros i H I. apply B1; [|exact I]. destruct (Nat.eq_dec i (length pre)); [subst; contradiction|lia].
        - intros i j H H' I J. apply B2; auto. destruct (Nat.eq_dec i (length pre)); [subst; contradiction|lia].
        - intros NN LN P i H I. destruct (Nat.eq_dec i (length pre)); [subst; contradiction|]. apply B3; auto; lia. }
      destruct x as [|i|m]; cbn [encStep].
      + change (zUnk <? 0)%Z with true. change (zUnk <=? -1000)%Z with false. change (zUnk =? zUnk)%Z with true. cbv iota. cbn [rbind].
        destruct (IH (pre ++ [Unk]) next names E' L) as (nm & A & B & C). rewrite LS in *. rewrite A. cbn [rbind].
        exists nm. split; [reflexivity|]. split; [intros; apply B; lia|]. apply NODECL; [|exact C].
        intros I. destruct (LA _ I) as (m & sm & X & _). congruence.
      + pose proof (LB _ _ EX) as LT. unfold zLoc.
        assert (E1 : (-1000 - Z.of_nat i <? 0)%Z = true) by lia. assert (E2 : (-1000 - Z.of_nat i <=? -1000)%Z = true) by lia. rewrite E1, E2.
        replace (Z.to_nat (-1000 - (-1000 - Z.of_nat i))) with i by lia.
        destruct (IH (pre ++ [Loc i]) next names E' L) as (nm & A & B & C). rewrite LS in *.
        rewrite (B i ltac:(lia)). cbn [rget rbind]. rewrite A. cbn [rbind].
        exists nm. split; [reflexivity|]. split; [intros; apply B; lia|]. apply NODECL; [|exact C].
        intros I. destruct (LA _ I) as (m & sm & X & _). congruence.
      + assert (IM : In (Stm m) q) by (eapply nth_error_In; exact EX). destruct (SO m IM) as (P0 & sm & SM & LM).
        assert (ML : m < length (db_stmts db)) by (apply nth_error_Some; unfold stmtAt in SM; congruence).
        assert (E1 : (Z.of_nat m <? 0)%Z = false) by lia. rewrite E1.
        assert (E2 : (Z.of_nat m <? 1)%Z || (Z.of_nat (length (db_stmts (e_db env))) <=? Z.of_nat m)%Z = false) by (fold db; lia). rewrite E2.
        rewrite Nat2Z.id. fold (decl (length pre)). unfold chunk at 1. destruct (decl (length pre)) eqn:D.
        * apply decl_iff in D. destruct (free_ok next) as (k & F1 & F2 & F3 & F4). rewrite F1. cbn [rbind].
          destruct (IH (pre ++ [Stm m]) (S k) (putAt (length pre) k names) E' ltac:(rewrite putAt_len; lia)) as (nm & A & B & C1 & C2 & C3).
          rewrite LS in *. rewrite A. cbn [rbind].
          assert (NK : nm (length pre) = k).
          { specialize (B (length pre) ltac:(lia)). rewrite putAt_same in B by lia. congruence. }
          exists nm. split; [unfold num at 1; rewrite NK; reflexivity|]. split.
          { intros i Hi. rewrite <- B by lia. symmetry. apply putAt_before; lia. }
          split; [|split].
          { intros i Hi I. destruct (Nat.eq_dec i (length pre)) as [->|NE]; [rewrite NK; split; [lia|exact F3]|].
            destruct (C1 i ltac:(lia) I) as [X Y]. split; [lia|exact Y]. }
          { intros i j Hi Hj I J. destruct (Nat.eq_dec i (length pre)) as [->|NE].
            - rewrite NK. destruct (C1 j ltac:(lia) J). lia.
            - apply C2; auto. lia. }
          { intros NN LN P i Hi I. assert (KN : k = next).
            { destruct (Nat.eq_dec k next); [assumption|]. exfalso. apply (NN next P). apply F4. lia. }
            destruct (Nat.eq_dec i (length pre)) as [->|NE]; [rewrite NK; lia|]. apply C3; auto; lia. }
        * destruct (IH (pre ++ [Stm m]) next names E' L) as (nm & A & B & C). rewrite LS in *. rewrite A. cbn [rbind].
          exists nm. split; [reflexivity|]. split; [intros; apply B; lia|]. apply NODECL; [|exact C].
          intros I. apply decl_iff in I. congruence.
  Qed.

  (* ---- room ---- *)
  Lemma encStep_cases x : (exists i, x = Loc i) \/ x = Unk \/ exists m, x = Stm m.
  Proof. destruct x; eauto. Qed.
  Lemma maxLabel_ok : forall l m0, (forall m, In (Stm m) l -> stmOk m) ->
    (~ In Unk l \/ (m0 <= 100 /\ shortLabels env)) ->
    m0 <= maxLabel env m0 (map encStep l) /\ forall m, In (Stm m) l -> length (e_name env m) <= maxLabel env m0 (map encStep l).
  Proof.
    induction l as [|x l IH]; intros m0 S C; cbn [map maxLabel]; [split; [lia|intros m []]|].
    assert (S' : forall m, In (Stm m) l -> stmOk m) by (intros; apply S; now right).
    destruct x as [|i|m]; cbn [encStep].
    - change (zUnk <=? -1000)%Z with false. change (zUnk <? 1)%Z with true. cbn [orb]. cbv iota.
      destruct C as [C|[C1 C2]]; [exfalso; apply C; now left|].
      destruct (IH 100 S' (or_intror (conj (le_n _) C2))) as [A B]. split; [lia|]. intros m [H|H]; [discriminate|auto].
    - assert (E : (zLoc (Z.of_nat i) <=? -1000)%Z = true) by (unfold zLoc; lia). rewrite E.
      destruct (IH m0 S') as [A B]; [destruct C as [C|C]; [left; intros H; apply C; now right|right; exact C]|].
      split; [exact A|]. intros m [H|H]; [discriminate|auto].
    - destruct (S m (or_introl eq_refl)) as (P0 & sm & SM & LM).
      assert (ML : m < length (db_stmts db)) by (apply nth_error_Some; unfold stmtAt in SM; congruence).
      assert (E1 : (Z.of_nat m <=? -1000)%Z = false) by lia. rewrite E1.
      assert (E2 : (Z.of_nat m <? 1)%Z || (Z.of_nat (length (db_stmts (e_db env))) <=? Z.of_nat m)%Z = false) by (fold db; lia). rewrite E2.
      rewrite Nat2Z.id. destruct (IH (Nat.max m0 (length (e_name env m))) S') as [A B].
      { destruct C as [C|[C1 C2]]; [left; intros H; apply C; now right|]. right. split; [|exact C2]. specialize (C2 m sm SM LM). lia. }
      split; [lia|]. intros m' [H|H]; [injection H as <-; lia|auto].
  Qed.
  Lemma chunks_len nm k l : length (chunks nm k l) = length l.
  Proof. revert k. induction l as [|x l IH]; intros k; cbn; [reflexivity|now rewrite IH]. Qed.
  Lemma chunks_fit nm A B : forall l k, (forall m, In (Stm m) l -> length (e_name env m) <= A) ->
    (forall i, In (Loc i) q -> length (num (nm i)) <= B) -> (forall i, In (Loc i) l -> In (Loc i) q) ->
    length (concat (chunks nm k l)) + length l <= length l * (2 + A + B).
  Proof.
    induction l as [|x l IH]; intros k HA HB IL; cbn [chunks concat length]; [lia|]. rewrite app_length.
    specialize (IH (S k) ltac:(intros; apply HA; now right) HB ltac:(intros; apply IL; now right)).
    assert (length (chunk nm k x) <= 1 + A + B); [|lia].
    destruct x as [|i|m]; cbn [chunk].
    - cbn. lia.
    - specialize (HB i (IL i (or_introl eq_refl))). lia.
    - specialize (HA m (or_introl eq_refl)). destruct (decl k) eqn:D; [|lia]. apply decl_iff in D. specialize (HB k D). rewrite app_length. cbn [length]. lia.
  Qed.

  Lemma cvt_ok : exists nm,
    (cvtR env (map encStep q) = UB /\ ~ (noNumericLabel env /\ (~ In Unk q \/ shortLabels env)) \/
     cvtR env (map encStep q) = Ok (joinSp (chunks nm 0 q))) /\
    (forall i, In (Loc i) q -> ~ In (num (nm i)) (allLabels env)) /\
    (forall i j, In (Loc i) q -> In (Loc j) q -> nm i = nm j -> i = j).
  Proof.
    destruct (pieces_ok q [] 1 (repeat 0 (length q)) eq_refl (repeat_length _ _)) as (nm & A & _ & C1 & C2 & C3).
    exists nm. unfold cvtR. rewrite map_length. cbn [length] in A. rewrite A. cbn [rbind]. cbv zeta. split; [|split].
    - rewrite chunks_len.
      destruct (Nat.ltb_spec (length q * (2 + maxLabel env 0 (map encStep q) + digitCount (S (length q)) (length q))) (length (concat (chunks nm 0 q)) + length q)) as [LT|]; [left|right; reflexivity].
      split; [reflexivity|]. intros [NN SL].
      assert (NL : forall j, 0 < j -> ~ In (num j) (allLabels env)).
      { intros j J I. apply in_allLabels in I. destruct I as (m & sm & X & Y & E). apply (NN m sm (N.of_nat j) X Y ltac:(lia)). rewrite E. apply num_dec. }
      assert (LE : length (concat (chunks nm 0 q)) + length q <= length q * (2 + maxLabel env 0 (map encStep q) + digitCount (S (length q)) (length q))).
      { apply chunks_fit; auto.
        - apply maxLabel_ok; [exact SO|]. destruct SL as [SL|SL]; [now left|right; split; [lia|exact SL]].
        - intros i I. destruct (C1 i (Nat.le_0_l _) I). pose proof (C3 NL (le_n _) (le_n _) i (Nat.le_0_l _) I).
          destruct (LA i I) as (m & sm & X & _). assert (i < length q) by (apply nth_error_Some; congruence). apply num_len; lia. }
      lia.
    - intros i I. apply (C1 i (Nat.le_0_l _) I).
    - intros i j I J E. destruct (Nat.lt_trichotomy i j) as [H|[H|H]]; [|exact H|];
        [pose proof (C2 i j (Nat.le_0_l _) H I J)|pose proof (C2 j i (Nat.le_0_l _) H J I)]; lia.
  Qed.
End Env.
