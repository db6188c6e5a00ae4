(* SxpProofs.v -- nmbrCvtRToVString with targets: the pieces, the room, their meaning. *)
From Coq Require Import NArith Nnat ZifyBool ZifyNat.
From Verif Require Import Base MMSpec VerModel VerSpec TokModel ParModel ParSpec CmpSpec FatlSpec FatlProofs DateModel DateProofs CmdModel
  SavModel CheckPar SqModel SqSpec SqProofs SqPack SqAttr SqValid SqGood NrmModel NrmSpec NrmProofs SxpModel SxpSpec ExpSpec.
Open Scope nat_scope.

Section Env.
  Variable env : penv.
  Hypothesis WE : wf_env env.
  Hypothesis UE : uniq_env env.
  Let db := e_db env.
  Variable q : list pstep.
  Hypothesis SO : forall m, In (Stm m) q -> stmOk env m.
  Variable nm : nat -> nat.

  Definition tn (z : Z) : label := e_name env (Z.to_nat z).
  Definition chunkX (k : nat) (x : pstep) (h : Z) : list nat :=
    match x with
    | Unk => tn h ++ [chEq; chQ]
    | Loc i => tn h ++ chEq :: num (nm i)
    | Stm m => if decl q k then num (nm k) ++ chColon :: tn h ++ chEq :: e_name env m else tn h ++ chEq :: e_name env m
    end.
  Fixpoint chunksX (k : nat) (l : list pstep) (tg : list Z) : list (list nat) :=
    match l, tg with x :: r, h :: tg' => chunkX k x h :: chunksX (S k) r tg' | _, _ => [] end.
  Definition tgOk (h : Z) : Prop := (0 < h)%Z /\ exists sh, stmtAt db (Z.to_nat h) sh /\ labelled sh.

  Lemma tgOk_range h : tgOk h -> (h <? 0)%Z || (Z.of_nat (length (db_stmts (e_db env))) <=? h)%Z = false /\ (h <=? 0)%Z = false /\ (Z.of_nat (length (db_stmts (e_db env))) <=? h)%Z = false.
  Proof.
    intros (P0 & sh & A & _). assert (Z.to_nat h < length (db_stmts db)) as L by (apply nth_error_Some; unfold stmtAt in A; rewrite A; discriminate). fold db. lia.
  Qed.
  Lemma targetEq_ok tg k h : nth_error tg k = Some h -> tgOk h -> targetEq env tg k = Ok (tn h ++ [chEq]).
  Proof. intros E H. unfold targetEq. rewrite E. cbn [rget rbind]. destruct (tgOk_range h H) as (X & _). rewrite X. reflexivity. Qed.

  Lemma piecesX_ok : forall l k tg0 tg next names, (forall m, In (Stm m) l -> In (Stm m) q) -> length tg0 = k -> length tg = length l -> Forall tgOk tg ->
    pieces env (map encStep q) k next names (map encStep l) = Ok (chunks env q nm k l) ->
    piecesX env (tg0 ++ tg) (map encStep q) k next names (map encStep l) = Ok (chunksX k l tg).
  Proof.
    induction l as [|x l IH]; intros k tg0 tg next names IL L0 LT F E; [reflexivity|].
    destruct tg as [|h tg]; [discriminate|]. inversion F as [|? ? TH F']; subst.
    assert (EH : nth_error (tg0 ++ h :: tg) (length tg0) = Some h) by (rewrite nth_error_app2, Nat.sub_diag by lia; reflexivity).
    assert (TE := targetEq_ok _ _ _ EH TH).
    assert (IL' : forall m, In (Stm m) l -> In (Stm m) q) by (intros; apply IL; now right).
    assert (STEP : forall nx nms, pieces env (map encStep q) (S (length tg0)) nx nms (map encStep l) = Ok (chunks env q nm (S (length tg0)) l) ->
       piecesX env (tg0 ++ h :: tg) (map encStep q) (S (length tg0)) nx nms (map encStep l) = Ok (chunksX (S (length tg0)) l tg)).
    { intros nx nms H. change (h :: tg) with ([h] ++ tg). rewrite app_assoc. apply IH; auto. rewrite app_length; cbn; lia. }
    cbn [map pieces piecesX chunksX chunks] in *. destruct x as [|i|m]; cbn [encStep chunk chunkX] in *.
    - change (zUnk <? 0)%Z with true in *. change (zUnk <=? -1000)%Z with false in *. change (zUnk =? zUnk)%Z with true in *. cbv iota in *. cbn [rbind] in *.
      rewrite TE. cbn [rbind]. apply rbind_ok in E. destruct E as (ts & E & E1). apply Ok_inj in E1. injection E1 as ->.
      rewrite (STEP _ _ E). cbn [rbind]. rewrite <- app_assoc. reflexivity.
    - unfold zLoc in *. assert (E1 : (-1000 - Z.of_nat i <? 0)%Z = true) by lia. assert (E2 : (-1000 - Z.of_nat i <=? -1000)%Z = true) by lia. rewrite E1, E2 in *.
      rewrite TE. destruct (nth_error names (Z.to_nat (-1000 - (-1000 - Z.of_nat i)))) as [v|]; [|discriminate]. cbn [rget rbind] in *.
      apply rbind_ok in E. destruct E as (ts & E & E3). apply Ok_inj in E3. injection E3 as EV ->.
      rewrite (STEP _ _ E). cbn [rbind]. rewrite EV, <- app_assoc. reflexivity.
    - assert (IM : In (Stm m) q) by (apply IL; now left). destruct (SO m IM) as (P0 & sm & SM & LM).
      assert (ML : m < length (db_stmts db)) by (apply nth_error_Some; unfold stmtAt in SM; fold db in SM; rewrite SM; discriminate).
      assert (E1 : (Z.of_nat m <? 0)%Z = false) by lia. rewrite E1 in *.
      assert (E2 : (Z.of_nat m <? 1)%Z || (Z.of_nat (length (db_stmts (e_db env))) <=? Z.of_nat m)%Z = false) by (fold db; lia). rewrite E2 in *.
      rewrite Nat2Z.id in *. fold (decl q (length tg0)) in *. rewrite TE. destruct (decl q (length tg0)) eqn:D.
      + apply rbind_ok in E. destruct E as (k & EK & E). rewrite EK. cbn [rbind]. apply rbind_ok in E. destruct E as (ts & E & E3). apply Ok_inj in E3. injection E3 as EV ->.
        rewrite (STEP _ _ E). cbn [rbind].
        assert (EN : DateModel.str (Z.of_nat k) = num (nm (length tg0))) by (eapply app_inv_tail; exact EV).
        rewrite EN, <- !app_assoc. reflexivity.
      + cbn [rbind]. apply rbind_ok in E. destruct E as (ts & E & E3). apply Ok_inj in E3. injection E3 as ->.
        rewrite (STEP _ _ E). cbn [rbind]. rewrite <- app_assoc. reflexivity.
  Qed.

  (* ---- room ---- *)
  Definition bounds (l : list pstep) (tg : list Z) (a b : nat) : Prop :=
    (forall m, In (Stm m) l -> length (e_name env m) <= a) /\ (forall h, In h tg -> length (tn h) <= b).
  Lemma maxX_ok : forall l k tg0 tg m0 t0, (forall m, In (Stm m) l -> stmOk env m) -> length tg0 = k -> length tg = length l -> Forall tgOk tg ->
    exists a b, maxLabelX env (tg0 ++ tg) k m0 t0 (map encStep l) = Ok (a, b) /\
      ((~ In Unk l \/ (m0 <= 100 /\ t0 <= 100 /\ shortLabels env)) -> m0 <= a /\ t0 <= b /\ bounds l tg a b).
  Proof.
    induction l as [|x l IH]; intros k tg0 tg m0 t0 S L0 LT F.
    - destruct tg; [|discriminate]. exists m0, t0. split; [reflexivity|]. intros _. split; [lia|]. split; [lia|]. split; intros ? [].
    - destruct tg as [|h tg]; [discriminate|]. inversion F as [|? ? TH F']; subst.
      assert (S' : forall m, In (Stm m) l -> stmOk env m) by (intros; apply S; now right).
      assert (EH : nth_error (tg0 ++ h :: tg) (length tg0) = Some h) by (rewrite nth_error_app2, Nat.sub_diag by lia; reflexivity).
      destruct (tgOk_range h TH) as (_ & R1 & R2).
      assert (STEP : forall m1 t1, exists a b, maxLabelX env (tg0 ++ h :: tg) (1 + length tg0) m1 t1 (map encStep l) = Ok (a, b) /\
         ((~ In Unk l \/ (m1 <= 100 /\ t1 <= 100 /\ shortLabels env)) -> m1 <= a /\ t1 <= b /\ bounds l tg a b)).
      { intros m1 t1. change (h :: tg) with ([h] ++ tg). rewrite app_assoc. apply IH; auto. rewrite app_length; cbn; lia. }
      assert (NEXT : forall m1, exists a b, (do h0 <- rget (nth_error (tg0 ++ h :: tg) (length tg0));
          if (h0 <=? 0)%Z then Bug 1390 else if (Z.of_nat (length (db_stmts (e_db env))) <=? h0)%Z then UB
          else maxLabelX env (tg0 ++ h :: tg) (1 + length tg0) m1 (Nat.max t0 (length (e_name env (Z.to_nat h0)))) (map encStep l)) = Ok (a, b) /\
          ((~ In Unk l \/ (m1 <= 100 /\ t0 <= 100 /\ shortLabels env)) -> m1 <= a /\ t0 <= b /\ bounds l (h :: tg) a b)).
      { intros m1. rewrite EH. cbn [rget rbind]. rewrite R1, R2. destruct (STEP m1 (Nat.max t0 (length (e_name env (Z.to_nat h))))) as (a & b & A & B).
        exists a, b. split; [exact A|]. intros C. destruct B as (B1 & B2 & B3 & B4).
        { destruct C as [C|(C1 & C2 & C3)]; [now left|right]. destruct TH as (_ & sh & SH & LH). pose proof (C3 _ _ SH LH). split; [exact C1|]. split; [lia|]. assumption. }
        split; [exact B1|]. split; [lia|]. split; [exact B3|]. intros h' [<-|I]; [unfold tn; lia|apply B4, I]. }
      cbn [map maxLabelX]. cbv zeta. destruct x as [|i|m]; cbn [encStep].
      + change (zUnk <=? -1000)%Z with false. change (zUnk <? 1)%Z with true. cbn [orb]. cbv iota.
        destruct (STEP 100 100) as (a & b & A & B). exists a, b. split; [exact A|]. intros [C|(C1 & C2 & C3)]; [exfalso; apply C; now left|].
        destruct B as (B1 & B2 & B3 & B4); [right; auto|]. split; [lia|]. split; [lia|]. split.
        * intros m [H|H]; [discriminate|auto].
        * intros h' [<-|I]; [|auto]. destruct TH as (_ & sh & SH & LH). specialize (C3 _ _ SH LH). unfold tn. lia.
      + assert (E : (zLoc (Z.of_nat i) <=? -1000)%Z = true) by (unfold zLoc; lia). rewrite E.
        destruct (NEXT m0) as (a & b & A & B). exists a, b. split; [exact A|]. intros C.
        destruct B as (B1 & B2 & B3 & B4); [destruct C as [C|C]; [left; intros H; apply C; now right|now right]|].
        split; [exact B1|]. split; [exact B2|]. split; [intros m [H|H]; [discriminate|auto]|exact B4].
      + destruct (S m (or_introl eq_refl)) as (P0 & sm & SM & LM).
        assert (ML : m < length (db_stmts db)) by (apply nth_error_Some; unfold stmtAt in SM; fold db in SM; rewrite SM; discriminate).
        assert (E1 : (Z.of_nat m <=? -1000)%Z = false) by lia. rewrite E1.
        assert (E2 : (Z.of_nat m <? 1)%Z || (Z.of_nat (length (db_stmts (e_db env))) <=? Z.of_nat m)%Z = false) by (fold db; lia). rewrite E2.
        rewrite Nat2Z.id. destruct (NEXT (Nat.max m0 (length (e_name env m)))) as (a & b & A & B). exists a, b. split; [exact A|]. intros C.
        destruct B as (B1 & B2 & B3 & B4).
        { destruct C as [C|(C1 & C2 & C3)]; [left; intros H; apply C; now right|right]. split; [specialize (C3 m sm SM LM); lia|auto]. }
        split; [lia|]. split; [exact B2|]. split; [intros m' [H|H]; [injection H as <-; lia|auto]|exact B4].
  Qed.
  Lemma chunksX_len k : forall l tg, length tg = length l -> length (chunksX k l tg) = length l.
  Proof. intros l. revert k. induction l as [|x l IH]; intros k [|h tg] H; try discriminate; [reflexivity|]. cbn. rewrite IH; [reflexivity|now injection H]. Qed.
  Lemma chunksX_fit A T B : (forall i, In (Loc i) q -> length (num (nm i)) <= B) -> forall l k tg, length tg = length l -> bounds l tg A T ->
    (forall i, In (Loc i) l -> In (Loc i) q) -> length (concat (chunksX k l tg)) + length l <= length l * (2 + A + (T + 1) + B).
  Proof.
    intros HB. induction l as [|x l IH]; intros k [|h tg] LT [HA HT] IL; try discriminate; cbn [chunksX concat length]; [lia|]. rewrite app_length.
    specialize (IH (S k) tg ltac:(now injection LT) ltac:(split; intros; [apply HA|apply HT]; now right) ltac:(intros; apply IL; now right)).
    pose proof (HT h (or_introl eq_refl)) as LH.
    assert (length (chunkX k x h) <= 2 + A + T + B); [|lia].
    destruct x as [|i|m]; cbn [chunkX].
    - rewrite app_length. cbn [length]. lia.
    - specialize (HB i (IL i (or_introl eq_refl))). rewrite app_length. cbn [length]. lia.
    - specialize (HA m (or_introl eq_refl)). destruct (decl q k) eqn:D.
      + apply decl_iff in D. specialize (HB k D). rewrite app_length. cbn [length]. rewrite app_length. cbn [length]. lia.
      + rewrite app_length. cbn [length]. lia.
  Qed.
End Env.
