(* SxpMean.v -- the steps written by nmbrCvtRToVString with targets mean the proof. *)
From Coq Require Import ZifyBool ZifyNat.
From Verif Require Import Base MMSpec VerModel VerSpec TokModel ParModel ParSpec CmpSpec CheckPar SqModel SqSpec SqProofs SqPack SqAttr SqValid SqGood
  NrmModel NrmSpec NrmProofs SxpModel SxpSpec SxpProofs ExpSpec.
Open Scope nat_scope.

Section Mean.
  Variable env : penv.
  Hypothesis WD : wf_db (e_db env).
  Hypothesis WE : wf_env env.
  Hypothesis UE : uniq_env env.
  Hypothesis FO : fromOne env.
  Variable n : nat.
  Variable st : stmtRec.
  Hypothesis HS : stmtAt (e_db env) n st.
  Hypothesis HT : s_type st = S_p.
  Let db := e_db env.
  Variable q : list pstep.
  Hypothesis RF : forall m, In (Stm m) q -> refersTo env n st m.
  Hypothesis LA : forall i, In (Loc i) q -> exists m sm, nth_error q i = Some (Stm m) /\ stmtAt db m sm /\ isAssertion sm.
  Variable nm : nat -> nat.
  Hypothesis NL : forall i, In (Loc i) q -> ~ In (num (nm i)) (allLabels env).
  Hypothesis NI : forall i j, In (Loc i) q -> In (Loc j) q -> nm i = nm j -> i = j.

  Definition estepOf (k : nat) (x : pstep) (h : Z) : estep :=
    match x with
    | Unk => mkE [] (tn env h) [chQ]
    | Loc i => mkE [] (tn env h) (num (nm i))
    | Stm m => mkE (if decl q k then [num (nm k)] else []) (tn env h) (e_name env m)
    end.
  Fixpoint esteps (k : nat) (l : list pstep) (tg : list Z) : list estep :=
    match l, tg with x :: r, h :: tg' => estepOf k x h :: esteps (S k) r tg' | _, _ => [] end.
  Lemma esteps_app : forall l1 l2 k t1 t2, length t1 = length l1 -> esteps k (l1 ++ l2) (t1 ++ t2) = esteps k l1 t1 ++ esteps (k + length l1) l2 t2.
  Proof.
    induction l1 as [|x l1 IH]; intros l2 k [|h t1] t2 L; try discriminate; cbn [app esteps length]; [now rewrite Nat.add_0_r|].
    rewrite IH by now injection L. replace (S k + length l1) with (k + S (length l1)) by lia. reflexivity.
  Qed.

  (* the local labels declared so far *)
  Definition locInv (k : nat) (H : list tree) (loc : list (label * tree)) : Prop :=
    forall i t, i < k -> In (Loc i) q -> nth_error H i = Some t -> In (num (nm i), t) loc.

  Definition meansTree (U : tree) : Prop := forall pre l suf own H S r fin loc,
    q = pre ++ l ++ suf -> map encStep l = rpn U -> length H = length pre -> locInv (length pre) H loc ->
    prun db H S (rpn U ++ r) = Some fin ->
    exists t X loc', length X = length (rpn U) /\ prun db (H ++ X) (t :: S) r = Some fin /\ locInv (length pre + length l) (H ++ X) loc' /\
      forall rest res stk, means env n st loc' ((e_name env own, t) :: stk) rest res ->
        means env n st loc stk (esteps (length pre) l (targets db U own) ++ rest) res.

  Lemma split_codes (l : list pstep) a b : map encStep l = a ++ b -> exists l1 l2, l = l1 ++ l2 /\ map encStep l1 = a /\ map encStep l2 = b.
  Proof. intros E. apply map_eq_app in E. destruct E as (l1 & l2 & -> & A & B). eauto. Qed.

  Lemma means_kids : forall kids, Forall (fun U => wfTree db U /\ meansTree U) kids -> forall hs, length hs = length kids ->
    forall pre l suf H S r fin loc,
    q = pre ++ l ++ suf -> map encStep l = flat_map rpn kids -> length H = length pre -> locInv (length pre) H loc ->
    prun db H S (flat_map rpn kids ++ r) = Some fin ->
    exists ts X loc', length ts = length kids /\ length X = length (flat_map rpn kids) /\ prun db (H ++ X) (rev ts ++ S) r = Some fin /\
      locInv (length pre + length l) (H ++ X) loc' /\
      forall rest res stk, means env n st loc' (rev (combine (map (e_name env) hs) ts) ++ stk) rest res ->
        means env n st loc stk (esteps (length pre) l (concat (zipw (targets db) kids hs)) ++ rest) res.
  Proof.
    induction 1 as [|U kids [WU HU] F IH]; intros hs LH pre l suf H S r fin loc EQ EL EH LI P.
    - destruct hs; [|discriminate]. destruct l; [|discriminate]. exists [], [], loc. cbn. rewrite !app_nil_r, Nat.add_0_r. cbn in P. auto.
    - destruct hs as [|h hs]; [discriminate|]. cbn [flat_map] in *. apply split_codes in EL. destruct EL as (l1 & l2 & -> & E1 & E2).
      rewrite <- app_assoc in P. rewrite <- app_assoc in EQ.
      destruct (HU pre l1 (l2 ++ suf) h H S _ fin loc EQ E1 EH LI P) as (t & X & loc1 & LX & P1 & LI1 & M1).
      assert (LL1 : length l1 = length (rpn U)) by (rewrite <- E1, map_length; reflexivity).
      destruct (IH hs ltac:(now injection LH) (pre ++ l1) l2 suf (H ++ X) (t :: S) r fin loc1) as (ts & Y & loc2 & LT & LY & P2 & LI2 & M2); auto.
      { rewrite <- app_assoc. exact EQ. }
      { rewrite !app_length. lia. }
      { rewrite app_length. exact LI1. }
      exists (t :: ts), (X ++ Y), loc2. split; [cbn; lia|]. split; [rewrite !app_length; lia|].
      split; [cbn [rev]; rewrite <- app_assoc, app_assoc; exact P2|].
      split; [rewrite app_length, app_assoc, Nat.add_assoc; rewrite app_length in LI2; exact LI2|].
      intros rest res stk M. cbn [zipw concat]. rewrite esteps_app by (rewrite targets_len by exact WU; lia). rewrite <- app_assoc. apply M1.
      rewrite <- app_length. apply M2. cbn [map combine rev] in M. rewrite <- app_assoc in M. exact M.
  Qed.

  Lemma combine_forall2 : forall (hs : list nat) (ts : list tree), length ts = length hs -> Forall2 (fun h t => In (e_name env h, t) (combine (map (e_name env) hs) ts)) hs ts.
  Proof.
    induction hs as [|h hs IH]; intros [|t ts] L; try discriminate; constructor; [now left|].
    assert (G := IH ts ltac:(now injection L)). clear IH L. cbn [map combine]. revert G. generalize (combine (map (e_name env) hs) ts). intros c G.
    induction G as [|a b hs ts I G IH]; constructor; [now right|exact IH].
  Qed.

  Lemma means_tree U : wfTree db U -> meansTree U.
  Proof.
    induction U as [z kids IH] using tree_ind2. intros W pre l suf own H S r fin loc EQ EL EH LI P. inversion W as [? ? A F]; subst z0 kids0.
    assert (FK : Forall (fun U => wfTree db U /\ meansTree U) kids) by (rewrite Forall_forall in *; intros k Ik; split; [auto|apply IH; auto]).
    cbn [rpn] in *. apply split_codes in EL. destruct EL as (l1 & lz & -> & E1 & E2).
    destruct lz as [|x [|? ?]]; try discriminate. cbn in E2. injection E2 as EX.
    rewrite <- app_assoc in P, EQ. cbn [app] in P, EQ.
    assert (LH := hypsOf_len db z _ A).
    destruct (means_kids kids FK (hypsOf db z) LH pre l1 (x :: suf) H S (z :: r) fin loc EQ E1 EH LI P) as (ts & X & loc1 & LT & LX & P1 & LI1 & M1).
    assert (LL1 : length l1 = length (flat_map rpn kids)) by (rewrite <- E1, map_length; reflexivity).
    assert (NX : nth_error q (length pre + length l1) = Some x).
    { rewrite EQ, nth_error_app2 by lia. rewrite nth_error_app2 by lia. replace (length pre + length l1 - length pre - length l1) with 0 by lia. reflexivity. }
    assert (IX : In x q) by (eapply nth_error_In; exact NX).
    assert (ES : forall rest, esteps (length pre) (l1 ++ [x]) (targets db (Node z kids) own) ++ rest =
       esteps (length pre) l1 (concat (zipw (targets db) kids (hypsOf db z))) ++ estepOf (length pre + length l1) x (Z.of_nat own) :: rest).
    { intros rest. rewrite targets_eq. rewrite esteps_app; [rewrite <- app_assoc; reflexivity|].
      rewrite LL1. apply concat_len. apply zipw_len; [lia|]. intros. apply targets_len. rewrite Forall_forall in F. auto. }
    assert (GO : forall t, prun db (H ++ X) (rev ts ++ S) (z :: r) = prun db ((H ++ X) ++ [t]) (t :: S) r ->
      (forall stk, stepMeans env n st loc1 (rev (combine (map (e_name env) (hypsOf db z)) ts) ++ stk) (estepOf (length pre + length l1) x (Z.of_nat own)) t stk) ->
      exists t X loc', length X = length (flat_map rpn kids ++ [z]) /\ prun db (H ++ X) (t :: S) r = Some fin /\ locInv (length pre + length (l1 ++ [x])) (H ++ X) loc' /\
      forall rest res stk, means env n st loc' ((e_name env own, t) :: stk) rest res ->
        means env n st loc stk (esteps (length pre) (l1 ++ [x]) (targets db (Node z kids) own) ++ rest) res).
    { intros t EP SM. exists t, (X ++ [t]), (map (fun a => (a, t)) (x_locals (estepOf (length pre + length l1) x (Z.of_nat own))) ++ loc1).
      split; [rewrite !app_length; cbn; lia|]. split; [rewrite app_assoc, <- EP; exact P1|]. split.
      - intros i t' Li Ii Ni. rewrite app_length in Li. cbn [length] in Li. apply in_or_app. rewrite app_assoc in Ni.
        destruct (Nat.eq_dec i (length pre + length l1)) as [->|NE].
        + left. rewrite nth_error_app2 in Ni by (rewrite app_length; lia).
          replace (length pre + length l1 - length (H ++ X)) with 0 in Ni by (rewrite app_length; lia). injection Ni as <-.
          destruct (LA _ Ii) as (m & sm & B & _). rewrite NX in B. injection B as ->. cbn [estepOf x_locals].
          apply (decl_iff q) in Ii. rewrite Ii. now left.
        + right. apply LI1; auto; [lia|]. rewrite nth_error_app1 in Ni by (rewrite app_length; lia). exact Ni.
      - intros rest res stk M. rewrite ES. apply M1. eapply me_cons; [apply SM|].
        replace (x_target (estepOf (length pre + length l1) x (Z.of_nat own))) with (e_name env own); [exact M|].
        destruct x; cbn [estepOf x_target]; unfold tn; rewrite Nat2Z.id; reflexivity. }
    clear M1 ES. cbn [rpn]. cbn [prun] in P1.
    assert (AR : forall m sm, x = Stm m -> stmtAt db m sm -> isHyp sm -> decl q (length pre + length l1) = false).
    { intros m sm -> B C. destruct (decl q (length pre + length l1)) eqn:D; [|reflexivity]. exfalso. apply decl_iff in D. destruct (LA _ D) as (m' & sm' & B1 & B2 & B3).
      rewrite NX in B1. injection B1 as <-. assert (E : sm' = sm) by (unfold stmtAt in *; congruence). subst sm'.
      destruct B3 as [B3|B3], C as [C|C]; rewrite B3 in C; discriminate C. }
    assert (STEP : isRef z = false -> prun db (H ++ X) (rev ts ++ S) (z :: r) = prun db ((H ++ X) ++ [Node z ts]) (Node z ts :: S) r).
    { intros Rz. cbn [prun]. rewrite Rz, A. rewrite app_length, rev_length.
      replace (length kids <=? length ts + length S) with true by (symmetry; apply Nat.leb_le; lia).
      assert (EL2 : length kids = length (rev ts)) by (rewrite rev_length; lia). rewrite EL2.
      rewrite firstn_app, skipn_app, Nat.sub_diag, firstn_all, skipn_all. cbn [firstn skipn app]. rewrite app_nil_r, rev_involutive. reflexivity. }
    destruct x as [|i|m]; cbn [encStep] in EX; subst z.
    - apply (GO (Node zUnk ts)); [apply STEP; reflexivity|]. intros stk. cbn [hypsOf] in *. change (hypsOf db zUnk) with (@nil nat) in *.
      destruct kids; [|discriminate]. destruct ts; [|discriminate]. cbn [map combine rev app]. apply sm_unknown. reflexivity.
    - assert (HR : hypsOf db (zLoc (Z.of_nat i)) = []) by (unfold hypsOf; replace (zLoc (Z.of_nat i) <? 0)%Z with true by (unfold zLoc; lia); reflexivity).
      rewrite HR in *. destruct kids; [|discriminate]. destruct ts; [|discriminate]. destruct X; [|discriminate]. cbn [rev app] in *.
      rewrite isRef_zLoc, refOf_zLoc, app_nil_r in P1. destruct (nth_error H i) as [t|] eqn:NT; [|discriminate].
      apply (GO t).
      + cbn [prun]. rewrite isRef_zLoc, refOf_zLoc, app_nil_r, NT. reflexivity.
      + intros stk. cbn [map combine rev app]. apply sm_ref; [|reflexivity]. cbn [estepOf x_name]. destruct l1; [|discriminate]. cbn [length] in LI1.
        apply LI1; [|exact IX|rewrite app_nil_r; exact NT]. rewrite Nat.add_0_r, <- EH. apply nth_error_Some. congruence.
    - assert (NR : isRef (Z.of_nat m) = false) by (unfold isRef; lia).
      apply (GO (Node (Z.of_nat m) ts)); [apply STEP, NR|]. intros stk.
      destruct (RF m IX) as (sm & SM & K). unfold hypsOf in *. replace (Z.of_nat m <? 0)%Z with false in * by lia. rewrite Nat2Z.id in *.
      fold db in SM. unfold stmtAt in SM. rewrite SM in *. destruct K as [[K1 K2]|[K1 K2]].
      + assert (HE : match s_type sm with S_a | S_p => s_reqHyps sm | _ => [] end = s_reqHyps sm) by (destruct K1 as [-> | ->]; reflexivity). rewrite HE in *.
        apply (sm_use env n st _ _ _ m sm (combine (map (e_name env) (s_reqHyps sm)) ts) stk ts); auto.
        * rewrite combine_length, map_length. lia.
        * apply combine_forall2. lia.
      + assert (HE : match s_type sm with S_a | S_p => s_reqHyps sm | _ => [] end = []) by (destruct K1 as [-> | ->]; reflexivity). rewrite HE in *.
        destruct kids; [|discriminate]. destruct ts; [|discriminate]. cbn [map combine rev app].
        apply sm_hyp; [exact K2|reflexivity|]. cbn [estepOf x_locals]. rewrite (AR m sm eq_refl SM K1). reflexivity.
  Qed.
End Mean.
