(* TrcWork.v -- lemmas about SHOW TRACE_BACK (traceProofWork). *)
From Coq Require Import Relations.
From Verif Require Import Base MMSpec VerModel VerSpec TokModel ParModel ParSpec SqModel SqSpec SqProofs SqPack
  SqAttr SqGood TrcModel TrcSpec TrcProofs.
Open Scope nat_scope.

(* step code z is at a position whose flag in E is not 0 *)
Definition sel (E zs : list Z) (z : Z) : Prop :=
  exists k x, nth_error zs k = Some z /\ nth_error E k = Some x /\ x <> 0%Z.
Lemma sel_cons x E z zs y : sel (x :: E) (z :: zs) y <-> (y = z /\ x <> 0%Z) \/ sel E zs y.
Proof.
  split.
  - intros [[|k] [x' [A [B C]]]]; simpl in *.
    + inversion A; inversion B; subst. auto.
    + right. exists k, x'. auto.
  - intros [[-> N]|[k [x' [A [B C]]]]]; [exists 0, x; auto|exists (S k), x'; auto].
Qed.

Definition asrt (e : tenv) (m : nat) : Prop :=
  exists st, nth_error (db_stmts (t_db e)) m = Some st /\ isAssertion st.
Definition passes (filter : option (list nat)) (m : nat) : Prop :=
  match filter with None => True | Some f => nth_error f m = Some chY end.

(* list and flags agree *)
Record okW (e : tenv) (w : wst) : Prop := {
  ok_len : length (w_flags w) = S (nstm (t_db e));
  ok_nodup : NoDup (w_list w);
  ok_rng : forall n, In n (w_list w) -> 1 <= n <= nstm (t_db e);
  ok_in : forall n, In n (w_list w) -> nth_error (w_flags w) n = Some chY;
  ok_out : forall n, n <= nstm (t_db e) -> ~ In n (w_list w) -> nth_error (w_flags w) n = Some chN }.

Lemma nodup_range l a : NoDup l -> (forall n, In n l -> 1 <= n <= a) -> length l <= a.
Proof.
  intros N H. rewrite <- (seq_length a 1). apply NoDup_incl_length; [exact N|].
  intros n Hn. apply in_seq. specialize (H n Hn). lia.
Qed.

Lemma workSteps_ok e filter p : wf_tenv e ->
  (forall f, filter = Some f -> length f = S (nstm (t_db e))) ->
  forall zs E w, length E = length zs -> okW e w ->
  (forall z, sel E zs z -> (0 <= z)%Z -> Z.to_nat z < length (db_stmts (t_db e))) ->
  exists w' t, workSteps e filter p E zs w = Ok w' /\ okW e w' /\ w_list w' = w_list w ++ t /\
    (forall m, In m (w_list w ++ t) <-> In m (w_list w) \/ (sel E zs (Z.of_nat m) /\ asrt e m /\ passes filter m)) /\
    (w_unpr w' = w_unpr w \/ (~ In p (w_unpr w) /\ w_unpr w' = w_unpr w ++ [p])) /\
    (In p (w_unpr w') <-> In p (w_unpr w) \/ exists z, sel E zs z /\ (-1000 < z < 0)%Z).
Proof.
  intros W HF. induction zs as [|z zs IH]; intros E w HL OK HR; cbn [workSteps].
  - exists w, []. rewrite app_nil_r. split; [reflexivity|]. split; [exact OK|]. split; [reflexivity|].
    assert (NS : forall y, ~ sel E [] y). { intros y [k [x [A _]]]. destruct k; discriminate. }
    split; [|split]; [|left; reflexivity|].
    + intros m. split; [auto|]. intros [H|[H _]]; [exact H|]. destruct (NS _ H).
    + split; [auto|]. intros [H|[y [H _]]]; [exact H|]. destruct (NS _ H).
  - destruct E as [|x E]; [discriminate|]. cbn [hd_error rget rbind tl]. simpl in HL.
    assert (HR' : forall y, sel E zs y -> (0 <= y)%Z -> Z.to_nat y < length (db_stmts (t_db e))).
    { intros y Hy. apply HR, sel_cons. auto. }
    unfold workStep.
    (* the step adds nothing to the list *)
    assert (Skip : forall w1, okW e w1 -> w_list w1 = w_list w ->
      (forall m, x <> 0%Z -> z = Z.of_nat m -> asrt e m -> passes filter m -> In m (w_list w)) ->
      (w_unpr w1 = w_unpr w /\ (x <> 0%Z -> (-1000 < z < 0)%Z -> In p (w_unpr w)) \/
       (~ In p (w_unpr w) /\ w_unpr w1 = w_unpr w ++ [p] /\ x <> 0%Z /\ (-1000 < z < 0)%Z)) ->
      exists w' t, workSteps e filter p E zs w1 = Ok w' /\ okW e w' /\ w_list w' = w_list w ++ t /\
        (forall m, In m (w_list w ++ t) <-> In m (w_list w) \/ (sel (x :: E) (z :: zs) (Z.of_nat m) /\ asrt e m /\ passes filter m)) /\
        (w_unpr w' = w_unpr w \/ (~ In p (w_unpr w) /\ w_unpr w' = w_unpr w ++ [p])) /\
        (In p (w_unpr w') <-> In p (w_unpr w) \/ exists y, sel (x :: E) (z :: zs) y /\ (-1000 < y < 0)%Z)).
    { intros w1 OK1 EL HI HU. destruct (IH E w1 ltac:(lia) OK1 HR') as [w' [t [A [B [C [D [F G]]]]]]].
      exists w', t. rewrite EL in *. split; [exact A|]. split; [exact B|]. split; [exact C|]. split; [|split].
      - intros m. rewrite D, sel_cons. split.
        + intros [H|[H1 H2]]; auto.
        + intros [H|[[[E1 X]|H1] [H2 H3]]]; auto.
      - destruct HU as [[U _]|[U1 [U2 _]]].
        + rewrite U in F. exact F.
        + destruct F as [F|[F1 F2]]; [right; split; [exact U1|congruence]|].
          exfalso. apply F1. rewrite U2. apply in_or_app. right. left. reflexivity.
      - rewrite G. destruct HU as [[U V]|[U1 [U2 [U3 U4]]]].
        + rewrite U. split.
          * intros [H|[y [H1 H2]]]; auto. right. exists y. split; [apply sel_cons; auto|exact H2].
          * intros [H|[y [H1 H2]]]; auto. apply sel_cons in H1. destruct H1 as [[-> X]|H1]; [auto|]. right. exists y. auto.
        + split; intros _.
          * right. exists z. split; [apply sel_cons; auto|exact U4].
          * left. rewrite U2. apply in_or_app. right. left. reflexivity. }
    destruct (x =? 0)%Z eqn:X0.
    { apply Z.eqb_eq in X0. subst x. cbn [rbind]. apply Skip; auto; try (intros; contradiction).
      left. split; [reflexivity|]. intros; contradiction. }
    apply Z.eqb_neq in X0.
    destruct (z <? 0)%Z eqn:Z0.
    { apply Z.ltb_lt in Z0. destruct (-1000 <? z)%Z eqn:Z1.
      - apply Z.ltb_lt in Z1. cbn [rbind]. destruct (existsb (Nat.eqb p) (w_unpr w)) eqn:EX.
        + apply Skip; auto; try (intros; lia). left. split; [reflexivity|]. intros _ _.
          apply existsb_exists in EX. destruct EX as [y [Hy Q]]. apply Nat.eqb_eq in Q. subst. exact Hy.
        + apply Skip; auto; try (intros; lia).
          * destruct OK. constructor; assumption.
          * right. cbn [w_unpr]. split; [|auto]. intros I.
            assert (existsb (Nat.eqb p) (w_unpr w) = true) by (apply existsb_exists; exists p; rewrite Nat.eqb_refl; auto).
            congruence.
      - apply Z.ltb_ge in Z1. cbn [rbind]. apply Skip; auto; try (intros; lia). left. split; [reflexivity|]. intros. lia. }
    apply Z.ltb_ge in Z0. cbv zeta.
    assert (LT : Z.to_nat z < length (db_stmts (t_db e))). { apply HR; [apply sel_cons; auto|exact Z0]. }
    destruct (nth_error (db_stmts (t_db e)) (Z.to_nat z)) as [st|] eqn:ES. 2:{ apply nth_error_None in ES. lia. }
    cbn [rget rbind].
    assert (HN : forall m, z = Z.of_nat m -> m = Z.to_nat z) by (intros; lia).
    assert (NotA : ~ isAssertion st -> exists w' t, workSteps e filter p E zs w = Ok w' /\ okW e w' /\ w_list w' = w_list w ++ t /\
        (forall m, In m (w_list w ++ t) <-> In m (w_list w) \/ (sel (x :: E) (z :: zs) (Z.of_nat m) /\ asrt e m /\ passes filter m)) /\
        (w_unpr w' = w_unpr w \/ (~ In p (w_unpr w) /\ w_unpr w' = w_unpr w ++ [p])) /\
        (In p (w_unpr w') <-> In p (w_unpr w) \/ exists y, sel (x :: E) (z :: zs) y /\ (-1000 < y < 0)%Z)).
    { intros NA. apply Skip; auto.
      - intros m _ Em [st' [E' A']] _. apply HN in Em. subst m. congruence.
      - left. split; [reflexivity|]. intros. lia. }
    assert (Asr : isAssertion st -> exists w' t,
       (do w' <- (do c <- rget (nth_error (w_flags w) (Z.to_nat z));
          if c =? chN then
            do pass <- match filter with
                       | None => Ok true
                       | Some f => do x <- rget (nth_error f (Z.to_nat z)); Ok (x =? chY)
                       end;
            if (pass : bool) then
              if nstm (t_db e) <? length (w_list w) then UB
              else Ok (mkWst (w_list w ++ [Z.to_nat z]) (setAt (Z.to_nat z) chY (w_flags w)) (w_unpr w))
            else Ok w
          else Ok w); workSteps e filter p E zs w') = Ok w' /\ okW e w' /\ w_list w' = w_list w ++ t /\
        (forall m, In m (w_list w ++ t) <-> In m (w_list w) \/ (sel (x :: E) (z :: zs) (Z.of_nat m) /\ asrt e m /\ passes filter m)) /\
        (w_unpr w' = w_unpr w \/ (~ In p (w_unpr w) /\ w_unpr w' = w_unpr w ++ [p])) /\
        (In p (w_unpr w') <-> In p (w_unpr w) \/ exists y, sel (x :: E) (z :: zs) y /\ (-1000 < y < 0)%Z)).
    2:{ destruct (s_type st) eqn:TY;
        [apply Asr; left; exact TY|apply Asr; right; exact TY| | | ];
        apply NotA; intros [Q|Q]; congruence. }
    intros IA. set (n := Z.to_nat z) in *. assert (Hz : z = Z.of_nat n) by (unfold n; lia). clearbody n. subst z.
    assert (NN : n <= nstm (t_db e)) by (unfold nstm; lia).
    destruct (in_dec Nat.eq_dec n (w_list w)) as [I|I].
    { rewrite (ok_in e w OK n I). cbn [rget rbind]. change (chY =? chN) with false. cbn iota.
      apply Skip; auto; [|left; split; [reflexivity|intros; lia]].
      intros m _ Em _ _. apply Nat2Z.inj in Em. subst. exact I. }
    rewrite (ok_out e w OK n NN I). cbn [rget rbind]. change (chN =? chN) with true. cbn iota.
    assert (PD : exists b : bool, match filter with
                       | None => Ok true
                       | Some f => do x <- rget (nth_error f n); Ok (x =? chY)
                       end = Ok b /\ (b = true <-> passes filter n)).
    { destruct filter as [f|]; [|exists true; split; [reflexivity|split; auto; intros; exact Logic.I]].
      destruct (nth_error f n) as [y|] eqn:EF.
      - exists (y =? chY). split; [reflexivity|]. unfold passes. rewrite EF, Nat.eqb_eq. split; congruence.
      - apply nth_error_None in EF. rewrite (HF f eq_refl) in EF. lia. }
    destruct PD as [b [-> PB]]. cbn [rbind]. destruct b.
    2:{ cbn [rbind]. apply Skip; auto; [|left; split; [reflexivity|intros; lia]].
        intros m _ Em _ Hp. apply Nat2Z.inj in Em. subst m. apply PB in Hp. discriminate. }
    assert (N1 : 1 <= n).
    { destruct n; [|lia]. assert (Q := wt_zero e W st ES). destruct IA as [IA|IA]; congruence. }
    assert (LL := nodup_range _ _ (ok_nodup e w OK) (ok_rng e w OK)).
    replace (nstm (t_db e) <? length (w_list w)) with false by (symmetry; apply Nat.ltb_ge; exact LL). cbn [rbind].
    set (w1 := mkWst _ _ _).
    assert (OK1 : okW e w1).
    { unfold w1. constructor; cbn [w_list w_flags].
      - rewrite setAt_len. apply (ok_len e w OK).
      - idtac.
        clear - OK I. assert (N := ok_nodup e w OK). induction (w_list w) as [|a l IHl]; simpl.
        + constructor; [intros []|constructor].
        + inversion N; subst. constructor.
          * rewrite in_app_iff. simpl. intros [Q|[Q|[]]]; [contradiction|]. subst. apply I. left. reflexivity.
          * apply IHl; [intros Q; apply I; right; exact Q|assumption].
      - intros m Hm. apply in_app_or in Hm. destruct Hm as [Hm|[<-|[]]]; [apply (ok_rng e w OK m Hm)|lia].
      - intros m Hm. destruct (Nat.eq_dec m n) as [->|Ne]; [apply setAt_same; rewrite (ok_len e w OK); lia|].
        rewrite setAt_other by exact Ne. apply (ok_in e w OK). apply in_app_or in Hm. destruct Hm as [Hm|[<-|[]]]; [exact Hm|contradiction].
      - intros m Hm Nm. rewrite setAt_other.
        + apply (ok_out e w OK m Hm). intros Q. apply Nm, in_or_app. auto.
        + intros ->. apply Nm, in_or_app. right. left. reflexivity. }
    destruct (IH E w1 ltac:(lia) OK1 HR') as [w' [t [A [B [C [D [F G]]]]]]].
    exists w', (n :: t). split; [exact A|]. split; [exact B|]. unfold w1 in *. cbn [w_list w_unpr] in *.
    rewrite <- app_assoc in C, D. split; [exact C|]. split; [|split; [exact F|]].
    + intros m. simpl in D. rewrite D, sel_cons, in_app_iff. simpl. split.
      * intros [[H|[<-|[]]]|[H1 H2]]; auto.
        right. split; [left; split; [reflexivity|exact X0]|]. split; [exists st; auto|apply PB; reflexivity].
      * intros [H|[[[E1 _]|H1] [H2 H3]]]; auto. apply Nat2Z.inj in E1. subst. auto.
    + rewrite G. split.
      * intros [H|[y [H1 H2]]]; auto. right. exists y. split; [apply sel_cons; auto|exact H2].
      * intros [H|[y [H1 H2]]]; auto. apply sel_cons in H1. destruct H1 as [[-> _]|H1]; [lia|]. right. exists y. auto.
Qed.

(* ---------- which steps are looked at ---------- *)
Lemma nodeAt_root t k path u : nodeAt t k path u -> nth_error (rpn t) k = Some (rootOf u).
Proof.
  induction 1 as [t|z kids j c k path u Hj H IH]; [apply rpn_last|].
  assert (B := nodeAt_bound _ _ _ _ H). simpl rpn.
  destruct (nth_error_split _ _ Hj) as [a [b [Ek La]]]. subst kids j.
  rewrite firstn_app_exact, flat_map_app. simpl. rewrite <- !app_assoc, nth_error_app2 by lia.
  replace (_ + k - _) with k by lia. rewrite nth_error_app1 by exact B. exact IH.
Qed.

Definition stepsE (e : tenv) (ess : bool) (n : nat) (E : list Z) : Prop :=
  (if ess then getEssential (length (proofOf e n)) (t_db e) (proofOf e n)
   else Ok (repeat 1%Z (length (proofOf e n)))) = Ok E.

Lemma sel_all zs z : sel (repeat 1%Z (length zs)) zs z <-> In z zs.
Proof.
  split.
  - intros [k [x [A _]]]. eapply nth_error_In, A.
  - intros I. apply In_nth_error in I. destruct I as [k A]. exists k, 1%Z. split; [exact A|]. split; [|discriminate].
    rewrite nth_repeat_own. assert (L : k < length zs) by (apply nth_error_Some; congruence).
    apply Nat.ltb_lt in L. rewrite L. reflexivity.
Qed.

Lemma readable_dec e n : readable e n \/ ~ readable e n.
Proof. unfold readable. lia. Qed.

Lemma proofOf_readable e n : readable e n -> proofOf e n = map encStep (pr_proof (t_parse e n)).
Proof. unfold readable, proofOf. intros R. apply Nat.ltb_ge in R. rewrite R. reflexivity. Qed.
Lemma proofOf_bad e n : ~ readable e n -> proofOf e n = [zUnk].
Proof.
  unfold readable, proofOf. intros R. destruct (1 <? pr_k (t_parse e n)) eqn:K; [reflexivity|].
  apply Nat.ltb_ge in K. contradiction.
Qed.

Lemma stepsE_ok e ess n : wf_tenv e -> theorem e n ->
  exists E, stepsE e ess n E /\ length E = length (proofOf e n) /\
    (forall z, sel E (proofOf e n) z -> (0 <= z)%Z -> Z.to_nat z < length (db_stmts (t_db e))) /\
    (forall m, (sel E (proofOf e n) (Z.of_nat m) /\ asrt e m) <-> traceEdge ess e n m) /\
    ((exists z, sel E (proofOf e n) z /\ (-1000 < z < 0)%Z) <-> unknownIn ess e n).
Proof.
  intros W T. destruct T as [st [S P]]. unfold stepsE.
  assert (AS : forall m, asrt e m <-> assertion e m) by (intros m; split; intros H; exact H).
  destruct (readable_dec e n) as [R|R].
  2:{ rewrite (proofOf_bad e n R). exists [1%Z].
      assert (SE : forall z, sel [1%Z] [zUnk] z <-> z = zUnk).
      { intros z. rewrite (sel_all [zUnk] z). simpl. split; [intros [H|[]]; auto|auto]. }
      split; [destruct ess; reflexivity|]. split; [reflexivity|]. split; [|split].
      - intros z H. apply SE in H. subst z. unfold zUnk. lia.
      - intros m. rewrite SE. split; [intros [H _]; unfold zUnk in H; lia|].
        intros [H _]. exfalso. destruct ess; destruct H as [_ [H _]]; contradiction.
      - split; [intros _; split; [exists st; auto|left; exact R]|].
        intros _. exists zUnk. rewrite SE. split; [reflexivity|unfold zUnk; lia]. }
  assert (G := wt_good e W n st S P R).
  rewrite (proofOf_readable e n R). set (p := pr_proof (t_parse e n)) in *.
  assert (LEG : forall z, In z (map encStep p) -> (0 <= z)%Z -> Z.to_nat z < length (db_stmts (t_db e))).
  { intros z Hz Z0. apply in_map_iff in Hz. destruct Hz as [x [<- Hx]].
    destruct x as [|i|m]; cbn [encStep] in *; unfold zUnk, zLoc in *; try lia.
    rewrite Nat2Z.id. destruct (gp_ref _ _ _ _ G m Hx) as [sm [Sm _]]. apply nth_error_Some. unfold stmtAt in Sm. congruence. }
  destruct ess.
  - destruct (wf_shape (t_db e) p (gp_wf _ _ _ _ G)) as [T [WT E]].
    assert (LC := enc_legal p). rewrite E in *.
    assert (OKT : forall T', wfTree (t_db e) T' -> rpn T = rpn T' -> essl (t_db e) T' = essl (t_db e) T).
    { intros T' WT' ET. rewrite ET in LC.
      assert (Q := essential_ok (t_db e) T' (wt_db e W) WT' LC _ (le_n _)). rewrite <- ET in LC, Q.
      assert (Q' := essential_ok (t_db e) T (wt_db e W) WT LC _ (le_n _)). congruence. }
    assert (SE : forall z, sel (essl (t_db e) T) (rpn T) z <->
      exists T' k path u, rpn T = rpn T' /\ wfTree (t_db e) T' /\ nodeAt T' k path u /\
        Forall (isEssHyp (t_db e)) path /\ rootOf u = z).
    { intros z. split.
      - intros [k [x [A [B C]]]]. assert (L : k < length (rpn T)) by (apply nth_error_Some; congruence).
        destruct (nodeAt_total T k L) as [path [u N]]. exists T, k, path, u.
        split; [reflexivity|]. split; [exact WT|]. split; [exact N|].
        assert (RT := nodeAt_root _ _ _ _ N). rewrite A in RT.
        destruct (essl_at (t_db e) T k path u N WT) as [[X Y]|[X Y]]; [|congruence]. split; [exact Y|congruence].
      - intros [T' [k [path [u [ET [WT' [N [F RZ]]]]]]]].
        assert (RT := nodeAt_root _ _ _ _ N). rewrite <- ET, RZ in RT.
        destruct (essl_at (t_db e) T' k path u N WT') as [[X Y]|[X Y]]; [|contradiction].
        rewrite (OKT T' WT' ET) in X. exists k, 1%Z. split; [exact RT|]. split; [exact X|discriminate]. }
    exists (essl (t_db e) T). split; [apply essential_ok; auto; apply (wt_db e W)|].
    split; [apply essl_len, WT|]. split; [|split].
    + intros z [k [x [A _]]]. apply LEG. eapply nth_error_In, A.
    + intros m. rewrite SE, AS. unfold traceEdge, usesEss. fold p. rewrite E. split.
      * intros [H A]. split; [|exact A]. split; [exists st; auto|]. split; [exact R|exact H].
      * intros [[_ [_ H]] A]. auto.
    + unfold unknownIn. fold p. rewrite E. split.
      * intros [z [H [Z1 Z2]]]. split; [exists st; auto|]. right. apply SE.
        assert (I : In z (rpn T)) by (destruct H as [k [x [A _]]]; eapply nth_error_In, A).
        rewrite <- E in I. apply in_map_iff in I. destruct I as [x [<- _]].
        destruct x as [|i|m]; cbn [encStep] in *; unfold zLoc in *; try lia. exact H.
      * intros [_ [H|H]]; [contradiction|]. exists zUnk. split; [apply SE; exact H|unfold zUnk; lia].
  - exists (repeat 1%Z (length (map encStep p))). split; [reflexivity|]. split; [apply repeat_length|].
    split; [|split].
    + intros z H. apply sel_all in H. apply LEG, H.
    + intros m. rewrite sel_all, AS. unfold traceEdge, uses. fold p. split.
      * intros [H A]. split; [|exact A]. split; [exists st; auto|]. split; [exact R|].
        apply in_map_iff in H. destruct H as [x [Ex Hx]]. apply encStep_stm in Ex. subst. exact Hx.
      * intros [[_ [_ H]] A]. split; [|exact A]. apply (in_map encStep) in H. exact H.
    + unfold unknownIn. fold p. split.
      * intros [z [H [Z1 Z2]]]. split; [exists st; auto|]. right. apply sel_all, in_map_iff in H.
        destruct H as [x [<- H]]. destruct x as [|i|m]; cbn [encStep] in *; unfold zLoc in *; try lia. exact H.
      * intros [_ [H|H]]; [contradiction|]. exists zUnk. split; [|unfold zUnk; lia]. apply sel_all.
        apply (in_map encStep) in H. exact H.
Qed.

(* ---------- the loop ---------- *)
Definition passEdge (ess : bool) (e : tenv) (filter : option (list nat)) (n m : nat) : Prop :=
  traceEdge ess e n m /\ passes filter m.

Record invL (e : tenv) (ess : bool) (filter : option (list nat)) (s pos : nat) (w : wst) : Prop := {
  il_ok : okW e w;
  il_pos : pos <= length (w_list w);
  il_s : In s (w_list w);
  il_reach : forall n, In n (w_list w) -> n = s \/ clos_trans nat (passEdge ess e filter) s n;
  il_closed : forall i n m, i < pos -> nth_error (w_list w) i = Some n -> passEdge ess e filter n m -> In m (w_list w);
  il_unpr : forall n, In n (w_unpr w) <-> exists i, i < pos /\ nth_error (w_list w) i = Some n /\ unknownIn ess e n;
  il_und : NoDup (w_unpr w) }.

Lemma workLoop_ok e ess filter s : wf_tenv e ->
  (forall f, filter = Some f -> length f = S (nstm (t_db e))) ->
  forall fuel pos w, nstm (t_db e) < fuel + pos -> invL e ess filter s pos w ->
  exists w', workLoop fuel e ess filter pos w = Ok w' /\ okW e w' /\
    (forall n, In n (w_list w') <-> n = s \/ clos_trans nat (passEdge ess e filter) s n) /\
    (forall n, In n (w_unpr w') <-> In n (w_list w') /\ unknownIn ess e n) /\ NoDup (w_unpr w').
Proof.
  intros W HF. induction fuel as [|f IH]; intros pos w FU I.
  - exfalso. assert (L := nodup_range _ _ (ok_nodup e w (il_ok _ _ _ _ _ _ I)) (ok_rng e w (il_ok _ _ _ _ _ _ I))).
    assert (P := il_pos _ _ _ _ _ _ I). lia.
  - cbn [workLoop]. destruct (nth_error (w_list w) pos) as [n|] eqn:EN.
    + assert (OK := il_ok _ _ _ _ _ _ I).
      assert (IN : In n (w_list w)) by (eapply nth_error_In, EN).
      assert (LP : pos < length (w_list w)) by (apply nth_error_Some; congruence).
      assert (RN := ok_rng e w OK n IN).
      destruct (nth_error (db_stmts (t_db e)) n) as [st|] eqn:ES.
      2:{ apply nth_error_None in ES. unfold nstm in RN. lia. }
      cbn [rget rbind].
      assert (NotP : ~ theorem e n -> exists w', workLoop f e ess filter (S pos) w = Ok w' /\ okW e w' /\
        (forall n, In n (w_list w') <-> n = s \/ clos_trans nat (passEdge ess e filter) s n) /\
        (forall n, In n (w_unpr w') <-> In n (w_list w') /\ unknownIn ess e n) /\ NoDup (w_unpr w')).
      { intros NT. apply IH; [lia|]. destruct I. constructor; auto.
        - intros i n' m Hi Hn PE0. destruct PE0 as [[TE TA] TP]. destruct (Nat.eq_dec i pos) as [->|Ne].
          + rewrite EN in Hn. inversion Hn; subst. exfalso. apply NT. destruct ess; destruct TE as [TE _]; exact TE.
          + eapply il_closed0; [|exact Hn|split; [split; [exact TE|exact TA]|exact TP]]. lia.
        - intros n'. rewrite il_unpr0. split; intros [i [H1 [H2 H3]]]; exists i; split; auto; try lia.
          destruct (Nat.eq_dec i pos) as [->|Ne]; [|lia]. exfalso. rewrite EN in H2. inversion H2; subst.
          apply NT. destruct H3 as [H3 _]. exact H3. }
      destruct (s_type st) eqn:TY; try (apply NotP; intros [st' [S' P']]; unfold stmtAt in S'; congruence).
      clear NotP. assert (T : theorem e n) by (exists st; auto).
      destruct (stepsE_ok e ess n W T) as [E [SE [LE [RG [TE UN]]]]].
      cbv zeta. unfold stepsE in SE. rewrite SE. cbn [rbind].
      destruct (workSteps_ok e filter n W HF (proofOf e n) E w LE OK RG) as [w1 [t [A [B [C [D [F G]]]]]]].
      rewrite A. cbn [rbind].
      assert (NU : ~ In n (w_unpr w)).
      { intros Q. apply (il_unpr _ _ _ _ _ _ I) in Q. destruct Q as [i [Q1 [Q2 _]]].
        assert (N := ok_nodup e w OK). rewrite NoDup_nth_error in N.
        assert (i = pos) by (apply N; [lia|congruence]). lia. }
      rewrite UN in G.
      apply IH; [lia|]. constructor.
      * exact B.
      * rewrite C, app_length. lia.
      * rewrite C. apply in_or_app. left. apply (il_s _ _ _ _ _ _ I).
      * intros m Hm. rewrite C in Hm. apply D in Hm. destruct Hm as [Hm|[H1 [H2 H3]]]; [apply (il_reach _ _ _ _ _ _ I m Hm)|].
        right. assert (PE : passEdge ess e filter n m) by (split; [apply TE; auto|exact H3]).
        destruct (il_reach _ _ _ _ _ _ I n IN) as [->|Q]; [apply t_step; exact PE|].
        eapply t_trans; [exact Q|apply t_step; exact PE].
      * intros i n' m Hi Hn PE. rewrite C. apply D. rewrite C in Hn.
        destruct (Nat.eq_dec i pos) as [->|Ne].
        -- rewrite nth_error_app1 in Hn by exact LP. rewrite EN in Hn. inversion Hn; subst n'.
           right. destruct PE as [PE1 PE2]. apply TE in PE1. tauto.
        -- left. rewrite nth_error_app1 in Hn by lia. eapply (il_closed _ _ _ _ _ _ I); [|exact Hn|exact PE]. lia.
      * assert (NL : forall i, i < S pos -> nth_error (w_list w1) i = nth_error (w_list w) i).
        { intros i Hi. rewrite C. apply nth_error_app1. lia. }
        intros n'. destruct F as [F|[_ F]].
        -- rewrite F, (il_unpr _ _ _ _ _ _ I). split.
           ++ intros [i [H1 [H2 H3]]]. exists i. split; [lia|]. rewrite NL by lia. auto.
           ++ intros [i [H1 [H2 H3]]]. rewrite NL in H2 by lia. destruct (Nat.eq_dec i pos) as [->|Ne].
              ** exfalso. rewrite EN in H2. inversion H2; subst n'. apply NU. rewrite <- F. apply G. auto.
              ** exists i. split; [lia|auto].
        -- rewrite F, in_app_iff, (il_unpr _ _ _ _ _ _ I). simpl. split.
           ++ intros [[i [H1 [H2 H3]]]|[<-|[]]].
              ** exists i. split; [lia|]. rewrite NL by lia. auto.
              ** exists pos. split; [lia|]. rewrite NL by lia. split; [exact EN|].
                 assert (Q : In n (w_unpr w1)) by (rewrite F; apply in_or_app; right; left; reflexivity).
                 apply G in Q. destruct Q; [contradiction|assumption].
           ++ intros [i [H1 [H2 H3]]]. rewrite NL in H2 by lia. destruct (Nat.eq_dec i pos) as [->|Ne].
              ** right. left. congruence.
              ** left. exists i. split; [lia|auto].
      * destruct F as [->|[_ ->]]; [apply (il_und _ _ _ _ _ _ I)|].
        assert (N := il_und _ _ _ _ _ _ I). clear - NU N. induction (w_unpr w) as [|a l IHl]; simpl.
        -- constructor; [intros []|constructor].
        -- inversion N; subst. constructor.
           ++ rewrite in_app_iff. simpl. intros [Q|[Q|[]]]; [contradiction|]. subst. apply NU. left. reflexivity.
           ++ apply IHl; [intros Q; apply NU; right; exact Q|assumption].
    + exists w. split; [reflexivity|]. destruct I as [OK LP IS IR IC IU IN]. split; [exact OK|].
      apply nth_error_None in EN.
      assert (CL : forall n m, In n (w_list w) -> passEdge ess e filter n m -> In m (w_list w)).
      { intros n m Hn PE. apply In_nth_error in Hn. destruct Hn as [i Hi].
        assert (i < length (w_list w)) by (apply nth_error_Some; congruence).
        eapply IC; [|exact Hi|exact PE]. lia. }
      split; [|split; [|exact IN]].
      * intros n. split; [apply IR|]. intros [->|H]; [exact IS|].
        apply clos_trans_tn1 in H. induction H as [m H|m k H _ IHt]; [eapply CL; eassumption|].
        eapply CL; eassumption.
      * intros n. rewrite IU. split.
        -- intros [i [_ [H1 H2]]]. split; [eapply nth_error_In, H1|exact H2].
        -- intros [H1 H2]. apply In_nth_error in H1. destruct H1 as [i Hi]. exists i. split; [|auto].
           assert (i < length (w_list w)) by (apply nth_error_Some; congruence). lia.
Qed.

(* ---------- the /TO filter ---------- *)
Lemma orFlags_at : forall f u k, length f = length u ->
  nth_error (orFlags f u) k = match nth_error f k, nth_error u k with
    | Some a, Some b => Some (if b =? chY then chY else a) | _, _ => None end.
Proof.
  induction f as [|a f IH]; intros [|b u] [|k] H; try discriminate; cbn [orFlags nth_error]; auto.
Qed.
Lemma orFlags_len : forall f u, length (orFlags f u) = length f.
Proof. induction f as [|a f IH]; intros [|b u]; simpl; auto. Qed.

Definition target (e : tenv) (hit : nat -> bool) (m : nat) : Prop := assertion e m /\ hit m = true.
Definition leadsTo (e : tenv) (hit : nat -> bool) (s m : nat) : Prop :=
  target e hit m \/ exists t, target e hit t /\ dependsOn e m t /\ m <= s.

Lemma toFilter_ok e hit s : wf_tenv e -> 1 <= s <= nstm (t_db e) -> forall cnt a f,
  a + cnt <= S (nstm (t_db e)) -> length f = S (nstm (t_db e)) -> 1 <= a ->
  (forall m, nth_error f m = Some chY <-> (m <= nstm (t_db e) /\
     ((target e hit m /\ m < a) \/ exists t, t < a /\ target e hit t /\ dependsOn e m t /\ m <= s))) ->
  exists f', toFilter e hit s (seq a cnt) f = Ok f' /\ length f' = S (nstm (t_db e)) /\
  (forall m, nth_error f' m = Some chY <-> (m <= nstm (t_db e) /\
     ((target e hit m /\ m < a + cnt) \/ exists t, t < a + cnt /\ target e hit t /\ dependsOn e m t /\ m <= s))).
Proof.
  intros W HS. induction cnt as [|cnt IH]; intros a f HB HL A1 HI; cbn [seq toFilter].
  - exists f. rewrite Nat.add_0_r. auto.
  - destruct (nth_error (db_stmts (t_db e)) a) as [st|] eqn:ES.
    2:{ apply nth_error_None in ES. unfold nstm in HB. lia. }
    cbn [rget rbind].
    assert (Stay : ~ target e hit a -> exists f', toFilter e hit s (seq (S a) cnt) f = Ok f' /\
       length f' = S (nstm (t_db e)) /\
       (forall m, nth_error f' m = Some chY <-> (m <= nstm (t_db e) /\
         ((target e hit m /\ m < a + S cnt) \/ exists t, t < a + S cnt /\ target e hit t /\ dependsOn e m t /\ m <= s)))).
    { intros NT. replace (a + S cnt) with (S a + cnt) by lia. apply IH; [lia|exact HL|lia|].
      intros m. rewrite HI. split; intros [H0 H]; split; auto.
      - destruct H as [[H1 H2]|[t [H1 H2]]]; [left; split; [exact H1|lia]|]. right. exists t. split; [lia|exact H2].
      - destruct H as [[H1 H2]|[t [H1 [H2 H3]]]].
        + left. split; [exact H1|]. destruct (Nat.eq_dec m a) as [->|]; [contradiction|lia].
        + right. exists t. split; [|auto]. destruct (Nat.eq_dec t a) as [->|]; [contradiction|lia]. }
    assert (Go : isAssertion st -> exists f',
      (if hit a then
            do u <- traceUsage e a true s;
            let f1 := setAt a chY f in
            let f2 := if nth 0 u 0 =? chY
                      then firstn (S a) f1 ++ orFlags (skipn (S a) f1) (skipn (S a) u) else f1 in
            toFilter e hit s (seq (S a) cnt) f2
          else toFilter e hit s (seq (S a) cnt) f) = Ok f' /\
       length f' = S (nstm (t_db e)) /\
       (forall m, nth_error f' m = Some chY <-> (m <= nstm (t_db e) /\
         ((target e hit m /\ m < a + S cnt) \/ exists t, t < a + S cnt /\ target e hit t /\ dependsOn e m t /\ m <= s)))).
    2:{ destruct (s_type st) eqn:TY;
        [apply Go; left; exact TY|apply Go; right; exact TY| | | ];
        apply Stay; intros [[st' [S' Q]] _]; unfold stmtAt in S'; destruct Q as [Q|Q]; congruence. }
    intros IA. destruct (hit a) eqn:HA.
    2:{ apply Stay. intros [_ Q]. congruence. }
    assert (TA : target e hit a) by (split; [exists st; auto|exact HA]).
    destruct (usage_recursive e a s W) as [u [U1 [U2 [U3 [U4 U5]]]]]; [unfold nstm in HB; lia|lia|].
    rewrite U1. cbn [rbind]. cbv zeta.
    set (f1 := setAt a chY f). set (f2 := if nth 0 u 0 =? chY then _ else _).
    assert (L1 : length f1 = S (nstm (t_db e))) by (unfold f1; rewrite setAt_len; exact HL).
    assert (LAB : a <= nstm (t_db e)) by lia.
    assert (N1 : forall m, nth_error f1 m = Some chY <-> m = a \/ nth_error f m = Some chY).
    { intros m. unfold f1. destruct (Nat.eq_dec m a) as [->|Ne].
      - rewrite setAt_same by lia. split; auto.
      - rewrite setAt_other by exact Ne. split; auto. intros [->|H]; [contradiction|exact H]. }
    assert (DU : forall m, dependsOn e m a /\ m <= s <-> marked u m /\ a < m).
    { intros m. split.
      - intros [D L]. assert (Q := dep_lt _ _ _ W D). split; [|exact Q]. apply U4; [lia|]. auto.
      - intros [M L]. apply U4 in M; [|lia]. destruct M as [D [Q|Q]]; [lia|auto]. }
    assert (N2 : length f2 = S (nstm (t_db e)) /\
      forall m, nth_error f2 m = Some chY <-> nth_error f1 m = Some chY \/ (dependsOn e m a /\ m <= s)).
    { unfold f2. destruct (nth 0 u 0 =? chY) eqn:N0.
      - split.
        { rewrite app_length, orFlags_len, <- app_length, firstn_skipn. exact L1. }
        intros m. rewrite DU. destruct (Nat.le_gt_cases m a) as [Lm|Lm].
        + rewrite nth_error_app1 by (rewrite firstn_length; lia).
          assert (E1 : nth_error (firstn (S a) f1) m = nth_error f1 m).
          { rewrite <- (firstn_skipn (S a) f1) at 2. rewrite nth_error_app1; [reflexivity|]. rewrite firstn_length. lia. }
          rewrite E1. split; [auto|]. intros [H|[_ H]]; [exact H|lia].
        + rewrite nth_error_app2 by (rewrite firstn_length; lia). rewrite firstn_length, Nat.min_l by lia.
          assert (E1 : forall (l : list nat), S a <= length l -> nth_error (skipn (S a) l) (m - S a) = nth_error l m).
          { intros l Hl. rewrite <- (firstn_skipn (S a) l) at 2. rewrite nth_error_app2; rewrite firstn_length, Nat.min_l by lia; [reflexivity|lia]. }
          rewrite orFlags_at by (rewrite !skipn_length; lia). rewrite !E1 by lia.
          unfold marked. destruct (nth_error f1 m) as [x|] eqn:F1.
          * destruct (nth_error u m) as [y|] eqn:FU.
            -- destruct (y =? chY) eqn:Y.
               ++ apply Nat.eqb_eq in Y. subst y. split; auto.
               ++ apply Nat.eqb_neq in Y. split; [auto|]. intros [H|[H _]]; [exact H|]. inversion H. contradiction.
            -- apply nth_error_None in FU. assert (m < length f1) by (apply nth_error_Some; congruence). lia.
          * split; [discriminate|]. intros [H|[H _]]; [discriminate|].
            apply nth_error_None in F1. assert (m < length u) by (apply nth_error_Some; congruence). lia.
      - split; [exact L1|]. intros m. split; [auto|]. intros [H|H]; [exact H|]. exfalso.
        apply Nat.eqb_neq in N0. apply N0.
        assert (M0 : marked u 0). { apply U5. exists m. split; [apply H|right; apply H]. }
        unfold marked in M0. apply nth_error_nth with (d := 0) in M0. exact M0. }
    destruct N2 as [L2 N2]. clearbody f1 f2.
    replace (a + S cnt) with (S a + cnt) by lia. apply IH; [lia|exact L2|lia|].
    intros m. rewrite N2, N1, HI. split.
    + intros [[->|[H0 H]]|[H1 H2]].
      * split; [exact LAB|]. left. split; [exact TA|lia].
      * split; [exact H0|]. destruct H as [[H1 H2]|[t [H1 H2]]]; [left; split; [exact H1|lia]|].
        right. exists t. split; [lia|exact H2].
      * split; [lia|]. right. exists a. split; [lia|auto].
    + intros [H0 [[H1 H2]|[t [H1 [H2 [H3 H4]]]]]].
      * destruct (Nat.eq_dec m a) as [->|]; [auto|]. left. right. split; [exact H0|]. left. split; [exact H1|lia].
      * destruct (Nat.eq_dec t a) as [->|]; [auto|]. left. right. split; [exact H0|]. right. exists t. split; [lia|auto].
Qed.

(* ---------- the whole ---------- *)
Lemma edge_uses ess e n m : traceEdge ess e n m -> uses e n m.
Proof.
  intros [H _]. destruct ess; [|exact H].
  destruct H as [T [R [Tr [k [path [u [E [_ [N [_ RZ]]]]]]]]]]. split; [exact T|]. split; [exact R|].
  apply nodeAt_root in N. rewrite RZ, <- E in N. apply nth_error_In, in_map_iff in N.
  destruct N as [x [Ex Hx]]. apply encStep_stm in Ex. subst. exact Hx.
Qed.
Lemma traces_dep ess e n m : tracesTo ess e n m -> dependsOn e n m.
Proof.
  intros H. induction H as [x y H|x y z _ IH1 _ IH2]; [apply t_step; eapply edge_uses, H|].
  eapply t_trans; eassumption.
Qed.
Lemma traces_asrt ess e n m : tracesTo ess e n m -> assertion e m.
Proof. intros H. induction H as [x y [_ H]|x y z _ IH1 _ IH2]; assumption. Qed.

Lemma traceWork_ok e s ess to fuel : wf_tenv e -> theorem e s -> nstm (t_db e) < fuel ->
  exists fl un, traceProofWork fuel e s ess to = Ok (fl, un) /\ length fl = S (nstm (t_db e)) /\
    (forall n, n <= nstm (t_db e) -> nth_error fl n = Some chY \/ nth_error fl n = Some chN) /\
    (forall n, marked fl n <-> n = s \/ (tracesTo ess e s n /\ wanted e to n)) /\
    (forall n, In n un <-> marked fl n /\ unknownIn ess e n) /\ NoDup un.
Proof.
  intros W T FU. assert (TB := theorem_bound e s T).
  assert (S1 : 1 <= s <= nstm (t_db e)).
  { unfold nstm. split; [|lia]. destruct s; [|lia]. destruct T as [st [S0 P]].
    assert (Q := wt_zero e W st S0). congruence. }
  unfold traceProofWork.
  assert (FL : exists filter, match to with
               | None => Ok None
               | Some hit =>
                   do f <- toFilter e hit s (seq 1 (nstm (t_db e))) (repeat chN (S (nstm (t_db e))));
                   Ok (Some f)
               end = Ok filter /\ (forall f, filter = Some f -> length f = S (nstm (t_db e))) /\
      forall m, passes filter m <-> match to with None => True | Some hit => m <= nstm (t_db e) /\ leadsTo e hit s m end).
  { destruct to as [hit|].
    - destruct (toFilter_ok e hit s W S1 (nstm (t_db e)) 1 (repeat chN (S (nstm (t_db e))))) as [f [F1 [F2 F3]]].
      + lia.
      + apply repeat_length.
      + lia.
      + intros m. rewrite nth_repeat_own. split; [destruct (m <? _); discriminate|].
        intros [_ [[[[st [S0 Q]] _] H]|[t [H [[[st [S0 Q]] _] _]]]]]; exfalso.
        * assert (m = 0) by lia. subst m. assert (Z := wt_zero e W st S0). destruct Q; congruence.
        * assert (t = 0) by lia. subst t. assert (Z := wt_zero e W st S0). destruct Q; congruence.
      + rewrite F1. exists (Some f). split; [reflexivity|]. split; [intros f' E; inversion E; subst; exact F2|].
        intros m. cbn [passes]. rewrite F3. unfold leadsTo. split.
        * intros [H0 [[H _]|[t [_ H]]]]; split; auto. right. exists t. exact H.
        * intros [H0 [H|[t [H1 H2]]]]; split; auto.
          -- left. split; [exact H|lia].
          -- right. exists t. split; [|auto]. destruct H1 as [[st [S0 _]] _].
             assert (t < length (db_stmts (t_db e))) by (apply nth_error_Some; unfold stmtAt in S0; congruence).
             unfold nstm. lia.
    - exists None. split; [reflexivity|]. split; [discriminate|]. intros m. simpl. tauto. }
  destruct FL as [filter [-> [HF HP]]]. cbn [rbind]. cbv zeta.
  destruct (workLoop_ok e ess filter s W HF fuel 0
    (mkWst [s] (setAt s chY (repeat chN (S (nstm (t_db e))))) [])) as [w [A [B [C [D E]]]]].
  - lia.
  - constructor; cbn [w_list w_unpr].
    + constructor; cbn [w_list w_flags].
      * rewrite setAt_len. apply repeat_length.
      * constructor; [intros []|constructor].
      * intros n [<-|[]]. exact S1.
      * intros n [<-|[]]. apply setAt_same. rewrite repeat_length. lia.
      * intros n Hn N. rewrite setAt_other by (intros ->; apply N; left; reflexivity).
        rewrite nth_repeat_own. assert (Q : n < S (nstm (t_db e))) by lia. apply Nat.ltb_lt in Q. rewrite Q. reflexivity.
    + lia.
    + left. reflexivity.
    + intros n [<-|[]]. left. reflexivity.
    + intros i n m Hi. lia.
    + intros n. split; [intros []|]. intros [i [Hi _]]. lia.
    + constructor.
  - rewrite A. cbn [rbind]. exists (w_flags w), (w_unpr w). split; [reflexivity|].
    split; [apply (ok_len e w B)|].
    assert (MK : forall n, marked (w_flags w) n <-> In n (w_list w)).
    { intros n. unfold marked. split; [|apply (ok_in e w B)]. intros M.
      destruct (in_dec Nat.eq_dec n (w_list w)) as [I|I]; [exact I|]. exfalso.
      assert (n < length (w_flags w)) by (apply nth_error_Some; congruence). rewrite (ok_len e w B) in H.
      rewrite (ok_out e w B n ltac:(lia) I) in M. discriminate. }
    split; [|split; [|split; [|exact E]]].
    + intros n Hn. destruct (in_dec Nat.eq_dec n (w_list w)) as [I|I]; [left; apply (ok_in e w B n I)|right; apply (ok_out e w B n Hn I)].
    + intros n. rewrite MK, C.
      assert (PE : forall a b, clos_trans nat (passEdge ess e filter) a b -> tracesTo ess e a b /\ passes filter b).
      { intros a b H. induction H as [x y [H1 H2]|x y z _ [IH1 _] _ [IH2 IH3]]; split; auto; [apply t_step; exact H1|].
        eapply t_trans; eassumption. }
      split.
      * intros [->|H]; [auto|]. right. apply PE in H. destruct H as [H1 H2]. split; [exact H1|].
        apply HP in H2. unfold wanted. destruct to as [hit|]; [|exact Logic.I].
        destruct H2 as [_ [[_ H2]|[t [[T1 T2] [H3 _]]]]]; [left; exact H2|right; exists t; auto].
      * intros [->|[H WA]]; [auto|]. right.
        assert (AS := traces_asrt _ _ _ _ H).
        assert (BD : forall m, assertion e m -> m <= nstm (t_db e)).
        { intros m [st [S0 _]]. assert (m < length (db_stmts (t_db e))) by (apply nth_error_Some; unfold stmtAt in S0; congruence).
          unfold nstm. lia. }
        assert (Up : forall m, wanted e to m -> assertion e m -> m <= s -> passes filter m).
        { intros m Wm Am Lm. apply HP. unfold wanted in Wm. destruct to as [hit|]; [|exact Logic.I].
          split; [apply BD, Am|]. destruct Wm as [Wm|[t [T1 [T2 T3]]]]; [left; split; assumption|].
          right. exists t. split; [split; assumption|]. auto. }
        assert (WU : forall m k, wanted e to k -> dependsOn e m k -> assertion e k -> wanted e to m).
        { intros m k Wk Dk Ak. unfold wanted in *. destruct to as [hit|]; [|exact Logic.I].
          right. destruct Wk as [Wk|[t [T1 [T2 T3]]]]; [exists k; auto|]. exists t. split; [exact T1|]. split; [exact T2|].
          eapply t_trans; eassumption. }
        apply clos_trans_tn1 in H. clear D E.
        assert (Q : wanted e to n -> assertion e n -> clos_trans nat (passEdge ess e filter) s n).
        2:{ apply Q; assumption. }
        clear WA AS. induction H as [m H|m k HE H IH]; intros Wm Am.
        -- apply t_step. split; [exact H|]. apply Up; auto. apply edge_uses, uses_lt in H; [lia|exact W].
        -- assert (DM : dependsOn e m k) by (apply t_step; eapply edge_uses, HE).
           assert (DS : dependsOn e s m).
           { apply clos_tn1_trans in H. eapply traces_dep. exact H. }
           assert (AM : assertion e m).
           { apply clos_tn1_trans in H. eapply traces_asrt. exact H. }
           eapply t_trans; [apply IH; [eapply WU; eassumption|exact AM]|].
           apply t_step. split; [exact HE|]. apply Up; auto.
           apply dep_lt in DM; [|exact W]. apply dep_lt in DS; [|exact W]. lia.
    + intros n. rewrite MK. apply D.
Qed.

Lemma traceProof_ok e s ess ax mt to fuel : wf_tenv e -> theorem e s -> nstm (t_db e) < fuel ->
  exists found lst un, traceProof fuel e s ess ax false mt to = Ok (found, lst, un) /\
    traceProof fuel e s ess ax true mt to = Ok (found, [], []) /\
    (forall n, In n lst <-> tracesTo ess e s n /\ wanted e to n /\
       match mt with None => True | Some f => f n = true end /\
       (ax = true -> exists st, stmtAt (t_db e) n st /\ s_type st = S_a)) /\
    (forall i j a b, i < j -> nth_error lst i = Some a -> nth_error lst j = Some b -> a < b) /\
    (found = true <-> exists n, tracesTo ess e s n /\ wanted e to n /\
       match mt with None => True | Some f => f n = true end) /\
    (forall n, In n un <-> (n = s \/ (tracesTo ess e s n /\ wanted e to n)) /\ unknownIn ess e n) /\ NoDup un.
Proof.
  intros W T FU. assert (TB := theorem_bound e s T). unfold traceProof.
  destruct T as [st [S0 P]]. assert (S' := S0). unfold stmtAt in S'. rewrite S'. cbn [rget rbind]. rewrite P.
  destruct (traceWork_ok e s ess to fuel W (ex_intro _ st (conj S0 P)) FU) as [fl [un [A [B [C [D [E F]]]]]]].
  rewrite A. cbn [rbind]. rewrite B, Nat.eqb_refl. cbn [negb].
  set (kept := List.filter _ (seq 1 (s - 1))).
  assert (KE : forall n, In n kept <-> tracesTo ess e s n /\ wanted e to n /\
       match mt with None => True | Some f => f n = true end).
  { intros n. unfold kept. rewrite filter_In, in_seq, andb_true_iff, Nat.eqb_eq.
    assert (MM : forall k, k <= nstm (t_db e) -> (nth k fl 0 = chY <-> marked fl k)).
    { intros k Hk. unfold marked. assert (k < length fl) by lia. split.
      - intros Q. rewrite (nth_error_nth' fl 0 H). rewrite Q. reflexivity.
      - intros Q. apply nth_error_nth with (d := 0) in Q. exact Q. }
    split.
    - intros [H1 [H2 H3]]. apply MM in H2; [|unfold nstm; lia]. apply D in H2. destruct H2 as [H2|[H2 H4]]; [lia|].
      split; [exact H2|]. split; [exact H4|]. destruct mt; auto.
    - intros [H1 [H2 H3]]. assert (L := dep_lt _ _ _ W (traces_dep _ _ _ _ H1)).
      assert (N1 : 1 <= n). { destruct (traces_asrt _ _ _ _ H1) as [sn [Sn An]]. destruct n; [|lia].
        assert (Q := wt_zero e W sn Sn). destruct An; congruence. }
      split; [lia|]. split; [apply MM; [unfold nstm; lia|]; apply D; auto|]. destruct mt; auto. }
  eexists _, _, un. split; [reflexivity|]. split; [reflexivity|]. split; [|split; [|split; [|split; [|exact F]]]].
  - intros n. rewrite filter_In, KE. split.
    + intros [[H1 [H2 H3]] H4]. repeat (split; [assumption|]). intros ->. cbn [negb orb] in H4. revert H4.
      destruct (nth_error (db_stmts (t_db e)) n) as [sn|] eqn:N; [|discriminate]. intros H4. exists sn. split; [exact N|].
      revert H4. destruct (s_type sn); [reflexivity|discriminate..].
    + intros [H1 [H2 [H3 H4]]]. split; [auto|]. destruct ax; [|reflexivity]. destruct (H4 eq_refl) as [sn [Sn Tn]].
      unfold stmtAt in Sn. rewrite Sn, Tn. reflexivity.
  - assert (SR : forall g l, (forall i j a b, i < j -> nth_error l i = Some a -> nth_error l j = Some b -> a < b) ->
       forall i j a b, i < j -> nth_error (List.filter g l) i = Some a -> nth_error (List.filter g l) j = Some b -> a < b).
    { intros g. induction l as [|x l IH]; intros HL i j a b Hij Ha Hb; [destruct i; discriminate|].
      assert (HL' : forall i j a b, i < j -> nth_error l i = Some a -> nth_error l j = Some b -> a < b).
      { intros i' j' a' b' Q1 Q2 Q3. apply (HL (S i') (S j')); auto. lia. }
      simpl in Ha, Hb. destruct (g x); [|apply (IH HL' i j); auto].
      destruct i as [|i]; destruct j as [|j]; try lia.
      - simpl in Ha, Hb. injection Ha as <-. apply nth_error_In, filter_In in Hb. destruct Hb as [Hb _].
        apply In_nth_error in Hb. destruct Hb as [q Hq]. apply (HL 0 (S q)); auto. lia.
      - apply (IH HL' i j); auto. lia. }
    apply SR. unfold kept. apply SR. intros i j a b Hij Ha Hb.
    assert (SQ : forall k m i x, nth_error (seq k m) i = Some x -> x = k + i).
    { intros k m. revert k. induction m as [|m IH]; intros k i0 x Hx; [destruct i0; discriminate|].
      destruct i0; simpl in Hx; [injection Hx as <-; lia|]. apply IH in Hx. lia. }
    apply SQ in Ha, Hb. lia.
  - destruct kept as [|x k] eqn:EK; cbn [length Nat.eqb negb].
    + split; [discriminate|]. intros [n Hn]. apply KE in Hn. destruct Hn.
    + split; [|reflexivity]. intros _. exists x. apply KE. left. reflexivity.
  - intros n. rewrite E, D. tauto.
Qed.
