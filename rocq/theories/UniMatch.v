(* UniMatch.v -- proofs about UniModel: when the second scheme has no unknowns the search
   misses no solution *)
From Coq Require Import ZifyBool ZifyNat.
From Verif Require Import Base UniModel UniSpec UniSub UniCore UniStep UniRun UniProofs.
Open Scope nat_scope.

Section M.
  Variable e : uenv.
  Variables A0 B0 : list nat.
  Hypothesis OK : okInput e A0 B0.
  Notation mt := (u_mt e).
  Notation cap := (unkCount e A0 B0).
  Notation core := (core e A0 B0).
  Notation goodA := (goodA e A0 B0).
  Notation goodB := (goodB e A0 B0).
  Notation goodBack := (goodBack e A0 B0).
  Notation goodSw := (goodSw e A0 B0).
  Notation goodDone := (goodDone e A0 B0).
  Notation place := (place e A0 B0).

  (* ---------- all steps keep a good configuration ---------- *)
  Definition goodCfg (o : uout) : Prop :=
    match o with
    | UScan s => goodA s \/ exists top rest, goodB s top rest
    | UBack s => goodBack s
    | USwitch s => exists top rest, goodSw s top rest
    | UDone s => goodDone s
    | UAbort _ _ => True
    end.
  Let Hmin := ok_min _ _ _ OK. Let Hcnt := ok_cnt _ _ _ OK. Let Hhd := ok_hd _ _ _ OK. Let Hne := ok_ne e A0 B0 OK. Let Hcap := unkCount_cap e A0 B0.
  Lemma good_step o : goodCfg o -> exists o', ustep e cap o = Ok o' /\ goodCfg o'.
  Proof.
    intros G. destruct o as [s|s|s|s|c tc]; cbn [ustep goodCfg] in *.
    - destruct G as [G|[top [rest G]]].
      + destruct (scanA_step e A0 B0 cap Hmin Hcnt Hhd Hne Hcap s G) as [o [top [E O]]]. exists o. split; [exact E|]. destruct o; cbn [goodCfg]; tauto.
      + destruct (scanB_step e A0 B0 cap Hmin Hcnt Hhd Hne Hcap s top rest G) as [o [E O]]. exists o. split; [exact E|]. destruct o; cbn [goodCfg]; tauto.
    - destruct (u_stk s) as [|top rest] eqn:ES.
      + unfold backStep. rewrite ES. eexists. split; [reflexivity|exact I].
      + destruct (back_step e A0 B0 cap Hmin Hcnt Hhd Hcap s top rest G ES) as [o [E O]]. exists o. split; [exact E|]. destruct o; cbn [goodCfg]; try contradiction; [|exact I].
        destruct O as [top' [O _]]. eauto.
    - destruct G as [top [rest G]]. destruct (switch_step e A0 B0 cap Hmin Hcnt Hhd Hne Hcap s top rest G) as [o [E O]]. exists o. split; [exact E|].
      destruct o; cbn [goodCfg]; try contradiction; [right; eauto|tauto|]. destruct O as [top' [O _]]. eauto.
    - eexists. split; [reflexivity|exact G].
    - eexists. split; [reflexivity|exact I].
  Qed.
  Lemma good_runs o o' : runs e cap o o' -> goodCfg o -> goodCfg o'.
  Proof.
    induction 1 as [o|o o1 o2 E R IH]; intros G; [exact G|]. apply IH. destruct (good_step o G) as [o3 [E3 G3]]. rewrite E in E3. injection E3 as <-. exact G3.
  Qed.

  (* ---------- a solution ---------- *)
  Variable sg : nat -> list nat.
  Hypothesis Gr : forall t, In t B0 -> t <= mt.
  Hypothesis Sol : matching mt (u_min e) (fun w => reject e w = false) A0 B0 sg.
  Definition agree (f : nat -> list nat) : Prop := forall t, flat_map sg (f t) = sg t.
  Lemma sg_low t : t <= mt -> sg t = [t].
  Proof. apply (ma_fixed _ _ _ _ _ _ Sol). Qed.
  Lemma sg_ground l : (forall t, In t l -> t <= mt) -> flat_map sg l = l.
  Proof.
    induction l as [|t l IH]; intros H; [reflexivity|]. cbn [flat_map]. rewrite (sg_low t) by (apply H; left; reflexivity). cbn [app].
    f_equal. apply IH. intros u K. apply H. right. exact K.
  Qed.
  Lemma flat_agree f l : agree f -> flat_map sg (flat_map f l) = flat_map sg l.
  Proof. intros H. induction l as [|t l IH]; [reflexivity|]. cbn [flat_map]. rewrite flat_map_app, H, IH. reflexivity. Qed.
  Lemma core_ground f A B p vs ss ns : core f A B p vs ss ns -> B = B0 ++ [mt] /\ forall t, In t B -> t <= mt.
  Proof.
    intros C. assert (E : B = B0 ++ [mt]).
    { rewrite (c_B _ _ _ _ _ _ _ _ _ _ C). assert (X : forall l, (forall t, In t l -> t <= mt) -> flat_map f l = l).
      { induction l as [|t l IH]; intros H; [reflexivity|]. cbn [flat_map]. rewrite (c_id _ _ _ _ _ _ _ _ _ _ C).
        - cbn [app]. f_equal. apply IH. intros u K. apply H. right. exact K.
        - intros I. apply (c_unk _ _ _ _ _ _ _ _ _ _ C) in I. specialize (H t (or_introl eq_refl)). lia. }
      apply X. intros t I. apply in_app_iff in I. destruct I as [I|[I|[]]]; [apply Gr, I|lia]. }
    split; [exact E|]. intros t I. rewrite E in I. apply in_app_iff in I. destruct I as [I|[I|[]]]; [apply Gr, I|lia].
  Qed.
  Lemma agree_tail f A B p vs ss ns : core f A B p vs ss ns -> agree f -> flat_map sg (skipn p A) = skipn p B.
  Proof.
    intros C H. destruct (core_ground _ _ _ _ _ _ _ C) as [EB GB].
    assert (W : flat_map sg A = B).
    { rewrite (c_A _ _ _ _ _ _ _ _ _ _ C), (flat_agree f _ H), flat_map_app, EB. f_equal; [apply (ma_eq _ _ _ _ _ _ Sol)|].
      apply sg_ground. intros t [<-|[]]. lia. }
    rewrite <- (firstn_skipn p A), flat_map_app, (c_pre _ _ _ _ _ _ _ _ _ _ C), sg_ground in W.
    - rewrite <- (firstn_skipn p B) in W at 2. apply app_inv_head in W. exact W.
    - intros t I. apply GB. rewrite <- (firstn_skipn p B). apply in_app_iff. left. exact I.
  Qed.
  (* the value of the unknown at p lies in B from p on *)
  Lemma agree_at f A B p vs ss ns x : core f A B p vs ss ns -> agree f -> nth_error A p = Some x ->
    (x <= mt -> nth_error B p = Some x) /\
    (mt < x -> In x A0 /\ p + length (sg x) <= length B /\ (forall n, n <= length (sg x) -> seg B p n = firstn n (sg x)) /\ ~ In x (sg x) /\ (forall t, In t (sg x) -> t <= mt)).
  Proof.
    intros C H NX. pose proof (agree_tail _ _ _ _ _ _ _ C H) as T. destruct (core_ground _ _ _ _ _ _ _ C) as [EB GB].
    destruct (split_at A p x NX) as [SA LP]. pose proof (c_pA _ _ _ _ _ _ _ _ _ _ C) as PA.
    assert (SK : skipn p A = x :: skipn (S p) A).
    { rewrite SA at 1. rewrite skipn_app. rewrite skipn_all2 by lia. rewrite LP, Nat.sub_diag. reflexivity. }
    rewrite SK in T. cbn [flat_map] in T. split.
    - intros L. rewrite (sg_low x L) in T. cbn [app] in T. rewrite <- (firstn_skipn p B), <- T.
      pose proof (c_pB _ _ _ _ _ _ _ _ _ _ C). rewrite nth_error_app2 by (rewrite firstn_length; lia). rewrite firstn_length. replace (p - Nat.min p (length B)) with 0 by lia. reflexivity.
    - intros L. assert (LB : length (sg x) + length (flat_map sg (skipn (S p) A)) = length B - p) by (rewrite <- app_length, T, skipn_length; reflexivity).
      assert (GX : forall t, In t (sg x) -> t <= mt).
      { intros t I. apply GB. rewrite <- (firstn_skipn p B), <- T. rewrite !in_app_iff. auto. }
      pose proof (c_pB _ _ _ _ _ _ _ _ _ _ C). split; [|split; [lia|split; [|split; [|exact GX]]]].
      + destruct (c_in _ _ _ _ _ _ _ _ _ _ C x) as [K|K]; [left; eapply nth_error_In; exact NX| |lia]. apply in_app_iff in K. destruct K as [K|K]; [exact K|]. apply Gr in K. lia.
      + intros n Hn. unfold seg. rewrite <- T, firstn_app. replace (n - length (sg x)) with 0 by lia. rewrite firstn_O, app_nil_r. reflexivity.
      + intros I. apply GX in I. lia.
  Qed.
  Lemma agree_sub f x : agree f -> (forall t, In t (sg x) -> t <= mt) -> agree (fun t => sub1 x (sg x) (f t)).
  Proof.
    intros H G t. rewrite <- (H t). generalize (f t). intros l. induction l as [|u l IH]; [reflexivity|]. destruct (Nat.eq_dec u x) as [->|N].
    - rewrite sub1_hit, flat_map_app, IH. cbn [flat_map]. f_equal. apply sg_ground, G.
    - rewrite sub1_miss by exact N. cbn [flat_map]. f_equal. exact IH.
  Qed.

  (* ---------- the solution is still ahead ---------- *)
  Definition levelHas (m : nat) (lv : level) (rest : list level) : Prop :=
    exists f p n ss ns, l_starts lv = p :: ss /\ l_lens lv = n :: ns /\ core f (l_A lv) (l_B lv) p (vars rest) ss ns /\
      nth_error (l_A lv) p = Some (l_var lv) /\ mt < l_var lv /\ agree f /\ n + m <= length (sg (l_var lv)).
  Fixpoint stackHas (stk : list level) : Prop :=
    match stk with [] => False | lv :: rest => levelHas 1 lv rest \/ stackHas rest end.
  Definition consA (s : ust) : Prop :=
    exists f, core f (u_A s) (u_B s) (u_p s) (vars (u_stk s)) (u_starts s) (u_lens s) /\ agree f.
  Definition cover (o : uout) : Prop :=
    match o with
    | UScan s => consA s \/ (exists top rest, goodB s top rest /\ levelHas 0 top rest) \/ stackHas (u_stk s)
    | UBack s => stackHas (u_stk s)
    | USwitch s => exists top rest, goodSw s top rest /\ ((levelHas 0 top rest /\ 1 <= hd 0 (l_lens top)) \/ stackHas rest)
    | UDone s => consA s \/ stackHas (u_stk s)
    | UAbort c _ => c <> 0
    end.
  Lemma has_less lv rest : levelHas 1 lv rest -> levelHas 0 lv rest.
  Proof. intros [f [p [n [ss [ns [H1 [H2 [H3 [H4 [H5 [H6 H7]]]]]]]]]]]. exists f, p, n, ss, ns. repeat (split; [assumption|]). lia. Qed.

  (* trying a value for the unknown on top of the stack *)
  Lemma side_cover s top rest f n ss ns : u_stk s = top :: rest -> tmpOK s -> u_A s = l_A top -> u_B s = l_B top ->
    l_starts top = u_p s :: ss -> l_lens top = n :: ns -> u_starts s = u_p s :: ss -> u_lens s = n :: ns ->
    core f (u_A s) (u_B s) (u_p s) (vars rest) ss ns -> agree f -> nth_error (u_A s) (u_p s) = Some (l_var top) -> mt < l_var top ->
    u_min e <= n -> n <= length (sg (l_var top)) ->
    forall o, side e cap true (l_var top) s = Ok o -> cover o.
  Proof.
    intros ES T EA EB E1 E2 E3 E4 C AG NX Ux Hn Ln o. destruct (agree_at _ _ _ _ _ _ _ _ C AG NX) as [_ AT]. destruct (AT Ux) as [IX [LB [SG [NXS GX]]]].
    destruct (ma_val _ _ _ _ _ _ Sol (l_var top) IX Ux) as [M1 [M2 M3]].
    set (x := l_var top) in *. set (w := seg (u_B s) (u_p s) n) in *. assert (Ew : w = firstn n (sg x)) by (apply SG, Ln).
    assert (Iw : forall t, In t w -> In t (sg x)) by (intros t I; rewrite Ew in I; rewrite <- (firstn_skipn n (sg x)); apply in_app_iff; left; exact I).
    assert (HAS : n < length (sg x) -> stackHas (u_stk s)).
    { intros L. rewrite ES. left. exists f, (u_p s), n, ss, ns. rewrite <- EA, <- EB. repeat (split; [assumption|]). fold x. lia. }
    unfold side. replace (u_tmp s x) with true by (symmetry; apply T; rewrite ES; left; reflexivity). cbn [rbind].
    rewrite ES, E4. fold x. rewrite Nat.eqb_refl. cbn [negb]. fold (seg (u_B s) (u_p s) n). fold w.
    replace (existsb (Nat.eqb x) w) with false.
    2:{ symmetry. destruct (existsb (Nat.eqb x) w) eqn:EX; [exfalso|reflexivity]. apply existsb_exists in EX. destruct EX as [y [K1 K2]]. apply Nat.eqb_eq in K2. subst y. exact (NXS (Iw x K1)). }
    replace (isTok (hd_error w) mt) with false.
    2:{ symmetry. destruct w as [|t w']; [reflexivity|]. cbn [hd_error isTok]. destruct (t =? mt) eqn:Et; [|reflexivity]. exfalso. apply M2. apply Iw. left. lia. }
    assert (Lw : length w = n) by (apply seg_len; lia).
    assert (NXw : ~ In x w) by (intros I; exact (NXS (Iw x I))).
    assert (HD : 1 <= length w \/ (hd_error (u_A s) <> Some x /\ hd_error (u_B s) <> Some x)).
    { destruct (Nat.eq_dec (length w) 0) as [Z|Z]; [right|left; lia]. assert (Z2 : u_min e = 0) by lia.
      pose proof (head_same e A0 B0 cap Hmin Hcnt Hhd Hne Hcap _ _ _ _ _ _ _ C Z2) as HS.
      split; intros K; [specialize (HS x (or_introl K))|specialize (HS x (or_intror K))]; lia. }
    destruct (Nat.eq_dec n (length (sg x))) as [Z|Z].
    - assert (Ews : w = sg x) by (rewrite Ew, Z; apply firstn_all). rewrite Ews, M3, <- Ews.
      rewrite (doSubst_ok true x w s NXw NX HD). cbn [rbind]. intros H. injection H as <-. cbn [cover]. left.
      pose proof (core_sub e A0 B0 true f (u_A s) (u_B s) (u_p s) (vars rest) ss ns x n C NX Ux) as CS. cbn zeta iota in CS. fold w in CS.
      exists (fun t => sub1 x w (f t)). split; [|rewrite Ews; apply agree_sub; assumption]. cbn [u_A u_B u_p u_stk u_starts u_lens]. rewrite ES, E3, E4. cbn [vars map]. fold x. rewrite Lw.
      apply CS; [lia|exact NXw|intros I; exact (M2 (Iw mt I))|exact Hn|rewrite Ews; exact M3].
    - assert (L : n < length (sg x)) by lia. specialize (HAS L). destruct (reject e w).
      + intros H. injection H as <-. exact HAS.
      + rewrite (doSubst_ok true x w s NXw NX HD). cbn [rbind]. intros H. injection H as <-. cbn [cover u_stk]. right. right. exact HAS.
  Qed.
  Lemma cover_step o o' : goodCfg o -> cover o -> ustep e cap o = Ok o' -> cover o'.
  Proof.
    intros G V E. destruct o as [s|s|s|s|c tc]; cbn [ustep goodCfg] in *.
    - (* the unknown that is being tried is on top *)
      assert (TOP : forall top rest, goodB s top rest -> levelHas 0 top rest -> cover o').
      { intros top rest [ES [SO [T [EA [EB [E1 [E2 E3]]]]]]] [f [p [n [ss [ns [X1 [X2 [C [NX [Ux [AG Ln]]]]]]]]]]].
        rewrite X1 in E3. injection E3 as ->. rewrite <- EA, <- EB in *.
        destruct (scan_split e A0 B0 cap Hmin Hcnt Hhd Hcap s f _ _ _ C) as [s' [[p Es'] [C' [Z SP]]]].
        destruct (core_ground _ _ _ _ _ _ _ C) as [_ GB].
        assert (D : nth_error (u_A s) (u_p s) <> nth_error (u_B s) (u_p s)).
        { rewrite NX. intros K. symmetry in K. apply nth_error_In in K. specialize (GB _ K). lia. }
        specialize (SP D). assert (Ess : s' = s) by (rewrite Es' in SP; cbn [u_p] in SP; rewrite Es', SP; destruct s; reflexivity). clear Es'. subst s'. clear SP C'.
        destruct Z as [[_ [Z _]]|[x [y [NX' [NY [N K]]]]]]; [rewrite Z in D; congruence|].
        assert (x = l_var top) by congruence. subst x. assert (Ly : y <= mt) by (apply GB; eapply nth_error_In; exact NY).
        destruct K as [K|[K1 _]]; [|lia]. rewrite K in E. unfold pick in E. replace (mt <? y) with false in E by lia. cbn [andb] in E.
        replace (mt <? l_var top) with true in E by lia.
        assert (Hn : u_min e <= n).
        { rewrite ES in SO. destruct SO as [[f0 [fl0 [p0 [n0 [ss0 [ns0 [Y1 [Y2 [_ [Y3 _]]]]]]]]]] _]. rewrite X2 in Y2. injection Y2 as <- _. exact Y3. }
        apply (side_cover s top rest f n ss ns); try assumption; try congruence. lia. }
      destruct V as [V|[[top [rest [GB V]]]|V]].
      + destruct V as [f [C AG]]. destruct (scan_split e A0 B0 cap Hmin Hcnt Hhd Hcap s f _ _ _ C) as [s' [[p Es'] [C' [[[E1 [E2 E3]]|[x [y [NX [NY [N K]]]]]] _]]]].
        * rewrite E1 in E. injection E as <-. left. exists f. subst s'. auto.
        * destruct (core_ground _ _ _ _ _ _ _ C) as [_ GB]. assert (Ly : y <= mt) by (apply GB; eapply nth_error_In; exact NY).
          destruct (agree_at _ _ _ _ _ _ _ _ C' AG NX) as [A1 A2].
          assert (Ux : mt < x) by (destruct (le_lt_dec x mt) as [L|L]; [exfalso; specialize (A1 L); congruence|exact L]).
          destruct K as [K|[K1 _]]; [|lia]. rewrite K in E. unfold pick in E. replace (mt <? y) with false in E by lia. cbn [andb] in E. replace (mt <? x) with true in E by lia.
          assert (T' : tmpOK s') by (subst s'; destruct G as [[_ [T _]]|[top [rest [_ [_ [T _]]]]]]; exact T).
          assert (SS : core f (u_A s') (u_B s') (u_p s') (vars (u_stk s')) (u_starts s') (u_lens s')) by (subst s'; exact C').
          assert (NX' : nth_error (u_A s') (u_p s') = Some x) by (subst s'; exact NX). clear Es' C' NX NY N K.
          destruct (A2 Ux) as [IX [LB _]]. destruct (ma_val _ _ _ _ _ _ Sol x IX Ux) as [M1 _].
          (* push *)
          set (lv := mkLevel x (u_p s' :: u_starts s') (u_min e :: u_lens s') (u_A s') (u_B s')).
          set (s1 := mkU (u_A s') (u_B s') (u_p s') (lv :: u_stk s') (u_p s' :: u_starts s') (u_min e :: u_lens s') (setTmp (u_tmp s') x true) (u_tc s')).
          assert (NV : ~ In x (vars (u_stk s'))).
          { intros I. apply (proj1 (c_free _ _ _ _ _ _ _ _ _ _ SS x I)). eapply nth_error_In. exact NX'. }
          assert (ET : u_tmp s' x = false) by (destruct (u_tmp s' x) eqn:Ex; [exfalso; apply NV, T', Ex|reflexivity]).
          assert (ESd : side e cap true x s' = side e cap true x s1).
          { unfold side in E |- *. rewrite ET in *. destruct (length (u_stk s') <? cap); [|discriminate E]. cbn [rbind]. fold lv. fold s1.
            replace (u_tmp s1 x) with true by (unfold s1, setTmp; cbn [u_tmp]; rewrite Nat.eqb_refl; reflexivity). reflexivity. }
          rewrite ESd in E. apply (side_cover s1 lv (u_stk s') f (u_min e) (u_starts s') (u_lens s')); try reflexivity; try assumption.
          intros t. unfold s1, setTmp. cbn [u_tmp u_stk vars map In]. cbn [l_var lv]. destruct (t =? x) eqn:Et.
          -- split; [intros _; left; lia|reflexivity].
          -- rewrite (T' t). split; [intros K; right; exact K|intros [K|K]; [lia|exact K]].
      + exact (TOP top rest GB V).
      + destruct G as [G|[top [rest G]]].
        * destruct (scanA_step e A0 B0 cap Hmin Hcnt Hhd Hne Hcap s G) as [o [top [E' O]]]. rewrite E in E'. injection E' as <-.
          destruct o' as [s'|s'|s'|s'|c tc]; try contradiction; cbn [cover].
          -- right. right. destruct O as [_ ->]. right. exact V.
          -- destruct O as [_ [->| ->]]; [exact V|right; exact V].
          -- right. (* done: the stack is unchanged *)
             destruct O as [_ ->]. exact V.
        * destruct G as [ES G']. rewrite ES in V. destruct V as [V|V]; [apply (TOP top rest); [split; assumption|apply has_less, V]|].
          destruct (scanB_step e A0 B0 cap Hmin Hcnt Hhd Hne Hcap s top rest (conj ES G')) as [o [E' O]]. rewrite E in E'. injection E' as <-.
          destruct o' as [s'|s'|s'|s'|c tc]; try contradiction; cbn [cover].
          -- right. right. destruct O as [_ ->]. right. exact V.
          -- destruct O as [_ [->| ->]]; [exact V|right; exact V].
    - (* backtrack *)
      destruct (u_stk s) as [|top rest] eqn:ES; [cbn [cover] in V; rewrite ES in V; contradiction|].
      destruct (good_step (UBack s) G) as [o1 [E1 G1]]. cbn [ustep] in E1. rewrite E in E1. injection E1 as <-.
      destruct G as [SO T]. rewrite ES in SO. destruct SO as [[f0 [fl0 [p0 [n0 [ss0 [ns0 [Y1 [Y2 [Y3 [Y4 Y5]]]]]]]]]] SR].
      unfold backStep in E. rewrite ES, Y1, Y2 in E. destruct ((0 <? u_tc s) && _); [injection E as <-; cbn [cover]; lia|]. injection E as <-.
      cbn [cover]. destruct G1 as [top1 [rest1 G1]]. exists top1, rest1. split; [exact G1|]. destruct G1 as [X _]. cbn [u_stk] in X. injection X as <- <-.
      cbn [cover] in V. rewrite ES in V. destruct V as [V|V]; [left|right; exact V]. split; [|cbn; lia].
      destruct V as [f [p [n [ss [ns [X1 [X2 [C [NX [Ux [AG Ln]]]]]]]]]]]. rewrite X1 in Y1. injection Y1 as -> ->. rewrite X2 in Y2. injection Y2 as -> ->.
      exists f, p0, (S n0), ss0, ns0. cbn [l_starts l_lens l_A l_B l_var]. split; [reflexivity|]. split; [reflexivity|]. repeat (split; [assumption|]). lia.
    - (* next length *)
      destruct V as [top [rest [GS V]]]. destruct V as [[V V1]|V].
      + pose proof GS as [ES [T [SR [EA [EB [E1 _]]]]]]. destruct (switch_step e A0 B0 cap Hmin Hcnt Hhd Hne Hcap s top rest GS) as [o [E' O]]. rewrite E in E'. injection E' as <-.
        pose proof V as [f [p [n [ss [ns [X1 [X2 [C [NX [Ux [AG Ln]]]]]]]]]]]. unfold switchStep in E. rewrite ES, X2 in E.
        assert (p = u_p s) by (destruct GS as [_ [_ [_ [_ [_ [_ [f0 [fl0 [n0 [ss0 [ns0 [Z _]]]]]]]]]]]]; rewrite X1 in Z; congruence). subst p.
        cbn [u_A u_B u_starts u_lens u_tmp u_tc u_stk] in E. rewrite EA, EB in E. rewrite (rd_some _ _ _ NX) in E. cbn [rbind isTok] in E. rewrite Nat.eqb_refl in E.
        rewrite X2 in V1. cbn [hd] in V1. destruct n as [|m]; [lia|].
        destruct (agree_at _ _ _ _ _ _ _ _ C AG NX) as [_ AT]. destruct (AT Ux) as [IX [LB [SG _]]]. destruct (ma_val _ _ _ _ _ _ Sol _ IX Ux) as [_ [M2 _]].
        unfold rdEnd in E. rewrite Nat.add_succ_r in E. destruct (rd_lt (l_B top) (u_p s + m)) as [c [R1 R2]]; [lia|]. rewrite R1 in E. cbn [rbind isTok] in E.
        assert (Ic : In c (sg (l_var top))).
        { assert (Ic : In c (seg (l_B top) (u_p s) (S m))) by (rewrite (seg_S _ _ _ _ R2); apply in_app_iff; right; left; reflexivity).
          rewrite SG in Ic by lia. rewrite <- (firstn_skipn (S m) (sg (l_var top))). apply in_app_iff. left. exact Ic. }
        replace (c =? mt) with false in E by (symmetry; apply Nat.eqb_neq; intros ->; contradiction).
        injection E as <-. cbn [cover]. right. left. exists top, rest. split; [exact O|exact V].
      + destruct (switch_step e A0 B0 cap Hmin Hcnt Hhd Hne Hcap s top rest GS) as [o [E' O]]. rewrite E in E'. injection E' as <-.
        destruct o' as [s'|s'|s'|s'|c tc]; try contradiction; cbn [cover].
        * right. right. destruct O as [-> _]. right. exact V.
        * destruct O as [_ ->]. exact V.
        * destruct O as [top' [O _]]. exists top', rest. split; [exact O|right; exact V].
    - injection E as <-. exact V.
    - injection E as <-. exact V.
  Qed.
  Lemma cover_runs o o' : runs e cap o o' -> goodCfg o -> cover o -> cover o'.
  Proof.
    induction 1 as [o|o o1 o2 E R IH]; intros G V; [exact V|]. destruct (good_step o G) as [o3 [E3 G3]]. rewrite E in E3. injection E3 as <-.
    apply IH; [exact G3|]. exact (cover_step o o1 G V E).
  Qed.
End M.
