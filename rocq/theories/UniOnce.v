(* UniOnce.v -- proofs about UniModel: when the second scheme has no unknowns no solution
   is found twice *)
From Coq Require Import ZifyBool ZifyNat.
From Verif Require Import Base UniModel UniSpec UniSub UniCore UniStep UniRun UniProofs UniMatch.
Open Scope nat_scope.

Section Once.
  Variable e : uenv.
  Variables A0 B0 : list nat.
  Hypothesis OK : okInput e A0 B0.
  Notation mt := (u_mt e).
  Notation cap := (unkCount e A0 B0).
  Notation core := (core e A0 B0).
  Notation goodA := (goodA e A0 B0).
  Notation goodB := (goodB e A0 B0).
  Notation goodBack := (goodBack e A0 B0).
  Notation goodSw := (goodSw e A0 B0).
  Notation goodCfg := (goodCfg e A0 B0).
  Let Hmin := ok_min _ _ _ OK. Let Hcnt := ok_cnt _ _ _ OK. Let Hhd := ok_hd _ _ _ OK. Let Hne := ok_ne e A0 B0 OK. Let Hcap := unkCount_cap e A0 B0.
  Variable sg : nat -> list nat.
  Hypothesis Gr : forall t, In t B0 -> t <= mt.
  Hypothesis Sol : matching mt (u_min e) (fun w => reject e w = false) A0 B0 sg.
  Notation agree := (agree sg).
  Notation levelHas := (levelHas e A0 B0 sg).
  Notation stackHas := (stackHas e A0 B0 sg).
  Notation consA := (consA e A0 B0 sg).

  (* the substitution so far is determined by the state *)
  Lemma in_combine3 (vs : list nat) : forall (l : list (nat * nat)) x, length l = length vs -> In x vs -> exists v, In (x, v) (combine vs l).
  Proof.
    induction vs as [|y vs IH]; intros l x L I; [contradiction|]. destruct l as [|v l]; [discriminate L|]. cbn [combine]. destruct I as [<-|I].
    - exists v. left. reflexivity.
    - destruct (IH l x) as [u K]; [cbn in L; lia|exact I|]. exists u. right. exact K.
  Qed.
  Lemma core_fun f g A B B' p p' vs ss ns : core f A B p vs ss ns -> core g A B' p' vs ss ns -> forall t, f t = g t.
  Proof.
    intros C D t. destruct (in_dec Nat.eq_dec t vs) as [I|I].
    - destruct (in_combine3 vs (combine ss ns) t) as [[s n] K]; [|exact I|].
      { rewrite combine_length, (c_ss _ _ _ _ _ _ _ _ _ _ C), (c_ns _ _ _ _ _ _ _ _ _ _ C). lia. }
      destruct (c_val _ _ _ _ _ _ _ _ _ _ C _ _ _ K) as [-> _]. destruct (c_val _ _ _ _ _ _ _ _ _ _ D _ _ _ K) as [-> _]. reflexivity.
    - rewrite (c_id _ _ _ _ _ _ _ _ _ _ C t I), (c_id _ _ _ _ _ _ _ _ _ _ D t I). reflexivity.
  Qed.
  Lemma agree_ext f g : (forall t, f t = g t) -> agree f -> agree g.
  Proof. intros E H t. rewrite <- E. apply H. Qed.
  Lemma cons_core s f : core f (u_A s) (u_B s) (u_p s) (vars (u_stk s)) (u_starts s) (u_lens s) -> consA s <-> agree f.
  Proof.
    intros C. split; [intros [g [D H]]; exact (agree_ext g f (core_fun _ _ _ _ _ _ _ _ _ _ D C) H)|]. intros H. exists f. auto.
  Qed.
  (* a value agrees only if it is the whole value *)
  Lemma agree_sub_inv f x w : f x = [x] -> ~ In x w -> (forall t, In t w -> t <= mt) -> agree (fun t => sub1 x w (f t)) -> sg x = w /\ agree f.
  Proof.
    intros Fx Nx G H. assert (E : sg x = w).
    { specialize (H x). cbn beta in H. rewrite Fx in H. rewrite sub1_hit in H. cbn [sub1 flat_map] in H. rewrite app_nil_r in H.
      rewrite <- H. apply (sg_ground e A0 B0 sg Sol). exact G. }
    split; [exact E|]. intros t. rewrite <- (H t). cbn beta. generalize (f t). intros l. induction l as [|u l IH]; [reflexivity|]. destruct (Nat.eq_dec u x) as [->|N].
    - rewrite sub1_hit, flat_map_app, <- IH. cbn [flat_map]. f_equal. rewrite E. symmetry. apply (sg_ground e A0 B0 sg Sol). exact G.
    - rewrite sub1_miss by exact N. cbn [flat_map]. f_equal. exact IH.
  Qed.

  (* the level lies on the way to the solution; n tokens are being tried *)
  Definition lvIn (lv : level) (rest : list level) (n : nat) : Prop :=
    exists f p ss ns, l_starts lv = p :: ss /\ l_lens lv = n :: ns /\ core f (l_A lv) (l_B lv) p (vars rest) ss ns /\
      nth_error (l_A lv) p = Some (l_var lv) /\ mt < l_var lv /\ agree f.
  Lemma levelHas_in m lv rest : levelHas m lv rest <-> exists n, lvIn lv rest n /\ n + m <= length (sg (l_var lv)).
  Proof.
    split.
    - intros [f [p [n [ss [ns [H1 [H2 [H3 [H4 [H5 [H6 H7]]]]]]]]]]]. exists n. split; [|exact H7]. exists f, p, ss, ns. auto 10.
    - intros [n [[f [p [ss [ns [H1 [H2 [H3 [H4 [H5 H6]]]]]]]]] H7]]. exists f, p, n, ss, ns. auto 10.
  Qed.
  Lemma lvIn_len lv rest n m : lvIn lv rest n -> lvIn lv rest m -> n = m.
  Proof. intros [f [p [ss [ns [_ [H _]]]]]] [f' [p' [ss' [ns' [_ [H' _]]]]]]. congruence. Qed.

  Lemma goodA_notB s top rest : goodA s -> goodB s top rest -> False.
  Proof.
    intros [_ [_ [f C]]] [ES [SO [_ [EA [EB _]]]]]. rewrite ES in SO, C. destruct SO as [[g [flag [p [n [ss [ns [X1 [X2 [P _]]]]]]]]] _].
    pose proof (pl_at _ _ _ _ _ _ _ _ _ _ _ _ _ P) as AT. destruct (c_free _ _ _ _ _ _ _ _ _ _ C (l_var top)) as [F1 F2]; [left; reflexivity|].
    rewrite EA in F1. rewrite EB in F2. apply nth_error_In in AT. destruct flag; contradiction.
  Qed.
  Lemma goodB_notcons s top rest : goodB s top rest -> ~ consA s.
  Proof. intros G [f [C _]]. apply (goodA_notB s top rest); [|exact G]. destruct G as [ES [SO [T _]]]. split; [exact SO|]. split; [exact T|]. exists f. exact C. Qed.

  (* trying a value for the unknown on top of the stack *)
  Lemma side_once s top rest f n ss ns : u_stk s = top :: rest -> tmpOK s -> stkOK e A0 B0 rest -> u_A s = l_A top -> u_B s = l_B top ->
    l_starts top = u_p s :: ss -> l_lens top = n :: ns -> u_starts s = u_p s :: ss -> u_lens s = n :: ns ->
    place e A0 B0 f true (u_A s) (u_B s) (u_p s) (l_var top) n (vars rest) ss ns -> u_min e <= n ->
    (~ In mt (seg (u_B s) (u_p s) n) \/ seg (u_B s) (u_p s) n = [mt]) ->
    forall s', side e cap true (l_var top) s = Ok (UScan s') -> consA s' -> lvIn top rest (length (sg (l_var top))).
  Proof.
    intros ES T SR EA EB E1 E2 E3 E4 P Hn HM s' H CA.
    assert (C : core f (u_A s) (u_B s) (u_p s) (vars rest) ss ns) by exact (pl_core _ _ _ _ _ _ _ _ _ _ _ _ _ P).
    assert (NX : nth_error (u_A s) (u_p s) = Some (l_var top)) by exact (pl_at _ _ _ _ _ _ _ _ _ _ _ _ _ P). assert (Ux : mt < l_var top) by exact (pl_unk _ _ _ _ _ _ _ _ _ _ _ _ _ P).
    destruct (core_ground e A0 B0 OK Gr _ _ _ _ _ _ _ C) as [_ GB].
    assert (LO : u_p s + n <= length (u_B s)) by exact (pl_len _ _ _ _ _ _ _ _ _ _ _ _ _ P).
    unfold side in H. replace (u_tmp s (l_var top)) with true in H by (symmetry; apply T; rewrite ES; left; reflexivity). cbn [rbind] in H.
    rewrite ES, E4, Nat.eqb_refl in H. cbn [negb] in H. fold (seg (u_B s) (u_p s) n) in H. set (x := l_var top) in *. set (w := seg (u_B s) (u_p s) n) in *.
    destruct (existsb (Nat.eqb x) w) eqn:EX; [discriminate H|]. destruct (isTok (hd_error w) mt) eqn:EM; [discriminate H|].
    destruct (reject e w) eqn:Rj; [discriminate H|].
    assert (NXw : ~ In x w) by (intros I; assert (existsb (Nat.eqb x) w = true) by (apply existsb_exists; exists x; split; [exact I|apply Nat.eqb_refl]); congruence).
    assert (Nm : ~ In mt w).
    { destruct HM as [HM|HM]; [exact HM|]. rewrite HM in EM. cbn [hd_error isTok] in EM. rewrite Nat.eqb_refl in EM. discriminate EM. }
    assert (Lw : length w = n) by (apply seg_len; lia).
    assert (HD : 1 <= length w \/ (hd_error (u_A s) <> Some x /\ hd_error (u_B s) <> Some x)).
    { destruct (Nat.eq_dec (length w) 0) as [Z|Z]; [right|left; lia]. assert (Z2 : u_min e = 0) by lia.
      pose proof (head_same e A0 B0 cap Hmin Hcnt Hhd Hne Hcap _ _ _ _ _ _ _ C Z2) as HS.
      split; intros K; [specialize (HS x (or_introl K))|specialize (HS x (or_intror K))]; lia. }
    rewrite (doSubst_ok true x w s NXw NX HD) in H. cbn [rbind] in H. injection H as <-.
    pose proof (core_sub e A0 B0 true f (u_A s) (u_B s) (u_p s) (vars rest) ss ns x n C NX Ux LO NXw Nm Hn Rj) as CS. cbn zeta iota in CS. fold w in CS.
    match type of CA with UniMatch.consA _ _ _ _ ?z => set (s2 := z) in * end.
    assert (C2 : core (fun t => sub1 x w (f t)) (u_A s2) (u_B s2) (u_p s2) (vars (u_stk s2)) (u_starts s2) (u_lens s2)).
    { unfold s2. cbn [u_A u_B u_p u_stk u_starts u_lens]. rewrite ES, E3, E4. cbn [vars map]. fold x. rewrite Lw. exact CS. }
    apply (cons_core s2 _ C2) in CA.
    assert (NV : ~ In x (vars rest)) by (intros I; apply (proj1 (c_free _ _ _ _ _ _ _ _ _ _ C x I)); eapply nth_error_In; exact NX).
    assert (GW : forall t, In t w -> t <= mt) by (intros t I; apply GB; eapply seg_in; exact I).
    destruct (agree_sub_inv f x w) as [E AG]; try assumption.
    - apply (c_id _ _ _ _ _ _ _ _ _ _ C), NV.
    - exists f, (u_p s), ss, ns. rewrite <- EA, <- EB, E, Lw. auto 10.
  Qed.

  (* ---------- what a step does ---------- *)
  Inductive gstep : uout -> uout -> Prop :=
  | gs_done s s' : u_stk s' = u_stk s -> (consA s' <-> consA s) -> goodA s -> gstep (UScan s) (UDone s')
  | gs_fail s s' : u_stk s' = u_stk s -> goodA s -> gstep (UScan s) (UBack s')
  | gs_newfail s s' top : u_stk s' = top :: u_stk s -> goodA s -> (forall n, lvIn top (u_stk s) n -> consA s) -> gstep (UScan s) (UBack s')
  | gs_new s s' top : u_stk s' = top :: u_stk s -> goodA s -> goodA s' -> (forall n, lvIn top (u_stk s) n -> consA s) ->
      (consA s' -> lvIn top (u_stk s) (length (sg (l_var top)))) -> gstep (UScan s) (UScan s')
  | gs_topfail s s' top rest : goodB s top rest -> u_stk s' = rest \/ u_stk s' = top :: rest -> gstep (UScan s) (UBack s')
  | gs_top s s' top rest : goodB s top rest -> goodA s' -> u_stk s' = top :: rest ->
      (consA s' -> lvIn top rest (length (sg (l_var top)))) -> gstep (UScan s) (UScan s')
  | gs_back s s' top top' rest : u_stk s = top :: rest -> u_stk s' = top' :: rest -> l_var top' = l_var top ->
      (forall n, lvIn top' rest n -> exists m, n = S m /\ lvIn top rest m) -> gstep (UBack s) (USwitch s')
  | gs_pop s s' top rest : u_stk s = top :: rest -> u_stk s' = rest -> gstep (USwitch s) (UBack s')
  | gs_next s s' top rest : u_stk s = top :: rest -> goodB s' top rest -> gstep (USwitch s) (UScan s')
  | gs_abort o c tc : gstep o (UAbort c tc)
  | gs_id o : isFinal o = true -> gstep o o.

  Lemma ground_flag f flag A B p x n vs ss ns : place e A0 B0 f flag A B p x n vs ss ns -> flag = true.
  Proof.
    intros P. destruct flag; [reflexivity|exfalso]. destruct (core_ground e A0 B0 OK Gr _ _ _ _ _ _ _ (pl_core _ _ _ _ _ _ _ _ _ _ _ _ _ P)) as [_ GB].
    pose proof (pl_at _ _ _ _ _ _ _ _ _ _ _ _ _ P) as K. apply nth_error_In in K. apply GB in K. pose proof (pl_unk _ _ _ _ _ _ _ _ _ _ _ _ _ P). lia.
  Qed.
  Lemma good_gstep o o' : goodCfg o -> ustep e cap o = Ok o' -> gstep o o'.
  Proof.
    intros G E. destruct o as [s|s|s|s|c tc]; cbn [ustep] in E.
    - destruct G as [G|[top [rest G]]].
      + pose proof G as [SO [T [f C]]]. destruct (scan_split e A0 B0 cap Hmin Hcnt Hhd Hcap s f _ _ _ C) as [s' [[p Es'] [C' [[[E1 [E2 E3]]|[x [y [NX [NY [N K]]]]]] _]]]].
        * rewrite E1 in E. injection E as <-. apply gs_done; [subst s'; reflexivity| |exact G].
          rewrite (cons_core s f C). apply cons_core. subst s'. exact C'.
        * destruct (core_ground e A0 B0 OK Gr _ _ _ _ _ _ _ C) as [_ GB]. assert (Ly : y <= mt) by (apply GB; eapply nth_error_In; exact NY).
          destruct K as [K|[K1 [K2 K3]]]; [|rewrite K3 in E; injection E as <-; apply gs_fail; [subst s'; reflexivity|exact G]].
          rewrite K in E. unfold pick in E. replace (mt <? y) with false in E by lia. cbn [andb] in E.
          destruct (mt <? x) eqn:Ux; [|injection E as <-; apply gs_fail; [subst s'; reflexivity|exact G]].
          assert (Es : u_stk s' = u_stk s) by (subst s'; reflexivity).
          assert (T' : tmpOK s') by (subst s'; exact T).
          assert (SS : core f (u_A s') (u_B s') (u_p s') (vars (u_stk s')) (u_starts s') (u_lens s')) by (subst s'; exact C').
          assert (NX' : nth_error (u_A s') (u_p s') = Some x) by (subst s'; exact NX).
          assert (D : nth_error (u_A s') (u_p s') <> nth_error (u_B s') (u_p s')) by (subst s'; cbn [u_A u_B u_p] in *; congruence).
          assert (SO' : stkOK e A0 B0 (u_stk s')) by (subst s'; exact SO).
          assert (CC : consA s' <-> consA s) by (rewrite (cons_core s f C); apply cons_core; exact SS).
          assert (GA' : goodA s') by (split; [exact SO'|split; [exact T'|exists f; exact SS]]).
          clear Es' C' NX NY N K.
          set (lv := mkLevel x (u_p s' :: u_starts s') (u_min e :: u_lens s') (u_A s') (u_B s')).
          set (s1 := mkU (u_A s') (u_B s') (u_p s') (lv :: u_stk s') (u_p s' :: u_starts s') (u_min e :: u_lens s') (setTmp (u_tmp s') x true) (u_tc s')).
          assert (LV : forall n, lvIn lv (u_stk s) n -> consA s).
          { rewrite <- Es. intros n [g [q [ss [ns [Y1 [Y2 [Y3 [_ [_ Y4]]]]]]]]]. cbn [lv l_starts l_lens l_A l_B] in *. injection Y1 as <- <-. injection Y2 as <- <-.
            apply CC. exists g. split; [exact Y3|exact Y4]. }
          assert (NV : ~ In x (vars (u_stk s'))).
          { intros I. apply (proj1 (c_free _ _ _ _ _ _ _ _ _ _ SS x I)). eapply nth_error_In. exact NX'. }
          assert (ET : u_tmp s' x = false) by (destruct (u_tmp s' x) eqn:Ex; [exfalso; apply NV, T', Ex|reflexivity]).
          assert (ESd : side e cap true x s' = side e cap true x s1).
          { unfold side in E |- *. rewrite ET in *. destruct (length (u_stk s') <? cap); [|discriminate E]. cbn [rbind]. fold lv. fold s1.
            replace (u_tmp s1 x) with true by (unfold s1, setTmp; cbn [u_tmp]; rewrite Nat.eqb_refl; reflexivity). reflexivity. }
          rewrite ESd in E.
          assert (T1 : tmpOK s1).
          { intros t. unfold s1, setTmp. cbn [u_tmp u_stk vars map In]. cbn [l_var lv]. destruct (t =? x) eqn:Et.
            - split; [intros _; left; lia|reflexivity].
            - rewrite (T' t). split; [intros K; right; exact K|intros [K|K]; [lia|exact K]]. }
          assert (P : place e A0 B0 f true (u_A s1) (u_B s1) (u_p s1) x (u_min e) (vars (u_stk s')) (u_starts s') (u_lens s')).
          { constructor; try assumption; [lia|]. cbn [s1 u_A u_B u_p]. pose proof (c_pB _ _ _ _ _ _ _ _ _ _ SS). lia. }
          assert (HM : ~ In mt (seg (u_B s1) (u_p s1) (u_min e)) \/ seg (u_B s1) (u_p s1) (u_min e) = [mt]).
          { pose proof (pl_len _ _ _ _ _ _ _ _ _ _ _ _ _ P) as PL. cbn iota in PL. set (w := seg _ _ _). assert (Lw : length w = u_min e) by (apply seg_len; exact PL).
            destruct w as [|t [|t' w']]; cbn [length] in Lw; [left; intros []| |lia].
            destruct (Nat.eq_dec t mt) as [->|N]; [right; reflexivity|left; intros [F|[]]; congruence]. }
          destruct (side_pend e A0 B0 cap Hmin Hcnt Hhd Hne Hcap true x s1 lv (u_stk s') f (u_min e) (u_starts s') (u_lens s')) as [o [E2 O]]; try reflexivity; try assumption.
          rewrite E in E2. injection E2 as <-. destruct o' as [s2|s2|s2|s2|c tc]; try contradiction.
          -- destruct O as [G2 ES2]. apply (gs_new s s2 lv); [rewrite <- Es; exact ES2|exact G|exact G2|exact LV|].
             intros CA. rewrite <- Es. apply (side_once s1 lv (u_stk s') f (u_min e) (u_starts s') (u_lens s')) with (s' := s2); try reflexivity; try assumption.
          -- destruct O as [G2 [ES2|ES2]].
             ++ apply gs_fail; [rewrite <- Es; exact ES2|exact G].
             ++ apply (gs_newfail s s2 lv); [rewrite <- Es; exact ES2|exact G|exact LV].
      + pose proof G as [ES [SO [T [EA [EB [E1 [E2 E3]]]]]]]. rewrite ES in SO. destruct SO as [[f [flag [p [n [ss [ns [X1 [X2 [P [Hn HM]]]]]]]]]] SR].
        pose proof (ground_flag _ _ _ _ _ _ _ _ _ _ P) as EF. subst flag. cbn iota in HM.
        rewrite X1 in E3. injection E3 as ->. pose proof (pl_core _ _ _ _ _ _ _ _ _ _ _ _ _ P) as C. rewrite <- EA, <- EB in P, C.
        destruct (scan_split e A0 B0 cap Hmin Hcnt Hhd Hcap s f _ _ _ C) as [s' [[p Es'] [C' [Z SP]]]]. pose proof (pl_dif _ _ _ _ _ _ _ _ _ _ _ _ _ P) as D. specialize (SP D).
        assert (Ess : s' = s) by (rewrite Es' in SP; cbn [u_p] in SP; rewrite Es', SP; destruct s; reflexivity). clear Es'. subst s'. clear SP C'.
        destruct Z as [[_ [Z _]]|[x [y [NX [NY [N K]]]]]]; [rewrite Z in D; congruence|].
        destruct (core_ground e A0 B0 OK Gr _ _ _ _ _ _ _ C) as [_ GB]. assert (Ly : y <= mt) by (apply GB; eapply nth_error_In; exact NY).
        pose proof (pl_at _ _ _ _ _ _ _ _ _ _ _ _ _ P) as AT. cbn iota in AT. assert (x = l_var top) by congruence. subst x.
        pose proof (pl_unk _ _ _ _ _ _ _ _ _ _ _ _ _ P) as Ux. destruct K as [K|[K1 _]]; [|lia]. rewrite K in E. unfold pick in E. replace (mt <? y) with false in E by lia. cbn [andb] in E.
        replace (mt <? l_var top) with true in E by lia.
        destruct (scanB_step e A0 B0 cap Hmin Hcnt Hhd Hne Hcap s top rest G) as [o [E4 O]]. rewrite K in E4. unfold pick in E4. replace (mt <? y) with false in E4 by lia. cbn [andb] in E4.
        replace (mt <? l_var top) with true in E4 by lia. rewrite E in E4. injection E4 as <-. destruct o' as [s2|s2|s2|s2|c tc]; try contradiction.
        * destruct O as [G2 ES2]. apply (gs_top s s2 top rest); try assumption. intros CA.
          apply (side_once s top rest f n ss ns) with (s' := s2); try assumption; try congruence. left. rewrite EB. exact HM.
        * destruct O as [G2 ES2]. apply (gs_topfail s s2 top rest); assumption.
    - destruct (u_stk s) as [|top rest] eqn:ES; [unfold backStep in E; rewrite ES in E; injection E as <-; apply gs_abort|].
      destruct G as [SO T]. rewrite ES in SO. destruct SO as [[f0 [fl0 [p0 [n0 [ss0 [ns0 [Y1 [Y2 [Y3 [Y4 Y5]]]]]]]]]] SR].
      unfold backStep in E. rewrite ES, Y1, Y2 in E. destruct ((0 <? u_tc s) && _); [injection E as <-; apply gs_abort|]. injection E as <-.
      eapply gs_back with (top := top); [exact ES|reflexivity|reflexivity|]. intros n [g [q [ss [ns [Z1 [Z2 [Z3 [Z4 [Z5 Z6]]]]]]]]].
      cbn [l_starts l_lens l_A l_B l_var] in *. injection Z1 as <- <-. injection Z2 as <- <-. exists n0. split; [reflexivity|].
      exists g, p0, ss0, ns0. auto 10.
    - destruct G as [top [rest G]]. pose proof G as [ES _]. destruct (switch_step e A0 B0 cap Hmin Hcnt Hhd Hne Hcap s top rest G) as [o [E' O]]. rewrite E in E'. injection E' as <-.
      destruct o' as [s2|s2|s2|s2|c tc]; try contradiction.
      + apply (gs_next s s2 top rest); assumption.
      + destruct O as [_ ES2]. apply (gs_pop s s2 top rest); assumption.
      + exfalso. destruct G as [_ [T [SR [EA [EB [E1 [f [flag [n [ss [ns [X1 [X2 [P [Hn HM]]]]]]]]]]]]]]].
        pose proof (ground_flag _ _ _ _ _ _ _ _ _ _ P) as EF. subst flag. unfold switchStep in E. rewrite ES, X2 in E. cbn [u_A u_B u_starts u_lens u_tmp u_tc u_stk] in E.
        pose proof (pl_core _ _ _ _ _ _ _ _ _ _ _ _ _ P) as C. pose proof (pl_at _ _ _ _ _ _ _ _ _ _ _ _ _ P) as AT. cbn iota in AT.
        destruct (core_ground e A0 B0 OK Gr _ _ _ _ _ _ _ C) as [_ GB]. rewrite <- EA in AT. rewrite <- EB in GB. rewrite (rd_some _ _ _ AT) in E. cbn [rbind isTok] in E. rewrite Nat.eqb_refl in E.
        destruct (rdEnd (u_B s) (u_p s) n) as [c| | |]; try discriminate E. cbn [rbind] in E. destruct (isTok c mt); [|discriminate E].
        destruct (rd (u_B s) (u_p s)) as [[y|]| | |] eqn:Er; try discriminate E. cbn [rbind] in E. unfold rd in Er. destruct (nth_error (u_B s) (u_p s)) as [y'|] eqn:Ny; [|destruct (_ =? _); discriminate Er].
        assert (y' <= mt) by (apply GB; eapply nth_error_In; exact Ny). injection Er as ->. replace (mt <? y) with false in E by lia. discriminate E.
    - injection E as <-. apply gs_id. reflexivity.
    - injection E as <-. apply gs_id. reflexivity.
  Qed.

  (* ---------- the solution is reached at most once ---------- *)
  Fixpoint excl (stk : list level) : Prop :=
    match stk with [] => True | lv :: rest => ((exists n, lvIn lv rest n) -> ~ stackHas rest) /\ excl rest end.
  Definition single (o : uout) : Prop :=
    match o with
    | UScan s | UDone s => excl (u_stk s) /\ (consA s -> ~ stackHas (u_stk s))
    | UBack s | USwitch s => excl (u_stk s)
    | UAbort _ _ => True
    end.
  Definition ahead (o : uout) : Prop :=
    match o with
    | UScan s => consA s \/ (exists top rest, goodB s top rest /\ levelHas 0 top rest) \/ stackHas (u_stk s)
    | UBack s => stackHas (u_stk s)
    | USwitch s => exists top rest, u_stk s = top :: rest /\ (levelHas 0 top rest \/ stackHas rest)
    | UDone s => consA s \/ stackHas (u_stk s)
    | UAbort _ _ => False
    end.
  Lemma top_not lv rest : lvIn lv rest (length (sg (l_var lv))) -> ~ levelHas 1 lv rest.
  Proof. intros H K. apply levelHas_in in K. destruct K as [n [K1 K2]]. rewrite (lvIn_len _ _ _ _ K1 H) in K2. lia. Qed.
  Lemma single_step o o' : gstep o o' -> single o -> single o'.
  Proof.
    intros H S. destruct H as [s s' ES CC G|s s' ES G|s s' top ES G LV|s s' top ES G G' LV CA|s s' top rest G ES|s s' top rest G G' ES CA|s s' top top' rest E1 E2 EV BK|s s' top rest E1 E2|s s' top rest E1 G|o c tc|o F]; cbn [single] in *.
    - rewrite ES. destruct S as [S1 S2]. split; [exact S1|]. rewrite CC. exact S2.
    - rewrite ES. apply S.
    - rewrite ES. destruct S as [S1 S2]. split; [|exact S1]. intros [n K]. apply S2. exact (LV n K).
    - rewrite ES. destruct S as [S1 S2]. split; [split; [|exact S1]; intros [n K]; apply S2; exact (LV n K)|].
      intros K [Q|Q]; [exact (top_not _ _ (CA K) Q)|]. exact (S2 (LV _ (CA K)) Q).
    - destruct G as [EG _]. rewrite EG in S. destruct S as [[S0 S1] S2]. destruct ES as [->| ->]; [exact S1|]. split; assumption.
    - destruct G as [EG _]. rewrite EG in S. destruct S as [[S0 S1] S2]. rewrite ES. split; [split; assumption|].
      intros K [Q|Q]; [exact (top_not _ _ (CA K) Q)|]. refine (S0 _ Q). eexists. exact (CA K).
    - rewrite E1 in S. rewrite E2. destruct S as [S0 S1]. split; [|exact S1]. intros [n K]. destruct (BK n K) as [m [_ K2]]. apply S0. eauto.
    - rewrite E1 in S. rewrite E2. apply S.
    - pose proof (goodB_notcons _ _ _ G) as NC. destruct G as [EG _]. rewrite E1 in S. rewrite EG. split; [exact S|]. intros K. contradiction.
    - exact I.
    - exact S.
  Qed.
  Lemma ahead_step o o' : gstep o o' -> ahead o' -> ahead o.
  Proof.
    intros H V. destruct H as [s s' ES CC G|s s' ES G|s s' top ES G LV|s s' top ES G G' LV CA|s s' top rest G ES|s s' top rest G G' ES CA|s s' top top' rest E1 E2 EV BK|s s' top rest E1 E2|s s' top rest E1 G|o c tc|o F]; cbn [ahead] in *.
    - rewrite ES, CC in V. tauto.
    - rewrite ES in V. tauto.
    - rewrite ES in V. destruct V as [V|V]; [left|tauto]. apply levelHas_in in V. destruct V as [n [V _]]. exact (LV n V).
    - rewrite ES in V. assert (NB : forall t r, ~ goodB s' t r) by (intros t r K; exact (goodA_notB _ _ _ G' K)).
      destruct V as [V|[[t [r [K _]]]|[V|V]]]; [left; exact (LV _ (CA V))|exfalso; exact (NB _ _ K)| |tauto].
      apply levelHas_in in V. destruct V as [n [V _]]. left. exact (LV n V).
    - pose proof G as [EG _]. right. right. rewrite EG. destruct ES as [ES|ES]; rewrite ES in V; [right; exact V|exact V].
    - pose proof G as [EG _]. right. assert (NB : forall t r, ~ goodB s' t r) by (intros t r K; exact (goodA_notB _ _ _ G' K)).
      destruct V as [V|[[t [r [K _]]]|V]]; [|exfalso; exact (NB _ _ K)|right; rewrite EG, <- ES; exact V].
      left. exists top, rest. split; [exact G|]. apply levelHas_in. eexists. split; [exact (CA V)|lia].
    - destruct V as [t [r [E V]]]. rewrite E2 in E. injection E as <- <-. rewrite E1. destruct V as [V|V]; [left|right; exact V].
      apply levelHas_in in V. destruct V as [n [V L]]. destruct (BK n V) as [m [-> K]]. apply levelHas_in. exists m. split; [exact K|]. rewrite <- EV. lia.
    - exists top, rest. split; [exact E1|]. right. rewrite E2 in V. exact V.
    - exists top, rest. split; [exact E1|]. destruct V as [V|[[t [r [K V]]]|V]].
      + exfalso. exact (goodB_notcons _ _ _ G V).
      + destruct G as [EG _]. destruct K as [EK _]. rewrite EG in EK. injection EK as <- <-. left. exact V.
      + destruct G as [EG _]. rewrite EG in V. destruct V as [V|V]; [left|right; exact V]. apply has_less; assumption.
    - contradiction.
    - exact V.
  Qed.
  Lemma single_runs o o' : runs e cap o o' -> goodCfg o -> single o -> single o'.
  Proof.
    induction 1 as [o|o o1 o2 E R IH]; intros G S; [exact S|]. destruct (good_step e A0 B0 OK o G) as [o3 [E3 G3]]. rewrite E in E3. injection E3 as <-.
    apply IH; [exact G3|]. exact (single_step o o1 (good_gstep o o1 G E) S).
  Qed.
  Lemma ahead_runs o o' : runs e cap o o' -> goodCfg o -> ahead o' -> ahead o.
  Proof.
    induction 1 as [o|o o1 o2 E R IH]; intros G V; [exact V|]. destruct (good_step e A0 B0 OK o G) as [o3 [E3 G3]]. rewrite E in E3. injection E3 as <-.
    exact (ahead_step o o1 (good_gstep o o1 G E) (IH G3 V)).
  Qed.
End Once.
