(* UndoProofs.v -- the undo stack refines the linear history of UndoSpec.v. *)
From Verif Require Import Base UndoModel UndoSpec.
Open Scope Z_scope.

Section Proofs.
  Variables P I : Type.
  Variable emptyP : P.
  Variable noInfo : I.
  Notation ust := (ust P I).
  Notation process := (process P I emptyP noInfo).

  Fixpoint back (past : list (P * I)) (c : P) (i0 : I) : list (P * I) :=
    match past with
    | [] => [(c, i0)]
    | (p, i) :: r => back r p i0 ++ [(c, i)]
    end.
  Lemma back_len past : forall c i0, length (back past c i0) = S (length past).
  Proof. induction past as [|[p i] r IH]; intros; simpl; [reflexivity|]. rewrite app_length, IH. simpl. lia. Qed.
  Lemma back_last past c i0 : exists l x, back past c i0 = l ++ [(c, x)] /\ length l = length past.
  Proof.
    destruct past as [|[p i] r]; simpl.
    - exists [], i0. auto.
    - exists (back r p i0), i. split; [reflexivity|apply back_len].
  Qed.
  Lemma back_tl past : forall c i0, past <> [] -> exists i1, tl (back past c i0) = back (removelast past) c i1.
  Proof.
    induction past as [|[p i] r IH]; intros c i0 Hn; [congruence|].
    destruct r as [|q r'].
    - simpl. exists i. reflexivity.
    - destruct (IH p i0 ltac:(discriminate)) as (i1 & E). exists i1.
      change (removelast ((p, i) :: q :: r')) with ((p, i) :: removelast (q :: r')).
      change (back ((p, i) :: q :: r') c i0) with (back (q :: r') p i0 ++ [(c, i)]).
      change (back ((p, i) :: removelast (q :: r')) c i1) with (back (removelast (q :: r')) p i1 ++ [(c, i)]).
      rewrite <- E. pose proof (back_len (q :: r') p i0) as L.
      destruct (back (q :: r') p i0); [discriminate|reflexivity].
  Qed.

  Lemma setEntry_at l a y b k x : l = a ++ y :: b -> k = Z.of_nat (length a) ->
    setEntry P I l k x = Ok (a ++ x :: b).
  Proof.
    intros -> ->. unfold setEntry.
    destruct (Z.ltb_spec (Z.of_nat (length a)) 0); [lia|].
    destruct (Z.leb_spec (Z.of_nat (length (a ++ y :: b))) (Z.of_nat (length a))).
    { rewrite app_length in *. simpl in *. lia. }
    simpl orb. cbv iota. rewrite Nat2Z.id. f_equal. rewrite firstn_app, Nat.sub_diag, firstn_all. simpl firstn.
    rewrite app_nil_r. f_equal. f_equal. rewrite skipn_app.
    rewrite skipn_all2 by lia. replace (S (length a) - length a)%nat with 1%nat by lia. reflexivity.
  Qed.
  Lemma getEntry_at l a y b k : l = a ++ y :: b -> k = Z.of_nat (length a) -> getEntry P I l k = Ok y.
  Proof.
    intros -> ->. unfold getEntry. destruct (Z.ltb_spec (Z.of_nat (length a)) 0); [lia|].
    rewrite Nat2Z.id, nth_error_app2 by lia. rewrite Nat.sub_diag. reflexivity.
  Qed.
  Lemma clear_at : forall mid fuel pre post a b, (length mid < fuel)%nat -> a = Z.of_nat (length pre) ->
    b = Z.of_nat (length pre + length mid) - 1 ->
    exists mid', length mid' = length mid /\ clear P I emptyP noInfo fuel (pre ++ mid ++ post) a b = Ok (pre ++ mid' ++ post).
  Proof.
    induction mid as [|x m IH]; intros fuel pre post a b Hf Ha Hb; (destruct fuel as [|fuel]; [simpl in Hf; lia|]).
    - exists []. split; auto. simpl in *. destruct (Z.ltb_spec b a); [reflexivity|lia].
    - simpl length in *. cbn [clear]. destruct (Z.ltb_spec b a); [lia|].
      erewrite setEntry_at with (a := pre) (y := x) (b := m ++ post) by (try reflexivity; lia).
      cbn [rbind].
      destruct (IH fuel (pre ++ [(emptyP, noInfo)]) post (a + 1) b) as (m' & L & E); try lia.
      + rewrite app_length. simpl. lia.
      + rewrite app_length. simpl. lia.
      + exists ((emptyP, noInfo) :: m'). split; [simpl; lia|].
        repeat rewrite <- app_assoc in E. exact E.
  Qed.
  Lemma shift_at : forall rest fuel pre x i n, (length rest < fuel)%nat -> i = Z.of_nat (length pre) ->
    n = Z.of_nat (length pre + length rest) ->
    exists z, shift P I fuel (pre ++ x :: rest) i n = Ok (pre ++ rest ++ [z]).
  Proof.
    induction rest as [|y r IH]; intros fuel pre x i n Hf Hi Hn; (destruct fuel as [|fuel]; [simpl in Hf; lia|]).
    - exists x. simpl in *. destruct (Z.leb_spec n i); [reflexivity|lia].
    - simpl length in *. cbn [shift]. destruct (Z.leb_spec n i); [lia|].
      erewrite getEntry_at with (a := pre ++ [x]) (y := y) (b := r)
        by (try (rewrite <- app_assoc; reflexivity); rewrite app_length; simpl; lia).
      cbn [rbind].
      erewrite setEntry_at with (a := pre) (y := x) (b := y :: r) by (try reflexivity; lia).
      cbn [rbind].
      destruct (IH fuel (pre ++ [y]) y (i + 1) n) as (z & E); try lia.
      + rewrite app_length. simpl. lia.
      + rewrite app_length. simpl. lia.
      + exists z. repeat rewrite <- app_assoc in E. simpl app in E. exact E.
  Qed.

  (* ---------- the invariant ---------- *)
  Definition Rel (u : ust) (cur : P) (h : hist P I) : Prop :=
    exists i0 junk,
      u_stack P I u = Some ((back (h_past P I h) (h_cur P I h) i0 ++ h_future P I h) ++ junk) /\
      u_size P I u = Z.of_nat (h_lim P I h) + 1 /\
      u_ptr P I u = Z.of_nat (length (h_past P I h)) /\
      u_end P I u = Z.of_nat (length (h_past P I h) + length (h_future P I h)) /\
      Z.of_nat (length ((back (h_past P I h) (h_cur P I h) i0 ++ h_future P I h) ++ junk)) = u_size P I u /\
      u_over P I u = h_dropped P I h /\ cur = h_cur P I h.

  Lemma bad_false (s : ust) : -1 <= u_ptr P I s -> u_ptr P I s <= u_end P I s -> u_end P I s <= u_size P I s - 1 ->
    bad P I s = false.
  Proof. intros. unfold bad. repeat rewrite orb_false_iff. repeat split; apply Z.ltb_ge; lia. Qed.

  Ltac lens := repeat (rewrite ?app_length, ?back_len in *; cbn [length] in *).

  Lemma rel_not_bad u cur h : Rel u cur h -> bad P I u = false.
  Proof. intros (i0 & junk & S1 & S2 & S3 & S4 & S5 & _). apply bad_false; lens; lia. Qed.

  Lemma status_ok u cur x h : Rel u cur h ->
    process u x (GET_STATUS I) = Ok (u, x, Status I (u_over P I u || u_abort P I u || negb (u_ptr P I u =? 0))).
  Proof.
    intros R. pose proof (rel_not_bad _ _ _ R) as B. destruct R as (i0 & junk & S1 & _).
    unfold UndoModel.process. rewrite B, S1. destruct u as [st sz e p ov ab]. cbn in S1. subst st. cbn.
    unfold finish. unfold bad in *. cbn in *. rewrite B. reflexivity.
  Qed.

  Lemma undo_ok u cur h : Rel u cur h ->
    exists u' cur', process u cur (UNDO I) = Ok (u', cur', snd (undo P I h)) /\ Rel u' cur' (fst (undo P I h)) /\
      u_abort P I u' = u_abort P I u.
  Proof.
    intros R. pose proof (rel_not_bad _ _ _ R) as B. destruct R as (i0 & junk & S1 & S2 & S3 & S4 & S5 & S6 & S7).
    unfold UndoModel.process. rewrite B, S1.
    destruct (Z.ltb_spec (u_ptr P I u) 0); [lia|]. destruct (Z.eqb_spec (u_ptr P I u) 0) as [Ez|Ez].
    - destruct h as [past c fut lim dr]; cbn in *. destruct past; [|cbn in *; lia].
      unfold finish. rewrite bad_false by (cbn; lens; lia). cbn.
      eexists _, _. split; [rewrite S6; reflexivity|]. split; [|reflexivity].
      exists i0, junk. cbn. repeat split; auto.
    - destruct h as [past c fut lim dr]; cbn in *. destruct past as [|[p i] r]; [cbn in *; lia|]. cbn in *.
      destruct (back_last r p i0) as (l & x & Ex & Lx).
      erewrite getEntry_at with (a := back r p i0) (y := (c, i)) (b := fut ++ junk)
        by (try (repeat rewrite <- app_assoc; reflexivity); lens; lia).
      cbn [rbind].
      erewrite getEntry_at with (a := l) (y := (p, x)) (b := (c, i) :: fut ++ junk)
        by (try (rewrite Ex; repeat rewrite <- app_assoc; reflexivity); lens; lia).
      cbn [rbind]. unfold finish. rewrite bad_false by (cbn; lens; lia).
      eexists _, _. split; [reflexivity|]. split; [|reflexivity].
      exists i0, junk. cbn. repeat split; auto; try (lens; lia).
      + repeat rewrite <- app_assoc. reflexivity.
  Qed.

  Lemma redo_ok u cur h : Rel u cur h ->
    exists u' cur', process u cur (REDO I) = Ok (u', cur', snd (redo P I h)) /\ Rel u' cur' (fst (redo P I h)) /\
      u_abort P I u' = u_abort P I u.
  Proof.
    intros R. pose proof (rel_not_bad _ _ _ R) as B. destruct R as (i0 & junk & S1 & S2 & S3 & S4 & S5 & S6 & S7).
    unfold UndoModel.process. rewrite B, S1.
    destruct h as [past c fut lim dr]; cbn in *.
    destruct (Z.eqb_spec (u_ptr P I u) (u_end P I u)) as [Ez|Ez].
    - destruct fut; [|cbn in *; lia].
      unfold finish. rewrite bad_false by (cbn; lens; lia). cbn.
      eexists _, _. split; [reflexivity|]. split; [|reflexivity].
      exists i0, junk. cbn. repeat split; auto.
    - destruct fut as [|[p i] r]; [cbn in *; lia|]. cbn in *.
      erewrite getEntry_at with (a := back past c i0) (y := (p, i)) (b := r ++ junk)
        by (try (repeat rewrite <- app_assoc; reflexivity); lens; lia).
      cbn [rbind]. unfold finish. rewrite bad_false by (cbn; lens; lia).
      eexists _, _. split; [reflexivity|]. split; [|reflexivity].
      exists i0, junk. cbn. repeat split; auto; try (lens; lia).
      + repeat rewrite <- app_assoc. reflexivity.
  Qed.

  Lemma push_ok u cur h p i : Rel u cur h ->
    exists u', process u p (PUSH I i) = Ok (u', p, Silent I) /\ Rel u' p (edit P I p i h) /\
      u_abort P I u' = u_abort P I u.
  Proof.
    intros R. pose proof (rel_not_bad _ _ _ R) as B. destruct R as (i0 & junk & S1 & S2 & S3 & S4 & S5 & S6 & S7).
    unfold UndoModel.process. rewrite B, S1. destruct h as [past c fut lim dr].
    cbn [h_past h_cur h_future h_lim h_dropped] in *. cbv zeta iota beta. subst c.
    set (st := (back past cur i0 ++ fut) ++ junk) in *.
    (* after clearing the redo part *)
    assert (exists mid, length mid = length fut /\
      (if u_ptr P I u <? u_end P I u
       then clear P I emptyP noInfo (S (length st)) st (u_ptr P I u + 1) (u_end P I u) else Ok st)
      = Ok (back past cur i0 ++ mid ++ junk)) as (mid & Lm & E1).
    { destruct (Z.ltb_spec (u_ptr P I u) (u_end P I u)).
      - unfold st. rewrite <- app_assoc. apply clear_at; lens; lia.
      - exists fut. split; auto. unfold st. rewrite <- app_assoc. reflexivity. }
    rewrite E1. cbn [rbind].
    assert ((if u_ptr P I u <? u_end P I u then u_ptr P I u else u_end P I u) = u_ptr P I u) as ->.
    { destruct (Z.ltb_spec (u_ptr P I u) (u_end P I u)); lia. }
    assert (Lst : Z.of_nat (length (mid ++ junk)) = u_size P I u - 1 - u_ptr P I u).
    { unfold st in S5. lens. lia. }
    assert (Lstk : length st = Z.to_nat (u_size P I u)) by lia.
    destruct (Z.eqb_spec (u_ptr P I u) (u_size P I u - 1)) as [Ef|Ef].
    - (* full *)
      assert (mid ++ junk = []) as Em by (destruct (mid ++ junk); [auto|cbn in Lst; lia]).
      rewrite Em, app_nil_r.
      pose proof (back_len past cur i0) as Lb.
      destruct (back past cur i0) as [|x0 b0] eqn:Eb; [discriminate|].
      cbn in Lb. 
      rewrite (setEntry_at (x0 :: b0) [] x0 b0) by reflexivity. cbn [rbind app].
      destruct (shift_at b0 (S (length st)) [] (emptyP, noInfo) 0 (u_size P I u - 1)) as (z & Ez);
        [lia|reflexivity|cbn; lia|].
      cbn [app] in Ez. rewrite Ez. cbn [rbind].
      rewrite (setEntry_at (b0 ++ [z]) b0 z []) by (auto; lia). cbn [rbind].
      destruct (Z.eqb_spec (u_ptr P I u - 1) (u_size P I u - 2)); [|lia]. rewrite Z.eqb_refl. cbn.
      rewrite Z.eqb_refl. cbn.
      rewrite (setEntry_at (b0 ++ [(emptyP, noInfo)]) b0 (emptyP, noInfo) []) by (auto; lia). cbn [rbind].
      unfold finish. rewrite bad_false by (cbn; lia).
      eexists. split; [reflexivity|]. split; [|reflexivity].
      assert (length past = lim) as Hl by lia.
      destruct (back_tl ((cur, i) :: past) p i0 ltac:(discriminate)) as (i1 & Et).
      assert (firstn lim ((cur, i) :: past) = removelast ((cur, i) :: past)) as Ef2.
      { rewrite removelast_firstn_len. f_equal. cbn. lia. }
      exists i1, []. unfold edit. cbn -[firstn removelast back]. rewrite Ef2, <- Et.
      cbn [back]. rewrite Eb. cbn [app tl]. rewrite !app_nil_r.
      assert (length (removelast ((cur, i) :: past)) = length past) as Lr.
      { rewrite <- Ef2, firstn_length. cbn. lia. }
      repeat split; auto; try (cbn [u_ptr u_end u_size length]; rewrite ?Lr; lens; lia).
      + rewrite Hl, Nat.leb_refl, orb_true_r. reflexivity.
    - (* room *)
      cbn [rbind]. rewrite Z.eqb_refl. cbn [negb].
      destruct (mid ++ junk) as [|x0 rest] eqn:Em; [cbn in Lst; lia|].
      erewrite setEntry_at with (a := back past cur i0) (y := x0) (b := rest) by (auto; lens; lia).
      cbn [rbind]. unfold finish. cbn in Lst. rewrite bad_false by (cbn; lens; lia).
      eexists. split; [reflexivity|]. split; [|reflexivity].
      assert (length past < lim)%nat as Hl by lia.
      exists i0, rest. unfold edit. cbn -[firstn back].
      rewrite firstn_all2 by (cbn; lia). cbn [back]. repeat split; auto.
      all: try (repeat rewrite <- app_assoc; reflexivity).
      all: try (cbn; lens; lia).
      + rewrite (proj2 (Nat.leb_gt _ _) Hl), orb_false_r. assumption.
  Qed.

  (* an allocated or fresh stack without entries *)
  Definition Empty (u : ust) : Prop :=
    u_ptr P I u = -1 /\ u_end P I u = -1 /\ 1 <= u_size P I u /\ u_over P I u = false /\
    (forall l, u_stack P I u = Some l -> Z.of_nat (length l) = u_size P I u).
  Lemma push_empty u p : Empty u ->
    exists u', process u p (PUSH I noInfo) = Ok (u', p, Silent I) /\
      Rel u' p (hstart P I p (Z.to_nat (u_size P I u - 1))) /\ u_abort P I u' = u_abort P I u.
  Proof.
    intros (E1 & E2 & E3 & E4 & E5). unfold UndoModel.process. rewrite bad_false by lia.
    set (st := match u_stack P I u with Some l => l | None => _ end).
    assert (Z.of_nat (length st) = u_size P I u) as Ls.
    { unfold st. destruct (u_stack P I u); [auto|]. unfold blank. rewrite repeat_length. lia. }
    rewrite E1, E2. cbn [Z.ltb Z.compare]. change (-1 <? -1) with false. cbv iota. cbn [rbind].
    destruct (Z.eqb_spec (-1) (u_size P I u - 1)); [lia|]. cbn [rbind]. change (negb (-1 + 1 =? -1 + 1)) with false. cbv iota.
    destruct st as [|x0 rest]; [cbn in Ls; lia|].
    rewrite (setEntry_at (x0 :: rest) [] x0 rest) by reflexivity. cbn [rbind app].
    unfold finish. rewrite bad_false by (cbn; lia). eexists. split; [reflexivity|]. split; [|reflexivity].
    exists noInfo, rest. cbn in *. repeat split; auto; lia.
  Qed.
  Lemma init_rel u cur h x : Rel u cur h ->
    exists u', process u x (INIT I) = Ok (u', x, Silent I) /\ Empty u' /\ u_abort P I u' = false /\ u_size P I u' = u_size P I u.
  Proof.
    intros R. pose proof (rel_not_bad _ _ _ R) as B. destruct R as (i0 & junk & S1 & S2 & S3 & S4 & S5 & S6 & S7).
    unfold UndoModel.process. rewrite B, S1.
    set (L := back _ _ _ ++ _) in *.
    destruct (clear_at L (S (length (L ++ junk))) [] junk 0 (u_end P I u)) as (m & Lm & E).
    { rewrite app_length. lia. } { reflexivity. } { unfold L. lens. lia. }
    cbn [app] in E. rewrite E. cbn [rbind]. unfold finish.
    rewrite bad_false by (cbn; lia).
    eexists. split; [reflexivity|]. repeat split; cbn; auto; try lia.
    intros l [= <-]. rewrite <- S5. rewrite !app_length. lia.
  Qed.
  Lemma newsize_rel u cur h x n : Rel u cur h -> 0 <= n ->
    exists u', process u x (NEW_SIZE I n) = Ok (u', x, Silent I) /\ Empty u' /\
      u_abort P I u' = (u_abort P I u || (0 <? u_ptr P I u) || u_over P I u)%bool /\ u_size P I u' = n + 1.
  Proof.
    intros R Hn. pose proof (rel_not_bad _ _ _ R) as B. destruct R as (i0 & junk & S1 & S2 & S3 & S4 & S5 & S6 & S7).
    unfold UndoModel.process. rewrite B, S1.
    set (L := back _ _ _ ++ _) in *.
    destruct (clear_at L (S (length (L ++ junk))) [] junk 0 (u_end P I u)) as (m & Lm & E).
    { rewrite app_length. lia. } { reflexivity. } { unfold L. lens. lia. }
    cbn [app] in E. rewrite E. cbn [rbind]. unfold finish.
    destruct (Z.ltb_spec (n + 1) 1); [lia|].
    rewrite bad_false by (cbn; lia).
    eexists. split; [reflexivity|]. repeat split; cbn; auto; try lia.
    intros l [= <-]. unfold blank. rewrite repeat_length. lia.
  Qed.
  Lemma clear_empty f l : clear P I emptyP noInfo (S f) l 0 (-1) = Ok l.
  Proof. reflexivity. Qed.
  Lemma init_empty u x : Empty u ->
    exists u', process u x (INIT I) = Ok (u', x, Silent I) /\ Empty u' /\ u_abort P I u' = false /\ u_size P I u' = u_size P I u.
  Proof.
    intros (E1 & E2 & E3 & E4 & E5). unfold UndoModel.process. rewrite bad_false by lia. rewrite E2, clear_empty.
    cbn [rbind]. unfold finish. rewrite bad_false by (cbn; lia).
    eexists. split; [reflexivity|]. repeat split; cbn; auto.
    intros l [= <-]. destruct (u_stack P I u); auto. unfold blank. rewrite repeat_length. lia.
  Qed.
  Lemma newsize_empty u x n : Empty u -> 0 <= n ->
    exists u', process u x (NEW_SIZE I n) = Ok (u', x, Silent I) /\ Empty u' /\ u_size P I u' = n + 1.
  Proof.
    intros (E1 & E2 & E3 & E4 & E5) Hn. unfold UndoModel.process. rewrite bad_false by lia. rewrite E2, clear_empty.
    cbn [rbind]. unfold finish. destruct (Z.ltb_spec (n + 1) 1); [lia|]. rewrite bad_false by (cbn; lia).
    eexists. split; [reflexivity|]. repeat split; cbn; auto; try lia.
    intros l [= <-]. unfold blank. rewrite repeat_length. lia.
  Qed.

  (* ---------- sessions ---------- *)
  Notation sess := (sess P I).
  Notation step := (step P I emptyP noInfo).
  Notation run := (run P I emptyP noInfo).
  Notation prove := (prove P I emptyP noInfo).
  Notation idle := (idle P I emptyP noInfo).
  Notation hstep := (hstep P I).
  Notation hrun := (hrun P I).

  Definition status (u : ust) : bool := u_over P I u || u_abort P I u || negb (u_ptr P I u =? 0).

  Lemma step_ok s h c : Rel (s_u P I s) (s_cur P I s) h ->
    exists s', step s c = Ok (s', snd (hstep h c)) /\ Rel (s_u P I s') (s_cur P I s') (fst (hstep h c)).
  Proof.
    intros R. destruct c as [p i| | |n| |]; cbn [UndoModel.step UndoSpec.hstep].
    - destruct (push_ok _ _ _ p i R) as (u' & E & R' & _). rewrite E. cbn [rbind fst snd].
      eexists. split; [reflexivity|exact R'].
    - destruct (undo_ok _ _ _ R) as (u' & c' & E & R' & _). rewrite E. cbn [rbind fst snd].
      eexists. split; [reflexivity|exact R'].
    - destruct (redo_ok _ _ _ R) as (u' & c' & E & R' & _). rewrite E. cbn [rbind fst snd].
      eexists. split; [reflexivity|exact R'].
    - cbn [fst snd].
      assert (exists m : Z, 0 <= m /\ (if n <? 0 then 0 else n) = m /\ Z.to_nat n = Z.to_nat m) as (m & Hm & -> & ->).
      { destruct (Z.ltb_spec n 0); [exists 0|exists n]; lia. }
      destruct R as (i0 & junk & S1 & S2 & S3 & S4 & S5 & S6 & S7) eqn:ER.
      assert (R0 : Rel (s_u P I s) (s_cur P I s) h) by (exists i0, junk; repeat split; auto).
      clear ER R. unfold setLim.
      destruct (Z.eqb_spec (u_size P I (s_u P I s) - 1) m) as [Em|Em].
      + destruct (Nat.eqb_spec (Z.to_nat m) (h_lim P I h)); [|lia]. eauto.
      + destruct (Nat.eqb_spec (Z.to_nat m) (h_lim P I h)); [lia|].
        destruct (newsize_rel _ _ _ (s_cur P I s) m R0 Hm) as (u1 & E1 & Em1 & _ & Z1). rewrite E1. cbn [rbind fst snd].
        destruct (push_empty u1 (s_cur P I s) Em1) as (u2 & E2 & R2 & _). rewrite E2. cbn [rbind fst snd].
        eexists. split; [reflexivity|]. cbn. rewrite Z1 in R2. replace (m + 1 - 1) with m in R2 by lia.
        rewrite <- S7. exact R2.
    - rewrite (status_ok _ _ _ _ R). cbn [rbind fst snd]. eexists. split; [reflexivity|exact R].
    - rewrite (status_ok _ _ _ _ R). cbn [rbind fst snd]. eexists. split; [reflexivity|exact R].
  Qed.
  Lemma run_ok cs : forall s h, Rel (s_u P I s) (s_cur P I s) h ->
    exists s', run s cs = Ok (s', snd (hrun h cs)) /\ Rel (s_u P I s') (s_cur P I s') (fst (hrun h cs)).
  Proof.
    induction cs as [|c r IH]; intros s h R; cbn [UndoModel.run UndoSpec.hrun]; [eauto|].
    destruct (step_ok _ _ c R) as (s1 & E1 & R1). rewrite E1. cbn [rbind fst snd].
    destruct (hstep h c) as (h1, a). cbn [fst snd] in *.
    destruct (IH _ _ R1) as (s2 & E2 & R2). rewrite E2. cbn [rbind fst snd].
    destruct (hrun h1 r) as (h2, l). cbn [fst snd] in *. eauto.
  Qed.
  Lemma rel_cur u c h : Rel u c h -> c = h_cur P I h.
  Proof. intros (?&?&?&?&?&?&?&?&?). assumption. Qed.

  Lemma prove_ok u p : Empty u -> exists s, prove u p = Ok s /\ s_saved P I s = p /\ s_changed P I s = false /\
    s_savedFlag P I s = false /\ u_abort P I (s_u P I s) = false /\
    s_cur P I s = p /\
    Rel (s_u P I s) (s_cur P I s) (hstart P I p (Z.to_nat (u_size P I u - 1))).
  Proof.
    intros E. unfold UndoModel.prove. destruct (init_empty u p E) as (u1 & E1 & M1 & A1 & Z1). rewrite E1. cbn [rbind fst snd].
    destruct (push_empty u1 p M1) as (u2 & E2 & R2 & A2). rewrite E2. cbn [rbind fst snd].
    eexists. split; [reflexivity|]. cbn. rewrite Z1 in R2. repeat split; auto. congruence.
  Qed.
  Lemma leave_ok s h : Rel (s_u P I s) (s_cur P I s) h -> exists u', leave P I emptyP noInfo s = Ok u' /\ Empty u'.
  Proof.
    intros R. unfold leave. destruct (init_rel _ _ _ (s_cur P I s) R) as (u1 & E1 & M1 & _). rewrite E1. cbn. eauto.
  Qed.
  Lemma setout_ok u x n : Empty u -> exists u', setUndoOutside P I emptyP noInfo u x n = Ok u' /\ Empty u'.
  Proof.
    intros E. unfold setUndoOutside. cbv zeta. set (m := if n <? 0 then 0 else n).
    assert (0 <= m) by (unfold m; destruct (Z.ltb_spec n 0); lia).
    destruct (u_size P I u - 1 =? m); [eauto|].
    destruct (newsize_empty u x m E H) as (u1 & E1 & M1 & _). rewrite E1. cbn. eauto.
  Qed.
  Lemma idle_empty u : idle u -> Empty u.
  Proof.
    induction 1 as [|u cur n u' _ IH E|u p s cs s' a u' _ IH E1 E2 E3].
    - repeat split; cbn; try lia; discriminate.
    - destruct (setout_ok u cur n IH) as (u1 & Ex & Em). congruence.
    - destruct (prove_ok u p IH) as (s1 & Ep & _ & _ & _ & _ & _ & R). assert (s1 = s) by congruence. subst s1.
      destruct (run_ok cs _ _ R) as (s2 & Er & R2). assert (s2 = s') by congruence. subst s2.
      destruct (leave_ok _ _ R2) as (u1 & El & Em). congruence.
  Qed.

  (* ---------- C25 ---------- *)
  Lemma session_history u p cs : idle u ->
    exists s0 s, prove u p = Ok s0 /\ run s0 cs = Ok (s, snd (hrun (hstart P I p (Z.to_nat (u_size P I u - 1))) cs)) /\
      s_cur P I s = h_cur P I (fst (hrun (hstart P I p (Z.to_nat (u_size P I u - 1))) cs)).
  Proof.
    intros Hi. destruct (prove_ok u p (idle_empty u Hi)) as (s0 & Ep & _ & _ & _ & _ & _ & R).
    destruct (run_ok cs _ _ R) as (s & Er & R2). exists s0, s. repeat split; auto. eapply rel_cur; eauto.
  Qed.
  Lemma idle_never_fails u x n : idle u -> exists u', setUndoOutside P I emptyP noInfo u x n = Ok u'.
  Proof. intros Hi. destruct (setout_ok u x n (idle_empty u Hi)) as (u' & E & _). eauto. Qed.
  Lemma leave_never_fails u p cs s0 s a : idle u -> prove u p = Ok s0 -> run s0 cs = Ok (s, a) ->
    exists u', leave P I emptyP noInfo s = Ok u'.
  Proof.
    intros Hi Hp Hr. destruct (prove_ok u p (idle_empty u Hi)) as (s1 & Ep & _ & _ & _ & _ & _ & R).
    assert (s1 = s0) by congruence. subst s1.
    destruct (run_ok cs _ _ R) as (s2 & Er & R2). assert (s2 = s) by congruence. subst.
    destruct (leave_ok _ _ R2) as (u' & E & _). eauto.
  Qed.

  (* the history itself: what undo and redo do *)
  Lemma hrun_app h a : forall b, hrun h (a ++ b) = (fst (hrun (fst (hrun h a)) b), snd (hrun h a) ++ snd (hrun (fst (hrun h a)) b)).
  Proof.
    revert h. induction a as [|c r IH]; intros h b; cbn [UndoSpec.hrun app].
    - cbn. destruct (hrun h b); reflexivity.
    - destruct (hstep h c) as (h1, x). rewrite IH. destruct (hrun h1 r) as (h2, l). reflexivity.
  Qed.
  Definition edits (es : list (P * I)) : list (cmd P I) := map (fun e => Edit P I (fst e) (snd e)) es.
  Definition cells (h : hist P I) : list P := h_cur P I h :: map fst (h_past P I h).
  Definition wfh (h : hist P I) : Prop := (length (h_past P I h) <= h_lim P I h)%nat.
  Lemma cells_edit p i h : cells (edit P I p i h) = firstn (S (h_lim P I h)) (p :: cells h).
  Proof. unfold cells, edit. cbn [h_cur h_past]. rewrite firstn_cons. f_equal. rewrite <- firstn_map. reflexivity. Qed.
  Lemma cells_edits es : forall h, wfh h ->
    cells (fst (hrun h (edits es))) = firstn (S (h_lim P I h)) (rev (map fst es) ++ cells h) /\
    h_lim P I (fst (hrun h (edits es))) = h_lim P I h.
  Proof.
    induction es as [|e r IH]; intros h W.
    - cbn [edits map UndoSpec.hrun fst rev app]. split; auto.
      rewrite firstn_all2; [reflexivity|]. unfold cells. cbn. rewrite map_length. unfold wfh in W. lia.
    - change (edits (e :: r)) with (Edit P I (fst e) (snd e) :: edits r). cbn [UndoSpec.hrun UndoSpec.hstep].
      assert (wfh (edit P I (fst e) (snd e) h)) as W'.
      { unfold wfh, edit. cbn [h_past h_lim]. rewrite firstn_length. lia. }
      destruct (IH _ W') as [E1 E2]. destruct (hrun (edit P I (fst e) (snd e) h) (edits r)) as (h2, l). cbn [fst] in *.
      split; [|exact E2]. rewrite E1, cells_edit. cbn [map rev]. cbn [edit h_lim].
      rewrite <- app_assoc. cbn [app].
      rewrite !firstn_app. f_equal. rewrite firstn_firstn.
      f_equal. lia.
  Qed.
  Lemma undos_cells n : forall h, (n < length (cells h))%nat ->
    nth_error (cells h) n = Some (h_cur P I (fst (hrun h (repeat (Undo P I) n)))).
  Proof.
    induction n as [|n IH]; intros h Hn; [reflexivity|].
    cbn [repeat UndoSpec.hrun UndoSpec.hstep]. unfold undo.
    destruct h as [past c fut lim dr]; unfold cells in *; cbn [h_cur h_past] in *. destruct past as [|[p i] r]; cbn in Hn; [lia|].
    cbn [map fst nth_error].
    specialize (IH (mkHist P I r p ((c, i) :: fut) lim dr)). cbn [h_cur h_past] in IH.
    cbn [length] in IH. specialize (IH ltac:(rewrite map_length in *; lia)). cbn [h_cur h_future h_past h_lim h_dropped map fst] in *.
    destruct (hrun _ (repeat (Undo P I) n)). exact IH.
  Qed.
  Lemma undo_redo_h h i : snd (undo P I h) = Undid I i -> redo P I (fst (undo P I h)) = (h, Redid I i).
  Proof.
    unfold undo, redo. destruct h as [[|[p j] r] c fut lim dr]; cbn.
    - destruct dr; discriminate.
    - intros [= ->]. reflexivity.
  Qed.

  Lemma rel_wfh u c h : Rel u c h -> wfh h.
  Proof. intros (i0 & junk & S1 & S2 & S3 & S4 & S5 & S6 & S7). unfold wfh. rewrite !app_length, back_len in S5. lia. Qed.
  Lemma rel_lim u c h : Rel u c h -> u_size P I u - 1 = Z.of_nat (h_lim P I h).
  Proof. intros (i0 & junk & S1 & S2 & S3 & S4 & S5 & S6 & S7). lia. Qed.
  Lemma session_rel u p cs s0 s a : idle u -> prove u p = Ok s0 -> run s0 cs = Ok (s, a) ->
    Rel (s_u P I s) (s_cur P I s) (fst (hrun (hstart P I p (Z.to_nat (u_size P I u - 1))) cs)).
  Proof.
    intros Hi Hp Hr. destruct (prove_ok u p (idle_empty u Hi)) as (s1 & Ep & _ & _ & _ & _ & _ & R).
    assert (s1 = s0) by congruence. subst s1.
    destruct (run_ok cs _ _ R) as (s2 & Er & R2). assert (s2 = s) by congruence. subst. exact R2.
  Qed.

  (* user-level consequences; s is the session after any commands *)
  Lemma undo_restores u p cs s0 s a es : idle u -> prove u p = Ok s0 -> run s0 cs = Ok (s, a) ->
    Z.of_nat (length es) <= u_size P I (s_u P I s) - 1 ->
    exists s' a', run s (edits es ++ repeat (Undo P I) (length es)) = Ok (s', a') /\ s_cur P I s' = s_cur P I s.
  Proof.
    intros Hi Hp Hr Hl. pose proof (session_rel _ _ _ _ _ _ Hi Hp Hr) as R.
    set (h := fst (hrun _ cs)) in *. rewrite (rel_lim _ _ _ R) in Hl.
    destruct (run_ok (edits es ++ repeat (Undo P I) (length es)) _ _ R) as (s' & E & R').
    exists s', (snd (hrun h (edits es ++ repeat (Undo P I) (length es)))). split; [exact E|].
    rewrite (rel_cur _ _ _ R'), (rel_cur _ _ _ R). rewrite hrun_app. cbn [fst].
    destruct (cells_edits es h (rel_wfh _ _ _ R)) as [C _].
    set (h1 := fst (hrun h (edits es))) in *.
    assert (nth_error (cells h1) (length es) = Some (h_cur P I h)) as N.
    { rewrite C.
      assert (forall (l : list P) n k, (k < n)%nat -> nth_error (firstn n l) k = nth_error l k) as F.
      { clear. induction l; intros [|n] [|k] H; cbn; auto; try lia. apply IHl. lia. }
      rewrite F by lia. rewrite nth_error_app2 by (rewrite rev_length, map_length; lia).
      rewrite rev_length, map_length, Nat.sub_diag. reflexivity. }
    rewrite undos_cells in N by (apply nth_error_Some; congruence). congruence.
  Qed.
  Lemma undo_redo u p cs s0 s a s' i : idle u -> prove u p = Ok s0 -> run s0 cs = Ok (s, a) ->
    step s (Undo P I) = Ok (s', Undid I i) ->
    exists s'', step s' (Redo P I) = Ok (s'', Redid I i) /\ s_cur P I s'' = s_cur P I s.
  Proof.
    intros Hi Hp Hr Hu. pose proof (session_rel _ _ _ _ _ _ Hi Hp Hr) as R.
    set (h := fst (hrun _ cs)) in *.
    destruct (step_ok _ _ (Undo P I) R) as (s1 & E1 & R1). rewrite Hu in E1. apply Ok_inj in E1.
    injection E1 as <- Ea. cbn [UndoSpec.hstep] in Ea, R1.
    destruct (step_ok _ _ (Redo P I) R1) as (s2 & E2 & R2). cbn [UndoSpec.hstep] in E2, R2.
    rewrite (undo_redo_h h i (eq_sym Ea)) in E2, R2. cbn [fst snd] in *.
    exists s2. split; [exact E2|]. rewrite (rel_cur _ _ _ R2), (rel_cur _ _ _ R). reflexivity.
  Qed.
  Lemma edit_no_redo u p cs s0 s a q i : idle u -> prove u p = Ok s0 -> run s0 cs = Ok (s, a) ->
    exists s', run s [Edit P I q i; Redo P I] = Ok (s', [Silent I; NothingToRedo I]) /\ s_cur P I s' = q.
  Proof.
    intros Hi Hp Hr. pose proof (session_rel _ _ _ _ _ _ Hi Hp Hr) as R.
    set (h := fst (hrun _ cs)) in *.
    destruct (run_ok [Edit P I q i; Redo P I] _ _ R) as (s1 & E1 & R1). exists s1. split; [exact E1|].
    rewrite (rel_cur _ _ _ R1). reflexivity.
  Qed.
  Lemma edit_undo_answer u p cs s0 s a q i : idle u -> prove u p = Ok s0 -> run s0 cs = Ok (s, a) ->
    1 <= u_size P I (s_u P I s) - 1 ->
    exists s', run s [Edit P I q i; Undo P I] = Ok (s', [Silent I; Undid I i]) /\ s_cur P I s' = s_cur P I s.
  Proof.
    intros Hi Hp Hr Hl. pose proof (session_rel _ _ _ _ _ _ Hi Hp Hr) as R.
    set (h := fst (hrun _ cs)) in *. rewrite (rel_lim _ _ _ R) in Hl.
    destruct (run_ok [Edit P I q i; Undo P I] _ _ R) as (s1 & E1 & R1). exists s1.
    rewrite (rel_cur _ _ _ R1), (rel_cur _ _ _ R). destruct h as [past c fut lim dr]. cbn [h_lim] in Hl.
    destruct lim as [|lim]; [lia|]. split; [exact E1|reflexivity].
  Qed.

  (* ---------- C26 ---------- *)
  Lemma last_firstn_keep (l : list (P * I)) n d : (length l <= n)%nat -> last (firstn n l) d = last l d.
  Proof. intros. rewrite firstn_all2; auto. Qed.
  Lemma last_cons_past (x : P * I) l (c d : P * I) : fst x = fst c -> fst (last (x :: l) d) = fst (last l c).
  Proof.
    revert x c d. induction l as [|y l IH]; intros; [exact H|].
    change (fst (last (y :: l) d) = fst (last (y :: l) c)).
    rewrite (IH y y d eq_refl). rewrite (IH y y c eq_refl). reflexivity.
  Qed.
  Definition first (h : hist P I) : P := fst (last (h_past P I h) (h_cur P I h, noInfo)).
  Lemma first_undo h : first (fst (undo P I h)) = first h.
  Proof.
    unfold undo, first. destruct h as [past c f l d]; cbn. destruct past as [|[p i] r]; [reflexivity|].
    cbn [fst h_past h_cur]. symmetry. apply last_cons_past. reflexivity.
  Qed.
  Lemma first_redo h : first (fst (redo P I h)) = first h.
  Proof.
    unfold redo, first. destruct h as [past c f l d]; cbn. destruct f as [|[p i] r]; [reflexivity|].
    cbn [fst h_past h_cur]. apply last_cons_past. reflexivity.
  Qed.
  Lemma first_edit h p i : h_dropped P I (edit P I p i h) = false -> first (edit P I p i h) = first h.
  Proof.
    unfold edit, first. destruct h as [past c f l d]; cbn -[firstn last Nat.leb]. intros H.
    apply orb_false_iff in H. destruct H as [_ H]. apply Nat.leb_gt in H.
    rewrite firstn_all2 by (cbn; lia). apply last_cons_past. reflexivity.
  Qed.

  Definition Jnv (p0 : P) (s : sess) (h : hist P I) : Prop :=
    Rel (s_u P I s) (s_cur P I s) h /\
    (u_over P I (s_u P I s) = false -> u_abort P I (s_u P I s) = false -> first h = p0).
  Lemma rel_over u c h : Rel u c h -> u_over P I u = h_dropped P I h.
  Proof. intros (?&?&?&?&?&?&?&?&?). assumption. Qed.
  Lemma undo_dropped h : h_dropped P I (fst (undo P I h)) = h_dropped P I h.
  Proof. unfold undo. destruct h as [[|[]] ? ? ? ?]; reflexivity. Qed.
  Lemma redo_dropped h : h_dropped P I (fst (redo P I h)) = h_dropped P I h.
  Proof. unfold redo. destruct h as [? ? [|[]] ? ?]; reflexivity. Qed.
  Lemma edit_dropped h p i : h_dropped P I (edit P I p i h) = false -> h_dropped P I h = false.
  Proof. unfold edit. cbn. intros H. apply orb_false_iff in H. tauto. Qed.

  Lemma step_inv p0 s h c s' a : Jnv p0 s h -> step s c = Ok (s', a) -> Jnv p0 s' (fst (hstep h c)).
  Proof.
    intros [R J] E. destruct c as [p i| | |n| |]; cbn [UndoModel.step UndoSpec.hstep fst] in *.
    - destruct (push_ok _ _ _ p i R) as (u' & E' & R' & A'). rewrite E' in E. cbn [rbind fst snd] in E.
      apply Ok_inj in E. injection E as <- <-. split; [exact R'|]. cbn. intros H1 H2.
      rewrite (rel_over _ _ _ R') in H1. rewrite (first_edit _ _ _ H1). apply J; [|congruence].
      rewrite (rel_over _ _ _ R). exact (edit_dropped _ _ _ H1).
    - destruct (undo_ok _ _ _ R) as (u' & c' & E' & R' & A'). rewrite E' in E. cbn [rbind fst snd] in E.
      apply Ok_inj in E. injection E as <- <-. split; [exact R'|]. cbn. intros H1 H2.
      rewrite (rel_over _ _ _ R'), undo_dropped in H1. rewrite first_undo. apply J; [|congruence].
      rewrite (rel_over _ _ _ R). exact H1.
    - destruct (redo_ok _ _ _ R) as (u' & c' & E' & R' & A'). rewrite E' in E. cbn [rbind fst snd] in E.
      apply Ok_inj in E. injection E as <- <-. split; [exact R'|]. cbn. intros H1 H2.
      rewrite (rel_over _ _ _ R'), redo_dropped in H1. rewrite first_redo. apply J; [|congruence].
      rewrite (rel_over _ _ _ R). exact H1.
    - destruct (step_ok s h (SetUndo P I n) R) as (s1 & E1 & R1). cbn [UndoModel.step UndoSpec.hstep fst snd] in E1, R1.
      rewrite E in E1. apply Ok_inj in E1. injection E1 as <- _. split; [exact R1|].
      cbv zeta in E.
      assert (exists m : Z, 0 <= m /\ (if n <? 0 then 0 else n) = m /\ Z.to_nat n = Z.to_nat m) as (m & Hm & Em & Em').
      { destruct (Z.ltb_spec n 0); [exists 0|exists n]; lia. }
      rewrite Em in E. rewrite Em' in *. clear Em Em'.
      unfold setLim. pose proof R as R0. destruct R as (i0 & junk & S1 & S2 & S3 & S4 & S5 & S6 & S7).
      destruct (Z.eqb_spec (u_size P I (s_u P I s) - 1) m) as [Em|Em].
      + apply Ok_inj in E. injection E as <- _. destruct (Nat.eqb_spec (Z.to_nat m) (h_lim P I h)); [|lia]. exact J.
      + destruct (Nat.eqb_spec (Z.to_nat m) (h_lim P I h)); [lia|].
        destruct (newsize_rel _ _ _ (s_cur P I s) m R0 Hm) as (u1 & E1 & Em1 & A1 & Z1). rewrite E1 in E. cbn [rbind fst snd] in E.
        destruct (push_empty u1 (s_cur P I s) Em1) as (u2 & E2 & R2 & A2). rewrite E2 in E. cbn [rbind fst snd] in E.
        apply Ok_inj in E. injection E as <- _. cbn. intros H1 H2.
        rewrite A2, A1 in H2. apply orb_false_iff in H2. destruct H2 as [H2 H4]. apply orb_false_iff in H2.
        destruct H2 as [H2 H3]. apply Z.ltb_ge in H3.
        rewrite <- (J H4 H2). unfold first. destruct (h_past P I h); [reflexivity|cbn in S3; lia].
    - rewrite (status_ok _ _ _ _ R) in E. cbn [rbind fst snd] in E. apply Ok_inj in E. injection E as <- _.
      split; assumption.
    - rewrite (status_ok _ _ _ _ R) in E. cbn [rbind fst snd] in E. apply Ok_inj in E. injection E as <- _.
      split; assumption.
  Qed.

  Lemma jnv_status p0 s h : Jnv p0 s h -> status (s_u P I s) = false -> s_cur P I s = p0.
  Proof.
    intros [R J] H. unfold status in H. apply orb_false_iff in H. destruct H as [H H3].
    apply orb_false_iff in H. destruct H as [H1 H2]. specialize (J H1 H2).
    destruct R as (i0 & junk & S1 & S2 & S3 & S4 & S5 & S6 & S7).
    apply negb_false_iff, Z.eqb_eq in H3. unfold first in J. destruct (h_past P I h); [|cbn in S3; lia].
    cbn in J. congruence.
  Qed.

  Definition Knv (p0 : P) (s : sess) (h : hist P I) : Prop :=
    Jnv p0 s h /\ (s_changed P I s = false -> s_cur P I s = s_saved P I s) /\
    (s_savedFlag P I s = false -> s_saved P I s = p0).
  Lemma step_kinv p0 s h c s' a : c <> SaveOther P I -> Knv p0 s h -> step s c = Ok (s', a) -> Knv p0 s' (fst (hstep h c)).
  Proof.
    intros Hc (J & K1 & K2) E. split; [eapply step_inv; eauto|]. destruct J as [R J].
    destruct c as [p i| | |n| |]; cbn [UndoModel.step] in E; [| | | | |congruence].
    1-3: apply rbind_ok in E; destruct E as (r & _ & E); apply Ok_inj in E; injection E as <- _; cbn; split;
         [discriminate|exact K2].
    - cbv zeta in E. destruct (_ =? _) in E; [apply Ok_inj in E; injection E as <- _; split; assumption|].
      destruct (newsize_rel _ _ _ (s_cur P I s) (if n <? 0 then 0 else n) R) as (u1 & E1 & Em1 & _).
      { destruct (Z.ltb_spec n 0); lia. }
      rewrite E1 in E. cbn [rbind fst snd] in E.
      destruct (push_empty u1 (s_cur P I s) Em1) as (u2 & E2 & R2 & A2). rewrite E2 in E. cbn [rbind fst snd] in E.
      apply Ok_inj in E. injection E as <- _. cbn. split; assumption.
    - rewrite (status_ok _ _ _ _ R) in E. cbn [rbind fst snd] in E. apply Ok_inj in E. injection E as <- _.
      cbn. split; [reflexivity|]. fold (status (s_u P I s)). destruct (status (s_u P I s)) eqn:Es; [discriminate|].
      intros _. eapply jnv_status; [split; eassumption|assumption].
  Qed.
  Lemma run_kinv p0 cs : forall s h s' a, ~ In (SaveOther P I) cs -> Knv p0 s h -> run s cs = Ok (s', a) ->
    exists h', Knv p0 s' h'.
  Proof.
    induction cs as [|c r IH]; intros s h s' a Hn K E; cbn [UndoModel.run] in E.
    - apply Ok_inj in E. injection E as <- _. eauto.
    - apply rbind_ok in E. destruct E as ((s1 & a1) & E1 & E). cbn [fst snd] in E.
      apply rbind_ok in E. destruct E as ((s2 & a2) & E2 & E). apply Ok_inj in E. injection E as <- _.
      eapply IH; [intros H; apply Hn; right; exact H| |exact E2].
      apply (step_kinv p0 s h c s1 a1); [intros Hc; apply Hn; left; exact Hc|exact K|exact E1].
  Qed.
  Lemma run_jinv p0 cs : forall s h s' a, Jnv p0 s h -> run s cs = Ok (s', a) ->
    exists h', Jnv p0 s' h'.
  Proof.
    induction cs as [|c r IH]; intros s h s' a K E; cbn [UndoModel.run] in E.
    - apply Ok_inj in E. injection E as <- _. eauto.
    - apply rbind_ok in E. destruct E as ((s1 & a1) & E1 & E). cbn [fst snd] in E.
      apply rbind_ok in E. destruct E as ((s2 & a2) & E2 & E). apply Ok_inj in E. injection E as <- _.
      eapply IH; [|exact E2]. eapply step_inv; eauto.
  Qed.
  Lemma prove_kinv u p s : idle u -> prove u p = Ok s -> Knv p s (hstart P I p (Z.to_nat (u_size P I u - 1))).
  Proof.
    intros Hi E. destruct (prove_ok u p (idle_empty u Hi)) as (s1 & Ep & E1 & E2 & E3 & E4 & E5 & R).
    assert (s1 = s) by congruence. subst s1. split; [split; [exact R|reflexivity]|].
    split; congruence.
  Qed.
  Lemma status_sound u p cs s0 s a : idle u -> prove u p = Ok s0 -> run s0 cs = Ok (s, a) ->
    exists u' b, process (s_u P I s) (s_cur P I s) (GET_STATUS I) = Ok (u', s_cur P I s, Status I b) /\
      (b = false -> s_cur P I s = p).
  Proof.
    intros Hi Hp Hr. destruct (prove_kinv u p s0 Hi Hp) as (J & _).
    destruct (run_jinv p cs s0 _ s a J Hr) as (h & J').
    exists (s_u P I s), (status (s_u P I s)). split.
    - destruct J' as [R _]. eapply status_ok; eauto.
    - eapply jnv_status; eauto.
  Qed.
  Lemma exit_sound u p cs s0 s a : idle u -> ~ In (SaveOther P I) cs -> prove u p = Ok s0 -> run s0 cs = Ok (s, a) ->
    exists w, exitWarns P I emptyP noInfo s = Ok w /\ (w = false -> s_cur P I s = s_saved P I s).
  Proof.
    intros Hi Hn Hp Hr. pose proof (prove_kinv u p s0 Hi Hp) as K.
    destruct (run_kinv p cs s0 _ s a Hn K Hr) as (h & J & K1 & K2).
    unfold exitWarns. destruct (s_changed P I s); [|exists false; auto].
    destruct J as [R J]. rewrite (status_ok _ _ _ _ R). cbn [rbind fst snd].
    eexists. split; [reflexivity|]. intros H. apply orb_false_iff in H. destruct H as [H1 H2].
    rewrite (K2 H2). eapply jnv_status; [split; eassumption|exact H1].
  Qed.
End Proofs.
