(* ParProofs.v -- proofs about the proof parsers. *)
From Verif Require Import Base MMSpec VerModel VerSpec TokModel ParModel ParSpec.
Open Scope nat_scope.
Arguments Nat.max : simpl never.


(* ---------- small facts ---------- *)
Lemma encStep_dec x : match x with Stm 0 => True | _ => decStep (encStep x) = Some x end.
Proof.
  destruct x as [|i|n]; [reflexivity| |destruct n; [exact I|]]; unfold decStep, encStep, zLoc, zUnk.
  - destruct (Z.eqb_spec (-1000 - Z.of_nat i) (-63)); [lia|].
    destruct (Z.leb_spec (-1000 - Z.of_nat i) (-1000)); [|lia]. f_equal. f_equal. lia.
  - destruct (Z.eqb_spec (Z.of_nat (S n)) (-63)); [lia|].
    destruct (Z.leb_spec (Z.of_nat (S n)) (-1000)); [lia|].
    destruct (Z.ltb_spec 0 (Z.of_nat (S n))); [|lia]. f_equal. f_equal. lia.
Qed.

Lemma balanced_app db l1 : forall l2 d,
  balanced db (l1 ++ l2) d = match balanced db l1 d with Some d' => balanced db l2 d' | None => None end.
Proof.
  induction l1 as [|x l1 IH]; intros l2 d; simpl; auto.
  destruct x as [|i|n]; auto.
  destruct (nth_error (db_stmts db) n) as [st|]; auto.
  destruct (s_type st); auto; destruct (_ <=? _); auto.
Qed.

Lemma raiseN_flag n s e : p_flag (raiseN n s e) <= 1 -> s <= 1 \/ n = 0.
Proof. destruct n; auto. simpl. lia. Qed.
Lemma raiseN_le n s e : p_flag e <= p_flag (raiseN n s e).
Proof. induction n; simpl; lia. Qed.
Lemma raiseN_count n s e : p_count (raiseN n s e) = n + p_count e.
Proof. induction n; simpl; lia. Qed.

(* flag 0 means no error counted *)
Definition eOk (e : perr) : Prop := p_flag e = 0 -> p_count e = 0.
Lemma eOk_raise s e : s <> 0 -> eOk (raise s e).
Proof. unfold eOk. simpl. lia. Qed.
Lemma eOk_atLeast s e : eOk e -> eOk (atLeast s e).
Proof. unfold eOk. simpl. lia. Qed.
Lemma eOk_raiseN n s e : s <> 0 -> eOk e -> eOk (raiseN n s e).
Proof. induction n; simpl; auto. intros. apply eOk_raise; auto. Qed.

Lemma assertion_type st : isAssertion st -> (s_type st = S_a \/ s_type st = S_p).
Proof. auto. Qed.

(* ---------- normal format: scanning tokens ---------- *)
Section Normal.
  Variable env : penv.
  Hypothesis WE : wf_env env.
  Variable n : nat.
  Variable hypTab : list (label * Z).

  Record SInv (prev : label) (s : nscan) : Prop := {
    si_lf : isTok chColon prev = false -> isTok chEq prev = false -> ns_lf s = false;
    si_loc : forall l z, In (l, z) (ns_loc s) -> exists i, z = zLoc (Z.of_nat i) /\
      ((i < length (ns_steps s) /\ exists t, nth_error (rev (ns_steps s)) i = Some (t, true)) \/
       (i = length (ns_steps s) /\ ns_lf s = true)) }.

  Lemma isTok_bad c t : labelChar c = false -> isTok c t = true ->
    length (filter (fun x => negb (labelChar x)) t) <> 0.
  Proof.
    intros Hc Ht. destruct t as [|x t]; [discriminate|]. unfold isTok, firstChar in Ht. simpl in Ht.
    apply Nat.eqb_eq in Ht. subst x. simpl. rewrite Hc. simpl. discriminate.
  Qed.

  Lemma colonTok_flag prev s s' : colonTok env n hypTab prev s = Ok s' ->
    p_flag (ns_err s) <= p_flag (ns_err s') /\ (eOk (ns_err s) -> eOk (ns_err s')) /\
    (p_flag (ns_err s') <= 1 -> isTok chColon prev = false /\ isTok chEq prev = false).
  Proof.
    unfold colonTok. destruct (ns_steps s) as [|x st]; [discriminate|]. intros H.
    set (e1 := raiseN _ 2 (ns_err s)) in *.
    assert (L1 : p_flag (ns_err s) <= p_flag e1) by apply raiseN_le.
    set (e2 := match e_find env (e_keys env) prev with Some j => _ | None => _ end) in *.
    assert (L2 : p_flag e1 <= p_flag e2).
    { unfold e2. destruct (e_find _ _ _); auto. destruct (_ <=? _)%Z; simpl; lia. }
    assert (O2 : eOk (ns_err s) -> eOk e2).
    { intros O. unfold e2. assert (eOk e1) by (apply eOk_raiseN; auto).
      destruct (e_find _ _ _); auto. destruct (_ <=? _)%Z; auto. apply eOk_raise; auto. }
    assert (B : p_flag e2 <= 1 -> isTok chColon prev = false /\ isTok chEq prev = false).
    { intros B. assert (B1 : p_flag e1 <= 1) by lia. apply raiseN_flag in B1.
      destruct B1 as [B1|B1]; [lia|]. split.
      - destruct (isTok chColon prev) eqn:E; auto. exfalso. exact (isTok_bad chColon prev eq_refl E B1).
      - destruct (isTok chEq prev) eqn:E; auto. exfalso. exact (isTok_bad chEq prev eq_refl E B1). }
    destruct (e_find env hypTab prev); injection H as <-; cbn [ns_err].
    - split; [simpl; lia|]. split; [intros; apply eOk_raise; auto|]. intros B'. exfalso. cbn [raise p_flag] in B'. lia.
    - split; [lia|split; auto].
  Qed.

  Lemma colonTok_inv prev s s' : colonTok env n hypTab prev s = Ok s' -> SInv prev s ->
    p_flag (ns_err s') <= 1 -> SInv [chColon] s'.
  Proof.
    intros H I B. destruct (colonTok_flag _ _ _ H) as [L [_ HB]]. destruct (HB B) as [B1 B2].
    pose proof (si_lf _ _ I B1 B2) as Hlf.
    unfold colonTok in H. destruct (ns_steps s) as [|x st] eqn:Es; [discriminate|].
    assert (K : forall l z, In (l, z) (ns_loc s) -> exists i, z = zLoc (Z.of_nat i) /\
       ((i < length st /\ exists t, nth_error (rev st) i = Some (t, true)) \/ (i = length st /\ true = true))).
    { intros l z Hin. destruct (si_loc _ _ I l z Hin) as [i [E [[Hi [t Ht]]|[_ Hc]]]]; [|congruence].
      exists i. split; auto. rewrite Es in Hi, Ht. simpl in Hi, Ht.
      destruct (Nat.eq_dec i (length st)) as [->|Hne]; [right; auto|]. left. split; [lia|].
      exists t. rewrite nth_error_app1 in Ht by (rewrite rev_length; lia). exact Ht. }
    destruct (e_find env hypTab prev); injection H as <-; constructor; cbn [ns_steps ns_lf ns_loc];
      try exact K; try (intros E; discriminate E).
    - intros l z Hin. apply in_app_or in Hin. destruct Hin as [Hin|[E|[]]]; [exact (K l z Hin)|].
      injection E as _ <-. exists (length st). split; auto.
  Qed.

  Lemma scanToks_ok : forall toks prev s s', scanToks env n hypTab prev toks s = Ok s' ->
    p_flag (ns_err s) <= p_flag (ns_err s') /\ (eOk (ns_err s) -> eOk (ns_err s')) /\
    (SInv prev s -> p_flag (ns_err s') <= 1 -> exists prev', SInv prev' s').
  Proof.
    induction toks as [|t toks IH]; intros prev s s' H; simpl in H.
    - injection H as <-. split; [lia|]. split; auto. eauto.
    - destruct (isTok chEq t) eqn:Eq.
      { destruct (IH _ _ _ H) as [H1 [H2 H3]]. split; auto. split; auto.
        intros I B. apply H3; auto. constructor; [intros; congruence|apply (si_loc _ _ I)]. }
      destruct (isTok chColon t) eqn:Ec.
      { apply rbind_ok in H. destruct H as [s1 [Hc H]].
        destruct (IH _ _ _ H) as [H1 [H2 H3]]. destruct (colonTok_flag _ _ _ Hc) as [L1 [L2 _]].
        split; [lia|]. split; auto. intros I B. apply H3; auto.
        assert (B1 : p_flag (ns_err s1) <= 1) by lia.
        destruct (colonTok_inv _ _ _ Hc I B1) as [J1 J2]. constructor; [congruence|exact J2]. }
      destruct (IH _ _ _ H) as [H1 [H2 H3]]. cbn [ns_err] in *. split; auto. split; auto.
      intros I B. apply H3; auto. constructor; cbn [ns_lf ns_steps ns_loc]; auto.
      intros l z Hin. destruct (si_loc _ _ I l z Hin) as [i [E [[Hi [t0 Ht]]|[Hi Hl]]]]; exists i; split; auto; left.
      + simpl. split; [lia|]. exists t0. rewrite nth_error_app1 by (rewrite rev_length; lia). exact Ht.
      + simpl. split; [lia|]. exists t. rewrite nth_error_app2 by (rewrite rev_length; lia).
        rewrite rev_length, Hi, Nat.sub_diag. simpl. rewrite Hl. reflexivity.
  Qed.
End Normal.

(* ---------- common: appending a step to a good prefix ---------- *)
Record prefixOk (db : dbase) (n : nat) (st : stmtRec) (pr : list pstep) (cnt : nat) : Prop := {
  po_bal : balanced db pr 0 = Some cnt;
  po_loc : forall k i, nth_error pr k = Some (Loc i) -> i < k /\
    (nth_error pr i = Some Unk \/
     exists m sm, nth_error pr i = Some (Stm m) /\ stmtAt db m sm /\ isAssertion sm);
  po_ref : forall m, In (Stm m) pr -> exists sm, stmtAt db m sm /\
    ((isAssertion sm /\ m < n) \/
     (isHyp sm /\ (In m (s_reqHyps st) \/ In m (s_optHyps st)))) }.

Lemma prefix_nil db n st : prefixOk db n st [] 0.
Proof.
  constructor; [reflexivity| |].
  - intros [|k] i H; discriminate.
  - intros m [].
Qed.

Lemma prefix_snoc db n st pr cnt x cnt' : prefixOk db n st pr cnt ->
  balanced db [x] cnt = Some cnt' ->
  (forall i, x = Loc i -> i < length pr /\
    (nth_error pr i = Some Unk \/
     exists m sm, nth_error pr i = Some (Stm m) /\ stmtAt db m sm /\ isAssertion sm)) ->
  (forall m, x = Stm m -> exists sm, stmtAt db m sm /\
    ((isAssertion sm /\ m < n) \/
     (isHyp sm /\ (In m (s_reqHyps st) \/ In m (s_optHyps st))))) ->
  prefixOk db n st (pr ++ [x]) cnt'.
Proof.
  intros [H1 H2 H3] Hb Hl Hr. constructor.
  - rewrite balanced_app, H1. exact Hb.
  - intros k i Hk.
    assert (M : forall j, j < length pr -> nth_error (pr ++ [x]) j = nth_error pr j)
      by (intros; apply nth_error_app1; auto).
    destruct (lt_dec k (length pr)) as [Hlt|Hge].
    + rewrite M in Hk by auto. destruct (H2 k i Hk) as [Hi Ht]. rewrite M by lia. auto.
    + rewrite nth_error_app2 in Hk by lia. destruct (k - length pr) as [|q] eqn:E.
      * simpl in Hk. injection Hk as ->. destruct (Hl i eq_refl) as [Hi Ht]. rewrite M by lia. split; [lia|auto].
      * simpl in Hk. destruct q; discriminate.
  - intros m Hm. apply in_app_or in Hm. destruct Hm as [Hm|[->|[]]]; auto.
Qed.

Lemma prefix_good db n st pr : prefixOk db n st pr 1 -> goodProof db n st pr.
Proof.
  intros [H1 H2 H3]. constructor; auto. split; auto. intros k i Hk. apply (H2 k i Hk).
Qed.

Lemma balanced_leaf db m sm cnt : stmtAt db m sm -> isHyp sm -> balanced db [Stm m] cnt = Some (S cnt).
Proof. intros Hm [E|E]; unfold stmtAt in Hm; simpl; rewrite Hm, E; reflexivity. Qed.
Lemma balanced_assert db m sm cnt : stmtAt db m sm -> isAssertion sm ->
  length (s_reqHyps sm) <= cnt -> balanced db [Stm m] cnt = Some (S (cnt - length (s_reqHyps sm))).
Proof.
  intros Hm Ha Hl. unfold stmtAt in Hm. simpl. rewrite Hm.
  apply Nat.leb_le in Hl. destruct Ha as [E|E]; rewrite E, Hl; reflexivity.
Qed.

Section Build.
  Variable env : penv.
  Hypothesis WE : wf_env env.
  Variable n : nat.
  Variable st : stmtRec.
  Hypothesis Hn : stmtAt (e_db env) n st.
  Hypothesis Hp : s_type st = S_p.
  Let db := e_db env.
  Variable loc : list (label * Z).
  Variable all : list (label * bool).   (* all the steps *)
  Let hypTab := entries env Z.of_nat (s_optHyps st) ++ entries env Z.of_nat (s_reqHyps st).
  Hypothesis Hloc : forall l z, In (l, z) loc -> exists i, z = zLoc (Z.of_nat i) /\
      (i < length all -> exists t, nth_error all i = Some (t, true)).

  Lemma hypTab_In l z : In (l, z) hypTab -> exists h, z = Z.of_nat h /\ 0 < h /\
    (In h (s_reqHyps st) \/ In h (s_optHyps st)) /\ exists sh, stmtAt db h sh /\ isHyp sh.
  Proof.
    intros H. assert (K : exists h, z = Z.of_nat h /\ (In h (s_reqHyps st) \/ In h (s_optHyps st))).
    { apply in_app_or in H. unfold entries in H.
      destruct H as [H|H]; apply in_map_iff in H; destruct H as [h [E Hh]]; injection E as _ <-; eauto. }
    destruct K as [h [E Hh]]. destruct (we_hyps env WE n st h Hn Hp Hh) as [H0 Hs]. eauto 10.
  Qed.

  Record BInv (s : nbuild) (pr : list pstep) : Prop := {
    bi_enc : b_proof s = map encStep pr;
    bi_pre : prefixOk db n st pr (b_cnt s);
    bi_lf : forall i t, i < length pr -> nth_error all i = Some (t, true) ->
      nth_error pr i = Some Unk \/ exists m sm, nth_error pr i = Some (Stm m) /\ stmtAt db m sm /\ isAssertion sm;
    bi_unk : In Unk pr <-> p_flag (b_err s) = 1 }.

  Lemma buildStep_flag s x s' : buildStep env n (hypTab ++ loc) s x = Ok s' ->
    p_flag (b_err s) <= p_flag (b_err s') /\ (eOk (b_err s) -> eOk (b_err s')) /\
    length (b_proof s') = S (length (b_proof s)).
  Proof.
    unfold buildStep. destruct x as [t lf]. intros H.
    assert (P : forall z e, p_flag (b_err s) <= p_flag e -> (eOk (b_err s) -> eOk e) ->
      Ok (mkNbuild (b_proof s ++ [z]) (S (b_cnt s)) e) = Ok s' ->
      p_flag (b_err s) <= p_flag (b_err s') /\ (eOk (b_err s) -> eOk (b_err s')) /\
      length (b_proof s') = S (length (b_proof s))).
    { intros z e H1 H2 E. injection E as <-. cbn. rewrite app_length. simpl. split; auto. split; auto. lia. }
    assert (R : forall k e, p_flag e <= p_flag (raise k e)) by (intros; simpl; lia).
    destruct (isTok chQ t).
    { apply P in H; auto. - simpl; lia. - apply eOk_atLeast. }
    destruct (e_find env (hypTab ++ loc) t) as [j|].
    - destruct (j <? 0)%Z.
      + destruct (_ <? 0)%Z; [discriminate|].
        eapply P; [| |exact H].
        * destruct lf, (_ <? _)%Z; simpl; lia.
        * intros O. destruct lf, (_ <? _)%Z; auto; apply eOk_raise; auto.
      + destruct (j <=? 0)%Z; [discriminate|]. eapply P; [| |exact H].
        * destruct lf; simpl; lia.
        * intros O. destruct lf; auto. apply eOk_raise; auto.
    - destruct (e_find env (e_keys env) t) as [j|].
      + apply rbind_ok in H. destruct H as [sj [_ H]].
        assert (Q : (let e1 := if (Z.of_nat n <=? j)%Z then raise 2 (b_err s) else b_err s in
                let nh := length (s_reqHyps sj) in
                if (b_cnt s <? nh) then Ok (mkNbuild (b_proof s ++ [zUnk]) (S (b_cnt s)) (raise 3 e1))
                else Ok (mkNbuild (b_proof s ++ [j]) (S (b_cnt s - nh)) e1)) = Ok s' ->
          p_flag (b_err s) <= p_flag (b_err s') /\ (eOk (b_err s) -> eOk (b_err s')) /\
          length (b_proof s') = S (length (b_proof s))).
        { cbv zeta. intros Q. set (e1 := if (Z.of_nat n <=? j)%Z then _ else _) in *.
          assert (p_flag (b_err s) <= p_flag e1) by (unfold e1; destruct (_ <=? _)%Z; simpl; lia).
          assert (eOk (b_err s) -> eOk e1) by (unfold e1; destruct (_ <=? _)%Z; auto; intros; apply eOk_raise; auto).
          destruct (_ <? _).
          - eapply P; [| |exact Q]; [simpl; lia|]. intros; apply eOk_raise; auto.
          - injection Q as <-. cbn. rewrite app_length. simpl. split; auto. split; auto. lia. }
        destruct (s_type sj); try discriminate; apply Q; exact H.
      + eapply P; [| |exact H]; [simpl; lia|]. intros; apply eOk_raise; auto.
  Qed.

  Lemma BInv_snoc s pr x e cnt' t lf : BInv s pr -> 
    nth_error all (length pr) = Some (t, lf) ->
    balanced db [x] (b_cnt s) = Some cnt' ->
    (forall i, x = Loc i -> i < length pr /\
      (nth_error pr i = Some Unk \/
       exists m sm, nth_error pr i = Some (Stm m) /\ stmtAt db m sm /\ isAssertion sm)) ->
    (forall m, x = Stm m -> exists sm, stmtAt db m sm /\
      ((isAssertion sm /\ m < n) \/
       (isHyp sm /\ (In m (s_reqHyps st) \/ In m (s_optHyps st))))) ->
    (lf = true -> x = Unk \/ exists m sm, x = Stm m /\ stmtAt db m sm /\ isAssertion sm) ->
    p_flag e = (match x with Unk => Nat.max 1 (p_flag (b_err s)) | _ => p_flag (b_err s) end) ->
    p_flag e <= 1 ->
    BInv (mkNbuild (b_proof s ++ [encStep x]) cnt' e) (pr ++ [x]).
  Proof.
    intros [I1 I2 I3 I4] Ht Hb Hl Hr Hf He Hle. constructor; cbn [b_proof b_cnt b_err].
    - rewrite I1, map_app. reflexivity.
    - eapply prefix_snoc; eauto.
    - intros i t' Hi Hi'. rewrite app_length in Hi. simpl in Hi.
      destruct (Nat.eq_dec i (length pr)) as [->|Hne].
      + rewrite nth_error_app2 by lia. rewrite Nat.sub_diag. simpl.
        rewrite Ht in Hi'. injection Hi' as -> ->. destruct (Hf eq_refl) as [->|[m [sm [-> Hm]]]]; eauto.
      + rewrite nth_error_app1 by lia. apply (I3 i t'); auto. lia.
    - rewrite in_app_iff. simpl. rewrite I4. destruct x; rewrite He.
      + rewrite He in Hle. split; [intros _; lia|auto].
      + split; [intros [H|[H|[]]]; [auto|discriminate]|auto].
      + split; [intros [H|[H|[]]]; [auto|discriminate]|auto].
  Qed.

  Lemma buildStep_ok s pr x s' : buildStep env n (hypTab ++ loc) s x = Ok s' ->
    BInv s pr -> nth_error all (length pr) = Some x -> p_flag (b_err s') <= 1 ->
    exists y, BInv s' (pr ++ [y]).
  Proof.
    intros H I Hx B. pose proof (bi_enc _ _ I) as Henc.
    assert (Hlen : length (b_proof s) = length pr) by (rewrite Henc, map_length; auto).
    unfold buildStep in H. destruct x as [t lf]. rewrite Hlen in H.
    destruct (isTok chQ t) eqn:Eq.
    { exists Unk. injection H as <-. apply (BInv_snoc s pr Unk _ _ t lf); auto.
      - intros; discriminate.
      - intros; discriminate. }
    destruct (e_find env (hypTab ++ loc) t) as [j|] eqn:Ef.
    - apply (we_some env WE) in Ef. apply in_app_or in Ef.
      destruct (j <? 0)%Z eqn:Ej.
      + apply Z.ltb_lt in Ej. destruct (-1000 - j <? 0)%Z eqn:Ei; [discriminate|].
        assert (In (t, j) loc) as Hin.
        { destruct Ef as [Ef|Ef]; auto. apply hypTab_In in Ef. destruct Ef as [h [-> _]]. lia. }
        destruct (Hloc _ _ Hin) as [i [-> Hi]].
        assert (Ez : (-1000 - zLoc (Z.of_nat i))%Z = Z.of_nat i) by (unfold zLoc; lia).
        rewrite Ez in *. destruct (Z.of_nat (length pr) <? Z.of_nat i)%Z eqn:El.
        { exfalso. injection H as <-. cbn [b_err] in B. destruct lf; simpl in B; lia. }
        apply Z.ltb_ge in El. destruct lf.
        { exfalso. injection H as <-. cbn [b_err] in B. simpl in B. lia. }
        assert (Hall : length pr < length all) by (apply nth_error_Some; congruence).
        destruct Hi as [t' Ht']; [lia|].
        assert (i <> length pr) by (intros ->; congruence).
        exists (Loc i). injection H as <-. cbn [b_err] in B.
        change (zLoc (Z.of_nat i)) with (encStep (Loc i)).
        apply (BInv_snoc s pr (Loc i) _ _ t false); auto.
        * intros i' E. injection E as <-. split; [lia|]. apply (bi_lf _ _ I i t'); auto. lia.
        * intros; discriminate.
        * intros; discriminate.
      + apply Z.ltb_ge in Ej. destruct (j <=? 0)%Z eqn:Ej0; [discriminate|]. apply Z.leb_gt in Ej0.
        destruct lf.
        { exfalso. injection H as <-. cbn [b_err] in B. simpl in B. lia. }
        destruct Ef as [Ef|Ef].
        2:{ destruct (Hloc _ _ Ef) as [i [-> _]]. unfold zLoc in Ej0. lia. }
        apply hypTab_In in Ef. destruct Ef as [h [-> [Hh0 [Hh [sh [Hs1 Hs2]]]]]].
        exists (Stm h). injection H as <-. cbn [b_err] in B.
        change (Z.of_nat h) with (encStep (Stm h)).
        apply (BInv_snoc s pr (Stm h) _ _ t false); auto.
        * eapply balanced_leaf; eauto.
        * intros; discriminate.
        * intros m E. injection E as <-. exists sh. auto.
        * intros; discriminate.
    - destruct (e_find env (e_keys env) t) as [j|] eqn:Ek.
      2:{ exfalso. injection H as <-. cbn [b_err] in B. simpl in B. lia. }
      apply (we_some env WE) in Ek. apply (we_keys env WE) in Ek.
      destruct Ek as [m [sm [Hm0 [-> [Hm [Ha _]]]]]].
      rewrite Nat2Z.id in H. unfold stmtAt in Hm. rewrite Hm in H. cbn [rget rbind] in H.
      assert (Q : (let e1 := if (Z.of_nat n <=? Z.of_nat m)%Z then raise 2 (b_err s) else b_err s in
                let nh := length (s_reqHyps sm) in
                if (b_cnt s <? nh) then Ok (mkNbuild (b_proof s ++ [zUnk]) (S (b_cnt s)) (raise 3 e1))
                else Ok (mkNbuild (b_proof s ++ [Z.of_nat m]) (S (b_cnt s - nh)) e1)) = Ok s').
      { destruct Ha as [E|E]; rewrite E in H; exact H. }
      clear H. cbv zeta in Q. destruct (b_cnt s <? length (s_reqHyps sm)) eqn:Ec.
      { exfalso. injection Q as <-. cbn [b_err] in B. simpl in B. lia. }
      apply Nat.ltb_ge in Ec.
      destruct (Z.of_nat n <=? Z.of_nat m)%Z eqn:Enm.
      { exfalso. injection Q as <-. cbn [b_err] in B. simpl in B. lia. }
      apply Z.leb_gt in Enm. exists (Stm m). injection Q as <-. cbn [b_err] in B.
      change (Z.of_nat m) with (encStep (Stm m)).
      apply (BInv_snoc s pr (Stm m) _ _ t lf); auto.
      + apply balanced_assert; auto.
      + intros; discriminate.
      + intros m' E. injection E as <-. exists sm. split; [exact Hm|]. left. split; auto. lia.
      + intros _. right. exists m, sm. auto.
  Qed.

  Lemma buildSteps_flag : forall l s s', buildSteps env n (hypTab ++ loc) s l = Ok s' ->
    p_flag (b_err s) <= p_flag (b_err s') /\ (eOk (b_err s) -> eOk (b_err s')).
  Proof.
    induction l as [|x l IH]; intros s s' H; simpl in H.
    - injection H as <-. auto.
    - apply rbind_ok in H. destruct H as [s1 [H1 H2]]. apply buildStep_flag in H1.
      destruct H1 as [A1 [A2 _]]. destruct (IH _ _ H2) as [A3 A4]. split; [lia|auto].
  Qed.

  Lemma buildSteps_ok : forall l s s' pr, buildSteps env n (hypTab ++ loc) s l = Ok s' ->
    BInv s pr -> (forall i, nth_error l i = nth_error all (length pr + i)) ->
    p_flag (b_err s') <= 1 -> exists pr', BInv s' pr'.
  Proof.
    induction l as [|x l IH]; intros s s' pr H I Hl B; simpl in H.
    - injection H as <-. eauto.
    - apply rbind_ok in H. destruct H as [s1 [H1 H2]].
      assert (B1 : p_flag (b_err s1) <= 1) by (apply buildSteps_flag in H2; lia).
      destruct (buildStep_ok s pr x s1 H1 I) as [y I1]; auto.
      { specialize (Hl 0). simpl in Hl. rewrite Nat.add_0_r in Hl. auto. }
      apply (IH s1 s' (pr ++ [y])); auto.
      intros i. specialize (Hl (S i)). simpl in Hl. rewrite Hl. f_equal. rewrite app_length. simpl. lia.
  Qed.
End Build.

Lemma finish_ok proof cnt e k zs ec : finish proof cnt e = Ok (k, zs, ec) -> k <= 1 ->
  cnt = 1 /\ k = p_flag e /\ zs = proof /\ ec = p_count e.
Proof.
  unfold finish. destruct (Nat.eqb cnt 1) eqn:E.
  - intros H _. injection H as <- <- <-. apply Nat.eqb_eq in E. auto.
  - destruct proof; [discriminate|]. intros H Hk. injection H as <- _ _. simpl in Hk. lia.
Qed.

Lemma parseNormal_good env n st toks k zs ec : wf_env env -> stmtAt (e_db env) n st -> s_type st = S_p ->
  parseNormal env n toks = Ok (k, zs, ec) -> k <= 1 ->
  exists proof, zs = map encStep proof /\ goodProof (e_db env) n st proof /\
    (In Unk proof <-> k = 1) /\ (k = 0 -> ec = 0).
Proof.
  intros WE Hn Hp H Hk. unfold parseNormal in H. unfold stmtAt in Hn. rewrite Hn in H. cbn [rget rbind] in H.
  destruct (match toks with [] => _ | _ => _ end) as [toks1 e1] eqn:E1.
  destruct (match toks1 with [] => _ | _ => _ end) as [toks2 e2] eqn:E2.
  destruct (if isTok chColon (last toks2 []) then _ else _) as [toks3 e3] eqn:E3.
  apply rbind_ok in H. destruct H as [s [Hs H]]. destruct (dupZero (ns_loc s)); [discriminate|].
  apply rbind_ok in H. destruct H as [b [Hb H]].
  destruct (finish_ok _ _ _ _ _ _ H Hk) as [Hcnt [-> [-> ->]]].
  (* the starting error state: flag 1 only together with a single "?" *)
  assert (S3 : eOk e3 /\ (p_flag e3 <= 1 -> p_flag e3 = 0 \/ (toks3 = [[chQ]] /\ p_flag e3 = 1))).
  { destruct toks as [|t0 toks0].
    - injection E1 as <- <-. simpl in E2. injection E2 as <- <-. simpl in E3. injection E3 as <- <-.
      split; [apply eOk_raise; auto|]. auto.
    - injection E1 as <- <-. simpl in E2.
      assert (A2 : eOk e2 /\ (p_flag e2 <= 1 -> p_flag e2 = 0)).
      { destruct (isTok chColon t0); injection E2 as _ <-.
        - split; [apply eOk_raise; auto|simpl; lia].
        - split; [intros _; reflexivity|auto]. }
      destruct (isTok chColon (last toks2 [])); injection E3 as _ <-.
      + split; [apply eOk_raise; auto|simpl; lia].
      + destruct A2. split; auto. }
  destruct S3 as [O3 S3].
  destruct (scanToks_ok env n _ _ _ _ _ Hs) as [L1 [O1 HI]]. cbn [ns_err] in L1, O1, HI.
  set (e4 := raiseN _ 2 (ns_err s)) in *.
  assert (L4 : p_flag (ns_err s) <= p_flag e4) by apply raiseN_le.
  destruct (buildSteps_flag env n st (ns_loc s) _ _ _ Hb) as [L5 O5]. cbn [b_err] in L5, O5.
  destruct HI as [prev' [_ SI]].
  { constructor; auto. intros l z []. }
  { lia. }
  assert (Bf : p_flag (b_err b) <= 1) by lia.
  destruct S3 as [S3|[S3 S4]]; [lia| |].
  - assert (Hf0 : p_flag e4 <= 1 -> p_flag e4 = 0).
    { (* flags raised while scanning are 2 *)
      assert (K : forall ts pv a b', scanToks env n (entries env Z.of_nat (s_optHyps st) ++ entries env Z.of_nat (s_reqHyps st)) pv ts a = Ok b' ->
                 p_flag (ns_err a) = 0 -> p_flag (ns_err b') = 0 \/ 2 <= p_flag (ns_err b')).
      { induction ts as [|t ts IH]; intros pv a b' K0 K1; simpl in K0.
        - injection K0 as <-. auto.
        - destruct (isTok chEq t); [eauto|]. destruct (isTok chColon t); [|eauto].
          apply rbind_ok in K0. destruct K0 as [a1 [K2 K3]].
          destruct (scanToks_ok _ _ _ _ _ _ _ K3) as [M _].
          assert (N : p_flag (ns_err a1) = 0 \/ 2 <= p_flag (ns_err a1)).
          { unfold colonTok in K2. destruct (ns_steps a) as [|x0 l0]; [discriminate|].
            set (f1 := raiseN _ 2 (ns_err a)) in *.
            assert (F1 : p_flag f1 = 0 \/ 2 <= p_flag f1).
            { unfold f1. generalize (length (filter (fun c => negb (labelChar c)) pv)). intros q.
              destruct q; simpl; [auto|right; lia]. }
            destruct (e_find env _ pv); injection K2 as <-; cbn [ns_err].
            - right. simpl. lia.
            - destruct (e_find env (e_keys env) pv); auto. destruct (_ <=? _)%Z; auto. right. simpl. lia. }
          destruct N as [N|N]; [eauto|right; lia]. }
      destruct (K _ _ _ _ Hs S3) as [K1|K1]; intros Q.
      - unfold e4 in *. destruct (dupCount (ns_loc s)); simpl in *; [auto|lia].
      - lia. }
    specialize (Hf0 ltac:(lia)).
    assert (SI' : forall l z, In (l, z) (ns_loc s) -> exists i, z = zLoc (Z.of_nat i) /\
      (i < length (rev (ns_steps s)) -> exists t, nth_error (rev (ns_steps s)) i = Some (t, true))).
    { intros l z Hin. destruct (SI l z Hin) as [i [E [[_ Hi]|[Hi _]]]]; exists i; split; auto.
      rewrite rev_length. lia. }
    destruct (buildSteps_ok env WE n st Hn Hp (ns_loc s) (rev (ns_steps s)) SI' _ _ _ [] Hb) as [pr I]; auto.
    { constructor; cbn; auto.
      - apply prefix_nil.
      - intros; lia.
      - split; [intros []|]. rewrite Hf0. discriminate. }
    exists pr. destruct I as [I1 I2 I3 I4]. split; [auto|]. rewrite Hcnt in I2.
    split; [apply prefix_good; auto|]. split; auto. intros Z0. apply O5; auto.
    apply eOk_raiseN; auto.
  - (* the empty proof *)
    subst toks3. simpl in Hs. injection Hs as <-. cbn in Hb. injection Hb as <-. cbn in *.
    exists [Unk]. rewrite S4 in *. split; [reflexivity|]. split; [|split; [simpl; tauto|intros; discriminate]].
    apply prefix_good. apply (prefix_snoc (e_db env) n st [] 0 Unk 1); auto.
    + apply prefix_nil.
    + intros; discriminate.
    + intros; discriminate.
Qed.
