(* ArgStmt.v -- getStatementNum. *)
From Coq Require Import NArith.
From Verif Require Import Base VstrModel VstrSpec VstrProofs VstrEdit VstrProps SqSpec
  LabModel LabSpec LabProofs MatchModel MatchSpec MatchProofs MatchProps ArgModel ArgSpec.
Open Scope nat_scope.

Definition wantedOf (fl : gflags) : wanted := {| w_a := g_a fl; w_p := g_p fl; w_e := g_e fl; w_f := g_f fl; w_own := g_efOnly fl |}.
Lemma hasWild_ok s : hasWild s = true <-> isPattern s.
Proof.
  unfold hasWild, isPattern. rewrite existsb_exists. split; intros [c [A B]]; exists c; (split; [exact A|]).
  - apply existsb_exists in B. destruct B as [d [B E]]. apply Nat.eqb_eq in E. subst. exact B.
  - apply existsb_exists. exists c. split; [exact B|apply Nat.eqb_refl].
Qed.

Section Stmt.
  Variables (fuel : nat) (env : menv) (hyps : nat -> list nat) (fl : gflags) (name : list nat) (start maxS : nat).
  Let N := length (e_stmts env).
  Hypothesis EOK : env_ok env.
  Hypothesis HN : isStr name.
  Hypothesis HL : labels_ok env fuel name.
  Hypothesis HM : g_efOnly fl = true -> maxS <= N.
  Hypothesis HS : 1 <= start.
  Let fit (k : nat) : Prop := fits fuel env hyps (wantedOf fl) name maxS k.
  Definition cand (k : nat) : Prop := candidate fuel env hyps (wantedOf fl) name start maxS k.

  Lemma lnth_in k s : lnth (e_stmts env) k = Some s -> In s (e_stmts env) /\ 1 <= k <= N.
  Proof.
    destruct k as [|k]; [discriminate|]. cbn. intros E. split; [eapply nth_error_In; exact E|].
    assert (k < length (e_stmts env)) by (apply nth_error_Some; congruence). unfold N. lia.
  Qed.
  Lemma fit_ok k : 1 <= k <= N -> exists b, stmtFits fuel env hyps fl name maxS k = Ok b /\ (b = true <-> fit k).
  Proof.
    intros HK. assert (exists s, lnth (e_stmts env) k = Some s) as [s Es].
    { destruct k as [|k]; [lia|]. cbn. destruct (nth_error (e_stmts env) k) eqn:E; [eauto|]. apply nth_error_None in E. unfold N in HK. lia. }
    destruct (lnth_in k s Es) as [Is _]. destruct (HL s Is) as (L1 & L2 & L3).
    unfold stmtFits, labelOf, kindOf. rewrite Es. cbn [rget rbind].
    assert (UN : fit k <-> l_label s <> [] /\ kindWanted (wantedOf fl) (l_kind s) /\ named fuel env name (l_label s) /\
      (g_efOnly fl = true -> l_kind s = K_e \/ l_kind s = K_f -> In k (hyps maxS))).
    { unfold fit, fits. split; [intros [s' [E R]]|intros R; exists s; split; [exact Es|exact R]]. rewrite Es in E. injection E as <-. exact R. }
    assert (KI : kindIn fl (l_kind s) = true <-> kindWanted (wantedOf fl) (l_kind s)).
    { destruct (l_kind s); cbn; tauto. }
    assert (MT : exists m, (if hasWild name then matchesList fuel env (l_label s) name 42 63 else Ok (strEq name (l_label s))) = Ok m /\
                 (m = true <-> named fuel env name (l_label s))).
    { unfold named. destruct (hasWild name) eqn:HW.
      - apply hasWild_ok in HW. destruct (C17_list_union fuel env (l_label s) name 42 63) as [r [R1 R2]]; try assumption; try lia.
        exists r. split; [exact R1|]. rewrite R2. destruct HW as [c [C1 C2]].
        split; [intros [_ F]; left; split; [exists c; auto|exact F]|intros [[_ F]|[F _]]].
        + split; [intros ->; destruct C1|exact F].
        + exfalso. apply F. exists c. auto.
      - assert (NW : ~ isPattern name) by (intros Q; apply hasWild_ok in Q; congruence).
        eexists. split; [reflexivity|]. rewrite strEq_ok. tauto. }
    destruct MT as [m [M1 M2]].
    destruct (l_label s) as [|c0 l0] eqn:EL.
    { exists false. split; [reflexivity|]. split; [discriminate|]. intros F. apply UN in F. destruct F as [F _]. congruence. }
    rewrite <- EL in *.
    destruct (kindIn fl (l_kind s)) eqn:K; cbn [negb].
    2:{ exists false. split; [reflexivity|]. split; [discriminate|]. intros F. apply UN in F. destruct F as (_ & F & _). apply KI in F. discriminate. }
    assert (KW := proj1 KI eq_refl).
    assert (M1' : (if hasWild name then matchesList fuel env (l_label s) name 42 63 else Ok (strEq name (l_label s))) = Ok m) by exact M1.
    rewrite M1'. cbn [rbind].
    destruct m; cbn [negb].
    2:{ exists false. split; [reflexivity|]. split; [discriminate|]. intros F. apply UN in F. destruct F as (_ & _ & F & _). apply M2 in F. discriminate. }
    assert (NM := proj1 M2 eq_refl).
    destruct (g_efOnly fl) eqn:EF.
    - fold N. destruct (Nat.ltb_spec N maxS) as [B|B]; [specialize (HM eq_refl); lia|].
      eexists. split; [reflexivity|]. rewrite UN. rewrite negb_true_iff, andb_false_iff, negb_false_iff, existsb_exists.
      split.
      + intros O. split; [rewrite EL; discriminate|]. split; [exact KW|]. split; [exact NM|]. intros _ KK.
        destruct O as [O|[x [O1 O2]]]; [destruct KK as [KK|KK]; rewrite KK in O; discriminate O|].
        apply Nat.eqb_eq in O2. subst x. exact O1.
      + intros (_ & _ & _ & O). destruct (isHyp (l_kind s)) eqn:IH; [|left; reflexivity]. right. exists k. split; [|apply Nat.eqb_refl].
        apply O; [reflexivity|]. destruct (l_kind s); try discriminate IH; auto.
    - exists true. split; [reflexivity|]. split; [intros _|reflexivity]. apply UN.
      split; [rewrite EL; discriminate|]. split; [exact KW|]. split; [exact NM|]. discriminate.
  Qed.

  Definition inv (stmt found m1 m2 : nat) : Prop :=
    (found = 0 -> forall k, start <= k < stmt -> ~ fit k) /\
    (found = 1 -> cand m1 /\ m1 < stmt /\ forall k, cand k -> k < stmt -> k = m1) /\
    (2 <= found -> cand m1 /\ cand m2 /\ m1 < m2 < stmt) /\
    (1 <= found -> g_unique fl = true /\ hasWild name = true).
  Definition post (found m1 m2 : nat) (later : bool) : Prop :=
    (found = 0 -> (forall k, ~ cand k) /\ (later = true -> exists k, maxS <= k /\ start <= k /\ fit k) /\
       (g_unique fl = true -> later = false -> forall k, start <= k -> ~ fit k)) /\
    (found = 1 -> cand m1 /\ (forall k, cand k -> m1 <= k) /\
       (g_unique fl = true -> hasWild name = true -> forall k, cand k -> k = m1)) /\
    (2 <= found -> g_unique fl = true /\ cand m1 /\ cand m2 /\ m1 < m2).
  Lemma fit_range k : fit k -> k <= N.
  Proof. intros [s [E _]]. apply lnth_in in E. lia. Qed.

  Lemma loop_ok : forall n stmt found m1 m2, stmt + n = S N \/ (n = 0 /\ N < stmt) -> start <= stmt -> inv stmt found m1 m2 ->
    exists f a b l, gsLoop fuel env hyps fl name maxS n stmt found m1 m2 = Ok (f, a, b, l) /\ post f a b l.
  Proof.
    induction n as [|n IH]; intros stmt found m1 m2 HNs HSt (I0 & I1 & I2 & I3); cbn [gsLoop].
    - exists found, m1, m2, false. split; [reflexivity|]. split; [|split].
      + intros F. assert (NF : forall k, start <= k -> ~ fit k).
        { intros k Hk Fk. apply (I0 F k); [|exact Fk]. apply fit_range in Fk. lia. }
        split; [intros k ([Hk _] & _ & Fk); exact (NF k Hk Fk)|]. split; [discriminate|]. intros _ _. exact NF.
      + intros F. destruct (I1 F) as (C & L & U). split; [exact C|].
        assert (forall k, cand k -> k = m1) as U' by (intros k Ck; apply U; [exact Ck|destruct Ck as (_ & B & _); lia]).
        split; [intros k Ck; rewrite (U' k Ck); lia|]. intros _ _. exact U'.
      + intros F. destruct (I2 F) as (A & B & C). destruct (I3 ltac:(lia)) as [U _]. split; [exact U|]. split; [exact A|]. split; [exact B|lia].
    - destruct (Nat.leb_spec maxS stmt) as [G|G]; cbn [andb].
      + destruct (Nat.ltb_spec 0 found) as [FP|FP]; cbn [orb].
        { exists found, m1, m2, false. split; [reflexivity|]. split; [intros; lia|]. split.
          - intros F. destruct (I1 F) as (C & L & U). split; [exact C|].
            assert (forall k, cand k -> k = m1) as U' by (intros k Ck; apply U; [exact Ck|destruct Ck as (B & _); lia]).
            split; [intros k Ck; rewrite (U' k Ck); lia|]. intros _ _. exact U'.
          - intros F. destruct (I2 F) as (A & B & C). destruct (I3 ltac:(lia)) as [U _]. split; [exact U|]. split; [exact A|]. split; [exact B|lia]. }
        assert (found = 0) as F0 by lia. specialize (I0 F0).
        assert (NC : forall k, ~ cand k) by (intros k (B & _ & Fk); apply (I0 k); [lia|exact Fk]).
        destruct (g_unique fl) eqn:GU; cbn [negb].
        2:{ exists found, m1, m2, false. split; [reflexivity|]. split; [|split; intros; lia]. intros _. split; [exact NC|]. split; [discriminate|congruence]. }
        destruct (fit_ok stmt ltac:(lia)) as [b [Eb Fb]]. rewrite Eb. cbn [rbind]. destruct b; cbn [negb].
        * exists found, m1, m2, true. split; [reflexivity|]. split; [|split; intros; lia]. intros _. split; [exact NC|].
          split; [|discriminate]. intros _. exists stmt. split; [exact G|]. split; [exact HSt|]. apply Fb. reflexivity.
        * apply IH; [lia|lia|]. split; [|split; [intros; lia|split; intros; lia]]. intros _ k Hk Fk.
          destruct (Nat.eq_dec k stmt) as [->|NE]; [apply Fb in Fk; discriminate|]. apply (I0 k); [lia|exact Fk].
      + destruct (fit_ok stmt ltac:(lia)) as [b [Eb Fb]]. rewrite Eb. cbn [rbind]. destruct b; cbn [negb].
        * assert (CS : cand stmt) by (split; [lia|]; split; [lia|]; apply Fb; reflexivity).
          destruct (Nat.eqb_spec found 0) as [F0|F0].
          -- subst found. specialize (I0 eq_refl). cbn [Nat.eqb].
             assert (MIN : forall k, cand k -> stmt <= k).
             { intros k ((B1 & B2) & _ & Fk). destruct (Nat.le_gt_cases stmt k); [assumption|]. exfalso. apply (I0 k); [lia|exact Fk]. }
             assert (PO : (g_unique fl = true -> hasWild name = true -> False) -> post 1 stmt m2 false).
             { intros X. split; [intros; lia|]. split; [|intros; lia]. intros _. split; [exact CS|]. split; [exact MIN|]. intros U W. destruct (X U W). }
             destruct (g_unique fl) eqn:GU; cbn [negb].
             2:{ exists 1, stmt, m2, false. split; [reflexivity|]. apply PO. discriminate. }
             destruct (hasWild name) eqn:HW; cbn [negb].
             2:{ exists 1, stmt, m2, false. split; [reflexivity|]. apply PO. discriminate. }
             apply IH; [lia|lia|]. split; [intros; lia|]. split.
             { intros _. split; [exact CS|]. split; [lia|]. intros k Ck Lk. apply MIN in Ck. lia. }
             split; [intros; lia|]. intros _. split; [exact GU|exact HW].
          -- destruct (I3 ltac:(lia)) as [U W]. rewrite U, W. cbn [negb].
             apply IH; [lia|lia|]. split; [intros; lia|]. split; [intros; lia|]. split; [|intros _; split; assumption]. intros _.
             destruct (Nat.eqb_spec found 1) as [F1|F1].
             ++ destruct (I1 F1) as (C & L & _). split; [exact C|]. split; [exact CS|]. lia.
             ++ destruct (I2 ltac:(lia)) as (A & B & C). split; [exact A|]. split; [exact B|]. lia.
        * assert (NFs : ~ fit stmt) by (intros Q; apply Fb in Q; discriminate).
          apply IH; [lia|lia|]. split; [|split; [|split]].
          -- intros F k Hk Fk. destruct (Nat.eq_dec k stmt) as [->|NE]; [contradiction|]. apply (I0 F k); [lia|exact Fk].
          -- intros F. destruct (I1 F) as (C & L & U). split; [exact C|]. split; [lia|]. intros k Ck Lk.
             destruct (Nat.eq_dec k stmt) as [->|NE]; [destruct Ck as (_ & _ & Q); contradiction|]. apply U; [exact Ck|lia].
          -- intros F. destruct (I2 F) as (A & B & C). split; [exact A|]. split; [exact B|]. lia.
          -- exact I3.
  Qed.

  (* labels are not repeated *)
  Lemma label_once k j l : hasLabel (e_stmts env) k l -> hasLabel (e_stmts env) j l -> k = j.
  Proof.
    intros A B. destruct EOK as (sorted & Q & LO & all & T).
    destruct (tables_ok _ _ Q LO) as (dups & all' & asrt & T' & D & _). rewrite T in T'. injection T' as <- <- _.
    destruct (Nat.eq_dec k j) as [E|E]; [exact E|]. exfalso. apply (proj2 (D k)). exists l, j. split; [exact A|]. split; [exact B|]. congruence.
  Qed.
  Lemma fit_label k : hasWild name = false -> fit k -> hasLabel (e_stmts env) k name.
  Proof.
    intros HW [s (E & NE & _ & [[P _]|[_ ->]] & _)]; [apply hasWild_ok in P; congruence|]. split; [exact NE|]. exists s. auto.
  Qed.

  Let labOf := labelled env.
  Lemma getStmt_ok : exists z msg, getStatementNum fuel env hyps name start maxS fl = Ok (z, msg) /\
    (g_unique fl = true ->
       (exists k, cand k /\ (forall j, cand j -> j = k) /\ z = Z.of_nat k /\ msg = GM_none) \/
       (~ (exists k, cand k /\ forall j, cand j -> j = k) /\ z = (-1)%Z /\ msg <> GM_none /\
        (msg = GM_earlier -> (forall k, ~ cand k) /\ exists k, maxS <= k /\ start <= k /\ fit k) /\
        (msg = GM_notHyp \/ msg = GM_noAP -> forall k, start <= k -> ~ fit k) /\
        (msg = GM_noP \/ msg = GM_noLabel -> forall k, ~ cand k) /\
        (forall n a b, msg = GM_unique n a b -> exists j k, j < k /\ cand j /\ cand k /\ labOf j a /\ labOf k b))) /\
    (g_unique fl = false ->
       (exists k, cand k /\ (forall j, cand j -> k <= j) /\ z = Z.of_nat k) \/ ((forall k, ~ cand k) /\ z = (-1)%Z)).
  Proof.
    unfold getStatementNum.
    destruct (loop_ok (S N - start) start 0 1 1) as (f & a & b & l & E & P0 & P1 & P2); [lia|lia| |].
    { split; [intros _ k Hk; lia|]. split; [intros; lia|]. split; intros; lia. }
    unfold N in E. rewrite E. cbn [rbind].
    assert (LB : forall k, cand k -> exists x, labelOf (e_stmts env) k = Ok x /\ labOf k x).
    { intros k (_ & _ & s & Es & _). exists (l_label s). unfold labelOf. rewrite Es. split; [reflexivity|]. exists s. auto. }
    destruct (Nat.eqb_spec f 0) as [F0|F0].
    - destruct (P0 F0) as (NC & LT & LF). subst f. cbn [Nat.leb Nat.ltb Nat.eqb rbind andb]. rewrite andb_false_r.
      eexists. eexists. split; [reflexivity|]. split.
      + intros GU. rewrite GU in *. cbn [negb]. right. split; [intros [k [Ck _]]; exact (NC k Ck)|]. split; [reflexivity|].
        assert (LT' : l = true -> (forall k, ~ cand k) /\ exists k, maxS <= k /\ start <= k /\ fit k) by (intros Q; split; [exact NC|exact (LT Q)]).
        specialize (LF eq_refl).
        destruct (g_a fl && g_p fl && g_e fl && g_f fl && negb (g_efOnly fl)); [|destruct (negb (g_a fl) && g_p fl && negb (g_e fl) && negb (g_f fl)); [|destruct (negb (g_e fl) && negb (g_f fl)); destruct l]];
          (split; [discriminate|split; [first [discriminate|intros _; apply LT'; reflexivity]|split; [first [intros [Q|Q]; discriminate Q|intros _; apply LF; reflexivity]|split; [intros _; exact NC|intros ? ? ? Q; discriminate Q]]]]).
      + intros _. right. split; [exact NC|reflexivity].
    - destruct (Nat.leb_spec 2 f) as [F2|F2].
      + destruct (P2 F2) as (GU & CA & CB & L). destruct (LB a CA) as [la [Ea La]]. destruct (LB b CB) as [lb [Ebb Lb]].
        rewrite Ea. cbn [rbind]. rewrite Ebb. cbn [rbind]. rewrite GU. cbn [negb andb].
        destruct (Nat.eqb_spec f 1); [lia|]. eexists. eexists. split; [reflexivity|]. split; [|discriminate].
        intros _. right. split.
        { intros [k [_ U]]. rewrite (U a CA), <- (U b CB) in L. lia. }
        split; [reflexivity|]. split; [discriminate|]. split; [discriminate|]. split; [intros [Q|Q]; discriminate|]. split; [intros [Q|Q]; discriminate|].
        intros n0 x y Q. injection Q as _ <- <-. exists a, b. auto.
      + assert (f = 1) by lia. subst f. destruct (P1 eq_refl) as (C & M & U). cbn [rbind Nat.ltb Nat.leb Nat.eqb]. rewrite andb_false_r.
        eexists. eexists. split; [reflexivity|]. split.
        * intros GU. left. exists a. split; [exact C|]. split; [|split; reflexivity].
          destruct (hasWild name) eqn:HW; [apply U; [exact GU|reflexivity]|].
          intros j Cj. destruct C as (_ & _ & Fa), Cj as (_ & _ & Fj). eapply label_once; apply fit_label; eauto.
        * intros _. left. exists a. auto.
  Qed.
End Stmt.
