(* FltProofs.v -- proofs about FltModel: the parts of a search step *)
From Coq Require Import ZifyBool ZifyNat Permutation.
From Verif Require Import Base.
From Verif Require Import UniModel UniSpec UniSub UniCore UniStep UniRun UniProofs UniFilter UniMatch UniAll UniFin UniTwice HenModel HenProofs HenMore.
From Verif Require Import MMSpec VerModel VerSpec ParModel SqModel SqSpec SqProofs SqAttr PfaModel PfaSpec PfaProofs FltModel FltSpec.
Open Scope nat_scope.

Lemma memb_in x l : memb x l = true <-> In x l.
Proof. unfold memb. rewrite existsb_exists. split; [intros [y [K1 K2]]; apply Nat.eqb_eq in K2; subst y; exact K1|intros K; exists x; split; [exact K|apply Nat.eqb_refl]]. Qed.
Lemma indexOf_in x l : In x l -> exists i, indexOf x l = Some i /\ nth_error l i = Some x.
Proof.
  induction l as [|y l IH]; intros H; [destruct H|]. cbn [indexOf]. destruct (Nat.eqb y x) eqn:E.
  - apply Nat.eqb_eq in E. subst y. exists 0. split; reflexivity.
  - destruct H as [->|H]; [rewrite Nat.eqb_refl in E; discriminate E|]. destruct (IH H) as [i [-> K]]. exists (S i). split; [reflexivity|exact K].
Qed.
Lemma hd_in {A} (l : list A) x : hd_error l = Some x -> In x l.
Proof. destruct l; intros H; [discriminate H|]. injection H as <-. left. reflexivity. Qed.
Lemma flat_map_in {A B} (f g : A -> list B) l : (forall x, In x l -> f x = g x) -> flat_map f l = flat_map g l.
Proof. induction l as [|a l IH]; intros H; [reflexivity|]. cbn [flat_map]. rewrite (H a) by (left; reflexivity). f_equal. apply IH. intros x I. apply H. right. exact I. Qed.
Lemma subst_last iv sg l t : MMSpec.subst iv sg (l ++ [t]) = MMSpec.subst iv sg l ++ (if iv t then sg t else [t]).
Proof. unfold MMSpec.subst. rewrite flat_map_app. cbn [flat_map]. rewrite app_nil_r. reflexivity. Qed.

(* ---------- quickMatchFilter rejects nothing that matches ---------- *)
Lemma filter_complete db st sg m : MMSpec.subst (db_isvar db) sg (s_math st) = m -> isAssertion st -> m <> [] -> s_math st <> [] ->
  quickMatchFilter db st m = Ok true.
Proof.
  intros H AS NM NC. unfold quickMatchFilter. replace (isAP (s_type st)) with true by (destruct AS as [->| ->]; reflexivity). cbn [negb].
  assert (IN : forall t, In t (s_math st) -> db_isvar db t = false -> In t m).
  { intros t I V. rewrite <- H. unfold MMSpec.subst. apply in_flat_map. exists t. split; [exact I|]. rewrite V. left. reflexivity. }
  assert (LST : db_isvar db (last (s_math st) 0) = false -> last m 0 = last (s_math st) 0).
  { intros V. rewrite (app_removelast_last 0 NC) in H. rewrite subst_last in H. rewrite V in H. rewrite <- H. apply last_last. }
  assert (FA : forallb (fun t => negb (isConst db t) || memb t m) (s_math st) = true).
  { apply forallb_forall. intros t I. unfold isConst. destruct (db_isvar db t) eqn:V; [reflexivity|]. cbn [negb orb]. apply memb_in, IN; assumption. }
  rewrite FA. clear FA IN.
  destruct m as [|m0 mr]; [congruence|]. destruct (s_math st) as [|c0 cr] eqn:EC; [congruence|]. clear NM NC.
  assert (H0 : db_isvar db c0 = false -> m0 = c0 /\ mr = MMSpec.subst (db_isvar db) sg cr).
  { intros V. unfold MMSpec.subst in H. cbn [flat_map] in H. rewrite V in H. cbn [app] in H. injection H as -> H. split; [reflexivity|]. symmetry. exact H. }
  unfold symOf, isConst.
  assert (C1 : negb ((if negb (db_isvar db m0) then m0 else 0) =? 0) && negb ((if negb (db_isvar db m0) then m0 else 0) =? c0) && negb (db_isvar db c0) = false).
  { destruct (db_isvar db c0) eqn:V; [apply andb_false_r|]. destruct (H0 eq_refl) as [-> _]. rewrite V. cbn [negb]. rewrite Nat.eqb_refl. cbn. rewrite andb_false_r. reflexivity. }
  rewrite C1. clear C1.
  match goal with |- context [if negb ?x && match cr with _ => _ end then _ else _] => assert (C2 : negb x && match cr with c1 :: _ => negb ((match mr with m1 :: _ => if (if negb (db_isvar db m0) then m0 else 0) =? 0 then 0 else if negb (db_isvar db m1) then m1 else 0 | [] => 0 end) =? c1) && negb (db_isvar db c0) && negb (db_isvar db c1) | [] => false end = false) end.
  { destruct cr as [|c1 cr]; [apply andb_false_r|]. destruct (db_isvar db c0) eqn:V; [rewrite andb_false_r; cbn [andb]; apply andb_false_r|].
    destruct (db_isvar db c1) eqn:V1; [rewrite !andb_false_r; reflexivity|]. destruct (H0 eq_refl) as [-> E]. rewrite V. cbn [negb].
    unfold MMSpec.subst in E. cbn [flat_map] in E. rewrite V1 in E. cbn [app] in E. subst mr. rewrite V1. cbn [negb].
    destruct (c0 =? 0); [reflexivity|]. rewrite Nat.eqb_refl. cbn. rewrite andb_false_r. reflexivity. }
  rewrite C2. clear C2.
  assert (C3 : negb ((if negb (db_isvar db (last (m0 :: mr) 0)) then last (m0 :: mr) 0 else 0) =? 0) && negb ((if negb (db_isvar db (last (m0 :: mr) 0)) then last (m0 :: mr) 0 else 0) =? last (c0 :: cr) 0) && negb (db_isvar db (last (c0 :: cr) 0)) = false).
  { destruct (db_isvar db (last (c0 :: cr) 0)) eqn:V; [apply andb_false_r|]. rewrite (LST eq_refl), V. cbn [negb]. rewrite Nat.eqb_refl. cbn [negb]. rewrite andb_false_r. reflexivity. }
  rewrite C3. reflexivity.
Qed.
Lemma filter_ok db st m : m <> [] -> (isAssertion st -> s_math st <> []) -> exists b, quickMatchFilter db st m = Ok b /\ (b = true -> isAssertion st).
Proof.
  intros NM NC. unfold quickMatchFilter. destruct (isAP (s_type st)) eqn:ET; cbn [negb].
  2:{ exists false. split; [reflexivity|discriminate]. }
  assert (AS : isAssertion st) by (unfold isAssertion; destruct (s_type st); try discriminate ET; auto).
  specialize (NC AS). destruct m as [|m0 mr]; [congruence|]. destruct (s_math st) as [|c0 cr]; [congruence|].
  repeat match goal with |- context [if ?c then _ else _] => destruct c end; eexists; (split; [reflexivity|auto]).
Qed.

Section Flt.
  Variable E : fenv.
  Variable T : option tree.
  Hypothesis FO : fltOk E T.
  Notation db := (f_db E).
  Notation iv := (db_isvar (f_db E)).
  Notation e := (f_u E).
  Notation mt := (u_mt (f_u E)).
  Let WD := fo_wf E T FO.
  Lemma MT : mt = db_sep db. Proof. exact (fo_mt E T FO). Qed.

  (* ---------- the dummy variables ---------- *)
  Section St.
    Variables (s : nat) (st : stmtRec).
    Hypothesis HS : stmtAt db s st.
    Hypothesis HA : isAssertion st.
    Hypothesis HV : forall v, In v (s_reqVars st) -> In v (s_math st).
    Definition base : nat := mt + 1 + f_pipDummy E.
    Definition dum (t : nat) : nat := if iv t then match indexOf t (s_reqVars st) with Some i => base + i | None => 0 end else t.
    Definition varsOk (l : list nat) : Prop := forall t, In t l -> (iv t = true -> In t (s_reqVars st)) /\ t < db_sep db.
    Lemma dummies_ok l : varsOk l -> dummies E st l = Ok (map dum l).
    Proof.
      induction l as [|t l IH]; intros H; [reflexivity|]. cbn [dummies map]. rewrite IH by (intros u I; apply H; right; exact I).
      unfold dummyOf, dum. destruct (iv t) eqn:V; [|reflexivity]. destruct (indexOf_in t (s_reqVars st)) as [i [-> _]]; [|reflexivity].
      apply (H t (or_introl eq_refl)), V.
    Qed.
    Lemma math_ok : varsOk (s_math st).
    Proof. intros t I. split; [apply (wf_vars_math db WD s st HS HA t I)|]. apply (fo_tok E T FO s st t HS); [right; exact HA|exact I]. Qed.
    Lemma hyp_ok h sh : In h (s_reqHyps st) -> stmtAt db h sh -> varsOk (s_math sh).
    Proof.
      intros I H t J. split; [intros V; apply (wf_reqVars db WD s st HS HA t); split; [exact V|]; exists h, sh; auto|].
      destruct (wf_hyps db WD s st h HS HA I) as [sh' [H' K]]. unfold stmtAt in *. rewrite H in H'. injection H' as <-. apply (fo_tok E T FO h sh t H); [left; exact K|exact J].
    Qed.
    (* the schemes of the hypotheses *)
    Definition hypMath (h : nat) : list nat := match nth_error (db_stmts db) h with Some sh => s_math sh | None => [] end.
    Lemma schemes_ok : forall hyps, (forall h, In h hyps -> In h (s_reqHyps st)) -> hypSchemes E st hyps = Ok (map (fun h => map dum (hypMath h)) hyps).
    Proof.
      induction hyps as [|h hyps IH]; intros H; [reflexivity|]. cbn [hypSchemes map]. rewrite IH by (intros h' I; apply H; right; exact I).
      destruct (wf_hyps db WD s st h HS HA (H h (or_introl eq_refl))) as [sh [K _]]. unfold stmtOf, hypMath. unfold stmtAt in K. rewrite K. cbn [rget rbind].
      rewrite (dummies_ok (s_math sh)) by (apply (hyp_ok h sh); [apply H; left; reflexivity|exact K]). reflexivity.
    Qed.
    Lemma dum_low t : iv t = false -> dum t = t.
    Proof. intros V. unfold dum. rewrite V. reflexivity. Qed.
    Lemma dum_var t : iv t = true -> In t (s_reqVars st) -> exists i, dum t = base + i /\ nth_error (s_reqVars st) i = Some t.
    Proof. intros V I. unfold dum. rewrite V. destruct (indexOf_in _ _ I) as [i [-> K]]. exists i. auto. Qed.

    Variable m : list nat.
    Hypothesis GM : goal E m.
    Lemma gr : forall t, In t m -> t <= mt.
    Proof. intros t I. rewrite MT. apply GM in I. lia. Qed.
    Lemma head_ne : s_math st <> [].
    Proof. destruct (wf_head db WD s st HS (or_intror HA)) as [c [r [H _]]]. congruence. Qed.
    Lemma cnt0 l : (forall t, In t l -> t <> mt) -> count_occ Nat.eq_dec l mt = 0.
    Proof. intros H. apply count_occ_not_In. intros I. exact (H _ I eq_refl). Qed.
    Lemma ok_in : okInput e (map dum (s_math st)) m.
    Proof.
      constructor.
      - destruct (s_math st) eqn:X; [destruct (head_ne X)|discriminate].
      - apply GM.
      - rewrite MT. apply (fo_con E T FO).
      - rewrite !cnt0; [reflexivity|intros t I; apply GM in I; rewrite MT; lia|].
        intros t I. apply in_map_iff in I. destruct I as [u [<- I]]. destruct (math_ok u I) as [K1 K2]. destruct (iv u) eqn:V.
        + destruct (dum_var u V (K1 eq_refl)) as [i [-> _]]. unfold base. lia.
        + rewrite dum_low by exact V. rewrite MT. lia.
      - apply (fo_min E T FO).
      - right. intros x [H|H].
        + destruct (wf_head db WD s st HS (or_intror HA)) as [c [r [X V]]]. pose proof (proj2 (math_ok c ltac:(rewrite X; left; reflexivity))) as L.
          rewrite X in H. cbn [map hd_error] in H. injection H as <-. rewrite dum_low by exact V. rewrite MT. lia.
        + apply gr. apply hd_in, H.
    Qed.
    Lemma flat_dum f l : (forall t, t <= mt -> f t = [t]) -> varsOk l -> flat_map f (map dum l) = MMSpec.subst iv (fun v => f (dum v)) l.
    Proof.
      intros F H. unfold MMSpec.subst. induction l as [|t l IH]; [reflexivity|]. cbn [map flat_map]. rewrite IH by (intros u I; apply H; right; exact I). f_equal.
      destruct (iv t) eqn:V; [reflexivity|]. rewrite dum_low by exact V. apply F. rewrite MT. pose proof (proj2 (H t (or_introl eq_refl))). lia.
    Qed.
    (* an answer of unify() for the scheme, as a substitution of the statement's variables *)
    Lemma ans_subst u : answer e (map dum (s_math st)) m u -> exists sg, MMSpec.subst iv sg (s_math st) = m /\
      (forall v, In v (s_reqVars st) -> forall t, In t (sg v) -> In t m) /\
      forall l, varsOk l -> makeSubst e u (map dum l) = Ok (MMSpec.subst iv sg l, false).
    Proof.
      intros [[SO [TM [f C]]] [EAB LP]]. destruct (answer_core e (map dum (s_math st)) m ok_in u f C EAB LP) as [U [M D]].
      pose proof (ground_eq e _ m _ f gr U) as EQ. pose proof (un_fixed _ _ _ _ _ _ U) as FX.
      assert (VAL : forall v, In v (s_reqVars st) -> forall t, In t (f (dum v)) -> In t m).
      { intros v I t J. rewrite <- EQ. apply in_flat_map. exists (dum v). split; [apply in_map, HV, I|exact J]. }
      exists (fun v => f (dum v)). split; [rewrite <- (flat_dum f (s_math st) FX math_ok); exact EQ|]. split; [exact VAL|].
      intros l H. rewrite M. f_equal. f_equal; [exact (flat_dum f l FX H)|].
      apply Bool.not_true_is_false. intros X. apply existsb_exists in X. destruct X as [x [I X]]. apply andb_true_iff in X. destruct X as [L X]. apply in_map_iff in I. destruct I as [v [<- I]].
      destruct (H v I) as [K1 K2]. destruct (iv v) eqn:V; [|rewrite dum_low in L by exact V; rewrite MT in L; lia]. specialize (K1 eq_refl).
      assert (J : In (dum v) (vars (u_stk u))).
      { apply D. intros X2. assert (Y : In (dum v) m) by (apply (VAL v K1); rewrite X2; left; reflexivity). apply gr in Y. lia. }
      assert (Q : existsb (Nat.eqb (dum v)) (vars (u_stk u)) = true) by (apply existsb_exists; exists (dum v); split; [exact J|apply Nat.eqb_refl]).
      rewrite Q in X. discriminate X.
    Qed.
    (* and the other way round *)
    Definition valOf (sg : nat -> list nat) (x : nat) : list nat :=
      if mt <? x then match nth_error (s_reqVars st) (x - base) with Some v => sg v | None => [x] end else [x].
    Lemma valOf_dum sg v : In v (s_reqVars st) -> valOf sg (dum v) = sg v.
    Proof.
      intros I. pose proof (proj1 (proj1 (wf_reqVars db WD s st HS HA v) I)) as V. destruct (dum_var v V I) as [i [-> K]]. unfold valOf.
      replace (mt <? base + i) with true by (unfold base; lia). replace (base + i - base) with i by lia. rewrite K. reflexivity.
    Qed.
    Lemma valOf_low sg t : t <= mt -> valOf sg t = [t].
    Proof. intros L. unfold valOf. replace (mt <? t) with false by lia. reflexivity. Qed.
    Lemma valOf_subst sg l : varsOk l -> flat_map (valOf sg) (map dum l) = MMSpec.subst iv sg l.
    Proof.
      intros H. rewrite flat_dum; [|intros t L; apply valOf_low, L|exact H]. unfold MMSpec.subst. induction l as [|t l IH]; [reflexivity|]. cbn [flat_map].
      rewrite IH by (intros u I; apply H; right; exact I). f_equal. destruct (iv t) eqn:V; [|reflexivity]. apply valOf_dum. apply (H t (or_introl eq_refl)), V.
    Qed.
    Lemma sg_matching sg : MMSpec.subst iv sg (s_math st) = m -> (forall v, In v (s_reqVars st) -> okValue E (sg v)) ->
      matching mt (u_min e) (plausible (u_min e) (u_name e) (u_con e) (u_axioms e)) (map dum (s_math st)) m (valOf sg).
    Proof.
      intros H K. constructor; [unfold app_subst; rewrite (valOf_subst sg _ math_ok); exact H|intros t L; apply valOf_low, L|].
      intros x I L. apply in_map_iff in I. destruct I as [v [<- I]]. destruct (math_ok v I) as [K1 K2].
      destruct (iv v) eqn:V; [|rewrite dum_low in L by exact V; rewrite MT in L; lia]. specialize (K1 eq_refl). rewrite valOf_dum by exact K1. destruct (K v K1) as [K3 K4].
      split; [exact K3|]. split; [|exact K4]. intros J. assert (In mt m); [|apply GM in H0; rewrite MT in H0; lia].
      rewrite <- H. unfold MMSpec.subst. apply in_flat_map. exists v. split; [exact I|]. rewrite V. exact J.
    Qed.
    (* an answer that has the values of sg gives what sg gives *)
    Lemma hit_subst sg u w l : answer e (map dum (s_math st)) m u -> (forall x, In x (map dum (s_math st)) -> gives e u [x] (valOf sg x)) -> varsOk l ->
      makeSubst e u (map dum l) = Ok w -> fst w = MMSpec.subst iv sg l.
    Proof.
      intros A G H M. destruct (ans_subst u A) as [sg' [_ [_ K]]]. rewrite (K l H) in M. apply Ok_inj in M. subst w. cbn [fst].
      unfold MMSpec.subst. apply flat_map_in. intros t I. destruct (iv t) eqn:V; [|reflexivity]. pose proof (proj1 (H t I) V) as J.
      pose proof (G (dum t) ltac:(apply in_map, HV, J)) as [b X]. pose proof (K [t] ltac:(intros x [<-|[]]; split; [intros _; exact J|apply (H t I)])) as Y. cbn [map] in Y. rewrite X in Y.
      injection Y as Y _. unfold MMSpec.subst in Y. cbn [flat_map] in Y. rewrite V, app_nil_r, valOf_dum in Y by exact J. symmetry. exact Y.
    Qed.
  End St.
End Flt.
