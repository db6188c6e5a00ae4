(* AkProofs.v -- proofs about AkModel: one step *)
From Coq Require Import ZifyBool ZifyNat.
From Verif Require Import Base.
From Verif Require Import UniModel UniSpec UniSub UniCore UniStep UniRun UniProofs UniFilter UniMatch UniAll UniFin UniTwice HenModel HenProofs HenMore.
From Verif Require Import MMSpec VerModel VerSpec VerProofs ParModel SqModel SqSpec SqProofs SqAttr PfaModel PfaSpec PfaProofs FltModel FltSpec FltProofs AkModel AkSpec.
Open Scope nat_scope.

(* ---------- separators ---------- *)
Lemma split_sep (mt : nat) x y a b : ~ In mt x -> ~ In mt y -> x ++ mt :: a = y ++ mt :: b -> x = y /\ a = b.
Proof.
  revert y. induction x as [|t x IH]; intros y Nx Ny H; destruct y as [|u y]; cbn [app] in H.
  - injection H as H. auto.
  - injection H as H1 _. exfalso. apply Ny. left. symmetry. exact H1.
  - injection H as H1 _. exfalso. apply Nx. left. exact H1.
  - injection H as -> H. destruct (IH y) as [-> ->]; [intros K; apply Nx; right; exact K|intros K; apply Ny; right; exact K|exact H|]. auto.
Qed.
Lemma sepd_inj mt : forall l m, (forall x, In x l -> ~ In mt x) -> (forall x, In x m -> ~ In mt x) -> sepd mt l = sepd mt m -> l = m.
Proof.
  unfold sepd. intros l m Hl Hm H. injection H as H. revert m Hm H. induction l as [|x l IH]; intros m Hm H; destruct m as [|y m]; cbn [flat_map] in H.
  - reflexivity.
  - rewrite <- app_assoc in H. destruct y; discriminate H.
  - rewrite <- app_assoc in H. destruct x; discriminate H.
  - rewrite <- !app_assoc in H. cbn [app] in H. apply split_sep in H; [|apply Hl; left; reflexivity|apply Hm; left; reflexivity]. destruct H as [-> H].
    f_equal. apply IH; [intros z I; apply Hl; right; exact I|intros z I; apply Hm; right; exact I|exact H].
Qed.
Lemma sepd_cnt mt l : (forall x, In x l -> ~ In mt x) -> count_occ Nat.eq_dec (sepd mt l) mt = S (length l).
Proof.
  intros H. unfold sepd. cbn [count_occ]. destruct (Nat.eq_dec mt mt); [|congruence]. f_equal. induction l as [|x l IH]; [reflexivity|]. cbn [flat_map length].
  rewrite !count_occ_app, IH by (intros y I; apply H; right; exact I). rewrite (proj1 (count_occ_not_In Nat.eq_dec x mt)) by (apply H; left; reflexivity).
  cbn [count_occ]. destruct (Nat.eq_dec mt mt); [reflexivity|congruence].
Qed.
Lemma sepd_in mt l t : In t (sepd mt l) -> t = mt \/ exists x, In x l /\ In t x.
Proof.
  unfold sepd. intros [<-|H]; [auto|]. apply in_flat_map in H. destruct H as [x [I J]]. apply in_app_iff in J. destruct J as [J|[<-|[]]]; [right; eauto|auto].
Qed.
Lemma in_sepd mt l x t : In x l -> In t x -> In t (sepd mt l).
Proof. intros I J. right. apply in_flat_map. exists x. split; [exact I|]. apply in_app_iff. auto. Qed.
Lemma sepd_map mt (f : nat -> nat) l : f mt = mt -> map f (sepd mt l) = sepd mt (map (map f) l).
Proof. intros H. unfold sepd. cbn [map]. rewrite H. f_equal. induction l as [|x l IH]; [reflexivity|]. cbn [flat_map map]. rewrite !map_app, IH. cbn [map]. rewrite H. reflexivity. Qed.
Lemma sepd_flat mt (f : nat -> list nat) l : f mt = [mt] -> flat_map f (sepd mt l) = sepd mt (map (flat_map f) l).
Proof.
  intros H. unfold sepd. cbn [flat_map]. rewrite H. cbn [app]. f_equal. induction l as [|x l IH]; [reflexivity|]. cbn [flat_map map]. rewrite !flat_map_app, IH. cbn [flat_map]. rewrite H. reflexivity.
Qed.

Lemma F2_len {A B} (R : A -> B -> Prop) l m : Forall2 R l m -> length l = length m.
Proof. induction 1; cbn [length]; congruence. Qed.
(* the counter stays 0 *)
Lemma firstH_tc e A B on fuel r t : unifyH fuel e on A B 0 = Ok (r, t) -> t = 0.
Proof.
  unfold unifyH. intros H. apply rbind_ok in H. destruct H as [[u t'] [U H]]. destruct (first_zero e A B _ _ _ U) as [-> _]. cbn [fst snd] in H.
  destruct u as [| |s]; [injection H as _ <-; reflexivity|injection H as _ <-; reflexivity|]. destruct on; [|injection H as _ <-; reflexivity].
  apply rbind_ok in H. destruct H as [x [_ H]]. injection H as _ <-. reflexivity.
Qed.

Section Ak.
  Variable E : fenv.
  Variable T : option tree.
  Hypothesis FO : fltOk E T.
  Notation db := (f_db E).
  Notation iv := (db_isvar (f_db E)).
  Notation e := (f_u E).
  Notation mt := (u_mt (f_u E)).
  Let WD := fo_wf E T FO.
  Let MT := fo_mt E T FO.

  Section St.
    Variables (s : nat) (st : stmtRec).
    Hypothesis HS : stmtAt db s st.
    Hypothesis HA : isAssertion st.
    Hypothesis HF : floated db st.
    Notation dum := (dum E st).
    Lemma mt_con : iv mt = false.
    Proof. rewrite MT. apply (wf_sep_con db WD). Qed.
    Lemma dum_mt : dum mt = mt.
    Proof. apply dum_low, mt_con. Qed.
    Lemma dummies_all l : (forall t, In t l -> iv t = true -> In t (s_reqVars st)) -> dummies E st l = Ok (map dum l).
    Proof.
      induction l as [|t l IH]; intros H; [reflexivity|]. cbn [dummies map]. rewrite IH by (intros u I; apply H; right; exact I).
      unfold dummyOf, FltProofs.dum. destruct (iv t) eqn:V; [|reflexivity]. destruct (indexOf_in t (s_reqVars st)) as [i [-> _]]; [|reflexivity].
      apply (H t (or_introl eq_refl)), V.
    Qed.
    Lemma dum_sep t : iv t = true -> In t (s_reqVars st) -> mt < dum t.
    Proof. intros V I. destruct (dum_var E st t V I) as [i [-> _]]. unfold base. lia. Qed.
    Lemma reqVar v : In v (s_reqVars st) -> iv v = true.
    Proof. intros I. apply (wf_reqVars db WD s st HS HA v) in I. apply I. Qed.

    (* the hypotheses *)
    Lemma hypStrings_ok : exists hs, hypStrings db (s_reqHyps st) = Ok hs /\ hypMaths db st hs.
    Proof.
      unfold hypMaths. assert (H : forall l, (forall h, In h l -> In h (s_reqHyps st)) -> exists hs, hypStrings db l = Ok hs /\ Forall2 (fun h m => exists sh, stmtAt db h sh /\ s_math sh = m) l hs).
      { induction l as [|h l IH]; intros H; [exists []; split; [reflexivity|constructor]|]. destruct IH as [hs [E1 F1]]; [intros h' I; apply H; right; exact I|].
        destruct (wf_hyps db WD s st h HS HA (H h (or_introl eq_refl))) as [sh [K _]]. exists (s_math sh :: hs). cbn [hypStrings]. unfold stmtOf. unfold stmtAt in K. rewrite K, E1.
        split; [reflexivity|]. constructor; [exists sh; split; [exact K|reflexivity]|exact F1]. }
      apply H. auto.
    Qed.
    Variable hs : list (list nat).
    Hypothesis HH : hypMaths db st hs.
    Lemma hs_in x : In x hs -> exists h sh, In h (s_reqHyps st) /\ stmtAt db h sh /\ s_math sh = x.
    Proof.
      intros I. unfold hypMaths in HH. clear HF. induction HH as [|h m l ms [sh [K1 K2]] F IH]; [destruct I|]. destruct I as [<-|I].
      - exists h, sh. split; [left; reflexivity|]. auto.
      - destruct (IH F I) as [h' [sh' [L1 L2]]]. exists h', sh'. split; [right; exact L1|exact L2].
    Qed.
    Lemma hs_tok x t : In x hs -> In t x -> t < mt /\ (iv t = true -> In t (s_reqVars st)).
    Proof.
      intros I J. destruct (hs_in x I) as [h [sh [K1 [K2 K3]]]]. subst x. split.
      - rewrite MT. destruct (wf_hyps db WD s st h HS HA K1) as [sh' [H' K]]. unfold stmtAt in *. rewrite K2 in H'. injection H' as <-. apply (fo_tok E T FO h sh t K2); [left; exact K|exact J].
      - intros V. apply (wf_reqVars db WD s st HS HA t). split; [exact V|]. exists h, sh. auto.
    Qed.
    Lemma math_tok t : In t (s_math st) -> t < mt /\ (iv t = true -> In t (s_reqVars st)).
    Proof. intros I. split; [rewrite MT; apply (fo_tok E T FO s st t HS); [right; exact HA|exact I]|apply (wf_vars_math db WD s st HS HA t I)]. Qed.
    Lemma dum_ne t : t < mt -> (iv t = true -> In t (s_reqVars st)) -> dum t <> mt.
    Proof. intros L V. destruct (iv t) eqn:Ev; [pose proof (dum_sep t Ev (V eq_refl)); lia|rewrite dum_low by exact Ev; lia]. Qed.

    Variable insts : list (list nat).
    Hypothesis IT : forall x t, In x insts -> In t x -> t < mt.
    Notation A := (map dum (sepd mt hs)).
    Notation B := (sepd mt insts).
    Lemma A_eq : A = sepd mt (map (map dum) hs).
    Proof. apply sepd_map, dum_mt. Qed.
    Lemma A_nosep x : In x (map (map dum) hs) -> ~ In mt x.
    Proof.
      intros I J. apply in_map_iff in I. destruct I as [y [<- I]]. apply in_map_iff in J. destruct J as [t [K J]]. destruct (hs_tok y t I J) as [L V]. exact (dum_ne t L V K).
    Qed.
    Lemma B_nosep x : In x insts -> ~ In mt x.
    Proof. intros I J. pose proof (IT x mt I J). lia. Qed.
    Lemma B_ground t : In t B -> t <= mt.
    Proof. intros I. apply sepd_in in I. destruct I as [->|[x [I J]]]; [apply le_n|]. exact (Nat.lt_le_incl _ _ (IT x t I J)). Qed.
    Variable sg : nat -> list nat.
    Hypothesis US : unifier db st insts sg.
    Lemma len_eq : length hs = length insts.
    Proof.
      pose proof (F2_len _ _ _ HH) as L1. pose proof (F2_len _ _ _ US) as L2. exact (eq_trans (eq_sym L1) L2).
    Qed.
    Lemma okIn : okInput e A B.
    Proof.
      constructor; [discriminate|discriminate|rewrite MT; apply (fo_con E T FO)| |apply (fo_min E T FO)|].
      - rewrite A_eq, !sepd_cnt; [|exact B_nosep|exact A_nosep]. rewrite map_length, len_eq. reflexivity.
      - right. intros x [H|H]; cbn [sepd map hd_error] in H; injection H as <-; [rewrite dum_mt|]; lia.
    Qed.
    (* what matches the scheme is a unifier of the hypotheses *)
    Lemma flat_sub f l : (forall t, t <= mt -> f t = [t]) -> (forall t, In t l -> t < mt) -> flat_map f (map dum l) = MMSpec.subst iv (fun v => f (dum v)) l.
    Proof.
      intros F H. unfold MMSpec.subst. induction l as [|t l IH]; [reflexivity|]. cbn [map flat_map]. rewrite IH by (intros u I; apply H; right; exact I). f_equal.
      destruct (iv t) eqn:V; [reflexivity|]. rewrite dum_low by exact V. apply F, Nat.lt_le_incl. exact (H t (or_introl eq_refl)).
    Qed.
    Lemma match_unif f : (forall t, t <= mt -> f t = [t]) -> (forall v, In v (s_reqVars st) -> ~ In mt (f (dum v))) -> flat_map f A = B -> forall v, In v (s_reqVars st) -> f (dum v) = sg v.
    Proof.
      intros FX NS EQ. rewrite A_eq, sepd_flat in EQ by (apply FX; lia). apply sepd_inj in EQ; [| |exact B_nosep].
      2:{ intros x I J. rewrite map_map in I. apply in_map_iff in I. destruct I as [y [<- I]]. rewrite flat_sub in J by (first [exact FX|intros t K; apply (hs_tok y t I K)]).
          unfold MMSpec.subst in J. apply in_flat_map in J. destruct J as [t [Jt J]]. destruct (hs_tok y t I Jt) as [L V]. destruct (iv t) eqn:Ev; [exact (NS t (V eq_refl) J)|]. destruct J as [J|[]]; lia. }
      assert (U2 : unifier db st insts (fun v => f (dum v))).
      { unfold unifier. unfold hypMaths in HH. rewrite <- EQ. assert (G : forall x, In x hs -> forall t, In t x -> t < mt) by (intros x I t J; apply (hs_tok x t I J)).
        clear -HH FX G. induction HH as [|h m l ms [sh [K1 K2]] F IH]; [constructor|]. cbn [map]. constructor.
        - exists sh. split; [exact K1|]. rewrite flat_sub by (first [exact FX|intros t J; apply (G m); [left; reflexivity|exact J]]). subst m. reflexivity.
        - apply IH; [exact F|]. intros x I. apply G. right. exact I. }
      apply (floated_unique db st insts sg _ HF reqVar US U2).
    Qed.
    Lemma ans_values u f : UniSpec.unifier mt (u_min e) A B (unified u) f -> forall v, In v (s_reqVars st) -> f (dum v) = sg v.
    Proof.
      intros U. apply match_unif; [apply (un_fixed _ _ _ _ _ _ U)| |exact (ground_eq e A B _ f B_ground U)].
      intros v I J. apply (un_sep _ _ _ _ _ _ U) in J. pose proof (dum_sep v (reqVar v I) I). lia.
    Qed.
    Lemma sg_low v t : In v (s_reqVars st) -> In t (sg v) -> t < mt.
    Proof.
      intros I J. destruct (HF v I) as [h [sh [c [K1 [K2 [K3 K4]]]]]]. assert (X : exists x, In x insts /\ x = MMSpec.subst iv sg (s_math sh)).
      { unfold unifier in US. clear -US K1 K2. induction US as [|h0 e0 l es [sh0 [U1 U2]] U IH]; [destruct K1|]. destruct K1 as [->|K1].
        - exists e0. split; [left; reflexivity|]. unfold stmtAt in *. rewrite K2 in U1. injection U1 as <-. symmetry. exact U2.
        - destruct (IH U K1) as [x [I ->]]. eexists. split; [right; exact I|reflexivity]. }
      destruct X as [x [Ix ->]]. apply (IT _ t Ix). rewrite K3. unfold MMSpec.subst. cbn [flat_map]. rewrite K4, (reqVar v I), app_nil_r. right. exact J.
    Qed.
    Lemma ans_makes u : answer e A B u -> makeSubst e u (map dum (s_math st)) = Ok (MMSpec.subst iv sg (s_math st), false).
    Proof.
      intros [[SO [TM [f C]]] [EAB LP]]. destruct (answer_core e A B okIn u f C EAB LP) as [U [M D]]. pose proof (ans_values u f U) as V. pose proof (un_fixed _ _ _ _ _ _ U) as FX.
      rewrite M. f_equal. f_equal.
      - unfold app_subst. rewrite flat_sub by (first [exact FX|intros t I; apply (math_tok t I)]). unfold MMSpec.subst. apply flat_map_in. intros t I. destruct (iv t) eqn:Ev; [|reflexivity].
        apply V. apply (math_tok t I), Ev.
      - apply Bool.not_true_is_false. intros X. apply existsb_exists in X. destruct X as [x [I X]]. apply andb_true_iff in X. destruct X as [L X]. apply in_map_iff in I. destruct I as [v [<- I]].
        destruct (math_tok v I) as [K1 K2]. destruct (iv v) eqn:Ev; [|rewrite dum_low in L by exact Ev; lia]. specialize (K2 eq_refl).
        assert (J : In (dum v) (vars (u_stk u))).
        { apply D. intros Y. rewrite (V v K2) in Y. pose proof (sg_low v (dum v) K2 ltac:(rewrite Y; left; reflexivity)). lia. }
        assert (Q : existsb (Nat.eqb (dum v)) (vars (u_stk u)) = true) by (apply existsb_exists; exists (dum v); split; [exact J|apply Nat.eqb_refl]).
        rewrite Q in X. discriminate X.
    Qed.
    Lemma match_values f : matching mt (u_min e) (plausible (u_min e) (u_name e) (u_con e) (u_axioms e)) A B f -> forall v, In v (s_reqVars st) -> f (dum v) = sg v.
    Proof.
      intros M. apply match_unif; [apply (ma_fixed _ _ _ _ _ _ M)| |exact (ma_eq _ _ _ _ _ _ M)].
      intros v I. destruct (HF v I) as [h [sh [c [K1 [K2 [K3 K4]]]]]]. apply (ma_val _ _ _ _ _ _ M); [|exact (dum_sep v (reqVar v I) I)].
      apply in_map. assert (X : In (s_math sh) hs).
      { unfold hypMaths in HH. clear -HH K1 K2. induction HH as [|h0 m l ms [sh0 [L1 L2]] F IH]; [destruct K1|]. destruct K1 as [->|K1]; [|right; exact (IH F K1)].
        left. unfold stmtAt in *. rewrite K2 in L1. injection L1 as <-. symmetry. exact L2. }
      apply (in_sepd mt hs (s_math sh) v X). rewrite K3. right. left. reflexivity.
    Qed.
    Lemma A_in x : In x A -> x <= mt \/ exists v, In v (s_reqVars st) /\ x = dum v.
    Proof.
      intros I. apply in_map_iff in I. destruct I as [t [<- I]]. apply sepd_in in I. destruct I as [->|[y [I J]]]; [left; rewrite dum_mt; lia|].
      destruct (hs_tok y t I J) as [L V]. destruct (iv t) eqn:Ev; [right; eauto|left; rewrite dum_low by exact Ev; lia].
    Qed.
    Definition valsOf (x : nat) : list nat :=
      if mt <? x then match nth_error (s_reqVars st) (x - base E) with Some v => sg v | None => [x] end else [x].
    Lemma valsOf_dum v : In v (s_reqVars st) -> valsOf (dum v) = sg v.
    Proof.
      intros I. destruct (dum_var E st v (reqVar v I) I) as [i [-> K]]. unfold valsOf.
      replace (mt <? base E + i) with true by (unfold base; lia). replace (base E + i - base E) with i by lia. rewrite K. reflexivity.
    Qed.
    Lemma valsOf_low t : t <= mt -> valsOf t = [t].
    Proof. intros L. unfold valsOf. replace (mt <? t) with false by lia. reflexivity. Qed.
    Lemma sg_matches : (forall v, In v (s_reqVars st) -> okValue E (sg v)) ->
      matching mt (u_min e) (plausible (u_min e) (u_name e) (u_con e) (u_axioms e)) A B valsOf.
    Proof.
      intros K. constructor; [|intros t L; apply valsOf_low, L|].
      - unfold app_subst. rewrite A_eq, sepd_flat by (apply valsOf_low; lia). f_equal. rewrite map_map. unfold hypMaths in HH. unfold unifier in US.
        assert (G : forall x, In x hs -> flat_map valsOf (map dum x) = MMSpec.subst iv sg x).
        { intros x I. rewrite flat_sub by (first [exact valsOf_low|intros t J; apply (hs_tok x t I J)]). unfold MMSpec.subst. apply flat_map_in. intros t J. destruct (iv t) eqn:Ev; [|reflexivity].
          apply valsOf_dum. apply (hs_tok x t I J), Ev. }
        clear -HH US G. revert US. generalize insts. induction HH as [|h m l ms [sh [K1 K2]] F IH]; intros is U; inversion U as [|? ? ? ? [sh' [U1 U2]] U3]; subst; [reflexivity|]. cbn [map]. f_equal.
        + rewrite G by (left; reflexivity). unfold stmtAt in *. rewrite K1 in U1. injection U1 as <-. reflexivity.
        + exact (IH F (fun x I => G x (or_intror I)) _ U3).
      - intros x I L. destruct (A_in x I) as [J|[v [J ->]]]; [lia|]. rewrite valsOf_dum by exact J. destruct (K v J) as [K1 K2]. split; [exact K1|]. split; [|exact K2].
        intros Q. pose proof (sg_low v mt J Q). lia.
    Qed.
    Lemma no_second fuel on h t h' t' : unifyH fuel e on A B 0 = Ok (HYes h, t) -> unifyHNext fuel e on A B h t = Ok (HYes h', t') -> False.
    Proof.
      intros H1 H2. assert (Q : uniqueUnif fuel e on A B 0 = Ok (QMany h', t')) by (unfold uniqueUnif; rewrite H1; cbn [rbind fst snd]; rewrite H2; reflexivity).
      destruct (unique_many e A B okIn on fuel 0 t' h' B_ground Q) as [f [g [x [Mf [Mg [I N]]]]]]. apply N.
      destruct (A_in x I) as [L|[v [J ->]]]; [rewrite (ma_fixed _ _ _ _ _ _ Mf x L), (ma_fixed _ _ _ _ _ _ Mg x L); reflexivity|].
      rewrite (match_values f Mf v J), (match_values g Mg v J). reflexivity.
    Qed.
  End St.

  Lemma knownStep_ok s st insts sg : stmtAt db s st -> isAssertion st -> floated db st -> (forall x t, In x insts -> In t x -> t < mt) -> unifier db st insts sg ->
    exists o K, (forall fuel, K <= fuel -> knownStep fuel E st insts = Ok o) /\ (o = None \/ o = Some (MMSpec.subst iv sg (s_math st))) /\
      ((forall v, In v (s_reqVars st) -> okValue E (sg v)) -> o <> None).
  Proof.
    intros HS HA HF IT US. destruct (hypStrings_ok s st HS HA) as [hs [EH HH]]. pose proof (okIn s st HS HA hs HH insts IT sg US) as OK.
    assert (D1 : dummies E st (sepd mt hs) = Ok (map (dum E st) (sepd mt hs))).
    { apply dummies_all. intros t I V. apply sepd_in in I. destruct I as [->|[x [I J]]]; [rewrite mt_con in V; discriminate V|]. apply (hs_tok s st HS HA hs HH x t I J), V. }
    assert (D2 : dummies E st (s_math st) = Ok (map (dum E st) (s_math st))) by (apply dummies_all; intros t I V; apply (math_tok s st HS HA t I), V).
    destruct (first_ends e _ _ OK (f_on E) 0) as [[r t] [K1 [G1 U1]]].
    assert (NT : r <> HTimeout) by (exact (firstH_zero _ _ _ _ _ _ _ (U1 K1 (le_n _)))). assert (t = 0) by (exact (firstH_tc _ _ _ _ _ _ _ (U1 K1 (le_n _)))). subst t.
    destruct r as [| |h]; [|congruence|].
    - exists None, K1. split; [|split; [auto|]].
      + intros fuel L. unfold knownStep. rewrite EH. cbn [rbind]. rewrite D1. cbn [rbind]. rewrite D2. cbn [rbind]. rewrite (U1 fuel L). reflexivity.
      + intros P. exfalso. assert (AL : allAnswersH e (f_on E) (map (dum E st) (sepd mt hs)) (sepd mt insts) []) by (eapply ah_none; exact (U1 K1 (le_n _))).
        destruct (henty_match e _ _ OK (f_on E) [] _ (B_ground insts IT) (sg_matches s st HS HA HF hs HH insts IT sg US P) AL) as [h [[] _]].
    - cbn [goodH fst] in G1. destruct (next_endsH e _ _ OK (f_on E) h 0 G1) as [[r' t'] [K2 [_ U2]]].
      pose proof (ans_makes s st HS HA HF hs HH insts IT sg US (h_s h) G1) as M.
      exists (Some (MMSpec.subst iv sg (s_math st))), (Nat.max K1 K2). split; [|split; [auto|discriminate]].
      intros fuel L. unfold knownStep. rewrite EH. cbn [rbind]. rewrite D1. cbn [rbind]. rewrite D2. cbn [rbind]. rewrite (U1 fuel) by lia. cbn [rbind fst snd]. rewrite M. cbn [rbind fst snd].
      pose proof (U2 fuel ltac:(lia)) as U2'. rewrite U2'. cbn [rbind fst]. destruct r' as [| |h']; [reflexivity| |].
      + exfalso. exact (loop_zero _ _ _ _ _ _ _ _ _ _ U2' eq_refl).
      + exfalso. exact (no_second s st HS HA HF hs HH insts IT sg US fuel (f_on E) h 0 h' t' (U1 fuel ltac:(lia)) U2').
  Qed.
End Ak.
