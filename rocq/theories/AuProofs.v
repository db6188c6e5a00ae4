(* AuProofs.v -- proofs about AuModel *)
From Coq Require Import ZifyBool ZifyNat Wf_nat.
From Verif Require Import Base.
From Verif Require Import UniModel UniSpec UniProofs HenModel HenProofs HenMore.
From Verif Require Import MMSpec VerModel VerSpec ParModel SqModel SqSpec SqProofs SqAttr PfaModel PfaSpec PfaProofs FltModel FltSpec RepSpec AkModel AkSpec AkProofs AkMain MinSpec AuModel AuSpec.
Open Scope nat_scope.

Lemma strEqb_eq a b : strEqb a b = true <-> a = b.
Proof. unfold strEqb. destruct (list_eq_dec Z.eq_dec a b); split; congruence. Qed.
Lemma ofZ_nil l : ofZ l = [] <-> l = [].
Proof. unfold ofZ. destruct l; split; [reflexivity|reflexivity|discriminate|discriminate]. Qed.
Lemma toZ_inj a b : toZ a = toZ b -> a = b.
Proof. intros H. rewrite <- (to_of a), <- (to_of b), H. reflexivity. Qed.

(* ---------- substitution ---------- *)
Lemma app_comp f g l : app_subst g (app_subst f l) = app_subst (fun t => app_subst g (f t)) l.
Proof. unfold app_subst. induction l as [|t l IH]; [reflexivity|]. cbn [flat_map]. rewrite flat_map_app, IH. reflexivity. Qed.
Lemma app_fixed f l : (forall t, In t l -> f t = [t]) -> app_subst f l = l.
Proof. unfold app_subst. induction l as [|t l IH]; intros H; [reflexivity|]. cbn [flat_map]. rewrite (H t) by (left; reflexivity). cbn. f_equal. apply IH. intros u I. apply H. right. exact I. Qed.
Lemma app_not_fixed f l : app_subst f l <> l -> exists t, In t l /\ f t <> [t].
Proof.
  unfold app_subst. induction l as [|t l IH]; intros H; [exfalso; apply H; reflexivity|]. cbn [flat_map] in H. destruct (list_eq_dec Nat.eq_dec (f t) [t]) as [Q|Q].
  - rewrite Q in H. cbn in H. destruct IH as [u [I X]]; [intros W; apply H; rewrite W; reflexivity|]. exists u. split; [right; exact I|exact X].
  - exists t. split; [left; reflexivity|exact Q].
Qed.
Lemma app_subst_comp f iv sg m : (forall t, In t m -> iv t = false -> f t = [t]) -> app_subst f (MMSpec.subst iv sg m) = MMSpec.subst iv (fun t => app_subst f (sg t)) m.
Proof.
  unfold app_subst, MMSpec.subst. induction m as [|t m IH]; intros H; [reflexivity|]. cbn [flat_map]. rewrite flat_map_app. rewrite IH by (intros u I; apply H; right; exact I). f_equal.
  destruct (iv t) eqn:V; [reflexivity|]. cbn. rewrite (H t (or_introl eq_refl) V). reflexivity.
Qed.
Lemma onString_to f y : onString f (toZ y) = toZ (app_subst f y).
Proof. unfold onString. rewrite to_of. reflexivity. Qed.

Definition shape (E : fenv) (s : pip) : Prop :=
  (length (tg s) = length (pf s) /\ length (sr s) = length (pf s) /\ length (us s) = length (pf s)) /\
  (forall x, In x (tg s) -> scheme (f_db E) x) /\ (forall x, In x (sr s) -> x = [] \/ scheme (f_db E) x) /\ (forall x, In x (us s) -> x = [] \/ entry E x).

Section Au.
  Variable E : fenv.
  Hypothesis FO : fltOk E None.
  Notation db := (f_db E).
  Notation e := (f_u E).
  Notation mt := (u_mt (f_u E)).
  Lemma mt_sep : mt = db_sep db.
  Proof. exact (fo_mt E None FO). Qed.

  Lemma scheme_ne x : scheme db x -> x <> [].
  Proof. intros [y [-> [[c [r [-> _]]] _]]]. discriminate. Qed.
  Lemma scheme_on f x : (forall t, t <= mt -> f t = [t]) -> (forall t, In mt (f t) -> t = mt) -> scheme db x -> scheme db (onString f x).
  Proof.
    rewrite mt_sep. intros F S [y [-> [[c [r [-> L]]] N]]]. rewrite onString_to. eexists. split; [reflexivity|]. split.
    - exists c, (app_subst f r). unfold app_subst. cbn [flat_map]. rewrite (F c) by lia. split; [reflexivity|exact L].
    - intros I. unfold app_subst in I. apply in_flat_map in I. destruct I as [t [I J]]. apply S in J. subst t. exact (N I).
  Qed.
  Lemma scheme_entry x : scheme db x -> entry E x.
  Proof. intros [y [-> [[c [r [-> L]]] N]]]. exists (c :: r). split; [reflexivity|]. split; [discriminate|]. split; [exact N|]. right. intros c' r' H. injection H as <- _. exact L. Qed.
  Lemma entry_on f x : (forall t, t <= mt -> f t = [t]) -> (forall t, In mt (f t) -> t = mt) -> entry E x -> onString f x = [] \/ entry E (onString f x).
  Proof.
    rewrite mt_sep. intros F S [y [-> [NE [N H]]]]. rewrite onString_to. destruct (app_subst f y) as [|t l] eqn:Q; [left; reflexivity|]. right. exists (t :: l). split; [reflexivity|]. split; [discriminate|]. split.
    - rewrite <- Q. intros I. unfold app_subst in I. apply in_flat_map in I. destruct I as [u [I J]]. apply S in J. subst u. exact (N I).
    - destruct H as [H|H]; [left; exact H|right]. intros c r EQ. injection EQ as <- _. destruct y as [|c0 y]; [congruence|]. specialize (H c0 y eq_refl). unfold app_subst in Q. cbn [flat_map] in Q.
      rewrite (F c0) in Q by lia. injection Q as <- _. exact H.
  Qed.
  Lemma two_entries a b : entry E a -> entry E b -> okInput e (ofZ a) (ofZ b).
  Proof.
    intros [y [-> [NE [N H]]]] [y' [-> [NE' [N' H']]]]. rewrite !to_of. constructor; [exact NE|exact NE'| | | |].
    - rewrite mt_sep. apply (fo_con E None FO).
    - rewrite mt_sep. rewrite !(proj1 (count_occ_not_In _ _ _)) by assumption. reflexivity.
    - apply (fo_min E None FO).
    - destruct H as [H|H]; [left; exact H|]. destruct H' as [H'|H']; [left; exact H'|]. right. rewrite mt_sep. intros x [Q|Q].
      + destruct y as [|c r]; [discriminate|]. injection Q as <-. pose proof (H c r eq_refl). lia.
      + destruct y' as [|c r]; [discriminate|]. injection Q as <-. pose proof (H' c r eq_refl). lia.
  Qed.
  Lemma shape_on f s s' : substituted mt f s s' -> shape E s -> shape E s'.
  Proof.
    intros [SP ST SR SU SF SS] [[L1 [L2 L3]] [HT [HR HU]]]. split; [rewrite SP, ST, SR, SU, !map_length; auto|]. split.
    - rewrite ST. intros x I. apply in_map_iff in I. destruct I as [y [<- I]]. apply scheme_on; auto.
    - split.
      + rewrite SR. intros x I. apply in_map_iff in I. destruct I as [y [<- I]]. destruct (HR y I) as [->|H]; [left; reflexivity|right; apply scheme_on; auto].
      + rewrite SU. intros x I. apply in_map_iff in I. destruct I as [y [<- I]]. destruct (HU y I) as [->|H]; [left; reflexivity|apply entry_on; auto].
  Qed.
  Lemma subst_trans f g s s1 s2 : substituted mt f s s1 -> substituted mt g s1 s2 -> substituted mt (fun t => app_subst g (f t)) s s2.
  Proof.
    intros [P1 T1 R1 U1 F1 S1] [P2 T2 R2 U2 F2 S2].
    assert (C : forall l, map (onString g) (map (onString f) l) = map (onString (fun t => app_subst g (f t))) l).
    { intros l. rewrite map_map. apply map_ext. intros x. unfold onString. rewrite to_of, app_comp. reflexivity. }
    constructor; [congruence|rewrite T2, T1; apply C|rewrite R2, R1; apply C|rewrite U2, U1; apply C| |].
    - intros t L. rewrite (F1 t L). cbn. rewrite (F2 t L). reflexivity.
    - intros t I. unfold app_subst in I. apply in_flat_map in I. destruct I as [u [I J]]. apply S2 in J. subst u. exact (S1 t I).
  Qed.
  Lemma subst_refl s : (forall x, In x (tg s ++ sr s ++ us s) -> exists y, x = toZ y) -> substituted mt (fun t => [t]) s s.
  Proof.
    intros H. assert (C : forall l, (forall x, In x l -> In x (tg s ++ sr s ++ us s)) -> l = map (onString (fun t => [t])) l).
    { induction l as [|x l IH]; intros K; [reflexivity|]. cbn [map]. destruct (H x (K x (or_introl eq_refl))) as [y ->]. rewrite onString_to, app_fixed by reflexivity. f_equal. apply IH. intros z I. apply K. right. exact I. }
    constructor; [reflexivity|apply C|apply C|apply C|reflexivity|intros t [<-|[]]; reflexivity]; intros x I; rewrite !in_app_iff; tauto.
  Qed.
  Lemma shape_entry s : shape E s -> forall x, In x (tg s ++ sr s ++ us s) -> x = [] \/ entry E x.
  Proof.
    intros [_ [HT [HR HU]]] x I. apply in_app_iff in I. destruct I as [I|I]; [right; apply scheme_entry; exact (HT x I)|]. apply in_app_iff in I.
    destruct I as [I|I]; [|exact (HU x I)]. destruct (HR x I) as [->|H]; [left; reflexivity|right; apply scheme_entry; exact H].
  Qed.
  Lemma shape_str s : shape E s -> forall x, In x (tg s ++ sr s ++ us s) -> exists y, x = toZ y.
  Proof. intros SH x I. destruct (shape_entry s SH x I) as [->|[y [-> _]]]; [exists []; reflexivity|eauto]. Qed.

  (* ---------- makeSubstAll ---------- *)
  Lemma substStrings_ok h f l : (forall w, gives e (h_s h) w (app_subst f w)) -> substStrings e h l = Ok (map (onString f) l).
  Proof.
    intros G. induction l as [|x l IH]; [reflexivity|]. cbn [substStrings]. unfold substString. destruct (G (ofZ x)) as [b Q]. rewrite Q. cbn [rbind fst]. rewrite IH. reflexivity.
  Qed.
  Lemma makeSubstAll_ok h f s A B : UniSpec.unifier mt (u_min e) A B (unified (h_s h)) f -> (forall w, gives e (h_s h) w (app_subst f w)) ->
    exists s', makeSubstAll e h s = Ok s' /\ substituted mt f s s'.
  Proof.
    intros U G. unfold makeSubstAll. rewrite !(substStrings_ok h f _ G). cbn [rbind]. eexists. split; [reflexivity|].
    constructor; try reflexivity; [apply (un_fixed _ _ _ _ _ _ U)|apply (un_sep _ _ _ _ _ _ U)].
  Qed.

  (* ---------- how many unknowns there are ---------- *)
  Definition unknowns (s : pip) : list nat := nodup Nat.eq_dec (filter (fun t => mt <? t) (flat_map ofZ (tg s ++ sr s ++ us s))).
  Lemma in_unknowns s t : In t (unknowns s) <-> mt < t /\ exists x, In x (tg s ++ sr s ++ us s) /\ In t (ofZ x).
  Proof. unfold unknowns. rewrite nodup_In, filter_In, in_flat_map, Nat.ltb_lt. tauto. Qed.
  Lemma fewer f s s' a b U : substituted mt f s s' -> UniSpec.unifier mt (u_min e) (ofZ a) (ofZ b) U f ->
    In a (tg s ++ sr s ++ us s) -> In b (tg s ++ sr s ++ us s) -> ofZ a <> ofZ b -> length (unknowns s') < length (unknowns s).
  Proof.
    intros SB UN IA IB NE.
    assert (ALL : tg s' ++ sr s' ++ us s' = map (onString f) (tg s ++ sr s ++ us s)) by (rewrite (su_tg _ _ _ _ SB), (su_sr _ _ _ _ SB), (su_us _ _ _ _ SB), !map_app; reflexivity).
    assert (X : exists t, In t (ofZ a ++ ofZ b) /\ f t <> [t]).
    { destruct (list_eq_dec Nat.eq_dec (app_subst f (ofZ a)) (ofZ a)) as [Q|Q].
      - destruct (list_eq_dec Nat.eq_dec (app_subst f (ofZ b)) (ofZ b)) as [Q'|Q'].
        + exfalso. apply NE. rewrite <- Q, <- Q'. rewrite (un_A _ _ _ _ _ _ UN), (un_B _ _ _ _ _ _ UN). reflexivity.
        + destruct (app_not_fixed _ _ Q') as [t [I H]]. exists t. rewrite in_app_iff. auto.
      - destruct (app_not_fixed _ _ Q) as [t [I H]]. exists t. rewrite in_app_iff. auto. }
    destruct X as [t0 [I0 N0]].
    assert (OLD : forall t, In t (ofZ a ++ ofZ b) -> mt < t -> In t (unknowns s)).
    { intros t I L. apply in_unknowns. split; [exact L|]. apply in_app_iff in I. destruct I as [I|I]; eauto. }
    assert (L0 : mt < t0). { destruct (Nat.lt_ge_cases mt t0) as [H|H]; [exact H|]. exfalso. apply N0. apply (un_fixed _ _ _ _ _ _ UN). exact H. }
    assert (INC : incl (t0 :: unknowns s') (unknowns s)).
    { intros t [<-|I]; [exact (OLD t0 I0 L0)|]. apply in_unknowns in I. destruct I as [L [x [I J]]]. rewrite ALL in I. apply in_map_iff in I. destruct I as [y [<- I]].
      unfold onString in J. rewrite to_of in J. unfold app_subst in J. apply in_flat_map in J. destruct J as [u [J K]].
      destruct (list_eq_dec Nat.eq_dec (f u) [u]) as [Q|Q].
      - rewrite Q in K. destruct K as [<-|[]]. apply in_unknowns. split; [exact L|]. eauto.
      - apply OLD; [|exact L]. exact (un_old _ _ _ _ _ _ UN u t Q K). }
    assert (ND : NoDup (t0 :: unknowns s')).
    { constructor; [|apply NoDup_nodup]. intros I. apply in_unknowns in I. destruct I as [L [x [I J]]]. rewrite ALL in I. apply in_map_iff in I. destruct I as [y [<- I]].
      unfold onString in J. rewrite to_of in J. unfold app_subst in J. apply in_flat_map in J. destruct J as [u [J K]]. exact (proj2 (un_gone _ _ _ _ _ _ UN t0 N0) u K). }
    pose proof (NoDup_incl_length ND INC) as H. cbn [length] in H. lia.
  Qed.

  (* ---------- one pass ---------- *)
  Lemma unique_ends a b : okInput e a b -> exists q K, (forall fuel, K <= fuel -> uniqueUnif fuel e (f_on E) a b 1 = Ok q).
  Proof.
    intros OK. destruct (first_ends e a b OK (f_on E) 1) as [r [K1 [_ R1]]]. destruct r as [r t]. destruct r as [| |h].
    - exists (QNo, t), K1. intros fuel L. unfold uniqueUnif. rewrite (R1 fuel L). reflexivity.
    - exists (QTimeout, t), K1. intros fuel L. unfold uniqueUnif. rewrite (R1 fuel L). reflexivity.
    - assert (HI : historyH e (f_on E) a b [h]) by (econstructor; exact (R1 K1 (le_n _))).
      destruct (next_endsH e a b OK (f_on E) h t (histH_answer e a b OK (f_on E) [h] h HI (or_introl eq_refl))) as [r' [K2 [_ R2]]]. destruct r' as [r' t'].
      exists (match r' with HNo => QOne h | HTimeout => QTimeout | HYes h' => QMany h' end, t'), (Nat.max K1 K2).
      intros fuel L. unfold uniqueUnif. rewrite (R1 fuel) by lia. cbn [rbind fst snd]. rewrite (R2 fuel) by lia. cbn [rbind fst snd]. destruct r'; reflexivity.
  Qed.
  Definition pairAt (s : pip) (x : nat * nat) : option (list Z * list Z) :=
    match nth_error (tg s) (fst x), nth_error (sr s) (fst x), nth_error (us s) (fst x) with
    | Some t, Some r, Some u => Some (match snd x with 0 => (t, u) | 1 => (r, u) | _ => (t, r) end)
    | _, _, _ => None
    end.
  Definition agree (p : list Z * list Z) : Prop := fst p = [] \/ snd p = [] \/ fst p = snd p.
  Definition stepTo (s s' : pip) (c : bool) : Prop := (exists f, substituted mt f s s') /\ (c = false -> s' = s) /\ (c = true -> length (unknowns s') < length (unknowns s)).
  Lemma stepTo_refl s : shape E s -> stepTo s s false.
  Proof. intros SH. split; [exists (fun t => [t]); apply subst_refl; exact (shape_str s SH)|]. split; [reflexivity|discriminate]. Qed.
  Lemma stepTo_trans s s1 s2 c c' : stepTo s s1 c -> stepTo s1 s2 c' -> stepTo s s2 (c || c').
  Proof.
    intros [[f F] [A B]] [[g G] [A' B']]. split; [exists (fun t => app_subst g (f t)); exact (subst_trans f g s s1 s2 F G)|]. split.
    - intros H. apply orb_false_iff in H. destruct H as [H1 H2]. rewrite (A' H2). exact (A H1).
    - intros H. destruct c, c'; try discriminate H; [specialize (B eq_refl); specialize (B' eq_refl); lia|specialize (B eq_refl); rewrite (A' eq_refl); exact B|specialize (B' eq_refl); rewrite (A eq_refl) in B'; exact B'].
  Qed.
  Lemma onePass_ok s x : shape E s -> fst x < length (pf s) -> exists s' c n K, (forall fuel, K <= fuel -> onePass fuel E s x = Ok (s', c, n)) /\ stepTo s s' c /\
    (c = false -> n = false -> exists p, pairAt s x = Some p /\ agree p).
  Proof.
    intros SH L. pose proof SH as [[L1 [L2 L3]] [HT [HR HU]]]. destruct (nth_error (tg s) (fst x)) as [t|] eqn:T; [|apply nth_error_None in T; lia].
    destruct (nth_error (sr s) (fst x)) as [r|] eqn:R; [|apply nth_error_None in R; lia]. destruct (nth_error (us s) (fst x)) as [u|] eqn:U; [|apply nth_error_None in U; lia].
    unfold onePass, pairAt, get. rewrite T, R, U. cbn [rget rbind].
    set (ab := match snd x with 0 => (t, u) | 1 => (r, u) | _ => (t, r) end).
    assert (IN : In (fst ab) (tg s ++ sr s ++ us s) /\ In (snd ab) (tg s ++ sr s ++ us s)).
    { apply nth_error_In in T, R, U. unfold ab. rewrite !in_app_iff. destruct (snd x) as [|[|?]]; cbn; tauto. }
    assert (SC : forall y, In y (tg s ++ sr s ++ us s) -> y <> [] -> entry E y).
    { intros y I N. destruct (shape_entry s SH y I); [contradiction|assumption]. }
    destruct ab as [a b]. cbn [fst snd] in *. unfold agree. destruct a as [|a0 a]; [exists s, false, false, 0; split; [reflexivity|]; split; [apply stepTo_refl; exact SH|eauto]|].
    destruct b as [|b0 b]; [exists s, false, false, 0; split; [reflexivity|]; split; [apply stepTo_refl; exact SH|intros; eexists; split; [reflexivity|cbn; auto]]|].
    destruct (strEqb (a0 :: a) (b0 :: b)) eqn:Q.
    - exists s, false, false, 0. split; [reflexivity|]. split; [apply stepTo_refl; exact SH|]. apply strEqb_eq in Q. intros; eexists; split; [reflexivity|cbn; auto].
    - destruct IN as [IA IB]. assert (OK := two_entries _ _ (SC _ IA ltac:(discriminate)) (SC _ IB ltac:(discriminate))).
      destruct (unique_ends _ _ OK) as [[q tc] [K HK]]. destruct q as [|h| |h].
      + exists s, false, true, K. split; [intros fuel LE; rewrite (HK fuel LE); reflexivity|]. split; [apply stepTo_refl; exact SH|discriminate].
      + pose proof (unique_inv e _ _ (f_on E) K 1 tc (QOne h) (HK K (le_n _))) as AH. cbn in AH.
        assert (AN : answer e (ofZ (a0 :: a)) (ofZ (b0 :: b)) (h_s h)). { inversion AH as [|? ? ? ? ? HH]; subst. exact (histH_answer e _ _ OK (f_on E) [h] h HH (or_introl eq_refl)). }
        destruct (answer_spec e _ _ OK (h_s h) AN) as [f [UF G]]. destruct (makeSubstAll_ok h f s _ _ UF G) as [s' [M SB]].
        exists s', true, false, K. split; [intros fuel LE; rewrite (HK fuel LE); cbn [rbind fst]; rewrite M; reflexivity|]. split; [|discriminate].
        split; [exists f; exact SB|]. split; [discriminate|]. intros _. apply (fewer f s s' _ _ _ SB UF IA IB).
        intros EQ. destruct (SC _ IA ltac:(discriminate)) as [y [EY _]]. destruct (SC _ IB ltac:(discriminate)) as [y' [EY' _]]. rewrite EY, EY' in *. rewrite !to_of in EQ. subst y'. apply Bool.not_true_iff_false in Q. apply Q. apply strEqb_eq. reflexivity.
      + exists s, false, true, K. split; [intros fuel LE; rewrite (HK fuel LE); reflexivity|]. split; [apply stepTo_refl; exact SH|discriminate].
      + exists s, false, true, K. split; [intros fuel LE; rewrite (HK fuel LE); reflexivity|]. split; [apply stepTo_refl; exact SH|discriminate].
  Qed.
  Lemma stepTo_shape s s' c : stepTo s s' c -> shape E s -> shape E s' /\ pf s' = pf s.
  Proof. intros [[f F] _] SH. split; [exact (shape_on f s s' F SH)|exact (su_pf _ _ _ _ F)]. Qed.
  Lemma passes_ok xs : forall s ch nu, shape E s -> (forall x, In x xs -> fst x < length (pf s)) ->
    exists s' c n K, (forall fuel, K <= fuel -> passes fuel E s xs ch nu = Ok (s', ch || c, nu || n)) /\ stepTo s s' c /\
    (c = false -> n = false -> forall x, In x xs -> exists p, pairAt s x = Some p /\ agree p).
  Proof.
    induction xs as [|x xs IH]; intros s ch nu SH B.
    - exists s, false, false, 0. rewrite !orb_false_r. split; [reflexivity|]. split; [apply stepTo_refl; exact SH|intros _ _ x []].
    - destruct (onePass_ok s x SH (B x (or_introl eq_refl))) as [s1 [c1 [n1 [K1 [H1 [S1 A1]]]]]]. destruct (stepTo_shape _ _ _ S1 SH) as [SH1 P1].
      destruct (IH s1 (ch || c1) (nu || n1) SH1) as [s2 [c2 [n2 [K2 [H2 [S2 A2]]]]]]; [intros y I; rewrite P1; apply B; right; exact I|].
      exists s2, (c1 || c2), (n1 || n2), (Nat.max K1 K2). split; [intros fuel L; cbn [passes]; rewrite (H1 fuel) by lia; cbn [rbind]; rewrite (H2 fuel) by lia; rewrite !orb_assoc; reflexivity|].
      split; [exact (stepTo_trans _ _ _ _ _ S1 S2)|]. intros C N y I. apply orb_false_iff in C. apply orb_false_iff in N. destruct C as [C1 C2], N as [N1 N2].
      pose proof (proj1 (proj2 S1) C1) as Q. destruct I as [<-|I]; [exact (A1 C1 N1)|]. subst s1. exact (A2 C2 N2 y I).
  Qed.
  Lemma allPasses_in n x : In x (allPasses n) -> fst x < n.
  Proof. unfold allPasses. intros I. apply in_flat_map in I. destruct I as [k [I J]]. apply in_seq in I. destruct J as [<-|[<-|[<-|[]]]]; cbn; lia. Qed.
  Lemma in_allPasses n k p : k < n -> p < 3 -> In (k, p) (allPasses n).
  Proof. intros L P. unfold allPasses. apply in_flat_map. exists k. split; [apply in_seq; lia|]. destruct p as [|[|[|p]]]; cbn; auto; lia. Qed.
  Lemma rounds_ok : forall m s pch nu, length (unknowns s) < m -> shape E s -> exists s' c n K, (forall w fuel, length (unknowns s) < w -> K <= fuel -> rounds w fuel E s pch nu = Ok (s', pch || c, nu || n)) /\
    stepTo s s' c /\ (n = false -> forall x, In x (allPasses (length (pf s'))) -> exists p, pairAt s' x = Some p /\ agree p).
  Proof.
    induction m as [|m IH]; intros s pch nu LM SH; [lia|].
    destruct (passes_ok (allPasses (length (pf s))) s false nu SH (allPasses_in _)) as [s1 [c1 [n1 [K1 [H1 [S1 A1]]]]]]. destruct (stepTo_shape _ _ _ S1 SH) as [SH1 P1].
    destruct c1.
    - pose proof (proj2 (proj2 S1) eq_refl) as LT. destruct (IH s1 true (nu || n1) ltac:(lia) SH1) as [s2 [c2 [n2 [K2 [H2 [S2 A2]]]]]].
      exists s2, true, (n1 || n2), (Nat.max K1 K2). split.
      + intros w fuel LW LF. destruct w as [|w]; [lia|]. cbn [rounds]. rewrite (H1 fuel) by lia. cbn [rbind orb]. rewrite (H2 w fuel) by lia. rewrite orb_assoc, orb_true_r. reflexivity.
      + split; [exact (stepTo_trans _ _ _ _ _ S1 S2)|]. intros N. apply orb_false_iff in N. exact (A2 (proj2 N)).
    - pose proof (proj1 (proj2 S1) eq_refl) as ->. exists s, false, n1, K1. split.
      + intros w fuel LW LF. destruct w as [|w]; [lia|]. cbn [rounds]. rewrite (H1 fuel) by lia. cbn [rbind orb]. rewrite orb_false_r. reflexivity.
      + split; [exact S1|]. intros N. exact (A1 eq_refl N).
  Qed.
  Lemma pairs_unified s : shape E s -> (forall x, In x (allPasses (length (pf s))) -> exists p, pairAt s x = Some p /\ agree p) -> unified3 s.
  Proof.
    intros [[L1 [L2 L3]] [HT [HR HU]]] H k t r u T R U. assert (L : k < length (pf s)) by (rewrite <- L1; apply nth_error_Some; congruence).
    pose proof (scheme_ne t (HT t (nth_error_In _ _ T))) as NT.
    assert (X : forall p, p < 3 -> agree (match p with 0 => (t, u) | 1 => (r, u) | _ => (t, r) end)).
    { intros p P. destruct (H (k, p) (in_allPasses _ k p L P)) as [q [Q A]]. unfold pairAt in Q. cbn [fst snd] in Q. rewrite T, R, U in Q. injection Q as <-. exact A. }
    pose proof (X 0 ltac:(lia)) as X0. pose proof (X 2 ltac:(lia)) as X2. unfold agree in *. cbn in X0, X2. split; intros N; intuition congruence.
  Qed.

  (* ---------- linked is kept ---------- *)
  Definition onPair (f : nat -> list nat) (p : list Z * list Z) : list Z * list Z := (onString f (fst p), onString f (snd p)).
  Lemma goalOf_on f a : goalOf (map (onPair f) a) = onString f (goalOf a).
  Proof. unfold goalOf. destruct a as [|a0 a] using rev_ind; [reflexivity|]. rewrite map_app. cbn [map]. rewrite !last_last. reflexivity. Qed.
  Section On.
    Variable f : nat -> list nat.
    Hypothesis FX : forall t, t <= mt -> f t = [t].
    Lemma math_fixed n st : stmtAt db n st -> isHyp st \/ isAssertion st -> forall t, In t (s_math st) -> f t = [t].
    Proof. intros S T t I. apply FX. rewrite mt_sep. pose proof (fo_tok E None FO n st t S T I). lia. Qed.
    Lemma fits_on : forall T a, fits db T a -> fits db T (map (onPair f) a).
    Proof.
      induction T as [z kids IH] using tree_ind2. intros a H. inversion H as [t|h sh t S HY|n st ks anns t sg S AS F2 G]; subst.
      - cbn [map]. unfold onPair. cbn [fst snd]. change (onString f []) with (@nil Z). apply ft_unk.
      - cbn [map]. unfold onPair. cbn [fst snd]. rewrite onString_to, app_fixed by (exact (math_fixed h sh S (or_introl HY))). apply (ft_hyp db h sh _ S HY).
      - rewrite map_app, concat_map. cbn [map]. unfold onPair at 2. cbn [fst snd]. rewrite onString_to, app_subst_comp by (intros u I _; exact (math_fixed n st S (or_intror AS) u I)).
        apply (ft_use db n st kids (map (map (onPair f)) anns) _ _ S AS).
        + clear G H. induction F2 as [|k x kk xx F2a F2b IHF]; [constructor|]. inversion IH; subst. cbn [map]. constructor; [apply H1; exact F2a|apply IHF; assumption].
        + assert (HH : forall h, In h (s_reqHyps st) -> forall sh, stmtAt db h sh -> forall t, In t (s_math sh) -> f t = [t]).
          { intros h I sh SH. destruct (wf_hyps db (fo_wf E None FO) n st h S AS I) as [sh' [S' HY]]. assert (sh' = sh) by (unfold stmtAt in *; congruence). subst sh'. exact (math_fixed h sh SH (or_introl HY)). }
          clear F2 H IH. induction G as [|h x hs xx [sh [SH GO]] G IHG]; [constructor|]. cbn [map]. constructor; [|apply IHG; intros h' I; apply HH; right; exact I].
          exists sh. split; [exact SH|]. rewrite goalOf_on, GO, onString_to, app_subst_comp by (intros u I _; exact (HH h (or_introl eq_refl) sh SH u I)). reflexivity.
    Qed.
  End On.
  Lemma combine_on f a : forall b, combine (map (onString f) a) (map (onString f) b) = map (onPair f) (combine a b).
  Proof. induction a as [|x a IH]; intros [|y b]; [reflexivity..|]. cbn [map combine]. rewrite IH. reflexivity. Qed.
  Lemma linked_shape m s T : linked E m s T -> shape E s.
  Proof.
    intros [PO _ _ HT HR HU]. split; [split; [exact (po_tg _ _ _ PO)|split; [exact (po_sr _ _ _ PO)|exact (po_us _ _ _ PO)]]|]. split; [exact HT|]. split; assumption.
  Qed.
  Lemma linked_on f m s s' T : (forall t, In t m -> t < db_sep db) -> substituted mt f s s' -> linked E m s T -> linked E m s' T.
  Proof.
    intros GM SB LK. pose proof (shape_on f s s' SB (linked_shape m s T LK)) as [[L1 [L2 L3]] [HT [HR HU]]]. destruct LK as [PO FI GO HT0 HR0 HU0]. pose proof SB as [SP ST SR SU SF SS].
    constructor.
    - destruct PO as [A B C D1 D2 D3 U]. constructor; [exact A|congruence|exact C|exact L1|exact L2|exact L3|].
      intros k H. rewrite SP in H. rewrite SR, nth_error_map, (U k H). reflexivity.
    - rewrite ST, SR, combine_on. apply fits_on; [exact SF|exact FI].
    - rewrite ST, SR, combine_on, goalOf_on, GO, onString_to, app_fixed; [reflexivity|]. intros t I. apply SF. rewrite mt_sep. pose proof (GM t I). lia.
    - exact HT.
    - exact HR.
    - exact HU.
  Qed.
End Au.
