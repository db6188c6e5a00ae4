(* ImpProofs.v -- proofs about ImpModel: one step *)
From Coq Require Import ZifyBool ZifyNat.
From Verif Require Import Base.
From Verif Require Import UniModel UniSpec HenModel HenProofs.
From Verif Require Import MMSpec VerModel VerSpec ParModel SqModel SqSpec SqProofs SqAttr SqValid TrcWork PfaModel PfaSpec PfaProofs PfaAssign PfaHist PfaProps FltModel FltSpec FltProofs FltProps FltVal RepSpec AkModel AkSpec AkProofs AkMain AkTop AkProps MinModel MinSpec AuModel AuSpec AuProofs AuMain AuCmd AuTop AuAll AuInit ImpModel ImpSpec.
From Verif Require MinProofs.
Open Scope nat_scope.

Lemma ext {A} : forall a b : list A, (forall i, nth_error a i = nth_error b i) -> a = b.
Proof.
  induction a as [|x a IH]; intros [|y b] H; [reflexivity|specialize (H 0); discriminate H|specialize (H 0); discriminate H|].
  pose proof (H 0) as H0. injection H0 as ->. f_equal. apply IH. intros i. exact (H (S i)).
Qed.
Lemma nth_firstn {A} (l : list A) n i : nth_error (firstn n l) i = if i <? n then nth_error l i else None.
Proof.
  revert l i. induction n as [|n IH]; intros l i; [cbn; destruct i; reflexivity|]. destruct l as [|x l]; [cbn [firstn]; destruct (i <? S n); destruct i; reflexivity|].
  destruct i as [|i]; [reflexivity|]. cbn [firstn nth_error]. rewrite IH. reflexivity.
Qed.
Lemma nth_skip {A} (l : list A) n i : nth_error (skipn n l) i = nth_error l (n + i).
Proof. revert l. induction n as [|n IH]; intros l; [reflexivity|]. destruct l as [|x l]; [destruct i; reflexivity|]. cbn. apply IH. Qed.
(* a list that agrees with a splice outside of what was put in is a splice *)
Lemma as_splice {A} (l l' : list A) k n x : k < length l -> n <= k + 1 -> length l' = length (splice l k n x) ->
  (forall i, i < k + 1 - n \/ k + 1 - n + length x <= i -> nth_error l' i = nth_error (splice l k n x) i) ->
  l' = splice l k n (firstn (length x) (skipn (k + 1 - n) l')) /\ length (firstn (length x) (skipn (k + 1 - n) l')) = length x.
Proof.
  intros L LN LL H. rewrite splice_len in LL by exact L. assert (LX : length (firstn (length x) (skipn (k + 1 - n) l')) = length x) by (rewrite firstn_length, skipn_length; lia). split; [|exact LX].
  apply ext. intros i. rewrite splice_nth by exact L. rewrite LX. destruct (i <? k + 1 - n) eqn:C1.
  - rewrite H by lia. rewrite splice_nth by exact L. rewrite C1. reflexivity.
  - destruct (i <? k + 1 - n + length x) eqn:C2.
    + rewrite nth_firstn. replace (i - (k + 1 - n) <? length x) with true by lia. rewrite nth_skip. f_equal. lia.
    + rewrite H by lia. rewrite splice_nth by exact L. rewrite C1, C2. reflexivity.
Qed.
Lemma put_node v T path T' : putAt v T path T' -> forall k u, nodeAt T k path u -> nodeAt T' (k + sz v - sz u) path v.
Proof.
  induction 1 as [t|z ks1 kd ks2 path k' P IH]; intros k u N.
  - inversion N; subst. pose proof (sz_pos u). pose proof (sz_pos v). replace (sz u - 1 + sz v - sz u) with (sz v - 1) by lia. apply na_root.
  - inversion N as [|? ? ? c0 k0 ? ? Nc Q]; subst. rewrite nth_error_app2, Nat.sub_diag in Nc by lia. injection Nc as <-. specialize (IH k0 u Q). destruct (node_split _ _ _ _ Q) as [sa [sb [_ SL]]].
    assert (NC : nth_error (ks1 ++ k' :: ks2) (length ks1) = Some k') by (rewrite nth_error_app2, Nat.sub_diag by lia; reflexivity).
    pose proof (na_kid z (ks1 ++ k' :: ks2) (length ks1) k' _ _ _ NC IH) as X. rewrite firstn_app, firstn_all, Nat.sub_diag, firstn_O, app_nil_r in X. rewrite firstn_app, firstn_all, Nat.sub_diag, firstn_O, app_nil_r. pose proof (sz_pos v).
    replace (length (flat_map rpn ks1) + k0 + sz v - sz u) with (length (flat_map rpn ks1) + (k0 + sz v - sz u)) by lia. exact X.
Qed.
Lemma sub_shows db ok u k p v : nodeAt u k p v -> forall x, shows db ok u x -> exists y, shows db ok v y.
Proof.
  induction 1 as [t|z kids j c k path u Nk Q IH]; intros x H; [eauto|].
  destruct (shows_node _ _ _ _ _ H) as [[h [sh [_ [_ [-> _]]]]]|[n [st [xs [sg [_ [_ [_ [_ [_ [F _]]]]]]]]]]]; [destruct j; discriminate Nk|].
  assert (X : exists y, shows db ok c y). { clear -F Nk. revert j Nk. induction F as [|a b ka xb P F IHF]; intros [|j] Nk; try discriminate; cbn in Nk; [injection Nk as ->; eauto|exact (IHF j Nk)]. }
  destruct X as [y Y]. exact (IH y Y).
Qed.
Lemma strEqb_ok a b : strEqb a b = true <-> a = b.
Proof. unfold strEqb. destruct (list_eq_dec Z.eq_dec a b); split; congruence. Qed.
Lemma unk_in l : existsb (Z.eqb zUnk) l = true <-> In zUnk l.
Proof. rewrite existsb_exists. split; [intros [x [I Q]]; apply Z.eqb_eq in Q; congruence|intros I; exists zUnk; split; [exact I|apply Z.eqb_refl]]. Qed.

Section One.
  Variable E : fenv.
  Hypothesis AO : auOk E.
  Let FO := ao_flt E AO.
  Notation db := (f_db E).
  Notation mt := (u_mt (f_u E)).
  Let WD := fo_wf E None FO.
  Variable m : list nat.
  Hypothesis HG : goal E m.
  Let GM : forall t, In t m -> t < db_sep db := proj2 HG.

  Lemma no_dummy x y : x = toZ y -> expression db y -> hasDummy mt x = false -> goal E y /\ noUnknowns db y.
  Proof.
    intros -> [[c [r [-> L]]] NS] H. assert (N : noUnknowns db (c :: r)).
    { intros t I. assert (t <= db_sep db).
      { rewrite <- (mt_sep E FO). destruct (le_lt_dec t mt) as [X|X]; [exact X|]. exfalso. apply Bool.not_true_iff_false in H. apply H. apply existsb_exists. exists (Z.of_nat t). split; [apply in_map; exact I|lia]. }
      assert (t <> db_sep db) by (intros ->; exact (NS I)). lia. }
    split; [|exact N]. split; [discriminate|]. exact N.
  Qed.
  Lemma imp_flt o s dv T : linked E m s T -> fltOk (impEnv E o s dv) (Some T).
  Proof.
    intros LK. pose proof (lk_pip _ _ _ _ LK) as PO. destruct FO as [F1 F2 F3 F4 F5 F6 F7 F8 F9 F10]. constructor; try assumption.
    - cbn. destruct (io_override o); lia.
    - cbn. split; [exact (po_tree _ _ _ PO)|]. split; [exact (po_rpn _ _ _ PO)|]. rewrite map_length. exact (po_tg _ _ _ PO).
  Qed.
  Lemma proves_shows o s dv T t : linked E m s T -> partsProve E s -> forall y, proves (impEnv E o s dv) (Some T) t y -> shows db anything t y.
  Proof.
    intros LK PP. pose proof (lk_pip _ _ _ _ LK) as PO. induction t as [z kids IH] using tree_ind2. intros y P. inversion P as [h sh O1 O2 O3 O4|t k path u e' O1 O2 O3 O4 O5 O6|n st' kids' es sg U F UN O3 O4]; subst.
    - destruct (fo_hyps _ _ (imp_flt o s dv T LK) h O1) as [sh' [K1 K2]]. unfold stmtAt in K1, O2. rewrite O2 in K1. injection K1 as <-. apply sh_hyp; [|exact O2|exact K2]. intros ->. exact (proj1 (ao_zero E AO sh O2) K2).
    - injection O1 as <-. cbn [impEnv f_tg] in O4. rewrite nth_error_map in O4. destruct (nth_error (tg s) k) as [x|] eqn:Q; [|discriminate O4]. injection O4 as <-.
      destruct (PP T k path _ x (eq_sym (po_rpn _ _ _ PO)) (po_tree _ _ _ PO) O2 O3 Q) as [y [-> SH]]. rewrite to_of. exact SH.
    - apply (sh_use db anything n st' kids es sg); [pose proof (us_range _ _ _ U); lia|exact (us_stmt _ _ _ U)|exact (us_type _ _ _ U)|exact (ao_floated E AO n st' (us_stmt _ _ _ U) (us_type _ _ _ U))| |exact UN|intros; exact I].
      rewrite Forall_forall in IH. clear -IH F. induction F as [|k y l l' X F IHF]; constructor; [apply IH; [left; reflexivity|exact X]|]. apply IHF. intros c I. apply IH. right. exact I.
  Qed.
  (* the nodes of a tree whose steps have been assigned their expressions *)
  Lemma known_node ok v o (t r : nat -> list Z) : (forall j p w y, nodeAt v j p w -> shows db ok w y -> r (o + j) = toZ y) -> (forall j p w y, nodeAt v j p w -> shows db ok w y -> j + 1 < sz v -> t (o + j) = toZ y) ->
    forall i q w y, nodeAt v i q w -> shows db ok w y -> nodeOk db (fun j => t (o + j)) (fun j => r (o + j)) i w.
  Proof.
    intros SRC TGT i q w y N H. pose proof (SRC i q w y N H) as SR. destruct w as [z kids].
    pose proof H as H0. destruct (shows_node _ _ _ _ _ H) as [[h [sh [_ [-> [-> [K1 [K2 ->]]]]]]]|[n [st [xs [sg [_ [-> [K1 [K2 [_ [K4 [K5 [_ ->]]]]]]]]]]]]].
    - exact (no_hyp db _ _ i h sh K1 K2 SR).
    - unfold unifier in K5. apply (no_use db _ _ i n st kids sg K1 K2); [rewrite (AkProofs.F2_len _ _ _ K4); symmetry; exact (AkProofs.F2_len _ _ _ K5)|exact SR|cbn beta; rewrite SR; exact (shown_scheme E AO _ _ _ H0)|].
      intros j h Q. assert (LX : length (s_reqHyps st) = length xs) by exact (AkProofs.F2_len _ _ _ K5). assert (LKX : length kids = length xs) by exact (AkProofs.F2_len _ _ _ K4). assert (LJ : j < length (s_reqHyps st)) by (apply nth_error_Some; congruence).
      destruct (nth_error xs j) as [x|] eqn:QX; [|apply nth_error_None in QX; lia]. destruct (nth_error kids j) as [c|] eqn:QC; [|apply nth_error_None in QC; lia].
      assert (SC : shows db ok c x). { clear -K4 QX QC. revert j QX QC. induction K4 as [|a b ka xb P F IH]; intros [|j] QX QC; try discriminate; cbn in *; [congruence|exact (IH j QX QC)]. }
      assert (SX : exists sh, stmtAt db h sh /\ MMSpec.subst (db_isvar db) sg (s_math sh) = x). { clear -K5 QX Q. revert j QX Q. induction K5 as [|a b ka xb P F IH]; intros [|j] QX Q; try discriminate; cbn in *; [injection Q as <-; injection QX as <-; exact P|exact (IH j QX Q)]. }
      destruct SX as [sh [S1 <-]]. exists sh. split; [exact S1|]. pose proof (child_at _ _ _ _ _ _ _ N QC) as NC. assert (LJK : j < length kids) by lia.
      destruct (childPos_in kids j (i + 1 - sz (Node (Z.of_nat n) kids)) LJK) as [_ C2]. destruct (node_split _ _ _ _ N) as [sa [sb [_ SL]]]. pose proof (nodeAt_bound _ _ _ _ N) as B.
      rewrite (TGT _ _ _ _ NC SC); [split; [reflexivity|exact (shown_scheme E AO _ _ _ SC)]|]. pose proof (sz_node (Z.of_nat n) kids) as ZN. cbn beta. lia.
  Qed.
  Lemma slice_nth t r n : forall o (l : list (list Z * list Z)), length l = n -> (forall i, i < n -> nth_error l i = Some (t (o + i), r (o + i))) -> l = slice t r o n.
  Proof.
    intros o l L H. apply ext. intros i. unfold slice. rewrite nth_error_map. destruct (le_lt_dec n i) as [X|X].
    - replace (nth_error l i) with (@None (list Z * list Z)) by (symmetry; apply nth_error_None; lia). replace (nth_error (seq o n) i) with (@None nat) by (symmetry; apply nth_error_None; rewrite seq_length; lia). reflexivity.
    - rewrite H by exact X. rewrite (nth_error_nth' (seq o n) 0) by (rewrite seq_length; exact X). rewrite seq_nth by exact X. reflexivity.
  Qed.

  (* putting a tree that shows something in the place of a subproof *)
  Definition fresh (s : pip) (k : nat) (u v : tree) (y : list nat) (s' : pip) (b : bool) (T' : tree) : Prop :=
    pf s' = splice (pf s) k (sz u) (rpn v) /\ us s' = splice (us s) k (sz u) (repeat [] (sz v - 1) ++ [nth k (us s) []]) /\
    (b = true -> linked E m s' T' /\ exists ts rs, length ts = sz v /\ length rs = sz v /\ tg s' = splice (tg s) k (sz u) ts /\ sr s' = splice (sr s) k (sz u) rs /\
       last ts [] = nth k (tg s) [] /\ last rs [] = toZ y /\
       forall i p w x, nodeAt v i p w -> shows db anything w x -> nth_error rs i = Some (toZ x) /\ (i + 1 < sz v -> nth_error ts i = Some (toZ x))).
  Lemma put_known s T k path u v y dv : linked E m s T -> nodeAt T k path u -> wfTree db v -> noRefs (rpn v) -> shows db anything v y ->
    exists s2 b s' T' K, replaceSubProof db s (rpn v) k = Ok s2 /\ putAt v T path T' /\ (forall fuel, K <= fuel -> assignKnownSteps fuel (dvEnv E dv) s2 (k + 1 - sz u) (sz v) = Ok (b, s')) /\
      fresh s k u v y s' b T' /\ (plainDb E -> b = true).
  Proof.
    intros LK N WV NV SH. pose proof LK as [PO FI GO HT HR HU]. destruct (replace_ok db s T k path u v PO N WV NV) as [s2 [T' [R1 [PO2 [PU [R3 [R4 [R5 R6]]]]]]]].
    pose proof (put_node _ _ _ _ PU k u N) as N'. destruct (node_split _ _ _ _ N) as [sa [sb [_ SL]]]. pose proof (sz_pos u) as SU. pose proof (sz_pos v) as SV. pose proof (nodeAt_bound _ _ _ _ N) as BN.
    assert (LP : k < length (pf s)) by (rewrite (po_rpn _ _ _ PO); exact BN).
    assert (EO : k + sz v - sz u + 1 - length (rpn v) = k + 1 - sz u) by (fold (sz v); lia). set (k' := k + sz v - sz u) in *. set (o := k + 1 - sz u) in *. assert (EK : k' = o + sz v - 1) by (unfold k', o; lia).
    destruct (aks_ok (dvEnv E dv) None (dv_flt E AO dv) anything s2 T' k' path v y PO2 N' SH) as [b [s' [K [H1 [A [PO' _]]]]]].
    assert (PLN : plainDb E -> b = true).
    { intros PL. destruct (aks_ok (dvEnv E dv) None (dv_flt E AO dv) (okValue E) s2 T' k' path v y PO2 N' (proj1 (plain_shows E None FO PL v y SH))) as [b' [s'' [K' [H1' [_ [_ B']]]]]].
      specialize (H1 (K + K') ltac:(lia)). rewrite (H1' (K + K') ltac:(lia)) in H1. injection H1 as -> _. apply B'. intros w O. exact O. }
    exists s2, b, s', T', K. split; [exact R1|]. split; [exact PU|]. split; [intros fuel L; rewrite <- EO; exact (H1 fuel L)|]. split; [|exact PLN].
    cbn [dvEnv f_db] in A. destruct A as [A1 A2 A3 A4 A5 A6 A7 A8]. fold (sz v) in *. rewrite EO in *.
    split; [rewrite A1; exact R3|]. split; [rewrite A2; exact R6|]. intros ->. specialize (A7 eq_refl). specialize (A8 eq_refl).
    assert (LTG : k < length (tg s)) by (rewrite (po_tg _ _ _ PO); exact LP). assert (LSR : k < length (sr s)) by (rewrite (po_sr _ _ _ PO); exact LP).
    destruct (as_splice (tg s) (tg s') k (sz u) (repeat [] (sz v - 1) ++ [nth k (tg s) []]) LTG ltac:(lia)) as [ET LT].
    { rewrite A3, R4. reflexivity. } { intros i H. rewrite app_length, repeat_length in H. cbn [length] in H. fold o in H. rewrite A6 by lia. rewrite R4. reflexivity. }
    destruct (as_splice (sr s) (sr s') k (sz u) (repeat [] (sz v)) LSR ltac:(lia)) as [ES LS].
    { rewrite A4, R5. reflexivity. } { intros i H. rewrite repeat_length in H. fold o in H. rewrite A5 by lia. rewrite R5. reflexivity. }
    fold o in ET, LT, ES, LS. assert (Q1 : length (repeat (@nil Z) (sz v - 1) ++ [nth k (tg s) []]) = sz v) by (rewrite app_length, repeat_length; cbn; lia). rewrite Q1 in *. rewrite repeat_length in *.
    set (ts := firstn (sz v) (skipn o (tg s'))) in *. set (rs := firstn (sz v) (skipn o (sr s'))) in *.
    assert (NT : forall i, i < sz v -> nth_error ts i = nth_error (tg s') (o + i)) by (intros i L; unfold ts; rewrite nth_firstn; replace (i <? sz v) with true by lia; apply nth_skip).
    assert (NR : forall i, i < sz v -> nth_error rs i = nth_error (sr s') (o + i)) by (intros i L; unfold rs; rewrite nth_firstn; replace (i <? sz v) with true by lia; apply nth_skip).
    assert (TOP : nth_error (tg s') (o + (sz v - 1)) = Some (nth k (tg s) [])).
    { rewrite A6 by lia. rewrite R4, splice_nth by exact LTG. fold o. rewrite Q1. replace (o + (sz v - 1) <? o) with false by lia. replace (o + (sz v - 1) <? o + sz v) with true by lia.
      rewrite nth_error_app2 by (rewrite repeat_length; lia). rewrite repeat_length. replace (o + (sz v - 1) - o - (sz v - 1)) with 0 by lia. reflexivity. }
    assert (LASTT : last ts [] = nth k (tg s) []).
    { destruct ts as [|a l _] using rev_ind; [cbn in LT; lia|]. rewrite last_last. rewrite app_length in LT. cbn in LT. specialize (NT (sz v - 1) ltac:(lia)). rewrite TOP in NT. rewrite nth_error_app2 in NT by lia. replace (sz v - 1 - length l) with 0 in NT by lia. injection NT as ->. reflexivity. }
    assert (LASTR : last rs [] = toZ y).
    { pose proof (A7 (sz v - 1) [] v y (na_root v) SH) as X. destruct rs as [|a l _] using rev_ind; [cbn in LS; lia|]. rewrite last_last. rewrite app_length in LS. cbn in LS. specialize (NR (sz v - 1) ltac:(lia)). rewrite X in NR. rewrite nth_error_app2 in NR by lia. replace (sz v - 1 - length l) with 0 in NR by lia. injection NR as ->. reflexivity. }
    assert (NODES : forall i p w x, nodeAt v i p w -> shows db anything w x -> nth_error rs i = Some (toZ x) /\ (i + 1 < sz v -> nth_error ts i = Some (toZ x))).
    { intros i p w x NW SW. pose proof (nodeAt_bound _ _ _ _ NW) as BW. fold (sz v) in BW. split; [rewrite NR by exact BW; exact (A7 i p w x NW SW)|]. intros L. rewrite NT by exact BW. exact (A8 i p w x NW SW L). }
    assert (EVERY : forall i, i < sz v -> exists x ok', shows db anything ok' x /\ exists p, nodeAt v i p ok').
    { intros i L. destruct (nodeAt_total v i L) as [p [w NW]]. destruct (sub_shows db anything v i p w NW y SH) as [x X]. exists x, w. split; [exact X|]. exists p. exact NW. }
    split.
    2: { exists ts, rs. split; [exact LT|]. split; [exact LS|]. split; [exact ET|]. split; [exact ES|]. split; [exact LASTT|]. split; [exact LASTR|]. exact NODES. }
    assert (EC : combine ts rs = slice (fun i => at_ (tg s') (o + i)) (fun i => at_ (sr s') (o + i)) 0 (sz v)).
    { apply slice_nth; [rewrite combine_length, LT, LS; lia|]. intros i L. destruct (nth_error ts i) as [a|] eqn:QA; [|apply nth_error_None in QA; lia]. destruct (nth_error rs i) as [c|] eqn:QC; [|apply nth_error_None in QC; lia].
      rewrite (nth_error_comb _ _ _ _ _ QA QC). cbn [Nat.add]. rewrite NT in QA by exact L. rewrite NR in QC by exact L. rewrite (at_some _ _ _ QA), (at_some _ _ _ QC). reflexivity. }
    apply (linked_splice E m s T k path u v T' s' ts rs LK N PU PO' ET ES ltac:(congruence)).
    - rewrite EC. pose proof (nodes_fits db (fun i => at_ (tg s') (o + i)) (fun i => at_ (sr s') (o + i)) v v (sz v - 1) [] (na_root v)) as X.
      replace (sz v - 1 + 1 - sz v) with 0 in X by lia. apply X. intros i q w NW _. destruct (sub_shows db anything v i q w NW y SH) as [x SW].
      apply (known_node anything v o (at_ (tg s')) (at_ (sr s'))) with (q := q) (y := x); [| |exact NW|exact SW].
      + intros j p w' x' N1 S1. exact (at_some _ _ _ (A7 j p w' x' N1 S1)).
      + intros j p w' x' N1 S1 L1. exact (at_some _ _ _ (A8 j p w' x' N1 S1 L1)).
    - rewrite EC. replace (sz v) with (sz v - 1 + 1) by lia. rewrite goalOf_slice. cbn [Nat.add]. exact (at_some _ _ _ TOP).
    - intros x I. apply In_nth_error in I. destruct I as [i Q]. assert (L : i < sz v) by (rewrite <- LT; apply nth_error_Some; congruence). destruct (Nat.eq_dec i (sz v - 1)) as [->|NE].
      + rewrite NT in Q by exact L. rewrite TOP in Q. injection Q as <-. apply HT. apply nth_In. exact LTG.
      + destruct (EVERY i L) as [x' [w [SW [p NW]]]]. destruct (NODES i p w x' NW SW) as [_ X]. rewrite (X ltac:(lia)) in Q. injection Q as <-. exact (shown_scheme E AO _ _ _ SW).
    - intros x I. apply In_nth_error in I. destruct I as [i Q]. assert (L : i < sz v) by (rewrite <- LS; apply nth_error_Some; congruence).
      destruct (EVERY i L) as [x' [w [SW [p NW]]]]. destruct (NODES i p w x' NW SW) as [X _]. rewrite X in Q. injection Q as <-. right. exact (shown_scheme E AO _ _ _ SW).
    - rewrite A2, R6. intros x I. destruct (splice_in _ _ _ _ _ I) as [I'|I']; [exact (HU x I')|]. apply in_app_iff in I'. destruct I' as [I'|[<-|[]]]; [left; exact (repeat_spec _ _ _ I')|exact (nth_us E m s T k LK)].
  Qed.

  (* one step *)
  Lemma at_ok o s T k dv : linked E m s T -> partsProve E s -> k < length (pf s) ->
    exists r K, (forall fuel, K <= fuel -> improveAt fuel E o s dv k = Ok r) /\ exists path u, nodeAt T k path u /\
      match r with
      | None => finished u \/ (exists t, nth_error (tg s) k = Some t /\ hasDummy mt t = true) \/
          exists y msgs, nth_error (tg s) k = Some (toZ y) /\ goal E y /\ FltProps.answers (impEnv E o s dv) y ([], msgs)
      | Some (s', b) => exists y v T', ~ finished u /\ nth_error (tg s) k = Some (toZ y) /\ noUnknowns db y /\ proves (impEnv E o s dv) (Some T) v y /\ shows db anything v y /\ putAt v T path T' /\
          fresh s k u v y s' b T' /\ (plainDb E -> b = true)
      end.
  Proof.
    intros LK PP L. pose proof (lk_pip _ _ _ _ LK) as PO. assert (LT : k < sz T) by (rewrite (po_rpn _ _ _ PO) in L; exact L). destruct (nodeAt_total T k LT) as [path [u N]].
    destruct (node_split _ _ _ _ N) as [sa [sb [ES SL]]]. pose proof (sz_pos u) as SU.
    assert (Q : subproofLen db (pf s) k = Ok (sz u)) by (rewrite (po_rpn _ _ _ PO); exact (subLen_node db T k path u (po_tree _ _ _ PO) N)).
    assert (SEG : firstn (sz u) (skipn (k + 1 - sz u) (pf s)) = rpn u).
    { rewrite (po_rpn _ _ _ PO), ES. replace (k + 1 - sz u) with (length sa) by lia. rewrite skipn_app, skipn_all, Nat.sub_diag. cbn [app skipn]. rewrite firstn_app, firstn_all, Nat.sub_diag. cbn [firstn]. apply app_nil_r. }
    destruct (existsb (Z.eqb zUnk) (rpn u)) eqn:HU.
    2: { exists None, 0. split; [intros fuel _; unfold improveAt; rewrite Q; cbn [rbind]; rewrite SEG, HU; reflexivity|]. exists path, u. split; [exact N|]. left. intros I. apply unk_in in I. congruence. }
    assert (NF : ~ finished u) by (intros F; apply F; apply unk_in; exact HU).
    assert (LTG : k < length (tg s)) by (rewrite (po_tg _ _ _ PO); exact L). destruct (nth_error (tg s) k) as [t|] eqn:QT; [|apply nth_error_None in QT; lia].
    assert (GT : get (tg s) k = Ok t) by (unfold get; rewrite QT; reflexivity).
    destruct (hasDummy mt t) eqn:HD.
    { exists None, 0. split; [intros fuel _; unfold improveAt; rewrite Q; cbn [rbind]; rewrite SEG, HU; cbn [negb]; rewrite GT; cbn [rbind]; rewrite HD; reflexivity|]. exists path, u. split; [exact N|]. right. left. exists t. auto. }
    destruct (lk_tg _ _ _ _ LK t (nth_error_In _ _ QT)) as [y [-> EX]]. destruct (no_dummy _ y eq_refl EX HD) as [GY NY].
    destruct (C61_ends (impEnv E o s dv) (Some T) y (imp_flt o s dv T LK) GY) as [[p msgs] [K1 H1]].
    destruct p as [|z p].
    { exists None, K1. split; [intros fuel LF; unfold improveAt; rewrite Q; cbn [rbind]; rewrite SEG, HU; cbn [negb]; rewrite GT; cbn [rbind]; rewrite HD, to_of, (H1 fuel LF); reflexivity|]. exists path, u. split; [exact N|]. right. right. exists y, msgs. split; [reflexivity|]. split; [exact GY|]. exists K1. exact H1. }
    destruct (C61_sound (impEnv E o s dv) (Some T) y (z :: p) msgs (imp_flt o s dv T LK) GY (ex_intro _ K1 H1) ltac:(discriminate)) as [v [EV PV]].
    pose proof (proves_shows o s dv T v LK PP y PV) as SH.
    destruct (proves_shape (impEnv E o s dv) (Some T) (imp_flt o s dv T LK)) with (t := v) (e := y) as [WV CV]; [|exact PV|].
    { cbn [impEnv f_pf]. intros c I. rewrite (po_rpn _ _ _ PO) in I. destruct (linked_legal E AO m s T LK c I) as [X|[X|X]]; [left; exact X|right; exact X|]. exfalso. pose proof (po_norefs _ _ _ PO c I). congruence. }
    cbn [impEnv f_db] in WV. assert (NV : noRefs (rpn v)) by (intros c I; unfold isRef; pose proof (CV c I); lia).
    destruct (put_known s T k path u v y dv LK N WV NV SH) as [s2 [b [s' [T' [K2 [R1 [PU [R2 [FR PL]]]]]]]]].
    exists (Some (s', b)), (K1 + K2). split.
    - intros fuel LF. unfold improveAt. rewrite Q. cbn [rbind]. rewrite SEG, HU. cbn [negb]. rewrite GT. cbn [rbind]. rewrite HD, to_of, (H1 fuel) by lia. cbn [rbind fst]. rewrite EV. fold (sz v).
      assert (D : (if 1 <? sz u then deleteSubProof db s k else Ok s) = deleteSubProof db s k).
      { destruct (1 <? sz u) eqn:X; [reflexivity|]. assert (X1 : sz u = 1) by lia. symmetry. unfold deleteSubProof. rewrite (po_rpn _ _ _ PO), (nodeAt_root _ _ _ _ N). cbn [rget rbind].
        replace (rootOf u) with zUnk; [rewrite Z.eqb_refl; reflexivity|]. destruct u as [zu ks]. cbn [rootOf]. cbn [rpn] in HU. rewrite sz_node in X1. apply unk_in in HU. apply in_app_iff in HU.
        destruct (flat_map rpn ks) as [|c l] eqn:FK; [|cbn in X1; lia]. destruct HU as [[]|[->|[]]]. reflexivity. }
      rewrite D. unfold replaceSubProof in R1. rewrite Q in R1. cbn [rbind] in R1. destruct (deleteSubProof db s k) as [s1| | |]; try discriminate R1. cbn [rbind] in *. rewrite R1. cbn [rbind]. rewrite (R2 fuel) by lia. reflexivity.
    - exists path, u. split; [exact N|]. exists y, v, T'. split; [exact NF|]. split; [reflexivity|]. split; [exact NY|]. split; [exact PV|]. split; [exact SH|]. split; [exact PU|]. split; [exact FR|exact PL].
  Qed.
End One.
