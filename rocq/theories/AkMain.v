(* AkMain.v -- proofs about AkModel: a whole subproof *)
From Coq Require Import ZifyBool ZifyNat.
From Verif Require Import Base.
From Verif Require Import UniModel UniSpec HenModel HenProofs.
From Verif Require Import MMSpec VerModel VerSpec VerProofs ParModel SqModel SqSpec SqProofs SqAttr PfaModel PfaSpec PfaProofs FltModel FltSpec FltProofs AkModel AkSpec AkProofs.
Open Scope nat_scope.

Lemma to_of l : ofZ (toZ l) = l.
Proof. unfold ofZ, toZ. rewrite map_map. rewrite (map_ext _ (fun x => x)) by (intros; apply Nat2Z.id). apply map_id. Qed.
Lemma put_len {A} (l : list A) i x : length (HenModel.put l i x) = length l.
Proof. revert i. induction l as [|a l IH]; intros i; [reflexivity|]. destruct i; cbn [HenModel.put length]; [reflexivity|]. rewrite IH. reflexivity. Qed.
Lemma put_same {A} (l : list A) i x : i < length l -> nth_error (HenModel.put l i x) i = Some x.
Proof. revert i. induction l as [|a l IH]; intros i L; cbn [length] in L; [lia|]. destruct i; cbn [HenModel.put nth_error]; [reflexivity|]. apply IH. lia. Qed.
Lemma put_other {A} (l : list A) i j x : i <> j -> nth_error (HenModel.put l i x) j = nth_error l j.
Proof. revert i j. induction l as [|a l IH]; intros i j N; [reflexivity|]. destruct i, j; cbn [HenModel.put nth_error]; try reflexivity; [lia|]. apply IH. lia. Qed.
Lemma set_ok {A} (l : list A) i x : i < length l -> HenModel.set l i x = Ok (HenModel.put l i x).
Proof. intros L. unfold HenModel.set. replace (i <? length l) with true by lia. reflexivity. Qed.
Lemma get_ok {A} (l : list A) i x : nth_error l i = Some x -> HenModel.get l i = Ok x.
Proof. intros H. unfold HenModel.get. rewrite H. reflexivity. Qed.
Lemma strings_app sr a b : strings sr (a ++ b) = do x <- strings sr a; do y <- strings sr b; Ok (x ++ y).
Proof.
  induction a as [|p a IH]; [cbn [app strings rbind]; destruct (strings sr b); reflexivity|]. cbn [app strings]. rewrite IH.
  destruct (HenModel.get sr p); [|reflexivity..]. cbn [rbind]. destruct (strings sr a); [|reflexivity..]. cbn [rbind]. destruct (strings sr b); reflexivity.
Qed.
Lemma strings_ext sr sr' ps : (forall p, In p ps -> nth_error sr p = nth_error sr' p) -> strings sr ps = strings sr' ps.
Proof.
  induction ps as [|p ps IH]; intros H; [reflexivity|]. cbn [strings]. unfold HenModel.get. rewrite (H p) by (left; reflexivity). rewrite IH by (intros q I; apply H; right; exact I). reflexivity.
Qed.
Definition isSeg {A} (l : list A) (pos : nat) (m : list A) : Prop := forall i x, nth_error m i = Some x -> nth_error l (pos + i) = Some x.
Lemma seg_left {A} (l : list A) pos a b : isSeg l pos (a ++ b) -> isSeg l pos a.
Proof. intros H i x K. apply H. rewrite nth_error_app1; [exact K|]. apply nth_error_Some. congruence. Qed.
Lemma seg_right {A} (l : list A) pos a b : isSeg l pos (a ++ b) -> isSeg l (pos + length a) b.
Proof. intros H i x K. rewrite <- Nat.add_assoc. apply H. rewrite nth_error_app2 by lia. rewrite <- K. f_equal. lia. Qed.

Lemma shows_node db ok z kids x : shows db ok (Node z kids) x ->
  (exists h sh, h <> 0 /\ z = Z.of_nat h /\ kids = [] /\ stmtAt db h sh /\ isHyp sh /\ x = s_math sh) \/
  (exists n st xs sg, n <> 0 /\ z = Z.of_nat n /\ stmtAt db n st /\ isAssertion st /\ floated db st /\ Forall2 (shows db ok) kids xs /\ unifier db st xs sg /\
     (forall v, In v (s_reqVars st) -> ok (sg v)) /\ x = subst (db_isvar db) sg (s_math st)).
Proof. intros H. inversion H; subst; [left; exists h, sh; auto 10|right; exists n, st, xs, sg; auto 12]. Qed.
Lemma hyp_not_assertion st : isHyp st -> isAssertion st -> False.
Proof. intros [H|H] [K|K]; congruence. Qed.

Section Ak.
  Variable E : fenv.
  Variable T : option tree.
  Hypothesis FO : fltOk E T.
  Notation db := (f_db E).
  Notation iv := (db_isvar (f_db E)).
  Notation mt := (u_mt (f_u E)).
  Let WD := fo_wf E T FO.
  Let MT := fo_mt E T FO.

  Lemma shows_tok ok u : forall x, shows db ok u x -> forall t, In t x -> t < mt.
  Proof.
    induction u as [z kids IH] using tree_ind2. intros x H t I. destruct (shows_node _ _ _ _ _ H) as [[h [sh [_ [-> [-> [K1 [K2 ->]]]]]]]|[n [st [xs [sg [_ [-> [K1 [K2 [K3 [K4 [K5 [_ ->]]]]]]]]]]]]].
    - rewrite MT. apply (fo_tok E T FO h sh t K1); [left; exact K2|exact I].
    - assert (IT : forall x u, In x xs -> In u x -> u < mt).
      { clear -K4 IH. intros x u. induction K4 as [|k y kids ys F1 F2 IHF]; intros I J; [destruct I|]. inversion IH as [|? ? P Q]; subst. destruct I as [<-|I]; [exact (P y F1 u J)|exact (IHF Q I J)]. }
      unfold subst in I. apply in_flat_map in I. destruct I as [v [I J]]. destruct (math_tok E T FO n st K1 K2 v I) as [L V]. destruct (iv v) eqn:Ev; [|destruct J as [<-|[]]; exact L].
      exact (sg_low E T FO n st K1 K2 K3 xs IT sg K5 v t (V eq_refl) J).
  Qed.
  Lemma shows_det ok ok' u : forall x y, shows db ok u x -> shows db ok' u y -> x = y.
  Proof.
    induction u as [z kids IH] using tree_ind2. intros x y H H'.
    destruct (shows_node _ _ _ _ _ H) as [[h [sh [_ [-> [-> [K1 [K2 ->]]]]]]]|[n [st [xs [sg [_ [-> [K1 [K2 [K3 [K4 [K5 [_ ->]]]]]]]]]]]]];
    destruct (shows_node _ _ _ _ _ H') as [[h' [sh' [_ [EZ [EK [L1 [L2 ->]]]]]]]|[n' [st' [ys [sg' [_ [EZ [L1 [L2 [L3 [L4 [L5 [_ ->]]]]]]]]]]]]]; apply Nat2Z.inj in EZ.
    - subst h'. unfold stmtAt in *. congruence.
    - subst n'. unfold stmtAt in *. rewrite K1 in L1. injection L1 as <-. destruct (hyp_not_assertion _ K2 L2).
    - subst h'. unfold stmtAt in *. rewrite K1 in L1. injection L1 as <-. destruct (hyp_not_assertion _ L2 K2).
    - subst n'. unfold stmtAt in K1, L1. rewrite K1 in L1. injection L1 as <-.
      assert (xs = ys).
      { clear -K4 L4 IH. revert ys L4. induction K4 as [|k y kids xs F1 F2 IHF]; intros ys L4; inversion L4; subst; [reflexivity|]. inversion IH as [|? ? P Q]; subst. f_equal; [eapply P; eassumption|apply IHF; assumption]. }
      subst ys. unfold subst. apply flat_map_in. intros v I. destruct (iv v) eqn:Ev; [|reflexivity].
      apply (floated_unique db st xs sg' sg K3); [intros w J; apply (wf_reqVars db WD n st K1 K2 w), J|exact L5|exact K5|]. apply (wf_vars_math db WD n st K1 K2 v I Ev).
  Qed.

  Section Loop.
    Variable ok : list nat -> Prop.
    Variable pf : list Z.
    Definition after (u : tree) (pos : nat) (sr sr' : list (list Z)) : Prop :=
      length sr' = length sr /\ (forall i, i < pos \/ pos + length (rpn u) <= i -> nth_error sr' i = nth_error sr i) /\
      forall k path v y, nodeAt u k path v -> shows db ok v y -> nth_error sr' (pos + k) = Some (toZ y).
    Definition same (pos len : nat) (sr sr' : list (list Z)) : Prop :=
      length sr' = length sr /\ (forall i, i < pos \/ pos + len <= i -> nth_error sr' i = nth_error sr i).
    Definition outcome (b : bool) (sr' : list (list Z)) (stk : list nat) (k fuel pos : nat) : res (bool * list (list Z)) :=
      if b then knownLoop k fuel E pf pos sr' stk else Ok (false, sr').
    Definition runsTree (u : tree) : Prop := forall x pos sr stk, shows db ok u x -> isSeg pf pos (rpn u) -> pos + length (rpn u) <= length sr ->
      exists b sr' K, (forall fuel k, K <= fuel -> knownLoop (length (rpn u) + k) fuel E pf pos sr stk = outcome b sr' (pos + length (rpn u) - 1 :: stk) k fuel (pos + length (rpn u))) /\
        same pos (length (rpn u)) sr sr' /\
        (b = true -> forall k path v y, nodeAt u k path v -> shows db ok v y -> nth_error sr' (pos + k) = Some (toZ y)) /\
        ((forall w, ok w -> okValue E w) -> b = true).
    Lemma runs_kids : forall kids, Forall runsTree kids -> forall xs pos sr stk, Forall2 (shows db ok) kids xs -> isSeg pf pos (flat_map rpn kids) -> pos + length (flat_map rpn kids) <= length sr ->
      exists b sr' ps K, (forall fuel k, K <= fuel -> knownLoop (length (flat_map rpn kids) + k) fuel E pf pos sr stk = outcome b sr' (rev ps ++ stk) k fuel (pos + length (flat_map rpn kids))) /\
        same pos (length (flat_map rpn kids)) sr sr' /\
        (b = true -> length ps = length kids /\ (forall p, In p ps -> pos <= p < pos + length (flat_map rpn kids)) /\ strings sr' ps = Ok xs /\
          forall j c k path v y, nth_error kids j = Some c -> nodeAt c k path v -> shows db ok v y -> nth_error sr' (pos + (length (flat_map rpn (firstn j kids)) + k)) = Some (toZ y)) /\
        ((forall w, ok w -> okValue E w) -> b = true).
    Proof.
      induction kids as [|u kids IH]; intros RT xs pos sr stk F SG L.
      - inversion F; subst. exists true, sr, [], 0. split; [intros fuel k _; cbn [flat_map length Nat.add rev app outcome]; rewrite Nat.add_0_r; reflexivity|].
        split; [split; [reflexivity|intros; reflexivity]|]. split; [|reflexivity]. intros _. split; [reflexivity|]. split; [intros p []|]. split; [reflexivity|].
        intros j c k path v y H. destruct j; discriminate H.
      - inversion F as [|? x ? xs' F1 F2]; subst. inversion RT as [|? ? R1 R2]; subst. cbn [flat_map] in *. rewrite app_length in *.
        destruct (R1 x pos sr stk F1 (seg_left _ _ _ _ SG) ltac:(lia)) as [b [sr1 [K1 [H1 [[S1 S2] [V1 O1]]]]]].
        destruct b.
        2:{ exists false, sr1, [], K1. split; [intros fuel k LK; rewrite <- Nat.add_assoc; exact (H1 fuel _ LK)|]. split; [split; [exact S1|intros i Hi; apply S2; lia]|].
            split; [discriminate|]. exact O1. }
        destruct (IH R2 xs' (pos + length (rpn u)) sr1 (pos + length (rpn u) - 1 :: stk) F2 (seg_right _ _ _ _ SG) ltac:(lia)) as [b [sr2 [ps [K2 [H2 [[S3 S4] [V2 O2]]]]]]].
        exists b, sr2, (pos + length (rpn u) - 1 :: ps), (Nat.max K1 K2). pose proof (sz_pos u) as SZ.
        split; [|split; [|split; [|exact O2]]].
        + intros fuel k LK. rewrite <- Nat.add_assoc, (H1 fuel) by lia. cbn [outcome]. rewrite (H2 fuel) by lia. cbn [rev]. rewrite <- app_assoc. cbn [app]. rewrite <- Nat.add_assoc. reflexivity.
        + split; [lia|]. intros i Hi. rewrite S4 by lia. apply S2. lia.
        + intros ->. destruct (V2 eq_refl) as [W1 [W2 [W3 W4]]]. split; [cbn [length]; lia|]. split; [intros p [<-|I]; [lia|specialize (W2 p I); lia]|].
          assert (R : nth_error sr2 (pos + length (rpn u) - 1) = Some (toZ x)).
          { rewrite S4 by lia. replace (pos + length (rpn u) - 1) with (pos + (length (rpn u) - 1)) by lia. apply (V1 eq_refl _ [] u); [apply na_root|exact F1]. }
          split.
          * cbn [strings]. rewrite (get_ok _ _ _ R). cbn [rbind]. rewrite W3. cbn [rbind]. rewrite to_of. reflexivity.
          * intros j c k path v y Hj N SH. destruct j as [|j]; cbn [nth_error firstn flat_map length Nat.add] in *.
            -- injection Hj as <-. pose proof (nodeAt_bound _ _ _ _ N) as B. rewrite S4 by lia. exact (V1 eq_refl k path v y N SH).
            -- rewrite app_length. replace (pos + (length (rpn u) + length (flat_map rpn (firstn j kids)) + k)) with (pos + length (rpn u) + (length (flat_map rpn (firstn j kids)) + k)) by lia.
               exact (W4 j c k path v y Hj N SH).
    Qed.
    Lemma runs_tree : forall u, runsTree u.
    Proof.
      induction u as [z kids IH] using tree_ind2. intros x pos sr stk H SG L. pose proof (sz_node z kids) as SZ. cbn [rpn] in *. rewrite app_length in *. cbn [length] in *.
      destruct (shows_node _ _ _ _ _ H) as [[h [sh [NZ [-> [-> [K1 [K2 ->]]]]]]]|[n [st [xs [sg [NZ [-> [K1 [K2 [K3 [K4 [K5 [K6 ->]]]]]]]]]]]]].
      - cbn [flat_map length Nat.add app] in *. pose proof (SG 0 _ eq_refl) as P. rewrite Nat.add_0_r in P.
        exists true, (HenModel.put sr pos (toZ (s_math sh))), 0. split; [|split; [|split; [|reflexivity]]].
        + intros fuel k _. cbn [knownLoop]. rewrite (get_ok _ _ _ P). cbn [rbind]. replace (Z.of_nat h <=? 0)%Z with false by lia. unfold stmtOf. rewrite Nat2Z.id. unfold stmtAt in K1. rewrite K1. cbn [rget rbind].
          rewrite set_ok by lia. cbn [rbind outcome]. replace (pos + 1 - 1) with pos by lia. replace (pos + 1) with (S pos) by lia. destruct K2 as [-> | ->]; reflexivity.
        + split; [apply put_len|]. intros i Hi. apply put_other. lia.
        + intros _ k path v y N SH. assert (k = 0) by (apply nodeAt_bound in N; cbn in N; lia). subst k. rewrite Nat.add_0_r.
          destruct (nodeAt_unique _ _ _ _ N [] (Node (Z.of_nat h) []) (na_root _)) as [_ ->]. rewrite (shows_det ok ok _ _ _ SH H). apply put_same. lia.
      - destruct (runs_kids kids IH xs pos sr stk K4 (seg_left _ _ _ _ SG) ltac:(lia)) as [b [sr1 [ps [K [R1 [[S1 S2] [V1 O1]]]]]]].
        destruct b.
        2:{ exists false, sr1, K. split; [intros fuel k LK; rewrite <- Nat.add_assoc; exact (R1 fuel _ LK)|]. split; [split; [exact S1|intros i Hi; apply S2; lia]|]. split; [discriminate|exact O1]. }
        destruct (V1 eq_refl) as [W1 [W2 [W3 W4]]].
        assert (IT : forall x u, In x xs -> In u x -> u < mt).
        { clear - K4 FO MT. intros x u I. induction K4 as [|k y kids ys F1 F2 IHF]; [destruct I|]. destruct I as [<-|I]; [exact (shows_tok ok k y F1 u)|exact (IHF I)]. }
        destruct (knownStep_ok E T FO n st xs sg K1 K2 K3 IT K5) as [o [K' [Q1 [Q2 Q3]]]].
        pose proof (SG (length (flat_map rpn kids)) (Z.of_nat n)) as P. rewrite nth_error_app2, Nat.sub_diag in P by lia. specialize (P eq_refl).
        assert (LEN : length ps = length (s_reqHyps st)) by (rewrite W1, (F2_len _ _ _ K4); symmetry; exact (F2_len _ _ _ K5)).
        assert (STEP : forall fuel k, Nat.max K K' <= fuel -> knownLoop (length (flat_map rpn kids) + 1 + k) fuel E pf pos sr stk =
          match o with None => Ok (false, sr1) | Some y => knownLoop k fuel E pf (pos + (length (flat_map rpn kids) + 1)) (HenModel.put sr1 (pos + length (flat_map rpn kids)) (toZ y)) (pos + length (flat_map rpn kids) :: stk) end).
        { intros fuel k LK. rewrite <- Nat.add_assoc, (R1 fuel) by lia. cbn [outcome Nat.add knownLoop]. rewrite (get_ok _ _ _ P). cbn [rbind]. replace (Z.of_nat n <=? 0)%Z with false by lia.
          unfold stmtOf. rewrite Nat2Z.id. unfold stmtAt in K1. rewrite K1. cbn [rget rbind].
          assert (X : firstn (length (s_reqHyps st)) (rev ps ++ stk) = rev ps) by (rewrite <- LEN, <- rev_length, firstn_app, Nat.sub_diag, firstn_O, app_nil_r; apply firstn_all2; lia).
          assert (Y : skipn (length (s_reqHyps st)) (rev ps ++ stk) = stk) by (rewrite <- LEN, <- rev_length, skipn_app, Nat.sub_diag; cbn [skipn]; rewrite (skipn_all2 (rev ps)) by lia; reflexivity).
          rewrite X, Y, rev_involutive. replace (length (rev ps ++ stk) <? length (s_reqHyps st)) with false by (rewrite app_length, rev_length; lia). rewrite W3. cbn [rbind]. rewrite (Q1 fuel) by lia. cbn [rbind].
          replace (pos + (length (flat_map rpn kids) + 1)) with (S (pos + length (flat_map rpn kids))) by lia.
          destruct o as [y|]; [|destruct K2 as [-> | ->]; reflexivity]. rewrite set_ok by lia. destruct K2 as [-> | ->]; reflexivity. }
        destruct Q2 as [->| ->].
        + exists false, sr1, (Nat.max K K'). split; [exact STEP|]. split; [split; [exact S1|intros i Hi; apply S2; lia]|]. split; [discriminate|].
          intros OV. exfalso. apply Q3; [|reflexivity]. intros v I. apply OV, K6, I.
        + exists true, (HenModel.put sr1 (pos + length (flat_map rpn kids)) (toZ (subst iv sg (s_math st)))), (Nat.max K K'). split; [|split; [|split; [|reflexivity]]].
          * intros fuel k LK. rewrite (STEP fuel k LK). cbn [outcome]. replace (pos + (length (flat_map rpn kids) + 1) - 1) with (pos + length (flat_map rpn kids)) by lia. reflexivity.
          * split; [rewrite put_len; exact S1|]. intros i Hi. rewrite put_other by lia. apply S2. lia.
          * intros _ k path v y N SH. inversion N as [t A1 A2 A3|z' kids' j c k' path' v' Hj N' A1 A2 A3]; subst.
            -- replace (length (rpn (Node (Z.of_nat n) kids)) - 1) with (length (flat_map rpn kids)) by (rewrite sz_node; lia). rewrite (shows_det ok ok _ _ _ SH H). apply put_same. lia.
            -- pose proof (nodeAt_bound _ _ _ _ N') as B. rewrite put_other; [exact (W4 j c k' path' v y Hj N' SH)|].
               pose proof (flat_firstn_le kids j (S j) c ltac:(lia) Hj) as Q.
               assert (Q' : length (flat_map rpn (firstn (S j) kids)) <= length (flat_map rpn kids)) by (rewrite <- (firstn_skipn (S j) kids) at 2; rewrite flat_map_app, app_length; lia). lia.
    Qed.
  End Loop.
End Ak.
