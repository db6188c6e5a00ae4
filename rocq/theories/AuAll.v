(* AuAll.v -- proofs about AuModel: assigning and deleting; whole sessions *)
From Coq Require Import ZifyBool ZifyNat.
From Verif Require Import Base.
From Verif Require Import UniModel UniSpec HenModel HenProofs.
From Verif Require Import MMSpec VerModel VerSpec ParModel SqModel SqSpec SqProofs SqAttr TrcWork PfaModel PfaSpec PfaProofs PfaAssign PfaHist PfaProps FltModel FltSpec FltProofs RepSpec AkModel AkSpec AkProofs AkMain MinModel MinSpec AuModel AuSpec AuProofs AuMain AuCmd AuTop.
Open Scope nat_scope.

Lemma combine_skip {A B} n : forall (a : list A) (b : list B), skipn n (combine a b) = combine (skipn n a) (skipn n b).
Proof. induction n as [|n IH]; intros [|x a] [|y b]; cbn; try reflexivity; [destruct (skipn n a); reflexivity|apply IH]. Qed.
Lemma combine_app_len {A B} (a a' : list A) (b b' : list B) : length a = length b -> combine (a ++ a') (b ++ b') = combine a b ++ combine a' b'.
Proof. revert b. induction a as [|x a IH]; intros [|y b] L; try discriminate L; [reflexivity|]. cbn. rewrite IH by (injection L as L; exact L). reflexivity. Qed.
Lemma combine_splice {A B} (a x : list A) (b y : list B) k n : length a = length b -> length x = length y -> combine (splice a k n x) (splice b k n y) = splice (combine a b) k n (combine x y).
Proof. intros L M. unfold splice. rewrite combine_app_len by (rewrite !firstn_length, L; reflexivity). rewrite combine_app_len by exact M. rewrite combine_firstn, combine_skip. reflexivity. Qed.
Lemma nth_error_comb {A B} (a : list A) : forall (b : list B) k x y, nth_error a k = Some x -> nth_error b k = Some y -> nth_error (combine a b) k = Some (x, y).
Proof. induction a as [|c a IH]; intros [|d b] [|k] x y H G; try discriminate; cbn in *; [injection H as ->; injection G as ->; reflexivity|exact (IH b k x y H G)]. Qed.

Lemma get_at {A} (l : list A) i d : i < length l -> HenModel.get l i = Ok (nth i l d).
Proof. intros L. unfold HenModel.get. destruct (nth_error l i) eqn:Q; [|apply nth_error_None in Q; lia]. rewrite (nth_error_nth _ _ d Q). reflexivity. Qed.

Section All.
  Variable E : fenv.
  Hypothesis AO : auOk E.
  Let FO := ao_flt E AO.
  Notation db := (f_db E).
  Notation e := (f_u E).
  Notation mt := (u_mt (f_u E)).
  Let WD := fo_wf E None FO.

  Lemma linked_splice m s T k path u v T' s' ts rs : linked E m s T -> nodeAt T k path u -> putAt v T path T' -> pipOk db s' T' ->
    tg s' = splice (tg s) k (sz u) ts -> sr s' = splice (sr s) k (sz u) rs -> length ts = length rs -> fits db v (combine ts rs) ->
    goalOf (combine ts rs) = nth k (tg s) [] -> (forall x, In x ts -> scheme db x) -> (forall x, In x rs -> x = [] \/ scheme db x) -> (forall x, In x (us s') -> x = [] \/ entry E x) ->
    linked E m s' T'.
  Proof.
    intros LK N P PO' ET ES LL FV GV HTS HRS HUS. pose proof LK as [PO FI GO HT HR HU]. destruct (fits_node db T k path u N _ FI) as [a1 [au [a2 [EA [LA [FU REP]]]]]].
    pose proof (fits_len db u au FU) as LU. pose proof (sz_pos u) as SP. destruct (node_split _ _ _ _ N) as [sa [sb [_ SL]]].
    assert (LTR : length (tg s) = length (sr s)) by (rewrite (po_tg _ _ _ PO), (po_sr _ _ _ PO); reflexivity).
    assert (X : nth_error (combine (tg s) (sr s)) k = Some (last au ([], []))).
    { rewrite EA. rewrite nth_error_app2 by lia. destruct au as [|p au _] using rev_ind; [cbn in LU; lia|]. rewrite last_last. rewrite app_length in LU. cbn [length] in LU.
      rewrite <- app_assoc. rewrite nth_error_app2 by lia. replace (k - length a1 - length au) with 0 by lia. reflexivity. }
    assert (GU : goalOf au = nth k (tg s) []).
    { unfold goalOf. destruct (nth_error (tg s) k) as [t|] eqn:Q.
      - destruct (nth_error (sr s) k) as [r|] eqn:Q'; [|apply nth_error_None in Q'; assert (k < length (tg s)) by (apply nth_error_Some; congruence); lia].
        rewrite (nth_error_comb _ _ _ _ _ Q Q') in X. injection X as <-. cbn [fst]. symmetry. apply nth_error_nth. exact Q.
      - apply nth_error_None in Q. assert (k < length (combine (tg s) (sr s))) by (apply nth_error_Some; congruence). rewrite combine_length in *. lia. }
    destruct (REP v (combine ts rs) T' FV ltac:(congruence) P) as [R1 R2].
    assert (EC : combine (tg s') (sr s') = a1 ++ combine ts rs ++ a2).
    { rewrite ET, ES, combine_splice by (exact LTR || exact LL). rewrite EA. unfold splice. rewrite <- LA. rewrite firstn_app, firstn_all, Nat.sub_diag, firstn_O, app_nil_r. f_equal. f_equal.
      replace (k + 1) with (length a1 + length au) by lia. rewrite app_assoc, skipn_app. rewrite skipn_all2 by (rewrite app_length; lia). rewrite app_length, Nat.sub_diag. reflexivity. }
    constructor; [exact PO'|rewrite EC; exact R1|rewrite EC, R2; exact GO| | |exact HUS].
    - rewrite ET. intros x I. destruct (splice_in _ _ _ _ _ I); auto.
    - rewrite ES. intros x I. destruct (splice_in _ _ _ _ _ I); auto.
  Qed.
  Lemma nth_tg m s T k : linked E m s T -> k < length (pf s) -> In (nth k (tg s) []) (tg s).
  Proof. intros LK L. apply nth_In. rewrite (po_tg _ _ _ (lk_pip _ _ _ _ LK)). exact L. Qed.
  Lemma nth_us m s T k : linked E m s T -> nth k (us s) [] = [] \/ entry E (nth k (us s) []).
  Proof. intros LK. destruct (nth_in_or_default k (us s) []) as [I|D]; [exact (lk_us _ _ _ _ LK _ I)|left; exact D]. Qed.

  (* DELETE STEP *)
  Lemma delete_linked m s T n : linked E m s T -> n <= length (pf s) + 1 -> exists r, deleteStep db s n = Ok r /\ match r with Some s' => exists T', linked E m s' T' | None => True end.
  Proof.
    intros LK L. pose proof (lk_pip _ _ _ _ LK) as PO. destruct (C35_delete_step db s T n PO) as [H1 H2]. rewrite <- (po_rpn _ _ _ PO) in H1.
    destruct (Nat.eq_dec n 0) as [->|N0]; [exists None; split; [apply H1; auto|exact I]|]. destruct (Nat.eq_dec n (length (pf s) + 1)) as [->|N1]; [exists None; split; [apply H1; auto|exact I]|].
    assert (LN : n - 1 < sz T) by (rewrite <- (po_rpn _ _ _ PO); lia). destruct (nodeAt_total T (n - 1) LN) as [path [u N]]. destruct (H2 (n - 1) path u ltac:(lia) N) as [A B].
    assert (D : u = unknown \/ u <> unknown).
    { destruct u as [z [|c ks]]; [destruct (Z.eq_dec z zUnk) as [->|Q]; [left; reflexivity|right; intros X; injection X as X; congruence]|right; discriminate]. }
    destruct D as [->|NU]; [exists None; split; [apply A; reflexivity|exact I]|]. destruct (B NU) as [s' [D1 D2]]. exists (Some s'). split; [exact D1|].
    assert (NZ : nth_error (pf s) (n - 1) <> Some zUnk).
    { rewrite (po_rpn _ _ _ PO). rewrite (nodeAt_root _ _ _ _ N). intros Q. injection Q as Q. apply NU. destruct u as [z ks]. cbn in Q. subst z.
      pose proof (node_wf db T _ _ _ (po_tree _ _ _ PO) N) as W. inversion W as [? ? AR FK]; subst. unfold arity in AR. cbn in AR. injection AR as AR. destruct ks; [reflexivity|discriminate AR]. }
    destruct (delete_ok db s T (n - 1) path u PO N NZ) as [s1 [T1 [E1 [E2 [E3 [_ [_ [E4 [E5 E6]]]]]]]]]. rewrite D2 in E1. injection E1 as <-. exists T1.
    apply (linked_splice m s T (n - 1) path u unknown T1 s' [nth (n - 1) (tg s) []] [[]] LK N E3 E2 E4 E5 eq_refl).
    - apply ft_unk.
    - reflexivity.
    - intros x [<-|[]]. apply (lk_tg _ _ _ _ LK). apply (nth_tg m s T _ LK). lia.
    - intros x [<-|[]]. left. reflexivity.
    - rewrite E6. intros x I. destruct (splice_in _ _ _ _ _ I) as [I'|[<-|[]]]; [exact (lk_us _ _ _ _ LK x I')|exact (nth_us m s T _ LK)].
  Qed.

  (* ASSIGN *)
  Lemma renamed_subst (r : nat -> Z) l : (forall t, In t l -> db_isvar db t = true -> (0 <= r t)%Z) -> renamed db r l = toZ (MMSpec.subst (db_isvar db) (fun t => [Z.to_nat (r t)]) l).
  Proof.
    unfold renamed, MMSpec.subst, toZ. induction l as [|t l IH]; intros H; [reflexivity|]. cbn [map flat_map]. rewrite IH by (intros u I; apply H; right; exact I). rewrite map_app. f_equal.
    destruct (db_isvar db t) eqn:V; [|reflexivity]. cbn. rewrite Z2Nat.id by (apply H; [left; reflexivity|exact V]). reflexivity.
  Qed.
  Lemma renamed_scheme (r : nat -> Z) c l : db_isvar db c = false -> (forall t, In t (c :: l) -> t < db_sep db) -> (forall t, In t (c :: l) -> db_isvar db t = true -> (Z.of_nat (db_sep db) < r t)%Z) -> scheme db (renamed db r (c :: l)).
  Proof.
    intros V B H. rewrite renamed_subst by (intros t I Q; specialize (H t I Q); lia). eexists. split; [reflexivity|]. split.
    - exists c, (MMSpec.subst (db_isvar db) (fun t => [Z.to_nat (r t)]) l). unfold MMSpec.subst. cbn [flat_map]. rewrite V. split; [reflexivity|apply B; left; reflexivity].
    - intros I. unfold MMSpec.subst in I. apply in_flat_map in I. destruct I as [t [I J]]. destruct (db_isvar db t) eqn:Q.
      + destruct J as [J|[]]. specialize (H t I Q). lia.
      + destruct J as [J|[]]. specialize (B t I). lia.
  Qed.
  Lemma math_scheme h sh : stmtAt db h sh -> isHyp sh \/ isAssertion sh -> scheme db (toZ (s_math sh)).
  Proof.
    intros S T. eexists. split; [reflexivity|]. destruct (wf_head db WD h sh S T) as [c [r [EM V]]]. split.
    - exists c, r. split; [exact EM|]. apply (fo_tok E None FO h sh c S T). rewrite EM. left. reflexivity.
    - intros I. pose proof (fo_tok E None FO h sh _ S T I). lia.
  Qed.
  Lemma fits_premise n st (r : nat -> Z) t : stmtAt db n st -> isAssertion st -> (forall v, In v (s_reqVars st) -> (0 <= r v)%Z) ->
    fits db (premiseNode n (length (s_reqHyps st))) (combine (map (fun x => renamed db r (mathAt db x)) (s_reqHyps st) ++ [t]) (repeat [] (length (s_reqHyps st)) ++ [renamed db r (s_math st)])).
  Proof.
    intros S AS R. rewrite combine_app_len by (rewrite map_length, repeat_length; reflexivity). cbn [combine].
    replace (combine (map (fun x => renamed db r (mathAt db x)) (s_reqHyps st)) (repeat [] (length (s_reqHyps st)))) with (concat (map (fun x => [(renamed db r (mathAt db x), @nil Z)]) (s_reqHyps st)))
      by (induction (s_reqHyps st) as [|x l IH]; [reflexivity|]; cbn; rewrite IH; reflexivity).
    rewrite (renamed_subst r (s_math st)) by (intros u I V; apply R; exact (wf_vars_math db WD n st S AS u I V)).
    unfold premiseNode. apply (ft_use db n st (repeat unknown (length (s_reqHyps st))) (map (fun x => [(renamed db r (mathAt db x), [])]) (s_reqHyps st)) t _ S AS).
    - induction (s_reqHyps st) as [|x l IH]; [constructor|]. cbn [length repeat map]. constructor; [apply ft_unk|exact IH].
    - assert (HH : forall h, In h (s_reqHyps st) -> exists sh, stmtAt db h sh /\ forall u, In u (s_math sh) -> db_isvar db u = true -> In u (s_reqVars st)).
      { intros h I. destruct (wf_hyps db WD n st h S AS I) as [sh [SH _]]. exists sh. split; [exact SH|]. intros u J V. apply (wf_reqVars db WD n st S AS). split; [exact V|]. exists h, sh. auto. }
      induction (s_reqHyps st) as [|x l IH]; [constructor|]. cbn [map]. constructor; [|apply IH; intros h I; apply HH; right; exact I].
      destruct (HH x (or_introl eq_refl)) as [sh [SH V]]. exists sh. split; [exact SH|]. unfold goalOf. cbn [last fst]. unfold mathAt. unfold stmtAt in SH. rewrite SH. apply renamed_subst. intros u I Q. apply R. exact (V u I Q).
  Qed.
  Lemma assign_linked m s T n st k old dv : linked E m s T -> k < length (pf s) -> nth_error (pf s) k = Some zUnk -> stmtAt db n st -> isHyp st \/ isAssertion st ->
    exists s' T' dv', assignStatement db mt old s n k dv = Ok (s', dv') /\ linked E m s' T' /\ length (pf s') = length (pf s) + length (s_reqHyps st).
  Proof.
    intros LK L Z S HA. pose proof (lk_pip _ _ _ _ LK) as PO. destruct (unk_node db s T k PO Z) as [path N]. assert (IN := nth_tg m s T k LK L).
    destruct HA as [HY|AS].
    - destruct (assign_hyp_ok db mt old s T k path n st dv PO N S HY (ao_hyps E AO n st S HY)) as [s' [T' [A1 [A2 [A3 [A4 [A5 [A6 A7]]]]]]]]. exists s', T', dv. split; [exact A1|]. split.
      2: { rewrite A4, splice_len by exact L. rewrite (ao_hyps E AO n st S HY). cbn. lia. }
      apply (linked_splice m s T k path unknown (Node (Z.of_nat n) []) T' s' [nth k (tg s) []] [map Z.of_nat (s_math st)] LK N A3 A2).
      + rewrite A6. cbn. unfold splice. replace (k + 1 - 1) with k by lia. pose proof (po_tg _ _ _ PO) as LT. rewrite <- LT in L. rewrite <- (firstn_skipn k (tg s)) at 1. f_equal.
        destruct (nth_error (tg s) k) as [x|] eqn:Q; [|apply nth_error_None in Q; lia]. rewrite (nth_skipn_cons (tg s) k x [] Q). reflexivity.
      + exact A5.
      + reflexivity.
      + apply (ft_hyp db n st _ S HY).
      + reflexivity.
      + intros x [<-|[]]. exact (lk_tg _ _ _ _ LK _ IN).
      + intros x [<-|[]]. right. exact (math_scheme n st S (or_introl HY)).
      + rewrite A7. exact (lk_us _ _ _ _ LK).
    - destruct (assign_ok db mt old s T k path n st dv WD PO N S AS) as [s' [T' [r [A1 [A2 [A3 [A4 [A5 [A6 [A7 A8]]]]]]]]]]. exists s', T', (dv + length (s_reqVars st)). split; [exact A1|]. split.
      2: { rewrite A5, splice_len by exact L. rewrite app_length, repeat_length. cbn. lia. }
      assert (R : forall v, In v (s_reqVars st) -> (Z.of_nat (db_sep db) < r v)%Z).
      { intros v I. apply In_nth_error in I. destruct I as [i Q]. rewrite (A4 i v Q), (mt_sep E FO). lia. }
      assert (HH : forall h, In h (s_reqHyps st) -> scheme db (renamed db r (mathAt db h))).
      { intros h I. destruct (wf_hyps db WD n st h S AS I) as [sh [SH HY]]. unfold mathAt. pose proof SH as SH'. unfold stmtAt in SH. rewrite SH.
        destruct (wf_head db WD h sh SH' (or_introl HY)) as [c [l [EM V]]]. rewrite EM. apply renamed_scheme; [exact V|rewrite <- EM; intros u J; exact (fo_tok E None FO h sh u SH' (or_introl HY) J)|].
        rewrite <- EM. intros u J Q. apply R. apply (wf_reqVars db WD n st S AS). split; [exact Q|]. exists h, sh. auto. }
      apply (linked_splice m s T k path unknown (premiseNode n (length (s_reqHyps st))) T' s' _ _ LK N A3 A2 A7 A6).
      + rewrite !app_length, map_length, repeat_length. reflexivity.
      + apply fits_premise; [exact S|exact AS|]. intros v I. pose proof (R v I). lia.
      + rewrite combine_app_len by (rewrite map_length, repeat_length; reflexivity). unfold goalOf. cbn [combine]. rewrite last_last. reflexivity.
      + intros x I. apply in_app_iff in I. destruct I as [I|[<-|[]]]; [apply in_map_iff in I; destruct I as [h [<- I]]; exact (HH h I)|exact (lk_tg _ _ _ _ LK _ IN)].
      + intros x I. apply in_app_iff in I. destruct I as [I|[<-|[]]]; [apply repeat_spec in I; left; exact I|]. right.
        destruct (wf_head db WD n st S (or_intror AS)) as [c [l [EM V]]]. rewrite EM. apply renamed_scheme; [exact V|rewrite <- EM; intros u J; exact (fo_tok E None FO n st u S (or_intror AS) J)|].
        rewrite <- EM. intros u J Q. apply R. exact (wf_vars_math db WD n st S AS u J Q).
      + rewrite A8. intros x I. destruct (splice_in _ _ _ _ _ I) as [I'|I']; [exact (lk_us _ _ _ _ LK x I')|]. apply in_app_iff in I'. destruct I' as [I'|[<-|[]]]; [apply repeat_spec in I'; left; exact I'|exact (nth_us m s T _ LK)].
  Qed.

  (* checkStmtMatch *)
  Lemma two_end E' X w u : f_u E' = f_u E -> scheme db (toZ X) -> scheme db w -> (u = [] \/ entry E u) -> exists c K, forall fuel, K <= fuel -> twoMatches fuel E' X (ofZ w) (ofZ u) = Ok c.
  Proof.
    intros EU HS HW HU. unfold twoMatches. rewrite EU.
    assert (EX := scheme_entry E _ HS). destruct (first_ends e (ofZ w) (ofZ (toZ X)) (two_entries E FO _ _ (scheme_entry E _ HW) EX) (f_on E') 1) as [r [K1 [_ R1]]]. rewrite to_of in R1.
    assert (U : exists c K, forall fuel, K <= fuel -> (match ofZ u with [] => Ok 1 | _ => do x <- unifyH fuel e (f_on E') (ofZ u) X 1; Ok (flagOf (fst x)) end) = Ok c).
    { destruct HU as [->|HU]; [exists 1, 0; reflexivity|]. destruct (first_ends e (ofZ u) (ofZ (toZ X)) (two_entries E FO _ _ HU EX) (f_on E') 1) as [r2 [K2 [_ R2]]]. rewrite to_of in R2.
      destruct (ofZ u) as [|t l]; [exists 1, 0; reflexivity|]. exists (flagOf (fst r2)), K2. intros fuel L. rewrite (R2 fuel L). reflexivity. }
    destruct U as [c [K2 R2]]. exists (if (flagOf (fst r) =? 0) || (c =? 0) then 0 else if (flagOf (fst r) =? 1) && (c =? 1) then 1 else 2), (Nat.max K1 K2).
    intros fuel L. rewrite (R1 fuel) by lia. cbn [rbind]. rewrite (R2 fuel) by lia. cbn [rbind].
    destruct ((flagOf (fst r) =? 0) || (c =? 0)); [reflexivity|]. destruct ((flagOf (fst r) =? 1) && (c =? 1)); reflexivity.
  Qed.
  Lemma math_varsOk n st : stmtAt db n st -> isAssertion st -> varsOk E st (s_math st).
  Proof. intros S AS t I. split; [intros V; exact (wf_vars_math db WD n st S AS t I V)|exact (fo_tok E None FO n st t S (or_intror AS) I)]. Qed.
  Lemma dum_scheme n st dv : stmtAt db n st -> isAssertion st -> scheme db (toZ (map (dum (dvEnv E dv) st) (s_math st))).
  Proof.
    intros S AS. destruct (wf_head db WD n st S (or_intror AS)) as [c [r [EM V]]]. pose proof (math_varsOk n st S AS) as H. eexists. split; [reflexivity|]. split.
    - exists c, (map (dum (dvEnv E dv) st) r). rewrite EM. cbn [map]. unfold dum at 1. cbn [dvEnv f_db]. rewrite V. split; [reflexivity|]. apply (H c). rewrite EM. left. reflexivity.
    - intros I. apply in_map_iff in I. destruct I as [u [X I]]. destruct (H u I) as [K1 K2]. unfold dum in X. cbn [dvEnv f_db] in X. destruct (db_isvar db u) eqn:Q; [|lia].
      destruct (indexOf_in u (s_reqVars st) (K1 eq_refl)) as [i [EI _]]. rewrite EI in X. unfold base in X. cbn [dvEnv f_u] in X. rewrite (mt_sep E FO) in X. lia.
  Qed.
  Lemma stmtMatch_ok n st w u dv : stmtAt db n st -> isHyp st \/ isAssertion st -> scheme db w -> (u = [] \/ entry E u) -> exists c K, forall fuel, K <= fuel -> checkStmtMatch fuel (dvEnv E dv) n (ofZ w) (ofZ u) = Ok c.
  Proof.
    intros S HA HW HU. pose proof HW as [y [-> [[t0 [tr [-> Lt]]] NT]]]. pose proof S as S'. unfold stmtAt in S'. rewrite to_of. unfold checkStmtMatch, stmtOf. cbn [dvEnv f_db f_n f_u]. rewrite S'. cbn [rget rbind].
    destruct HA as [HY|AS].
    - destruct (fo_n E None FO) as [stn SN]. unfold stmtAt in SN. rewrite SN. cbn [rget rbind].
      assert (X : exists c K, forall fuel, K <= fuel -> (if negb (memb n (s_reqHyps stn) || memb n (s_optHyps stn)) then Ok 0 else twoMatches fuel (dvEnv E dv) (s_math st) (t0 :: tr) (ofZ u)) = Ok c).
      { destruct (negb _); [exists 0, 0; reflexivity|]. rewrite <- (to_of (t0 :: tr)). apply two_end; [reflexivity|exact (math_scheme n st S (or_introl HY))|exact HW|exact HU]. }
      destruct X as [c [K X]]. exists c, K. intros fuel L. specialize (X fuel L). destruct HY as [-> | ->]; exact X.
    - destruct (wf_head db WD n st S (or_intror AS)) as [c0 [cr [EM V]]].
      assert (X : exists c K, forall fuel, K <= fuel -> (do d <- symbolsDiffer (f_u E) (s_math st) (t0 :: tr);
        if (d : bool) then Ok 0 else do sc <- dummies (dvEnv E dv) st (s_math st); twoMatches fuel (dvEnv E dv) sc (t0 :: tr) (ofZ u)) = Ok c).
      { assert (Y : exists d, symbolsDiffer (f_u E) (s_math st) (t0 :: tr) = Ok d).
        { unfold symbolsDiffer. rewrite EM. destruct (_ && negb (c0 =? t0)); [eexists; reflexivity|]. destruct (negb (last (c0 :: cr) 0 =? last (t0 :: tr) 0) && _ && _); [eexists; reflexivity|]. destruct cr, tr; eexists; reflexivity. }
        destruct Y as [d ->]. cbn [rbind]. destruct d; [exists 0, 0; reflexivity|].
        rewrite (dummies_ok (dvEnv E dv) st (s_math st) (math_varsOk n st S AS)). cbn [rbind]. rewrite <- (to_of (t0 :: tr)). apply two_end; [reflexivity|exact (dum_scheme n st dv S AS)|exact HW|exact HU]. }
      destruct X as [c [K X]]. exists c, K. intros fuel L. specialize (X fuel L). destruct AS as [-> | ->]; exact X.
  Qed.
End All.
