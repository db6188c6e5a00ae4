(* ReadSec.v -- where the sections found by parseKeywords lie in the text: each is
   followed by the keyword that ends it. *)
From Verif Require Import Base TokModel LabModel SrcModel TokSpec SrcSpec TokProofs SrcProofs.
Open Scope nat_scope.

Section Sec.
Variable src : list nat.
(* section sec is followed by "$c" *)
Definition foll (sec : section) (c : nat) : Prop :=
  nth_error src (fst sec + snd sec) = Some chDollar /\ nth_error src (S (fst sec + snd sec)) = Some c.
Definition folK (k : kstmt) : Prop :=
  foll (k_lab k) (charOfKind (k_kind k)) /\
  match k_kind k with
  | K_lb | K_rb => k_math k = None /\ k_proof k = None
  | K_p => exists m p, k_math k = Some m /\ k_proof k = Some p /\ foll m chEq /\ foll p chDot
  | _ => k_proof k = None /\ exists m, k_math k = Some m /\ foll m chDot
  end.
Definition good2 (p : nat) (s : kst) : Prop :=
  ks_start s <= p /\
  match ks_mode s with
  | 0 => Forall folK (ks_cur s)
  | 1 => exists k r, ks_cur s = k :: r /\ Forall folK r /\ foll (k_lab k) (charOfKind (k_kind k)) /\
           k_kind k <> K_lb /\ k_kind k <> K_rb /\ k_proof k = None /\ ks_type s = Some (k_kind k)
  | 2 => exists k r m, ks_cur s = k :: r /\ Forall folK r /\ foll (k_lab k) (charOfKind (k_kind k)) /\
           k_kind k = K_p /\ k_math k = Some m /\ foll m chEq
  | _ => False
  end.
Definition Inv2 (p : nat) (s : kst) : Prop := ks_err s <> [] \/ (ks_err s = [] /\ good2 p s).
Lemma good2_mono p q s : p <= q -> good2 p s -> good2 q s.
Proof. intros H (A & B). split; [lia|exact B]. Qed.
Lemma foll_cut start p c : start <= p -> nth_error src p = Some chDollar -> nth_error src (S p) = Some c ->
  foll (start, S p - start - 1) c.
Proof. intros H A B. unfold foll. cbn [fst snd]. replace (start + (S p - start - 1)) with p by lia. auto. Qed.

Lemma kwStep_inv2 room d p s s' :
  nth_error src p = Some chDollar -> nth_error src (S p) = d ->
  kwStep room d (S p) s = Ok s' -> Inv2 p s -> Inv2 (S (S p)) s'.
Proof.
  intros H1 H2 H [HE|(HE & HG)].
  { left. eapply kwStep_errs; eauto. }
  assert (HG' : good2 (S (S p)) s) by (eapply good2_mono; [|exact HG]; lia).
  unfold kwStep in H.
  destruct (isCh d chOpen) eqn:E1; [apply Ok_inj in H; subst s'; right; split; [exact HE|exact HG']|].
  destruct (isCh d chClose) eqn:E2; [apply Ok_inj in H; subst s'; right; split; [exact HE|exact HG']|].
  destruct (ks_inC s) eqn:E3; [apply Ok_inj in H; subst s'; right; split; [exact HE|exact HG']|].
  destruct HG as (G1 & G3).
  destruct d as [d|]; cbn beta iota in H.
  - assert (His : forall c, isCh (Some d) c = true -> d = c) by (intros c; apply Nat.eqb_eq).
    destruct (kindOfChar d) as [ty|] eqn:EK; cbn [ks_mode ks_cur ks_start ks_err ks_inC ks_type] in H.
    + apply kindOfChar_spec in EK. rewrite letter_char in EK.
      destruct (ks_mode s) as [|m] eqn:EM.
      * destruct (room <=? S (length (ks_cur s))); [discriminate|]. apply Ok_inj in H. subst s'.
        right. split; [exact HE|]. pose proof (foll_cut _ _ _ G1 H1 H2) as HF. rewrite EK in HF.
        split; [cbn; lia|].
        destruct ty; cbn [ks_mode ks_cur ks_start ks_type].
        1, 2, 3, 6, 7, 8, 9: eexists _, _; split; [reflexivity|]; cbn [k_math k_proof k_kind k_lab];
          repeat split; try discriminate; try assumption; try exact (proj1 HF); exact (proj2 HF).
        all: constructor; [|exact G3]; split; [exact HF|]; cbn; auto.
      * match type of H with (if ?b then _ else _) = _ => destruct b end;
          apply Ok_inj in H; subst s'; left; apply addErr_err.
    + destruct (ks_mode s) as [|[|m]] eqn:EM.
      * apply Ok_inj in H. subst s'. left. apply addErr_err.
      * destruct (isP (ks_type s)) eqn:EP; cbn [andb negb] in H.
        -- destruct (isCh (Some d) chEq) eqn:EQ; cbn [negb] in H.
           ++ apply His in EQ. subst d.
              change (isCh (Some chEq) chDot) with false in H. cbn [negb andb] in H.
              apply Ok_inj in H. subst s'. right. split; [exact HE|].
              destruct G3 as (k & r & Ec & Hr & Hl & Hn1 & Hn2 & Ep & Et).
              rewrite Et in EP. destruct (k_kind k) eqn:EKK; try discriminate EP.
              split; [cbn; lia|]. cbn [ks_mode ks_cur ks_start ks_type].
              pose proof (foll_cut _ _ _ G1 H1 H2) as HF.
              eexists _, r, _. split; [rewrite Ec; reflexivity|]. cbn [k_math k_proof k_kind k_lab].
              rewrite EKK in *. split; [exact Hr|]. split; [exact Hl|]. split; [reflexivity|]. split; [reflexivity|exact HF].
           ++ left. repeat match type of H with (if ?b then _ else _) = _ => destruct b end;
                apply Ok_inj in H; subst s'; apply addErr_err.
        -- destruct (isCh (Some d) chDot) eqn:ED; cbn [negb] in H.
           ++ apply His in ED. subst d. cbn [negb andb] in H. apply Ok_inj in H. subst s'.
              right. split; [exact HE|].
              destruct G3 as (k & r & Ec & Hr & Hl & Hn1 & Hn2 & Ep & Et).
              rewrite Et in EP.
              split; [cbn; lia|]. cbn [ks_mode ks_cur ks_start ks_type].
              pose proof (foll_cut _ _ _ G1 H1 H2) as HF.
              rewrite Ec. cbn [setMath]. constructor; [|exact Hr].
              split; [exact Hl|]. cbn [k_kind k_math k_proof].
              destruct (k_kind k); try discriminate EP; try congruence; (split; [exact Ep|]; eexists; split; [reflexivity|exact HF]).
           ++ apply Ok_inj in H. subst s'. left. apply addErr_err.
      * destruct (isCh (Some d) chDot) eqn:ED; cbn [negb] in H.
        2:{ apply Ok_inj in H. subst s'. left. apply addErr_err. }
        apply His in ED. subst d. apply Ok_inj in H. subst s'. right. split; [exact HE|].
        destruct m as [|m]; [|contradiction].
        destruct G3 as (k & r & m & Ec & Hr & Hl & Ek & Em & Hm).
        split; [cbn; lia|]. cbn [ks_mode ks_cur ks_start ks_type].
        pose proof (foll_cut _ _ _ G1 H1 H2) as HF.
        rewrite Ec. cbn [setProof]. constructor; [|exact Hr]. split; [exact Hl|].
        cbn [k_kind k_math k_proof]. rewrite Ek. eexists _, _. split; [exact Em|]. split; [reflexivity|]. auto.
  - left. destruct (ks_mode s) as [|[|m]] eqn:EM.
    + apply Ok_inj in H. subst s'. apply addErr_err.
    + change (isCh None chEq) with false in H. change (isCh None chDot) with false in H. cbn [negb andb] in H.
      destruct (isP (ks_type s)); cbn [andb negb] in H; apply Ok_inj in H; subst s'; apply addErr_err.
    + change (isCh None chDot) with false in H. cbn [negb] in H. apply Ok_inj in H. subst s'. apply addErr_err.
Qed.

Lemma nth_skipn {A} (l : list A) p c r : skipn p l = c :: r -> nth_error l p = Some c.
Proof.
  revert p. induction l as [|x l IH]; intros [|p] H; cbn [skipn] in *; try discriminate.
  - cbn. congruence.
  - now apply IH.
Qed.
Lemma skipn_nth {A} (l : list A) p c : nth_error l p = Some c -> skipn p l = c :: skipn (S p) l.
Proof. revert p. induction l as [|x l IH]; intros [|p] H; try discriminate; cbn in *; [congruence|]. now apply IH. Qed.
Lemma foll_skip sec c : foll sec c -> exists r, skipn (fst sec + snd sec) src = chDollar :: c :: r.
Proof. intros [A B]. rewrite (skipn_nth _ _ _ A), (skipn_nth _ _ _ B). eauto. Qed.

Lemma kwLoop_inv2 room : forall n l p s s',
  length l <= n -> skipn p src = l ->
  kwLoop room l p s = Ok s' -> Inv2 p s -> exists q, Inv2 q s'.
Proof.
  induction n as [|n IH]; intros l p s s' Hn Hl H HI.
  - destruct l; [|simpl in Hn; lia]. simpl in H. apply Ok_inj in H. subst s'. eauto.
  - destruct l as [|c r].
    { simpl in H. apply Ok_inj in H. subst s'. eauto. }
    pose proof (nth_skipn _ _ _ _ Hl) as Hc.
    pose proof (skipn_cons _ _ _ _ Hl) as Hr.
    assert (Hm : forall q t, p <= q -> Inv2 p t -> Inv2 q t).
    { intros q t A [C|(C & D)]; [now left|]. right. split; [exact C|]. eapply good2_mono; eauto. }
    cbn [kwLoop] in H. simpl in Hn. destruct (Nat.eqb_spec c chDollar) as [->|Hd]; cbn [negb] in H.
    + destruct r as [|d r'].
      * assert (HN : nth_error src (S p) = None).
        { apply nth_error_None. apply (f_equal (@length nat)) in Hr. rewrite skipn_length in Hr. simpl in Hr. lia. }
        pose proof (kwStep_inv2 _ _ _ _ _ Hc HN H HI) as HX. eauto.
      * pose proof (nth_skipn _ _ _ _ Hr) as HN.
        destruct (Nat.eqb_spec d chDollar) as [->|Hd].
        -- eapply (IH r' (S (S p))); [simpl in Hn; lia| |exact H|].
           ++ exact (skipn_cons _ _ _ _ Hr).
           ++ apply Hm; [lia|exact HI].
        -- apply rbind_ok in H. destruct H as (s1 & Hs1 & H).
           pose proof (kwStep_inv2 _ _ _ _ _ Hc HN Hs1 HI) as HX.
           cbn [kwLoop] in H. apply Nat.eqb_neq in Hd. rewrite Hd in H. cbn [negb] in H.
           eapply (IH r' (S (S p))); [simpl in Hn; lia| |exact H|exact HX].
           exact (skipn_cons _ _ _ _ Hr).
    + eapply (IH r (S p)); [lia|exact Hr|exact H|]. apply Hm; [lia|exact HI].
Qed.

Lemma sections_followed es st dummy : readSource src = Ok (es, [], st, dummy) ->
  Forall folK st /\ Forall (okK src) st /\ fst dummy + snd dummy = length src.
Proof.
  intros H. unfold readSource in H. destruct (readRaw src) as [es' n].
  apply rbind_ok in H. destruct H as ([[st' d'] ks] & H1 & H2). apply Ok_inj in H2.
  injection H2 as -> -> -> ->.
  destruct (parseKeywords_good _ _ _ _ H1) as (G1 & G2 & _). split; [|auto]. clear G1 G2.
  unfold parseKeywords in H1. apply rbind_ok in H1. destruct H1 as (s & Hs & H).
  assert (HI : exists q, Inv2 q s).
  { eapply (kwLoop_inv2 _ (length src) src 0); [lia|reflexivity|exact Hs|].
    right. split; [reflexivity|]. split; [cbn; lia|]. cbn. constructor. }
  destruct HI as (q & HI).
  destruct (ks_mode s) as [|m] eqn:EM.
  - match type of H with (if ?b then _ else _) = _ => destruct b end; [discriminate|]. apply Ok_inj in H.
    injection H as <- _ HE. destruct HI as [HI|(_ & HG)]; [congruence|].
    destruct HG as (G1 & G3). rewrite EM in G3. now apply Forall_rev.
  - exfalso. match type of H with (if ?b then _ else _) = _ => destruct b end; [discriminate|].
    apply Ok_inj in H. injection H as _ _ HE.
    destruct (ks_cur s); cbn in HE; destruct (ks_err s); discriminate.
Qed.
End Sec.
