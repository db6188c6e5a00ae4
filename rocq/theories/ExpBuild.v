(* ExpBuild.v -- proofs about ExpModel: building the proof string, and the order of the
   hypotheses *)
From Coq Require Import ZifyBool ZifyNat Permutation.
From Verif Require Import Base VerModel VerSpec VerProofs TokModel ParModel ParSpec SqModel SqSpec SqProofs SqAttr PfaProofs PfaMore CmpSpec ExpModel ExpSpec ExpProofs ExpMove CheckPar.
Open Scope nat_scope.

Notation seg := (list item * (label * tree))%type.
Fixpoint flat (S : list seg) : list item := match S with [] => [] | (P, _) :: r => flat r ++ P end.
Fixpoint poss (S : list seg) : list nat := match S with [] => [] | (P, _) :: r => (length (flat r ++ P) - 1) :: poss r end.
Lemma flat_app A : forall B, flat (A ++ B) = flat B ++ flat A.
Proof. induction A as [|[P x] A IH]; intros B; cbn [app flat]; [rewrite app_nil_r; reflexivity|]. rewrite IH, app_assoc. reflexivity. Qed.
Lemma flat_concat S : flat S = concat (map fst (rev S)).
Proof. induction S as [|[P x] S IH]; [reflexivity|]. cbn [flat rev]. rewrite map_app, concat_app, IH. cbn [map concat fst]. rewrite app_nil_r. reflexivity. Qed.
Lemma poss_len S : length (poss S) = length S.
Proof. induction S as [|[P x] S IH]; cbn [poss length]; congruence. Qed.
Lemma poss_app A : forall B, skipn (length A) (poss (A ++ B)) = poss B.
Proof. induction A as [|[P x] A IH]; intros B; [reflexivity|]. cbn [app poss length skipn]. apply IH. Qed.

Section Build.
  Variables (db : dbase) (hist : list tree) (targets : list label).
  Fixpoint segsOk (S : list seg) : Prop :=
    match S with
    | [] => True
    | (P, (g, t)) :: r => P <> [] /\ (forall s, arun db hist s P (t :: s)) /\ nth_error targets (length (flat r ++ P) - 1) = Some g /\ segsOk r
    end.
  Lemma segsOk_app A : forall B, segsOk (A ++ B) -> segsOk B.
  Proof. induction A as [|[P [g t]] A IH]; intros B H; [exact H|]. cbn [app segsOk] in H. apply IH, H. Qed.
  Lemma segsOk_in S : segsOk S -> forall P g t, In (P, (g, t)) S -> P <> [] /\ forall s, arun db hist s P (t :: s).
  Proof. induction S as [|[P0 [g0 t0]] S IH]; intros H P g t I; [destruct I|]. cbn [segsOk] in H. destruct H as [H1 [H2 [_ H3]]]. destruct I as [I|I]; [injection I as -> -> ->; auto|exact (IH H3 _ _ _ I)]. Qed.

  (* where a subproof is *)
  Definition segAt (W : list item) (h : nat) (x : seg) : Prop := exists A B u, W = A ++ fst x ++ B /\ h + 1 = length A + length (fst x) /\ wfTree db u /\ map fst (fst x) = rpn u /\ nth_error targets h = Some (fst (snd x)).
  Lemma seg_tree P t : (forall s, arun db hist s P (t :: s)) -> exists u, wfTree db u /\ map fst P = rpn u.
  Proof. intros H. destruct (shape_one db hist P t (map fst P) (H []) (code_fst P)) as [u U]. eauto. Qed.
  Lemma seg_pos E : forall S0 suf, segsOk (E ++ S0) -> Forall2 (segAt (flat (E ++ S0) ++ suf)) (firstn (length E) (poss (E ++ S0))) E.
  Proof.
    induction E as [|[P [g t]] E IH]; intros S0 suf H; [constructor|]. cbn [app segsOk] in H. destruct H as [H1 [H2 [H3 H4]]]. cbn [app length poss firstn flat]. constructor.
    - destruct (seg_tree P t H2) as [u [U1 U2]]. exists (flat (E ++ S0)), suf, u. cbn [fst snd]. split; [rewrite app_assoc; reflexivity|]. rewrite app_length in *. split; [destruct P; [congruence|cbn [length]; lia]|]. auto.
    - rewrite <- app_assoc. apply IH. exact H4.
  Qed.
  Definition segOf (hx : nat * seg) : nat * (list Z * list nat) := (fst hx, (map fst (fst (snd hx)), map snd (fst (snd hx)))).
  Lemma hyp_segs W hs E : Forall2 (segAt W) hs E -> hypSegs db (map fst W) (map snd W) hs = Ok (map segOf (combine hs E)).
  Proof.
    induction 1 as [|h x hs E (A & B & u & EW & EH & WU & EU & _) F IH]; [reflexivity|]. cbn [hypSegs combine map]. pose proof (f_equal (@length Z) EU) as LU. rewrite map_length in LU. pose proof (sz_pos u) as SU.
    assert (SL : subproofLen db (map fst W) h = Ok (length (fst x))).
    { rewrite EW, !map_app, EU, LU. replace h with (length (map fst A) + length (rpn u) - 1) by (rewrite map_length; lia). apply subproofLen_ctx. exact WU. }
    rewrite SL. cbn [rbind]. rewrite IH. cbn [rbind]. unfold segOf at 2. cbn [fst snd].
    assert (GEN : forall (C : Type) (f : item -> C), firstn (length (fst x)) (skipn (h + 1 - length (fst x)) (map f W)) = map f (fst x)).
    { intros C f. replace (h + 1 - length (fst x)) with (length A) by lia. rewrite EW, !map_app. rewrite <- (map_length f A), skipn_app, skipn_all, Nat.sub_diag. cbn [skipn app]. rewrite <- (map_length f (fst x)), firstn_app, firstn_all, Nat.sub_diag. cbn [firstn]. apply app_nil_r. }
    rewrite !GEN. reflexivity.
  Qed.
  Lemma segs_len W hs E : Forall2 (segAt W) hs E -> length (flat_map (fun x => fst (snd x)) (map segOf (combine hs E))) = length (concat (map fst E)).
  Proof. induction 1 as [|h x hs E H F IH]; [reflexivity|]. cbn [combine map flat_map segOf concat]. unfold segOf at 1. cbn [fst snd]. rewrite !app_length, map_length, IH. reflexivity. Qed.
  Lemma f2_rev {A B} (R : A -> B -> Prop) l l' : Forall2 R l l' -> Forall2 R (rev l) (rev l').
  Proof. induction 1; [constructor|]. cbn [rev]. apply Forall2_app; [assumption|constructor; [assumption|constructor]]. Qed.
  Lemma find_seg W hs E : Forall2 (segAt W) hs E -> NoDup (map (fun x => fst (snd x)) E) -> forall x, In x E ->
    findSeg targets (fst (snd x)) (map segOf (combine hs E)) = Ok (Some (map fst (fst x), map snd (fst x))).
  Proof.
    induction 1 as [|h y hs E (A & B & u & _ & _ & _ & _ & TG) F IH]; intros ND x I; [destruct I|]. cbn [combine map findSeg segOf]. unfold segOf at 1. cbn [fst snd]. rewrite TG. cbn [rget rbind].
    cbn [map] in ND. inversion ND as [|? ? N1 N2]; subst. destruct (list_eq_dec Nat.eq_dec (fst (snd x)) (fst (snd y))) as [E1|E1].
    - destruct I as [->|I]; [reflexivity|]. destruct N1. rewrite <- E1. apply (in_map (fun x => fst (snd x))). exact I.
    - destruct I as [->|I]; [congruence|]. apply IH; auto.
  Qed.
  Lemma match_hyps env W hs E : Forall2 (segAt W) hs E -> NoDup (map (fun x => fst (snd x)) E) -> forall hyps X, incl X E -> map (e_name env) hyps = map (fun x => fst (snd x)) X ->
    matchHyps env targets (map segOf (combine hs E)) hyps = Ok (Some (map fst (concat (map fst X)), map snd (concat (map fst X)))).
  Proof.
    intros F ND. induction hyps as [|h hyps IH]; intros X IX EN; destruct X as [|x X]; try discriminate EN; [reflexivity|]. cbn [map] in EN. injection EN as EN1 EN2. cbn [matchHyps].
    rewrite EN1, (find_seg W hs E F ND x) by (apply IX; left; reflexivity). cbn [rbind]. rewrite (IH X) by (auto; intros y I; apply IX; right; exact I). cbn [rbind map concat]. rewrite !map_app. reflexivity.
  Qed.
  Lemma trees_of E : segsOk E -> exists us, Forall (wfTree db) us /\ length us = length E /\ map fst (flat E) = flat_map rpn us.
  Proof.
    induction E as [|[P [g t]] E IH]; intros H; [exists []; repeat split; constructor|]. cbn [segsOk] in H. destruct H as [H1 [H2 [H3 H4]]]. destruct (IH H4) as [us [U1 [U2 U3]]]. destruct (seg_tree P t H2) as [u [W U]].
    exists (us ++ [u]). split; [apply Forall_app; split; [exact U1|constructor; [exact W|constructor]]|]. split; [rewrite app_length; cbn [length]; lia|]. cbn [flat]. rewrite map_app, flat_map_app, U3, U. cbn [flat_map]. rewrite app_nil_r. reflexivity.
  Qed.
  Lemma trees_of' E : (forall P g t, In (P, (g, t)) E -> P <> [] /\ forall s, arun db hist s P (t :: s)) -> exists us, Forall (wfTree db) us /\ length us = length E /\ map fst (flat E) = flat_map rpn us.
  Proof.
    induction E as [|[P [g t]] E IH]; intros H; [exists []; repeat split; constructor|]. destruct (H P g t (or_introl eq_refl)) as [H1 H2]. destruct IH as [us [U1 [U2 U3]]]; [intros P' g' t' I; apply (H P' g' t'); right; exact I|]. destruct (seg_tree P t H2) as [u [W U]].
    exists (us ++ [u]). split; [apply Forall_app; split; [exact U1|constructor; [exact W|constructor]]|]. split; [rewrite app_length; cbn [length]; lia|]. cbn [flat]. rewrite map_app, flat_map_app, U3, U. cbn [flat_map]. rewrite app_nil_r. reflexivity.
  Qed.
  Lemma arun_all (X : list seg) : (forall P g t, In (P, (g, t)) X -> forall s, arun db hist s P (t :: s)) -> forall s, arun db hist s (concat (map fst X)) (rev (map (fun x => snd (snd x)) X) ++ s).
  Proof.
    induction X as [|[P [g t]] X IH]; intros H s; [constructor|]. cbn [map concat fst snd rev]. eapply arun_app; [apply (H P g t); left; reflexivity|]. rewrite <- app_assoc. cbn [app]. apply IH. intros P' g' t' I. apply (H P' g' t'). right. exact I.
  Qed.

  (* the hypotheses taken by their targets *)
  Lemma pick (env : penv) : forall hyps kids E, Forall2 (fun h t => In (e_name env h, t) (map snd E)) hyps kids ->
    exists X : list seg, incl X E /\ map (e_name env) hyps = map (fun x => fst (snd x)) X /\ kids = map (fun x => snd (snd x)) X.
  Proof.
    intros hyps kids E F. induction F as [|h t hyps kids I F [X [X1 [X2 X3]]]]; [exists []; repeat split; intros x []|]. apply in_map_iff in I. destruct I as [[P [g t']] [EX I]]. cbn [snd] in EX. injection EX as -> ->.
    exists ((P, (e_name env h, t)) :: X). split; [intros y [<-|Y]; [exact I|apply X1; exact Y]|]. cbn [map snd fst]. split; congruence.
  Qed.
  Lemma nodup_map {A B} (f : A -> B) l : NoDup (map f l) -> NoDup l.
  Proof. induction l as [|x l IH]; intros H; [constructor|]. cbn [map] in H. inversion H; subst. constructor; [|auto]. intros I. match goal with N : ~ In (f x) _ |- _ => apply N end. apply in_map. exact I. Qed.

  Lemma rearrange_ok env hyps kids E S0 j step : db = e_db env -> segsOk (E ++ S0) -> length E = length hyps -> NoDup (map (e_name env) hyps) -> arity db j = Some (length hyps) ->
    step = length (flat (E ++ S0)) -> isRef j = false -> nth_error hist step = Some (Node j kids) ->
    Forall2 (fun h t => In (e_name env h, t) (map snd (rev E))) hyps kids ->
    exists P, rearrange env targets hyps (map fst (flat (E ++ S0)) ++ [j]) (map snd (flat (E ++ S0)) ++ [step]) (firstn (length hyps) (poss (E ++ S0)))
        = Ok (Some (map fst (flat S0 ++ P), map snd (flat S0 ++ P))) /\ Permutation (flat (E ++ S0) ++ [(j, step)]) (flat S0 ++ P) /\
      (forall s, arun db hist s P (Node j kids :: s)) /\ P <> [].
  Proof.
    intros ED SO LE ND AR ES RJ HS F. set (W := flat (E ++ S0) ++ [(j, step)]).
    assert (EW1 : map fst (flat (E ++ S0)) ++ [j] = map fst W) by (unfold W; rewrite map_app; reflexivity). assert (EW2 : map snd (flat (E ++ S0)) ++ [step] = map snd W) by (unfold W; rewrite map_app; reflexivity). rewrite EW1, EW2.
    assert (LW : length W = S step) by (unfold W; rewrite app_length; cbn [length]; lia).
    destruct (pick env hyps kids (rev E) F) as [X [X1 [X2 X3]]].
    assert (NDX : NoDup (map (fun x : seg => fst (snd x)) X)) by (rewrite <- X2; exact ND).
    assert (LX : length X = length E) by (rewrite <- (map_length (fun x : seg => fst (snd x)) X), <- X2, map_length; lia).
    assert (PX : Permutation X (rev E)) by (apply NoDup_Permutation_bis; [exact (nodup_map _ _ NDX)|rewrite rev_length; lia|exact X1]).
    assert (NDE : NoDup (map (fun x : seg => fst (snd x)) (rev E))) by (apply (Permutation_NoDup (Permutation_map _ PX)); exact NDX).
    pose proof (seg_pos E S0 [(j, step)] SO) as SP. fold W in SP. rewrite LE in SP.
    assert (SPR : Forall2 (segAt W) (rev (firstn (length hyps) (poss (E ++ S0)))) (rev E)).
    { apply f2_rev. exact SP. }
    assert (ARE : forall P g t, In (P, (g, t)) E -> P <> [] /\ forall s, arun db hist s P (t :: s)) by (intros P g t I; apply (segsOk_in (E ++ S0) SO P g t); apply in_app_iff; left; exact I).
    destruct (trees_of' E ARE) as [us [U1 [U2 U3]]].
    set (Q := concat (map fst X)). assert (PQ : Permutation Q (flat E)).
    { unfold Q. rewrite flat_concat. clear - PX. induction PX as [|x l l' P IH|x y l|l l' l'' P1 IH1 P2 IH2]; cbn [map concat]; [constructor|apply Permutation_app_head; exact IH|rewrite !app_assoc; apply Permutation_app_tail; apply Permutation_app_comm|eapply Permutation_trans; eassumption]. }
    assert (WU : wfTree db (Node j us)) by (constructor; [rewrite U2, LE; exact AR|exact U1]).
    assert (EWT : map fst W = map fst (flat S0) ++ rpn (Node j us) ++ []).
    { unfold W. rewrite flat_app, !map_app, U3. cbn [rpn map fst]. rewrite app_nil_r, <- app_assoc. reflexivity. }
    assert (SZ : length (rpn (Node j us)) = S (length (flat E))) by (rewrite len_node, <- U3, map_length; reflexivity).
    assert (LST : step = length (flat S0) + length (flat E)) by (rewrite ES, flat_app, app_length; lia).
    assert (SL : subproofLen db (map fst W) step = Ok (S (length (flat E)))).
    { rewrite EWT, <- SZ. replace step with (length (map fst (flat S0)) + length (rpn (Node j us)) - 1) by (rewrite map_length; lia). apply subproofLen_ctx. exact WU. }
    exists (Q ++ [(j, step)]). split; [|split; [|split]].
    - unfold rearrange. rewrite <- ED, map_length, LW. replace (S step - 1) with step by lia. rewrite SL. cbn [rbind]. rewrite (hyp_segs W _ _ SPR). cbn [rbind].
      assert (LF : length (flat_map (fun x => fst (snd x)) (map segOf (combine (rev (firstn (length hyps) (poss (E ++ S0)))) (rev E)))) = length (flat E)).
      { rewrite flat_concat. exact (segs_len W _ _ SPR). }
      rewrite LF. replace (length (flat E) =? S (length (flat E)) - 1) with true by lia. cbn [negb].
      rewrite (match_hyps env W _ _ SPR NDE hyps X X1 X2). cbn [rbind]. fold Q. rewrite map_length, (Permutation_length PQ). replace (length (flat E) =? S (length (flat E)) - 1) with true by lia. cbn [negb].
      replace (step + 1 - S (length (flat E))) with (length (flat S0)) by lia.
      assert (EWS : W = flat S0 ++ flat E ++ [(j, step)]) by (unfold W; rewrite flat_app, <- app_assoc; reflexivity).
      assert (GEN : forall (B : Type) (f : item -> B), firstn (length (flat S0)) (map f W) ++ map f Q ++ skipn step (map f W) = map f (flat S0 ++ Q ++ [(j, step)])).
      { intros B f. rewrite EWS at 1. rewrite !map_app. f_equal; [rewrite <- (map_length f (flat S0)), firstn_app, firstn_all, Nat.sub_diag; cbn [firstn]; apply app_nil_r|]. f_equal.
        unfold W. rewrite map_app. replace step with (length (map f (flat (E ++ S0)))) at 1 by (rewrite map_length; auto). rewrite skipn_app, skipn_all, Nat.sub_diag. reflexivity. }
      rewrite !GEN. reflexivity.
    - unfold W. rewrite flat_app, <- app_assoc. apply Permutation_app_head. apply Permutation_app_tail. symmetry. exact PQ.
    - intros s. eapply arun_app.
      + apply arun_all. intros P g t I. apply ARE with (g := g). apply in_rev. apply X1. exact I.
      + rewrite <- X3. apply ar_node; auto; [|constructor]. rewrite AR, X3, map_length. f_equal. lia.
    - destruct Q; discriminate.
  Qed.
End Build.
