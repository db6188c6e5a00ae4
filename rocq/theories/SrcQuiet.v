(* SrcQuiet.v -- keyword parsing of a text given by its statements, and the
   structure of every source read without errors. *)
From Verif Require Import Base TokModel LabModel SrcModel TokSpec SrcSpec TokProofs SrcProofs.
Open Scope nat_scope.

Ltac recEq := repeat match goal with
  | |- @eq nat _ _ => lia | |- ?x = ?x => reflexivity | |- _ => f_equal end.

Definition setC (b : bool) (s : kst) : kst :=
  mkKst (ks_mode s) (ks_type s) b (ks_start s) (ks_cur s) (ks_err s).
Lemma setC_id s : setC (ks_inC s) s = s.
Proof. now destruct s. Qed.

Lemma kwLoop_char room c l pos s : c <> dollar -> kwLoop room (c :: l) pos s = kwLoop room l (S pos) s.
Proof. intros H. cbn [kwLoop]. apply Nat.eqb_neq in H. change chDollar with dollar. now rewrite H. Qed.
Lemma kwLoop_kw room d l pos s : d <> dollar ->
  kwLoop room (dollar :: d :: l) pos s =
  (do s' <- kwStep room (Some d) (S pos) s; kwLoop room l (S (S pos)) s').
Proof.
  intros H. cbn [kwLoop]. change (dollar =? chDollar) with true. cbn [negb].
  apply Nat.eqb_neq in H. change chDollar with dollar. rewrite H. cbn [negb]. reflexivity.
Qed.
Lemma kwLoop_dd room l pos s : kwLoop room (dollar :: dollar :: l) pos s = kwLoop room l (S (S pos)) s.
Proof. reflexivity. Qed.

Lemma kwLoop_comment room b : commentText b -> forall l pos s, ks_inC s = true ->
  kwLoop room (b ++ dollar :: 41 :: l) pos s = kwLoop room l (pos + length b + 2) (setC false s).
Proof.
  induction 1 as [|c r Hc Hr IH|d r Hd Hr IH]; intros l pos s HS.
  - cbn [app]. rewrite kwLoop_kw by discriminate.
    change (kwStep room (Some 41) (S pos) s) with (Ok (setC false s)). cbn [rbind length].
    f_equal. lia.
  - cbn [app]. rewrite kwLoop_char by exact Hc. rewrite IH by exact HS. f_equal. cbn [length]. lia.
  - cbn [app]. destruct (Nat.eq_dec d dollar) as [->|Hdd].
    + rewrite kwLoop_dd, IH by exact HS. f_equal. cbn [length]. lia.
    + rewrite kwLoop_kw by exact Hdd.
      assert (HK : kwStep room (Some d) (S pos) s = Ok s).
      { unfold kwStep, isCh. destruct (Nat.eqb_spec d chOpen).
        - f_equal. destruct s; cbn in *; subst; reflexivity.
        - destruct (Nat.eqb_spec d chClose); [now elim Hd|]. now rewrite HS. }
      rewrite HK. cbn [rbind]. rewrite IH by exact HS. f_equal. cbn [length]. lia.
Qed.

Lemma kwLoop_quiet room q : quiet q -> forall l pos s, ks_inC s = false ->
  kwLoop room (q ++ l) pos s = kwLoop room l (pos + length q) s.
Proof.
  induction 1 as [|c r Hc Hr IH|r Hr IH|b r Hb Hr IH]; intros l pos s HS.
  - cbn [app length]. f_equal. lia.
  - cbn [app]. rewrite kwLoop_char, IH by assumption. f_equal. cbn [length]. lia.
  - cbn [app]. rewrite kwLoop_dd, IH by exact HS. f_equal. cbn [length]. lia.
  - cbn [app]. rewrite kwLoop_kw by discriminate.
    change (kwStep room (Some 40) (S pos) s) with (Ok (setC true s)). cbn [rbind].
    rewrite <- app_assoc. cbn [app]. rewrite kwLoop_comment by (exact Hb || reflexivity).
    replace (setC false (setC true s)) with s by (destruct s; cbn in *; subst; reflexivity).
    rewrite IH by exact HS. f_equal. cbn [length]. rewrite app_length. cbn [length]. lia.
Qed.

(* ---- completeness ---- *)
Definition kOf (pos : nat) (i : item) : kstmt :=
  let a := length (it_lab i) in
  let b := length (it_math i) in
  let c := length (it_proof i) in
  match it_kind i with
  | K_lb | K_rb => mkK (it_kind i) (pos, a) None None
  | K_p => mkK K_p (pos, a) (Some (pos + a + 2, b)) (Some (pos + a + 2 + b + 2, c))
  | k => mkK k (pos, a) (Some (pos + a + 2, b)) None
  end.
Fixpoint ksOf (pos : nat) (items : list item) : list kstmt :=
  match items with
  | [] => []
  | i :: r => kOf pos i :: ksOf (pos + length (itemText i)) r
  end.

Lemma kwStep_new room k pos s : ks_mode s = 0 -> ks_inC s = false -> S (length (ks_cur s)) < room ->
  kwStep room (Some (letter k)) pos s =
  Ok (mkKst match k with K_lb | K_rb => 0 | _ => 1 end (Some k) false (pos + 1)
        (mkK k (ks_start s, pos - ks_start s - 1) None None :: ks_cur s) (ks_err s)).
Proof.
  intros H1 H2 H3. unfold kwStep.
  assert (HO : isCh (Some (letter k)) chOpen = false) by now destruct k.
  assert (HC : isCh (Some (letter k)) chClose = false) by now destruct k.
  rewrite HO, HC, H2. cbn iota.
  rewrite (proj2 (kindOfChar_spec (letter k) k) eq_refl). cbn [ks_mode ks_cur ks_start ks_err ks_inC ks_type].
  rewrite H1. apply Nat.leb_gt in H3. now rewrite H3.
Qed.

Lemma kwStep_eq room pos st k c e :
  kwStep room (Some 61) pos (mkKst 1 (Some K_p) false st (k :: c) e) =
  Ok (mkKst 2 (Some K_p) false (pos + 1)
        (mkK (k_kind k) (k_lab k) (Some (st, pos - st - 1)) (k_proof k) :: c) e).
Proof. reflexivity. Qed.
Lemma kwStep_dot2 room pos st t k c e :
  kwStep room (Some 46) pos (mkKst 2 t false st (k :: c) e) =
  Ok (mkKst 0 t false (pos + 1)
        (mkK (k_kind k) (k_lab k) (k_math k) (Some (st, pos - st - 1)) :: c) e).
Proof. reflexivity. Qed.
Lemma kwStep_dot1 room pos st t k c e : isP t = false ->
  kwStep room (Some 46) pos (mkKst 1 t false st (k :: c) e) =
  Ok (mkKst 0 t false (pos + 1)
        (mkK (k_kind k) (k_lab k) (Some (st, pos - st - 1)) (k_proof k) :: c) e).
Proof. intros H. unfold kwStep. cbn -[isP Nat.sub]. rewrite H. reflexivity. Qed.

Lemma kwLoop_item room i : itemOK i -> quietItem i -> forall l pos s,
  ks_mode s = 0 -> ks_inC s = false -> ks_start s = pos -> S (length (ks_cur s)) < room ->
  kwLoop room (itemText i ++ l) pos s =
  kwLoop room l (pos + length (itemText i))
    (mkKst 0 (Some (it_kind i)) false (pos + length (itemText i)) (kOf pos i :: ks_cur s) (ks_err s)).
Proof.
  intros HO (Q1 & Q2 & Q3) l pos s HM HC HS HR. unfold itemText.
  rewrite <- app_assoc. rewrite (kwLoop_quiet _ _ Q1) by exact HC. rewrite <- app_assoc. cbn [app].
  rewrite kwLoop_kw by (destruct (it_kind i); discriminate).
  rewrite kwStep_new by assumption. cbn [rbind]. rewrite HS.
  set (n := pos + length (it_lab i)).
  replace (S n - pos - 1) with (length (it_lab i)) by lia.
  assert (HB : it_kind i = K_lb \/ it_kind i = K_rb \/ it_kind i = K_p \/
     (it_kind i <> K_lb /\ it_kind i <> K_rb /\ it_kind i <> K_p))
    by (destruct (it_kind i); auto; right; right; right; repeat split; discriminate).
  destruct HB as [E|[E|[E|(E1 & E2 & E3)]]].
  - unfold kOf. rewrite E. cbn [app]. rewrite !app_length. cbn [length]. unfold n. recEq.
  - unfold kOf. rewrite E. cbn [app]. rewrite !app_length. cbn [length]. unfold n. recEq.
  - unfold kOf. rewrite E. rewrite <- app_assoc. rewrite (kwLoop_quiet _ _ Q2) by reflexivity.
    cbn [app]. rewrite kwLoop_kw by discriminate.
    rewrite kwStep_eq. cbn [rbind k_kind k_lab k_math k_proof].
    rewrite <- app_assoc. rewrite (kwLoop_quiet _ _ Q3) by reflexivity.
    cbn [app]. rewrite kwLoop_kw by discriminate.
    rewrite kwStep_dot2. cbn [rbind k_kind k_lab k_math k_proof].
    rewrite !app_length. cbn [length]. rewrite !app_length. cbn [length]. rewrite app_length. cbn [length].
    unfold n. recEq.
  - unfold kOf. destruct (it_kind i); try congruence;
    (rewrite <- app_assoc; rewrite (kwLoop_quiet _ _ Q2) by reflexivity;
     cbn [app]; rewrite kwLoop_kw by discriminate;
     rewrite kwStep_dot1 by reflexivity; cbn [rbind k_kind k_lab k_math k_proof];
     rewrite !app_length; cbn [length]; rewrite app_length; cbn [length]; unfold n; recEq).
Qed.

Lemma kwLoop_items room items : Forall itemOK items -> Forall quietItem items -> forall l pos s,
  ks_mode s = 0 -> ks_inC s = false -> ks_start s = pos -> length (ks_cur s) + length items < room ->
  exists t, kwLoop room (flat_map itemText items ++ l) pos s =
  kwLoop room l (pos + length (flat_map itemText items))
    (mkKst 0 t false (pos + length (flat_map itemText items)) (rev (ksOf pos items) ++ ks_cur s) (ks_err s)).
Proof.
  intros HO. induction HO as [|i items Hi _ IH]; intros HQ l pos s HM HC HS HR.
  - cbn [flat_map app length ksOf rev]. exists (ks_type s). f_equal; [lia|].
    destruct s; cbn in *; subst. f_equal. lia.
  - inversion HQ; subst. cbn [flat_map]. rewrite <- app_assoc.
    rewrite kwLoop_item by (assumption || reflexivity || (cbn [length] in HR; lia)).
    match goal with |- context [kwLoop room _ ?q ?st] => specialize (IH H2 l q st) end.
    destruct IH as (t & IH); try reflexivity; [cbn [ks_cur length] in *; lia|].
    exists t. rewrite IH. rewrite app_length. cbn [ks_cur ks_err ksOf rev]. rewrite <- app_assoc.
    cbn [app]. f_equal; [lia|]. f_equal. lia.
Qed.

Lemma kOf_item pos i pre post : itemOK i -> length pre = pos ->
  toItem (pre ++ itemText i ++ post) (kOf pos i) = i.
Proof.
  intros HO HL.
  assert (SC : forall a b c, secText (a ++ b ++ c) (length a, length b) = b).
  { intros a b c. unfold secText. cbn [fst snd]. rewrite skipn_app, skipn_all, Nat.sub_diag.
    cbn [app skipn]. rewrite firstn_app, Nat.sub_diag, firstn_all. cbn. apply app_nil_r. }
  destruct i as [k a b c]. unfold toItem, kOf, itemText, itemOK in *. cbn in *.
  assert (S1 : forall x, secText (pre ++ (a ++ x) ++ post) (pos, length a) = a).
  { intros x. rewrite <- app_assoc, <- HL. apply SC. }
  assert (S2 : forall y x, length y = 2 -> secText (pre ++ (a ++ y ++ b ++ x) ++ post) (pos + length a + 2, length b) = b).
  { intros y x Hy. replace (pre ++ (a ++ y ++ b ++ x) ++ post) with ((pre ++ a ++ y) ++ b ++ (x ++ post))
      by (rewrite <- !app_assoc; reflexivity).
    replace (pos + length a + 2) with (length (pre ++ a ++ y)) by (rewrite !app_length; lia). apply SC. }
  destruct k; cbn [k_kind k_lab k_math k_proof osecText]; f_equal;
    try apply S1; try (apply (S2 [_; _]); reflexivity); try (destruct HO; congruence); try congruence.
  change (letter K_p) with 112.
  replace (pre ++ (a ++ dollar :: 112 :: b ++ dollar :: 61 :: c ++ [dollar; 46]) ++ post)
    with ((pre ++ a ++ [dollar; 112] ++ b ++ [dollar; 61]) ++ c ++ ([dollar; 46] ++ post))
    by (rewrite <- !app_assoc; cbn [app]; rewrite <- !app_assoc; cbn [app]; rewrite <- !app_assoc; reflexivity).
  replace (pos + length a + 2 + length b + 2) with (length (pre ++ a ++ [dollar; 112] ++ b ++ [dollar; 61]))
    by (rewrite !app_length; cbn [length]; lia). apply SC.
Qed.
Lemma ksOf_items items : Forall itemOK items -> forall pre post,
  map (toItem (pre ++ flat_map itemText items ++ post)) (ksOf (length pre) items) = items.
Proof.
  induction 1 as [|i items Hi _ IH]; intros pre post; [reflexivity|].
  cbn [flat_map ksOf map]. f_equal.
  - rewrite <- app_assoc. apply kOf_item; auto.
  - replace (pre ++ (itemText i ++ flat_map itemText items) ++ post)
      with ((pre ++ itemText i) ++ flat_map itemText items ++ post) by (rewrite <- !app_assoc; reflexivity).
    replace (length pre + length (itemText i)) with (length (pre ++ itemText i)) by (rewrite app_length; lia).
    apply IH.
Qed.

Lemma parse_complete room items tail :
  Forall itemOK items -> Forall quietItem items -> quiet tail -> S (length items) < room ->
  let src := sourceText items tail in
  exists st dummy, parseKeywords room src = Ok (st, dummy, []) /\
    map (toItem src) st = items /\ secText src dummy = tail.
Proof.
  intros HO HQ HT HR src. unfold parseKeywords, src, sourceText.
  destruct (kwLoop_items room items HO HQ tail 0 (mkKst 0 None false 0 [] []))
    as (t & E); try reflexivity; [cbn [ks_cur length]; lia|].
  assert (ET : forall pos s, ks_inC s = false -> kwLoop room tail pos s = Ok s).
  { intros pos s Hs. rewrite <- (app_nil_r tail). rewrite (kwLoop_quiet _ _ HT) by exact Hs. reflexivity. }
  rewrite E, ET by reflexivity.
  cbn [rbind ks_mode ks_cur ks_start ks_err]. rewrite app_nil_r.
  assert (HL : forall p l, length (ksOf p l) = length l).
  { intros p l. revert p. induction l; intros p; cbn; [reflexivity|]. now rewrite IHl. }
  rewrite rev_length, HL, rev_involutive.
  apply Nat.leb_gt in HR. rewrite HR.
  eexists _, _. split; [reflexivity|]. split.
  - exact (ksOf_items items HO [] tail).
  - unfold secText. cbn [fst snd]. rewrite skipn_app. rewrite Nat.add_0_l, skipn_all, Nat.sub_diag.
    cbn [app skipn]. apply firstn_all2. rewrite app_length. lia.
Qed.
