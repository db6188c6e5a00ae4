(* FatlProofs.v -- lemmas about fatal error messages. *)
From Coq Require Import NArith Nnat.
From Verif Require Import Base FatlModel FatlSpec.
Open Scope nat_scope.

Section Proofs.
  Variables (maxMsg : nat) (ell : list nat) (bits : nat).
  Notation isBufferOverflow := (isBufferOverflow maxMsg).
  Notation appendText := (appendText maxMsg).
  Notation parse := (parse maxMsg bits).
  Notation fatalErrorPush := (fatalErrorPush maxMsg bits).

  Definition B (m : list nat) : buffer :=
    mkB (firstn maxMsg m ++ repeat 0 (maxMsg - length m) ++ ell ++ [0]) (Nat.min (length m) maxMsg).
  Lemma B_init : initBuffer maxMsg ell = B [].
  Proof. unfold initBuffer, B. cbn. rewrite firstn_nil, Nat.sub_0_r. reflexivity. Qed.
  Lemma B_sat m t : maxMsg <= length m -> B (m ++ t) = B m.
  Proof.
    intros H. unfold B. rewrite firstn_app, app_length. replace (maxMsg - length m) with 0 by lia.
    replace (maxMsg - (length m + length t)) with 0 by lia. cbn. rewrite app_nil_r. f_equal. lia.
  Qed.
  Lemma B_over m : isBufferOverflow (B m) = negb (length m <? maxMsg).
  Proof.
    unfold FatlModel.isBufferOverflow, B. cbn [b_begin]. destruct (Nat.ltb_spec (length m) maxMsg); cbn [negb].
    - apply Nat.eqb_neq. lia.
    - apply Nat.eqb_eq. lia.
  Qed.
  Lemma B_put m c : length m < maxMsg -> poke (b_text (B m)) (b_begin (B m)) c = Ok (b_text (B (m ++ [c]))).
  Proof.
    intros H. unfold poke, B. cbn [b_text b_begin]. rewrite (firstn_all2 m) by lia. rewrite Nat.min_l by lia.
    destruct (maxMsg - length m) as [|k] eqn:Ek; [lia|]. cbn [repeat].
    destruct (Nat.ltb_spec (length m) (length (m ++ (0 :: repeat 0 k) ++ ell ++ [0]))) as [_|L].
    2:{ rewrite !app_length in L. cbn in L. lia. }
    f_equal. rewrite firstn_app, firstn_all, Nat.sub_diag. cbn [firstn]. rewrite app_nil_r.
    rewrite skipn_app. rewrite skipn_all2 by lia. replace (S (length m) - length m) with 1 by lia. cbn [skipn app].
    rewrite firstn_all2 by (rewrite app_length; cbn; lia). rewrite app_length. cbn [length].
    replace (maxMsg - (length m + 1)) with k by lia. rewrite <- app_assoc. reflexivity.
  Qed.

  Lemma append_str s : forall m, appendText s false (B m) = Ok (B (m ++ s), Nat.min (length s) (maxMsg - length m)).
  Proof.
    induction s as [|c r IH]; intros m; cbn [FatlModel.appendText].
    - rewrite app_nil_r. reflexivity.
    - rewrite B_over. cbn [andb orb]. destruct (Nat.ltb_spec (length m) maxMsg) as [H|H]; cbn [negb].
      + rewrite B_put by assumption. cbn [rbind].
        assert (mkB (b_text (B (m ++ [c]))) (S (b_begin (B m))) = B (m ++ [c])) as ->.
        { unfold B. cbn. rewrite app_length. cbn. f_equal. lia. }
        rewrite IH. cbn [rbind fst snd]. rewrite <- app_assoc, app_length. cbn [length app]. f_equal. f_equal. lia.
      + rewrite B_sat by assumption. replace (maxMsg - length m) with 0 by lia. rewrite Nat.min_0_r. reflexivity.
  Qed.
  Lemma append_fmt w r : (forall c, In c w -> c <> 37) -> (r = [] \/ hd 0 r = 37) -> forall m,
    appendText (w ++ r) true (B m) = Ok (B (m ++ w), Nat.min (length w) (maxMsg - length m)).
  Proof.
    intros Hw Hr. induction w as [|c w IH]; intros m.
    - cbn [app]. rewrite app_nil_r. destruct r as [|c r]; [reflexivity|]. destruct Hr as [Hr|Hr]; [discriminate|].
      cbn in Hr. subst c. reflexivity.
    - cbn [app FatlModel.appendText]. destruct (Nat.eqb_spec c chPct) as [E|_]; [exfalso; apply (Hw c); [left; reflexivity|exact E]|].
      rewrite B_over. cbn [andb orb]. destruct (Nat.ltb_spec (length m) maxMsg) as [H|H]; cbn [negb].
      + rewrite B_put by assumption. cbn [rbind].
        assert (mkB (b_text (B (m ++ [c]))) (S (b_begin (B m))) = B (m ++ [c])) as ->.
        { unfold B. cbn. rewrite app_length. cbn. f_equal. lia. }
        rewrite IH by (intros; apply Hw; right; assumption). cbn [rbind fst snd]. rewrite <- app_assoc, app_length. cbn [length app]. f_equal. f_equal. lia.
      + rewrite B_sat by assumption. replace (maxMsg - length m) with 0 by lia. rewrite Nat.min_0_r. reflexivity.
  Qed.

  (* ---------- decimal numbers ---------- *)
  Definition val10 (l : list nat) : N := fold_left (fun v c => (10 * v + N.of_nat (c - 48))%N) l 0%N.
  Lemma fold10 l : forall v, fold_left (fun v c => (10 * v + N.of_nat (c - 48))%N) l v =
    (v * 10 ^ N.of_nat (length l) + val10 l)%N.
  Proof.
    unfold val10. induction l as [|c l IH]; intros v; cbn [fold_left length].
    - cbn. lia.
    - rewrite IH, (IH (10 * 0 + N.of_nat (c - 48))%N). rewrite Nat2N.inj_succ, N.pow_succ_r'. lia.
  Qed.
  Lemma val10_cons c l : val10 (c :: l) = (N.of_nat (c - 48) * 10 ^ N.of_nat (length l) + val10 l)%N.
  Proof. unfold val10. cbn [fold_left]. rewrite fold10. unfold val10. lia. Qed.
  Lemma val10_bound l : Forall (fun c => 48 <= c <= 57) l -> (val10 l < 10 ^ N.of_nat (length l))%N.
  Proof.
    induction 1 as [|c l Hc _ IH]; [cbn; lia|]. rewrite val10_cons. cbn [length]. rewrite Nat2N.inj_succ, N.pow_succ_r'.
    assert (N.of_nat (c - 48) <= 9)%N by lia. nia.
  Qed.
  (* a decimal representation is unique *)
  Lemma decimal_inj_same : forall a b, length a = length b -> Forall (fun c => 48 <= c <= 57) a -> Forall (fun c => 48 <= c <= 57) b ->
    val10 a = val10 b -> a = b.
  Proof.
    induction a as [|x a IH]; intros [|y b] L Ha Hb E; try discriminate; [reflexivity|].
    inversion Ha; inversion Hb; subst. cbn in L. injection L as L.
    rewrite !val10_cons, L in E. pose proof (val10_bound a H2) as U. pose proof (val10_bound b H6) as V. rewrite L in U.
    assert (N.of_nat (x - 48) = N.of_nat (y - 48)) as E1.
    { set (P := (10 ^ N.of_nat (length b))%N) in *. nia. }
    assert (x = y) by lia. subst y. f_equal. apply IH; auto. lia.
  Qed.
  Lemma decimal_len_le a b n : isDecimal n a -> isDecimal n b -> length a <= length b.
  Proof.
    intros (A1 & A2 & A3 & A4) (B1 & B2 & B3 & B4). fold (val10 a) in A3. fold (val10 b) in B3.
    destruct (Nat.le_gt_cases (length a) (length b)) as [H|H]; [exact H|]. exfalso.
    destruct a as [|x a]; [congruence|]. cbn in H.
    pose proof (val10_bound b B2) as U. rewrite B3 in U. rewrite val10_cons in A3.
    inversion A2; subst.
    assert (x <> 48) as Hx.
    { intros ->. specialize (A4 eq_refl). injection A4 as ->. destruct b; [congruence|cbn in H; lia]. }
    assert (10 ^ N.of_nat (length b) <= 10 ^ N.of_nat (length a))%N by (apply N.pow_le_mono_r; lia).
    assert (1 <= N.of_nat (x - 48))%N by lia. nia.
  Qed.
  Lemma decimal_unique a b n : isDecimal n a -> isDecimal n b -> a = b.
  Proof.
    intros Ha Hb. apply decimal_inj_same; try apply Ha; try apply Hb.
    - pose proof (decimal_len_le a b n Ha Hb). pose proof (decimal_len_le b a n Hb Ha). lia.
    - destruct Ha as (_ & _ & A3 & _), Hb as (_ & _ & B3 & _). unfold val10. congruence.
  Qed.

  Lemma big : (2 ^ 485 < 10 ^ 146)%N.
  Proof. vm_compute. reflexivity. Qed.
  (* the size of the array suffices: d digits of a number below 2 ^ bits *)
  Lemma digits_fit (d : nat) v : (10 ^ N.of_nat d <= v)%N -> (v < 2 ^ N.of_nat bits)%N -> d <= bits * 146 / 485.
  Proof.
    intros H1 H2. apply Nat.div_le_lower_bound; [lia|].
    assert (10 ^ (N.of_nat d * 485) < 10 ^ (N.of_nat bits * 146) \/ bits = 0%nat)%N as [K|K].
    { destruct (Nat.eq_dec bits 0) as [E|E]; [right; exact E|left].
      assert (10 ^ (N.of_nat d * 485) < 2 ^ (N.of_nat bits * 485))%N as K1.
      { rewrite !N.pow_mul_r. apply N.pow_lt_mono_l; lia. }
      assert (2 ^ (N.of_nat bits * 485) < 10 ^ (N.of_nat bits * 146))%N as K2.
      { rewrite (N.mul_comm (N.of_nat bits) 485), (N.mul_comm (N.of_nat bits) 146), !N.pow_mul_r.
        apply N.pow_lt_mono_l; [lia|apply big]. }
      lia. }
    - apply N.pow_lt_mono_r_iff in K; lia.
    - rewrite K in H2. cbn in H2. assert (10 ^ N.of_nat d <> 0)%N by (apply N.pow_nonzero; lia). lia.
  Qed.
  Lemma digitLoop_ok : forall fuel v ofs acc, (v < 2 ^ N.of_nat fuel)%N ->
    (v = 0%N \/ exists d, (10 ^ N.of_nat d <= v)%N /\ (v < 10 ^ N.of_nat (S d))%N /\ S d <= ofs) ->
    exists l, digitLoop fuel v ofs acc = Ok (l ++ acc) /\ Forall (fun c => 48 <= c <= 57) l /\ val10 l = v /\ (hd 0 l <> 48).
  Proof.
    induction fuel as [|fuel IH]; intros v ofs acc Hv Ho.
    - cbn [N.of_nat] in Hv. change (2 ^ 0)%N with 1%N in Hv. assert (v = 0)%N by lia. subst v. exists []. cbn. repeat split; auto.
    - cbn [digitLoop]. destruct (N.eqb_spec v 0) as [->|Hne]; [exists []; cbn; repeat split; auto|].
      destruct Ho as [Ho|(d & D1 & D2 & D3)]; [contradiction|].
      destruct ofs as [|o]; [lia|].
      pose proof (N.div_mod v 10 ltac:(lia)) as DM. pose proof (N.mod_lt v 10 ltac:(lia)) as ML.
      rewrite Nat2N.inj_succ, N.pow_succ_r' in Hv.
      destruct (IH (v / 10)%N o (N.to_nat (v mod 10) + 48 :: acc)) as (l & E & L1 & L2 & L3).
      + clear - DM Hv. set (P := (2 ^ N.of_nat fuel)%N) in *. set (q := (v / 10)%N) in *. set (rm := (v mod 10)%N) in *. clearbody P q rm. lia.
      + destruct d as [|d].
        * left. cbn in D2. change (10 ^ N.of_nat 1)%N with 10%N in D2. apply N.div_small. lia.
        * right. exists d. rewrite Nat2N.inj_succ, N.pow_succ_r' in D1.
          rewrite (Nat2N.inj_succ (S d)), N.pow_succ_r' in D2.
          clear - DM ML D1 D2 D3. set (P := (10 ^ N.of_nat d)%N) in *. set (Q := (10 ^ N.of_nat (S d))%N) in *. set (q := (v / 10)%N) in *. set (rm := (v mod 10)%N) in *. clearbody P Q q rm.
          repeat split; lia.
      + exists (l ++ [N.to_nat (v mod 10) + 48]). split; [rewrite E, <- app_assoc; reflexivity|]. split.
        { apply Forall_app. split; [exact L1|]. constructor; [|constructor]. clear - ML. set (rm := (v mod 10)%N) in *. clearbody rm. lia. }
        split.
        { unfold val10 in *. rewrite fold_left_app, L2. cbn [fold_left]. rewrite Nat.add_sub, N2Nat.id. symmetry. exact DM. }
        { destruct l as [|x l]; [|exact L3]. cbn. cbn in L2. intros K. apply Hne.
          rewrite DM, <- L2. clear - K. set (rm := (v mod 10)%N) in *. clearbody rm. lia. }
  Qed.
  Lemma log10_exists v : (v <> 0)%N -> exists d, (10 ^ N.of_nat d <= v)%N /\ (v < 10 ^ N.of_nat (S d))%N.
  Proof.
    intros Hv. assert (forall n, (v < 10 ^ N.of_nat n)%N -> exists d, (10 ^ N.of_nat d <= v)%N /\ (v < 10 ^ N.of_nat (S d))%N) as K.
    { induction n as [|n IH]; intros H; [change (10 ^ N.of_nat 0)%N with 1%N in H; lia|].
      destruct (N.le_gt_cases (10 ^ N.of_nat n) v) as [H1|H1]; [exists n; auto|apply IH, H1]. }
    apply (K (N.to_nat v)). rewrite N2Nat.id. apply N.pow_gt_lin_r. lia.
  Qed.
  Lemma unsigned_ok n : (n < 2 ^ N.of_nat bits)%N -> exists d, unsignedToString bits n = Ok d /\ isDecimal n d.
  Proof.
    intros Hn. unfold unsignedToString, digitCells. destruct (N.eqb_spec n 0) as [->|Hne].
    - replace (bits * 146 / 485 + 2 - 1) with (S (bits * 146 / 485)) by lia. exists [48]. split; [reflexivity|].
      split; [discriminate|]. split; [repeat constructor|]. split; reflexivity.
    - destruct (log10_exists n Hne) as (d & D1 & D2).
      pose proof (digits_fit d n D1 Hn) as Hd.
      destruct (digitLoop_ok bits n (bits * 146 / 485 + 2 - 1) [] Hn) as (l & E & L1 & L2 & L3).
      { right. exists d. repeat split; auto. lia. }
      rewrite app_nil_r in E. exists l. split; [exact E|]. split; [|split; [exact L1|split; [exact L2|]]].
      + intros ->. cbn in L2. congruence.
      + intros K. congruence.
  Qed.
  Lemma unsigned_dec n d : (n < 2 ^ N.of_nat bits)%N -> isDecimal n d -> unsignedToString bits n = Ok d.
  Proof. intros Hn Hd. destruct (unsigned_ok n Hn) as (d' & E & D). rewrite E. f_equal. eapply decimal_unique; eauto. Qed.

  (* ---------- parse ---------- *)
  Lemma text_prefix f a t : expands bits f a t -> exists w r t', f = w ++ r /\ t = w ++ t' /\ expands bits r a t' /\
    (forall c, In c w -> c <> 37) /\ (r = [] \/ hd 0 r = 37).
  Proof.
    intros H. induction H as [a|c r a t H1 H2 H (w & r' & t' & E1 & E2 & E3 & E4 & E5)|s r a t Hs H _|r a t H _|n d r a t Hn Hd H _|r a t H _|r a t Hr H _].
    - exists [], [], []. repeat split; auto; try constructor.
    - exists (c :: w), r', t'. subst. repeat split; auto. intros x [<-|Hx]; auto.
    - exists [], (37 :: 115 :: r), (s ++ t). repeat split; auto; first [solve [constructor; assumption]|intros x []].
    - exists [], (37 :: 115 :: r), t. repeat split; auto; first [solve [constructor; assumption]|intros x []].
    - exists [], (37 :: 117 :: r), (d ++ t). repeat split; auto; first [solve [econstructor; eassumption]|intros x []].
    - exists [], (37 :: 37 :: r), (37 :: t). repeat split; auto; first [solve [constructor; assumption]|intros x []].
    - exists [], (37 :: r), (37 :: t). repeat split; auto; first [solve [apply ex_stray; assumption]|intros x []].
  Qed.
  Lemma parse_ok : forall fuel f a t m, length f < fuel -> expands bits f a t -> length m < maxMsg ->
    exists s, parse fuel (mkP f a (B m)) = Ok s /\ p_out s = B (m ++ t).
  Proof.
    induction fuel as [|fuel IH]; intros f a t m Hf He Hm; [lia|]. cbn [FatlModel.parse p_format].
    (* what remains after one step *)
    assert (Step : forall s f' a' t1 t', Ok s = Ok (checkOverflow maxMsg (mkP f' a' (B (m ++ t1)))) -> t = t1 ++ t' ->
      expands bits f' a' t' -> (length f' < length f \/ f' = []) ->
      exists s', match p_format s with [] => Ok s | _ :: _ => parse fuel s end = Ok s' /\ p_out s' = B (m ++ t)).
    { intros s f' a' t1 t' Es Et He' Hl. apply Ok_inj in Es. subst s t. unfold checkOverflow. cbn [p_out p_args].
      rewrite B_over. destruct (Nat.ltb_spec (length (m ++ t1)) maxMsg) as [H|H]; cbn [negb].
      - destruct f' as [|c f2] eqn:Ef.
        + cbn [p_format]. eexists. split; [reflexivity|]. cbn. inversion He'; subst. rewrite app_nil_r. reflexivity.
        + cbn [p_format]. rewrite <- Ef in *. destruct (IH f' a' t' (m ++ t1)) as (s' & E & O); auto.
          { destruct Hl as [Hl|Hl]; [lia|congruence]. }
          subst f'. rewrite E. exists s'. split; [reflexivity|]. rewrite O, app_assoc. reflexivity.
      - cbn [p_format]. eexists. split; [reflexivity|]. cbn [p_out]. rewrite app_assoc. symmetry. apply B_sat, H. }
    destruct (nth 0 f 0 =? chPct) eqn:Ep.
    - apply Nat.eqb_eq in Ep. unfold chPct in Ep. unfold handleSubstitution. cbn [p_format p_args p_out].
      destruct He as [a|c r a t H1 H2 H|s r a t Hs H|r a t H|n d r a t Hn Hd H|r a t H|r a t Hr H]; cbn in Ep; try congruence; try lia.
      + cbn [nth Nat.eqb chS rbind skipn]. rewrite append_str. cbn [rbind fst].
        eapply Step; [reflexivity|reflexivity|exact H|left; cbn; lia].
      + cbn [nth Nat.eqb chS rbind skipn].
        cbn [p_format]. destruct r as [|c r'] eqn:Er.
        * eexists. split; [reflexivity|]. cbn. inversion H; subst. rewrite app_nil_r. reflexivity.
        * rewrite <- Er in *. destruct (IH r a t m) as (s' & E & O); auto; [cbn in Hf; lia|]. subst r. exists s'. auto.
      + cbn [nth Nat.eqb chS chU rbind skipn]. rewrite (unsigned_dec n d Hn Hd). cbn [rbind]. rewrite append_str. cbn [rbind fst].
        eapply Step; [reflexivity|reflexivity|exact H|left; cbn; lia].
      + cbn [nth Nat.eqb chS chU chPct rbind skipn]. rewrite append_str. cbn [rbind fst].
        eapply (Step _ r a [37] t); [reflexivity|reflexivity|exact H|left; cbn; lia].
      + assert (nth 1 (37 :: r) 0 = hd 0 r) as -> by (destruct r; reflexivity).
        assert ((hd 0 r =? chS) = false) as ->. { apply Nat.eqb_neq. intros E. apply Hr. rewrite E. cbn; auto. }
        assert ((hd 0 r =? chU) = false) as ->. { apply Nat.eqb_neq. intros E. apply Hr. rewrite E. cbn; auto. }
        assert ((hd 0 r =? chPct) = false) as ->. { apply Nat.eqb_neq. intros E. apply Hr. rewrite E. cbn; auto. }
        cbn [rbind skipn]. rewrite append_str. cbn [rbind fst].
        eapply (Step _ r a [37] t); [reflexivity|reflexivity|exact H|left; cbn; lia].
    - apply Nat.eqb_neq in Ep. destruct (text_prefix f a t He) as (w & r & t' & -> & Et & He' & Hw & Hr).
      unfold handleText. cbn [p_format p_args p_out]. rewrite append_fmt by assumption. cbn [rbind fst snd].
      assert (w = [] -> r = []) as Hwr.
      { intros ->. destruct Hr as [Hr|Hr]; [exact Hr|]. exfalso. apply Ep. destruct r; [discriminate|exact Hr]. }
      destruct (Nat.le_gt_cases (length w) (maxMsg - length m)) as [L|L].
      + rewrite Nat.min_l by assumption. rewrite skipn_app, skipn_all, Nat.sub_diag. cbn [app skipn].
        eapply Step; [reflexivity|exact Et|exact He'|].
        destruct w as [|c w]; [right; auto|left; cbn; rewrite app_length; lia].
      + (* overflow: the rest of the format is skipped *)
        unfold checkOverflow. cbn [p_out p_args]. rewrite B_over.
        destruct (Nat.ltb_spec (length (m ++ w)) maxMsg) as [C|C]; [rewrite app_length in C; lia|]. cbn [negb p_format].
        eexists. split; [reflexivity|]. cbn [p_out]. rewrite Et, app_assoc. symmetry. apply B_sat, C.
  Qed.

  Lemma push_ok m f a t : expands bits f a t -> 
    fatalErrorPush (B m) (Some f) a = Ok (B (m ++ t), length (m ++ t) <? maxMsg).
  Proof.
    intros He. unfold FatlModel.fatalErrorPush. rewrite B_over. destruct (Nat.ltb_spec (length m) maxMsg) as [H|H]; cbn [negb].
    - destruct (parse_ok (S (length f)) f a t m ltac:(lia) He H) as (s & E & O). rewrite E. cbn [rbind].
      rewrite O, B_over, negb_involutive. reflexivity.
    - rewrite B_sat by assumption. destruct (Nat.ltb_spec (length (m ++ t)) maxMsg) as [C|C]; [rewrite app_length in C; lia|reflexivity].
  Qed.
  Lemma push_null m a : fatalErrorPush (B m) None a = Ok (B m, length m <? maxMsg).
  Proof. unfold FatlModel.fatalErrorPush. rewrite B_over. destruct (length m <? maxMsg); reflexivity. Qed.
  Lemma pushes_ok l : forall ts m, expandsAll bits l ts ->
    pushes maxMsg bits (B m) l = Ok (B (m ++ concat ts), flags maxMsg (length m) ts).
  Proof.
    induction l as [|[[f|] a] r IH]; intros [|t ts] m H; cbn [expandsAll] in H; try tauto.
    - cbn. rewrite app_nil_r. reflexivity.
    - destruct H as [H1 H2]. cbn [pushes]. rewrite (push_ok m f a t H1). cbn [rbind fst snd].
      rewrite (IH ts (m ++ t) H2). cbn [rbind fst snd concat flags]. rewrite <- app_assoc, app_length. reflexivity.
    - destruct H as [-> H2]. cbn [pushes]. rewrite push_null. cbn [rbind fst snd].
      rewrite (IH ts m H2). cbn [rbind fst snd concat flags app length]. rewrite Nat.add_0_r. reflexivity.
  Qed.

  Lemma cstring_ok s rest : str s -> cstring (s ++ 0 :: rest) = Ok s.
  Proof. induction 1 as [|c s Hc _ IH]; [reflexivity|]. cbn [app cstring]. rewrite IH. destruct c; [congruence|reflexivity]. Qed.
  Lemma B_string m : str m -> str ell -> cstring (b_text (B m)) = Ok (shownText maxMsg ell m).
  Proof.
    intros Hm He. unfold B, shownText. cbn [b_text]. destruct (Nat.ltb_spec (length m) maxMsg) as [H|H].
    - rewrite firstn_all2 by lia. destruct (maxMsg - length m) eqn:E; [lia|]. cbn. apply cstring_ok, Hm.
    - replace (maxMsg - length m) with 0 by lia. cbn. rewrite app_assoc. apply cstring_ok.
      apply Forall_app. split; [|exact He]. apply Forall_forall. intros x Hx.
      rewrite <- (firstn_skipn maxMsg m) in Hm. apply Forall_app in Hm. destruct Hm as [Hm _].
      rewrite Forall_forall in Hm. apply Hm, Hx.
  Qed.
  Lemma expands_str f a t : expands bits f a t -> str t.
  Proof.
    assert (forall n d, isDecimal n d -> str d) as Hd.
    { intros n d (_ & D & _). eapply Forall_impl; [|exact D]. cbn. intros. lia. }
    unfold str in *. induction 1.
    all: try assumption.
    all: try (apply Forall_app; split; eauto; fail).
    all: try apply Forall_nil.
    all: apply Forall_cons; [assumption || discriminate|assumption].
  Qed.
  Lemma print_ok m : str m -> str ell ->
    fatalErrorPrintAndExit maxMsg bits (B m) = Ok (shownText maxMsg ell (ended m)).
  Proof.
    intros Hm He. unfold fatalErrorPrintAndExit. rewrite B_over, negb_involutive.
    assert (expands bits [chLF] [] [10]) as El.
    { apply ex_char; [discriminate|discriminate|constructor]. }
    destruct (Nat.ltb_spec (length m) maxMsg) as [H|H]; cbn [andb].
    - destruct m as [|c m'] eqn:Em.
      + cbn [b_begin B length Nat.min Nat.eqb negb andb]. cbn [rbind]. apply B_string; assumption.
      + rewrite <- Em in *.
        assert (b_begin (B m) = length m) as Eb by (unfold B; cbn; lia).
        rewrite Eb. destruct (Nat.eqb_spec (length m) 0) as [E0|_]; [subst m; discriminate|]. cbn [negb andb].
        assert (nth (length m - 1) (b_text (B m)) 0 = last m 0) as ->.
        { unfold B. cbn. rewrite firstn_all2 by lia. rewrite app_nth1 by (subst m; cbn; lia).
          assert (m <> []) as Hne by (subst m; discriminate).
          destruct (exists_last Hne) as (l & x & ->). rewrite last_last, app_length. cbn. rewrite Nat.add_sub.
          rewrite app_nth2 by lia. rewrite Nat.sub_diag. reflexivity. }
        assert (ended m = if last m 0 =? 10 then m else m ++ [10]) as Een by (subst m; reflexivity).
        rewrite Een. change chLF with 10. destruct (last m 0 =? 10); cbn [negb].
        * cbn [rbind]. apply B_string; assumption.
        * change [10] with [chLF] at 1. rewrite (push_ok m [chLF] [] [10] El). cbn [rbind fst].
          apply B_string; [|assumption]. apply Forall_app. split; [assumption|repeat constructor; lia].
    - cbn [rbind]. rewrite B_string by assumption. f_equal. unfold shownText.
      destruct (Nat.ltb_spec (length m) maxMsg) as [C|_]; [lia|].
      assert (ended m = m \/ ended m = m ++ [10]) as [-> | ->].
      { unfold ended. destruct m as [|c m']; [auto|]. destruct (last (c :: m') 0 =? 10); auto. }
      + destruct (Nat.ltb_spec (length m) maxMsg); [lia|reflexivity].
      + destruct (Nat.ltb_spec (length (m ++ [10])) maxMsg) as [C|_]; [rewrite app_length in C; lia|].
        rewrite firstn_app. replace (maxMsg - length m) with 0 by lia. cbn. rewrite app_nil_r. reflexivity.
  Qed.
  Lemma expandsAll_str l : forall ts, expandsAll bits l ts -> str (concat ts).
  Proof.
    induction l as [|[[f|] a] r IH]; intros [|t ts] H; cbn in H; try tauto; [constructor| |].
    - destruct H as [H1 H2]. cbn. apply Forall_app. split; [eapply expands_str; eassumption|apply IH, H2].
    - destruct H as [-> H2]. cbn. apply IH, H2.
  Qed.
  Lemma session_ok l ts : str ell -> expandsAll bits l ts ->
    exists b, pushes maxMsg bits (initBuffer maxMsg ell) l = Ok (b, flags maxMsg 0 ts) /\
      cstring (b_text b) = Ok (shownText maxMsg ell (concat ts)) /\
      fatalErrorPrintAndExit maxMsg bits b = Ok (shownText maxMsg ell (ended (concat ts))).
  Proof.
    intros He H. rewrite B_init. rewrite (pushes_ok l ts [] H). cbn [app length].
    exists (B (concat ts)). split; [reflexivity|]. split.
    - apply B_string; [eapply expandsAll_str; eassumption|assumption].
    - apply print_ok; [eapply expandsAll_str; eassumption|assumption].
  Qed.

  (* the location of fatalErrorExitAt *)
  Lemma exitAt_ok file line dec msg args t : str ell -> (line < 2 ^ N.of_nat bits)%N -> isDecimal line dec ->
    (forall f, file = Some f -> str f) ->
    match msg with None => t = [] | Some f => expands bits f args t end ->
    fatalErrorExitAt maxMsg ell bits file line msg args = Ok (shownText maxMsg ell (ended (location file line dec ++ t))).
  Proof.
    intros He Hl Hd Hf Ht. unfold fatalErrorExitAt. cbv zeta.
    set (format := match file with Some (_ :: _) => _ | _ => _ end).
    assert (exists b fl, fatalErrorPush (initBuffer maxMsg ell) format [AStr file; AUns line] = Ok (b, fl) /\
      b = B (location file line dec) /\ fl = (length (location file line dec) <? maxMsg) /\ str (location file line dec))
      as (b & fl & E & -> & -> & Hs).
    { rewrite B_init. assert (forall f, format = Some f -> expands bits f [AStr file; AUns line] (location file line dec)) as K.
      { intros ff Hff. unfold format, location in *. clear format.
        destruct file as [[|c f]|]; destruct (0 <? line)%N; try discriminate Hff; injection Hff as <-.
        - unfold sInLine. refine (ex_str bits [] _ _ _ _ _); [constructor|].
          cbn [app]. do 8 (apply ex_char; [discriminate|discriminate|]).
          apply ex_uns; [assumption|assumption|]. do 2 (apply ex_char; [discriminate|discriminate|]). constructor.
        - unfold sAt. cbn [app]. do 3 (apply ex_char; [discriminate|discriminate|]).
          change (c :: f ++ 58 :: dec ++ [10]) with ((c :: f) ++ (58 :: dec ++ [10])).
          apply ex_str; [apply Hf; reflexivity|]. apply ex_char; [discriminate|discriminate|].
          apply ex_uns; [assumption|assumption|]. apply ex_char; [discriminate|discriminate|]. constructor.
        - unfold sInFile. cbn [app].
          do 8 (apply ex_char; [discriminate|discriminate|]).
          change (c :: f ++ [58; 10]) with ((c :: f) ++ [58; 10]).
          apply ex_str; [apply Hf; reflexivity|]. do 2 (apply ex_char; [discriminate|discriminate|]). constructor.
        - unfold sInLine. apply ex_null. cbn [app].
          do 8 (apply ex_char; [discriminate|discriminate|]).
          apply ex_uns; [assumption|assumption|]. do 2 (apply ex_char; [discriminate|discriminate|]). constructor. }
      destruct format as [ff|] eqn:Ef.
      - specialize (K ff eq_refl). rewrite (push_ok [] ff _ _ K). cbn [app]. do 2 eexists. split; [reflexivity|].
        split; [reflexivity|]. split; [reflexivity|]. eapply expands_str; exact K.
      - assert (location file line dec = []) as ->.
        { unfold format, location in *. destruct file as [[|c f]|]; destruct (0 <? line)%N; try discriminate; reflexivity. }
        rewrite push_null. do 2 eexists. split; [reflexivity|]. split; [reflexivity|]. split; [reflexivity|constructor]. }
    rewrite E. cbn [rbind fst snd]. set (L := location file line dec) in *.
    assert (str t) as Hst. { destruct msg; [eapply expands_str; exact Ht|subst t; constructor]. }
    assert (fatalErrorPrintAndExit maxMsg bits (B (L ++ t)) = Ok (shownText maxMsg ell (ended (L ++ t)))) as F.
    { apply print_ok; [apply Forall_app; split; assumption|assumption]. }
    destruct (Nat.ltb_spec (length L) maxMsg) as [H|H].
    - destruct msg as [f|].
      + destruct (parse_ok (S (length f)) f args t L ltac:(lia) Ht H) as (s & Es & Os). rewrite Es. cbn [rbind]. rewrite Os. exact F.
      + subst t. rewrite app_nil_r in *. exact F.
    - rewrite B_sat in F by assumption. exact F.
  Qed.

  Lemma expands_total : forall n f, length f <= n -> str f -> forall a, Forall2 (goodArg bits) (asks f) (firstn (length (asks f)) a) ->
    exists t, expands bits f a t.
  Proof.
    induction n as [|n IH]; intros f Hn Hf a Ha.
    - destruct f; [|cbn in Hn; lia]. exists []. constructor.
    - destruct f as [|c f]; [exists []; constructor|]. inversion Hf as [|? ? Hc Hf']; subst. cbn in Hn.
      destruct (Nat.eq_dec c 37) as [->|N37].
      2:{ assert (asks (c :: f) = asks f) as E.
          { clear - N37. cbn. do 37 (destruct c as [|c]; [reflexivity|]). destruct c; [congruence|reflexivity]. }
          rewrite E in Ha. destruct (IH f ltac:(lia) Hf' a Ha) as (t & Ht). exists (c :: t). constructor; assumption. }
      destruct f as [|d f].
      { exists [37]. apply (ex_stray bits [] a []); [cbn; lia|constructor]. }
      inversion Hf' as [|? ? Hd Hf2]; subst. cbn in Hn.
      destruct (Nat.eq_dec d 115) as [->|N115].
      { cbn [asks length] in Ha. destruct a as [|x a]; cbn [firstn] in Ha; inversion Ha as [|? ? ? ? G Ha']; subst.
        destruct (IH f ltac:(lia) Hf2 a Ha') as (t & Ht). destruct x as [[s|]|u]; cbn in G; [| |tauto].
        - exists (s ++ t). constructor; assumption.
        - exists t. constructor; assumption. }
      destruct (Nat.eq_dec d 117) as [->|N117].
      { cbn [asks length] in Ha. destruct a as [|x a]; cbn [firstn] in Ha; inversion Ha as [|? ? ? ? G Ha']; subst.
        destruct (IH f ltac:(lia) Hf2 a Ha') as (t & Ht). destruct x as [[s|]|u]; cbn in G; try tauto.
        destruct (unsigned_ok u G) as (dd & _ & D). exists (dd ++ t). econstructor; eassumption. }
      destruct (Nat.eq_dec d 37) as [->|N37].
      { destruct (IH f ltac:(lia) Hf2 a Ha) as (t & Ht). exists (37 :: t). constructor; assumption. }
      assert (asks (37 :: d :: f) = asks (d :: f)) as E.
      { clear - N115 N117 N37. cbn [asks]. do 118 (destruct d as [|d]; [congruence || reflexivity|]). reflexivity. }
      rewrite E in Ha. destruct (IH (d :: f) ltac:(cbn; lia) Hf' a Ha) as (t & Ht). exists (37 :: t).
      apply ex_stray; [cbn; intuition congruence|assumption].
  Qed.
  Lemma asks_total f a : str f -> Forall2 (goodArg bits) (asks f) (firstn (length (asks f)) a) -> exists t, expands bits f a t.
  Proof. intros. apply (expands_total (length f)); auto. Qed.
  Lemma expands_fun f a t : expands bits f a t -> forall t', expands bits f a t' -> t = t'.
  Proof.
    induction 1; intros t' H'; inversion H'; subst; try congruence; try reflexivity; try (f_equal; auto; fail);
      try (cbn in *; tauto); try (exfalso; match goal with H : ~ In _ _ |- _ => apply H; cbn; auto end; fail).
    - f_equal; [|auto]. eapply decimal_unique; eassumption.
  Qed.
End Proofs.
