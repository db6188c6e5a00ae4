(* UniCore.v -- proofs about UniModel: the state between two substitutions *)
From Coq Require Import ZifyBool ZifyNat.
From Verif Require Import Base UniModel UniSub.
Open Scope nat_scope.

Lemma combine_maps {A B C} (f : A -> B) (g : A -> C) l : combine (map f l) (map g l) = map (fun v => (f v, g v)) l.
Proof. induction l as [|a l IH]; [reflexivity|]. cbn [map combine]. f_equal. exact IH. Qed.
Lemma combine_map_r {A B C} (h : B -> C) : forall (a : list A) b, combine a (map h b) = map (fun v => (fst v, h (snd v))) (combine a b).
Proof. induction a as [|x a IH]; intros [|y b]; try reflexivity. cbn [map combine]. f_equal. apply IH. Qed.
Lemma skip_skip {A} (l : list A) : forall a b, skipn a (skipn b l) = skipn (b + a) l.
Proof. induction l as [|x l IH]; intros a b; [rewrite !skipn_nil; reflexivity|]. destruct b; [reflexivity|]. cbn [plus skipn]. apply IH. Qed.
Lemma seg_split l s n : l = firstn s l ++ seg l s n ++ skipn (s + n) l.
Proof.
  unfold seg. rewrite <- (firstn_skipn s l) at 1. f_equal. rewrite <- (firstn_skipn n (skipn s l)) at 1. f_equal.
  rewrite skip_skip. reflexivity.
Qed.
Lemma seg_firstn l s n : firstn (s + n) l = firstn s l ++ seg l s n.
Proof.
  revert s. induction l as [|a l IH]; intros s; [unfold seg; rewrite !firstn_nil, skipn_nil, firstn_nil; reflexivity|].
  destruct s; [reflexivity|]. cbn [plus firstn app]. rewrite IH. reflexivity.
Qed.
Lemma seg_sub x w l s n : s <= length l ->
  seg (sub1 x w l) (length (sub1 x w (firstn s l))) (length (sub1 x w (firstn (s + n) l)) - length (sub1 x w (firstn s l))) = sub1 x w (seg l s n).
Proof.
  intros H. rewrite seg_firstn, sub1_app, app_length.
  replace (length (sub1 x w (firstn s l)) + length (sub1 x w (seg l s n)) - length (sub1 x w (firstn s l))) with (length (sub1 x w (seg l s n))) by lia.
  assert (E : sub1 x w l = sub1 x w (firstn s l) ++ sub1 x w (seg l s n) ++ sub1 x w (skipn (s + n) l)).
  { rewrite (seg_split l s n) at 1. rewrite !sub1_app. reflexivity. }
  rewrite E. generalize (sub1 x w (seg l s n)). intros m. unfold seg. rewrite skipn_app, skipn_all, Nat.sub_diag. cbn [app skipn].
  rewrite firstn_app, firstn_all, Nat.sub_diag, firstn_O, app_nil_r. reflexivity.
Qed.
Lemma seg_len l s n : s + n <= length l -> length (seg l s n) = n.
Proof. intros H. unfold seg. rewrite firstn_length, skipn_length. lia. Qed.
Lemma seg_in l s n t : In t (seg l s n) -> In t l.
Proof. intros I. rewrite (seg_split l s n). apply in_app_iff. right. apply in_app_iff. left. exact I. Qed.
Lemma seg_pre l s n p : s + n <= p -> seg (firstn p l) s n = seg l s n.
Proof.
  intros H. unfold seg. rewrite skipn_firstn_comm. rewrite firstn_firstn. f_equal. lia.
Qed.
Lemma cur0 x w L y : y <= length L -> cur x w 0 L y = length (sub1 x w (firstn y L)).
Proof.
  intros H. unfold cur. destruct (y <=? 0) eqn:E.
  - replace y with 0 by lia. reflexivity.
  - rewrite Nat.sub_0_r. cbn [plus]. lia.
Qed.
Lemma cur0e x w L n : cur x w 0 L (length L + n) = length (sub1 x w L) + n.
Proof.
  unfold cur. destruct (length L + n <=? 0) eqn:E.
  - destruct L; [|cbn in E; lia]. cbn. lia.
  - rewrite Nat.sub_0_r, firstn_all2 by lia. lia.
Qed.
Lemma nth_last {A} (l : list A) a i : nth_error (l ++ [a]) i = Some a \/ i < length l \/ length (l ++ [a]) <= i.
Proof.
  rewrite app_length. cbn [length]. destruct (lt_eq_lt_dec i (length l)) as [[H|H]|H]; [auto| |right; right; lia].
  left. subst i. rewrite nth_error_app2, Nat.sub_diag by lia. reflexivity.
Qed.
Lemma split_at {A} (l : list A) p x : nth_error l p = Some x -> l = firstn p l ++ x :: skipn (S p) l /\ length (firstn p l) = p.
Proof.
  intros H. pose proof H as H'. apply nth_error_split in H'. destruct H' as [l1 [l2 [-> E]]]. subst p.
  rewrite firstn_app, firstn_all, Nat.sub_diag, firstn_O, app_nil_r. split; [|reflexivity]. f_equal. f_equal.
  rewrite skipn_app, skipn_all2 by lia. replace (S (length l1) - length l1) with 1 by lia. reflexivity.
Qed.

Section Core.
  Variable e : uenv.
  Variables A0 B0 : list nat.
  Notation mt := (u_mt e).
  Notation cnt := (count_occ Nat.eq_dec).
  Record core (f : nat -> list nat) (A B : list nat) (p : nat) (vars ss ns : list nat) : Prop := {
    c_ss : length ss = length vars;
    c_ns : length ns = length vars;
    c_id : forall t, ~ In t vars -> f t = [t];
    c_val : forall x s n, In (x, (s, n)) (combine vars (combine ss ns)) -> f x = seg A s n /\ s + n <= p /\ u_min e <= n;
    c_A : A = flat_map f (A0 ++ [mt]);
    c_B : B = flat_map f (B0 ++ [mt]);
    c_unk : forall x, In x vars -> mt < x /\ In x (A0 ++ B0);
    c_nd : NoDup vars;
    c_free : forall x, In x vars -> ~ In x A /\ ~ In x B;
    c_in : forall t, In t A \/ In t B -> In t (A0 ++ B0) \/ t = mt;
    c_pre : firstn p A = firstn p B;
    c_pA : p < length A;
    c_pB : p < length B;
    c_sep : forall x, In x vars -> ~ In mt (f x);
    c_rej : (forall t, In t B0 -> t <= mt) -> forall x, In x vars -> reject e (f x) = false }.

  Lemma core_mt f A B p vars ss ns : core f A B p vars ss ns -> f mt = [mt].
  Proof. intros C. apply (c_id _ _ _ _ _ _ _ C). intros I. apply (c_unk _ _ _ _ _ _ _ C) in I. lia. Qed.
  Lemma core_ends f A B p vars ss ns : core f A B p vars ss ns -> (exists A1, A = A1 ++ [mt]) /\ (exists B1, B = B1 ++ [mt]).
  Proof.
    intros C. pose proof (core_mt _ _ _ _ _ _ _ C) as M. split.
    - exists (flat_map f A0). rewrite (c_A _ _ _ _ _ _ _ C), flat_map_app. cbn [flat_map]. rewrite M. reflexivity.
    - exists (flat_map f B0). rewrite (c_B _ _ _ _ _ _ _ C), flat_map_app. cbn [flat_map]. rewrite M. reflexivity.
  Qed.
  Lemma core_cnt f A B p vars ss ns : core f A B p vars ss ns -> cnt A mt = cnt A0 mt + 1 /\ cnt B mt = cnt B0 mt + 1.
  Proof.
    intros C. assert (X : forall l, cnt (flat_map f l) mt = cnt l mt).
    { induction l as [|t l IH]; [reflexivity|]. cbn [flat_map]. rewrite count_occ_app, IH.
      destruct (Nat.eq_dec t mt) as [->|N].
      - rewrite (core_mt _ _ _ _ _ _ _ C). cbn [count_occ]. destruct (Nat.eq_dec mt mt); [lia|congruence].
      - cbn [count_occ]. destruct (Nat.eq_dec t mt); [congruence|]. replace (cnt (f t) mt) with 0; [lia|]. symmetry.
        apply count_occ_not_In. destruct (in_dec Nat.eq_dec t vars) as [I|I].
        + apply (c_sep _ _ _ _ _ _ _ C), I.
        + rewrite (c_id _ _ _ _ _ _ _ C t I). intros [F|[]]. congruence. }
    rewrite (c_A _ _ _ _ _ _ _ C), (c_B _ _ _ _ _ _ _ C), !X, !count_occ_app. cbn [count_occ].
    destruct (Nat.eq_dec mt mt); [auto|congruence].
  Qed.
  (* the two schemes end together *)
  Lemma prefix_end (X Y : list nat) X1 Y1 p : X = X1 ++ [mt] -> Y = Y1 ++ [mt] -> cnt X mt = cnt Y mt ->
    firstn (S p) X = firstn (S p) Y -> p < length X -> length Y = S p -> length X = S p.
  Proof.
    intros EX EY EC EF HX HY. rewrite (firstn_all2 Y) in EF by lia.
    rewrite <- (firstn_skipn (S p) X), EF, count_occ_app in EC.
    destruct (skipn (S p) X) as [|a l] eqn:E; [pose proof (skipn_length (S p) X) as K; rewrite E in K; cbn in K; lia|].
    exfalso. assert (I : In mt (skipn (S p) X)).
    { rewrite EX, skipn_app. apply in_app_iff. right. replace (S p - length X1) with 0; [left; reflexivity|].
      pose proof (skipn_length (S p) X) as K. rewrite E in K. cbn in K. rewrite EX, app_length in K. cbn in K. lia. }
    rewrite E in I. apply (count_occ_In Nat.eq_dec) in I. lia.
  Qed.

  Lemma core_sub (flag : bool) f A B p vars ss ns x n : core f A B p vars ss ns ->
    let X := if flag then A else B in let O := if flag then B else A in let w := seg O p n in let L := firstn p A in
    nth_error X p = Some x -> mt < x -> p + n <= length O -> ~ In x w -> ~ In mt w -> u_min e <= n -> reject e w = false ->
    core (fun t => sub1 x w (f t)) (sub1 x w A) (sub1 x w B) (length (sub1 x w L) + n) (x :: vars)
      (map (fun v => fst (curSeg x w 0 L v)) (combine (p :: ss) (n :: ns)))
      (map (fun v => snd (curSeg x w 0 L v)) (combine (p :: ss) (n :: ns))).
  Proof.
    intros C X O w L NX Ux LO Nx Nm Hn Rj. pose proof C as [C1 C2 C3 C4 C5 C6 C7 C8 C9 C10 C11 C12 C13 C14 C15].
    assert (IX : In x A \/ In x B) by (subst X; destruct flag; [left|right]; eapply nth_error_In; exact NX).
    assert (NV : ~ In x vars) by (intros I; destruct (C9 x I); tauto).
    assert (LL : length L = p) by (subst L; rewrite firstn_length; lia).
    assert (Lw : length w = n) by (apply seg_len; exact LO).
    assert (WO : forall t, In t w -> In t A \/ In t B) by (intros t I; apply seg_in in I; subst O; destruct flag; auto).
    destruct (core_ends _ _ _ _ _ _ _ C) as [[A1 EA] [B1 EB]].
    (* shape of both schemes around p *)
    assert (SX : X = L ++ x :: skipn (S p) X /\ length L = p).
    { destruct (split_at X p x NX) as [S1 S2]. split; [|exact LL]. rewrite S1 at 1. f_equal. subst X L. destruct flag; [reflexivity|symmetry; exact C11]. }
    assert (SO : O = L ++ w ++ skipn (p + n) O).
    { rewrite (seg_split O p n) at 1. f_equal. subst O L. destruct flag; [symmetry; exact C11|reflexivity]. }
    destruct SX as [SX _].
    assert (EX : sub1 x w X = sub1 x w L ++ w ++ sub1 x w (skipn (S p) X)) by (rewrite SX at 1; rewrite sub1_app, sub1_hit; reflexivity).
    assert (EO : sub1 x w O = sub1 x w L ++ w ++ sub1 x w (skipn (p + n) O)).
    { rewrite SO at 1. rewrite !sub1_app, (sub1_id x w w) by exact Nx. reflexivity. }
    (* both go on after w *)
    assert (RX : sub1 x w (skipn (S p) X) <> []).
    { assert (M : In mt (skipn (S p) X)).
      { assert (I : In mt X) by (subst X; destruct flag; [rewrite EA|rewrite EB]; apply in_app_iff; right; left; reflexivity).
        assert (EXL : exists X1, X = X1 ++ [mt]) by (subst X; destruct flag; [exists A1; exact EA|exists B1; exact EB]).
        destruct EXL as [X1 EXL].
        assert (PL : p < length X1).
        { destruct (nth_last X1 mt p) as [K|[K|K]]; [rewrite <- EXL, NX in K; injection K as K; lia|exact K|].
          rewrite <- EXL in K. assert (p < length X) by (apply nth_error_Some; congruence). lia. }
        rewrite EXL, skipn_app. apply in_app_iff. right. replace (S p - length X1) with 0 by lia. left. reflexivity. }
      intros Z. apply sub1_out with (x := x) (w := w) in M; [rewrite Z in M; destruct M|lia]. }
    assert (RO : sub1 x w (skipn (p + n) O) <> []).
    { assert (EOL : exists O1, O = O1 ++ [mt]) by (subst O; destruct flag; [exists B1; exact EB|exists A1; exact EA]). destruct EOL as [O1 EOL].
      assert (PL : p + n <= length O1).
      { destruct (le_lt_dec (p + n) (length O1)) as [K|K]; [exact K|exfalso].
        assert (p < length O) by (subst O; destruct flag; assumption). rewrite EOL, app_length in *. cbn [length] in *.
        apply Nm. unfold w. rewrite EOL. unfold seg. rewrite skipn_app. replace (p - length O1) with 0 by lia. cbn [skipn].
        rewrite firstn_all2; [apply in_app_iff; right; left; reflexivity|]. rewrite app_length, skipn_length. cbn. lia. }
      intros Z. assert (M : In mt (skipn (p + n) O)).
      { rewrite EOL, skipn_app. apply in_app_iff. right. replace (p + n - length O1) with 0 by lia. left. reflexivity. }
      apply sub1_out with (x := x) (w := w) in M; [rewrite Z in M; destruct M|lia]. }
    assert (SAB : (exists ra, sub1 x w A = sub1 x w L ++ w ++ ra /\ ra <> []) /\ (exists rb, sub1 x w B = sub1 x w L ++ w ++ rb /\ rb <> [])).
    { subst X O. destruct flag; split; eexists; split; eassumption. }
    destruct SAB as [[ra [SA NA]] [rb [SB NB]]].
    assert (ST : forall t, In t (sub1 x w A) \/ In t (sub1 x w B) -> (In t A \/ In t B) /\ t <> x).
    { intros t [I|I]; apply sub1_in in I; destruct I as [[I _]|[I N]]; (split; [auto|try exact N; intros ->; contradiction]). }
    constructor.
    - rewrite map_length. cbn [length combine]. rewrite combine_length, C1, C2. lia.
    - rewrite map_length. cbn [length combine]. rewrite combine_length, C1, C2. lia.
    - intros t I. rewrite C3 by (intros J; apply I; right; exact J). apply sub1_miss with (l := []). intros ->. apply I. left. reflexivity.
    - intros y s' n' I. rewrite combine_maps, combine_map_r in I. apply in_map_iff in I. destruct I as [[y0 [s0 n0]] [E I]].
      cbn [fst snd] in E. injection E as <- <- <-. cbn [combine] in I. destruct I as [E|I].
      + injection E as <- <- <-. rewrite (C3 x NV). cbn [fst snd]. assert (K1 : cur x w 0 L p = length (sub1 x w L)) by (rewrite cur0, <- LL, firstn_all by lia; reflexivity).
        assert (K2 : cur x w 0 L (p + n) = length (sub1 x w L) + n) by (rewrite <- LL; apply cur0e). rewrite K1, K2.
        replace (length (sub1 x w L) + n - length (sub1 x w L)) with n by lia. split; [|split; [lia|exact Hn]].
        replace (sub1 x w [x]) with w by (rewrite (sub1_hit x w []); cbn; rewrite app_nil_r; reflexivity).
        unfold seg at 1. rewrite SA, skipn_app, skipn_all, Nat.sub_diag. cbn [app skipn].
        rewrite firstn_app, <- Lw, firstn_all, Nat.sub_diag, firstn_O, app_nil_r. reflexivity.
      + destruct (C4 _ _ _ I) as [V1 [V2 V3]]. cbn [fst snd]. rewrite !cur0 by lia.
        unfold L. rewrite !firstn_firstn, !Nat.min_l by lia. rewrite V1. split; [|split].
        * symmetry. apply seg_sub. lia.
        * rewrite <- (firstn_skipn (s0 + n0) (firstn p A)), sub1_app, app_length, firstn_firstn, Nat.min_l by lia.
          assert (length (sub1 x w (firstn s0 A)) <= length (sub1 x w (firstn (s0 + n0) A))); [|lia].
          rewrite seg_firstn, sub1_app, app_length. lia.
        * rewrite seg_firstn, sub1_app, app_length.
          assert (n0 <= length (sub1 x w (seg A s0 n0)) \/ u_min e = 0); [|lia].
          destruct (Nat.eq_dec (u_min e) 0) as [Z|Z]; [right; exact Z|left].
          rewrite <- (seg_len A s0 n0) at 1 by lia. clear -Hn Lw Z. induction (seg A s0 n0) as [|t l IH]; [cbn; lia|].
          cbn [sub1 flat_map length]. rewrite app_length. destruct (t =? x); cbn [length]; unfold sub1 in IH; lia.
    - rewrite C5 at 1. apply sub1_flat.
    - rewrite C6 at 1. apply sub1_flat.
    - intros y [<-|I]; [|apply C7, I]. split; [exact Ux|]. destruct (C10 x IX) as [K|K]; [exact K|lia].
    - constructor; assumption.
    - intros y [<-|I].
      + split; intros J; [destruct (ST x (or_introl J))|destruct (ST x (or_intror J))]; congruence.
      + destruct (C9 y I) as [K1 K2]. split; intros J; [destruct (ST y (or_introl J)) as [[K|K] _]|destruct (ST y (or_intror J)) as [[K|K] _]]; contradiction.
    - intros t I. apply C10. destruct (ST t I) as [K _]. exact K.
    - assert (FF : forall r, firstn (length (sub1 x w L) + n) (sub1 x w L ++ w ++ r) = sub1 x w L ++ w).
      { intros r. rewrite app_assoc. rewrite firstn_app. rewrite firstn_all2 by (rewrite app_length; lia).
        replace (length (sub1 x w L) + n - length (sub1 x w L ++ w)) with 0 by (rewrite app_length; lia).
        rewrite firstn_O, app_nil_r. reflexivity. }
      rewrite SA, SB, !FF. reflexivity.
    - rewrite SA, !app_length. destruct ra; [congruence|]. cbn [length]. lia.
    - rewrite SB, !app_length. destruct rb; [congruence|]. cbn [length]. lia.
    - intros y I J. apply sub1_in in J. destruct J as [[J _]|[J _]]; [contradiction|].
      destruct I as [<-|I]; [rewrite (C3 x NV) in J; destruct J as [J|[]]; lia|]. apply (C14 y I), J.
    - intros G y [<-|I].
      + rewrite (C3 x NV). rewrite (sub1_hit x w []). cbn [sub1 flat_map]. rewrite app_nil_r. exact Rj.
      + rewrite sub1_id; [apply C15; assumption|]. intros J.
        assert (GB : forall t, In t B -> t <= mt).
        { intros t K. rewrite C6 in K. apply in_flat_map in K. destruct K as [u [K1 K2]].
          assert (Lu : u <= mt) by (apply in_app_iff in K1; destruct K1 as [K1|[K1|[]]]; [apply G, K1|lia]).
          rewrite C3 in K2; [destruct K2 as [K2|[]]; lia|]. intros K3. apply C7 in K3. lia. }
        assert (EI : exists i, nth_error vars i = Some y) by (apply In_nth_error; exact I). destruct EI as [i Ei].
        assert (Li : i < length vars) by (apply nth_error_Some; congruence).
        destruct (nth_error ss i) as [s0|] eqn:E1; [|apply nth_error_None in E1; lia].
        destruct (nth_error ns i) as [n0|] eqn:E2; [|apply nth_error_None in E2; lia].
        assert (IC : In (y, (s0, n0)) (combine vars (combine ss ns))).
        { clear -Ei E1 E2. revert i ss ns Ei E1 E2. induction vars as [|v vs IH]; intros [|i] ss ns H1 H2 H3; try discriminate H1;
            destruct ss, ns; try discriminate H2; try discriminate H3; cbn [nth_error combine] in *.
          - left. congruence.
          - right. eapply IH; eassumption. }
        destruct (C4 _ _ _ IC) as [V1 [V2 _]]. rewrite V1, <- (seg_pre A s0 n0 p V2), C11 in J. apply seg_in in J.
        assert (In x B) by (rewrite <- (firstn_skipn p B); apply in_app_iff; left; exact J). specialize (GB x H). lia.
  Qed.
End Core.
