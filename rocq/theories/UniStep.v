(* UniStep.v -- proofs about UniModel: one step of the search *)
From Coq Require Import ZifyBool ZifyNat.
From Verif Require Import Base UniModel UniSub UniCore.
Open Scope nat_scope.

Lemma rd_some l i t : nth_error l i = Some t -> rd l i = Ok (Some t).
Proof. intros H. unfold rd. rewrite H. reflexivity. Qed.
Lemma rd_lt l i : i < length l -> exists t, rd l i = Ok (Some t) /\ nth_error l i = Some t.
Proof. intros H. destruct (nth_error l i) as [t|] eqn:E; [exists t; split; [apply rd_some, E|reflexivity]|]. apply nth_error_None in E. lia. Qed.
Lemma rd_end l : rd l (length l) = Ok None.
Proof. unfold rd. rewrite (proj2 (nth_error_None l (length l)) (le_n _)), Nat.eqb_refl. reflexivity. Qed.
Lemma firstn_S_nth (l : list nat) p t : nth_error l p = Some t -> firstn (S p) l = firstn p l ++ [t].
Proof. revert l. induction p as [|p IH]; intros [|a l] H; try discriminate H; cbn [nth_error] in H; [injection H as ->; reflexivity|]. cbn [firstn app]. f_equal. apply IH, H. Qed.
Lemma seg_nth l p n t : nth_error (seg l p n) 0 = Some t -> nth_error l p = Some t.
Proof.
  unfold seg. revert l. induction p as [|p IH]; intros l H.
  - cbn [skipn] in H. destruct n, l; try discriminate H. exact H.
  - destruct l; [rewrite skipn_nil, firstn_nil in H; discriminate H|]. cbn [skipn nth_error] in *. apply IH, H.
Qed.
Lemma seg_S l p n t : nth_error l (p + n) = Some t -> seg l p (S n) = seg l p n ++ [t].
Proof.
  unfold seg. revert l. induction p as [|p IH]; intros l H.
  - cbn [skipn plus] in *. apply firstn_S_nth, H.
  - destruct l; [destruct n; discriminate H|]. cbn [skipn]. apply IH. exact H.
Qed.

Section Step.
  Variable e : uenv.
  Variables A0 B0 : list nat.
  Variable cap : nat.
  Notation mt := (u_mt e).
  Notation cnt := (count_occ Nat.eq_dec).
  Notation core := (core e A0 B0).
  Hypothesis Hmin : u_min e <= 1.
  Hypothesis Hcnt : cnt A0 mt = cnt B0 mt.
  Hypothesis Hhd : 1 <= u_min e \/ (forall x, hd_error A0 = Some x \/ hd_error B0 = Some x -> x <= mt).
  Hypothesis Hne : A0 <> [] /\ B0 <> [].
  Hypothesis Hcap : forall l, NoDup l -> (forall x, In x l -> mt < x /\ In x (A0 ++ B0)) -> length l <= cap.

  Definition vars (stk : list level) : list nat := map l_var stk.
  (* the place of a variable that is being given values: side, opposite scheme *)
  Record place (f : nat -> list nat) (flag : bool) (A B : list nat) (p x n : nat) (vs ss ns : list nat) : Prop := {
    pl_core : core f A B p vs ss ns;
    pl_at : nth_error (if flag then A else B) p = Some x;
    pl_unk : mt < x;
    pl_dif : nth_error A p <> nth_error B p;
    pl_len : p + n <= length (if flag then B else A) }.
  Definition lvlOK (lv : level) (rest : list level) : Prop :=
    exists f flag p n ss ns, l_starts lv = p :: ss /\ l_lens lv = n :: ns /\
      place f flag (l_A lv) (l_B lv) p (l_var lv) n (vars rest) ss ns /\ u_min e <= n /\ ~ In mt (seg (if flag then l_B lv else l_A lv) p n).
  Fixpoint stkOK (stk : list level) : Prop :=
    match stk with [] => True | lv :: rest => lvlOK lv rest /\ stkOK rest end.
  Definition tmpOK (s : ust) : Prop := forall t, u_tmp s t = true <-> In t (vars (u_stk s)).

  Definition goodA (s : ust) : Prop :=
    stkOK (u_stk s) /\ tmpOK s /\ exists f, core f (u_A s) (u_B s) (u_p s) (vars (u_stk s)) (u_starts s) (u_lens s).
  Definition goodB (s : ust) (top : level) (rest : list level) : Prop :=
    u_stk s = top :: rest /\ stkOK (u_stk s) /\ tmpOK s /\
    u_A s = l_A top /\ u_B s = l_B top /\ u_starts s = l_starts top /\ u_lens s = l_lens top /\ hd_error (l_starts top) = Some (u_p s).
  Definition goodBack (s : ust) : Prop := stkOK (u_stk s) /\ tmpOK s.
  Definition goodSw (s : ust) (top : level) (rest : list level) : Prop :=
    u_stk s = top :: rest /\ tmpOK s /\ stkOK rest /\ u_A s = l_A top /\ u_B s = l_B top /\ u_starts s = l_starts top /\
        exists f flag n ss ns, l_starts top = u_p s :: ss /\ l_lens top = n :: ns /\
          place f flag (l_A top) (l_B top) (u_p s) (l_var top) (n - 1) (vars rest) ss ns /\ u_min e <= n /\
          ~ In mt (seg (if flag then l_B top else l_A top) (u_p s) (n - 1)).
  Definition goodDone (s : ust) : Prop := goodA s /\ u_A s = u_B s /\ length (u_A s) = S (u_p s).

  Lemma place_room f flag A B p x n vs ss ns : place f flag A B p x n vs ss ns ->
    ~ In mt (seg (if flag then B else A) p n) -> p + n < length (if flag then B else A).
  Proof.
    intros P N. pose proof (core_ends _ _ _ _ _ _ _ _ _ _ (pl_core _ _ _ _ _ _ _ _ _ _ P)) as [[A1 EA] [B1 EB]].
    pose proof (pl_len _ _ _ _ _ _ _ _ _ _ P) as HL. pose proof (pl_core _ _ _ _ _ _ _ _ _ _ P) as C.
    set (O := if flag then B else A) in *.
    assert (EO : exists O1, O = O1 ++ [mt]) by (subst O; destruct flag; eauto). destruct EO as [O1 EO].
    assert (p < length O) by (subst O; destruct flag; [apply (c_pB _ _ _ _ _ _ _ _ _ _ C)|apply (c_pA _ _ _ _ _ _ _ _ _ _ C)]).
    destruct (le_lt_dec (length O) (p + n)) as [K|K]; [exfalso|exact K]. apply N. unfold seg. rewrite firstn_all2 by (rewrite skipn_length; lia).
    rewrite EO in *. rewrite app_length in *. cbn [length] in *. rewrite skipn_app. apply in_app_iff. right. replace (p - length O1) with 0 by lia. left. reflexivity.
  Qed.
  Lemma head_same f A B p vs ss ns : core f A B p vs ss ns -> u_min e = 0 ->
    (forall x, hd_error A = Some x \/ hd_error B = Some x -> x <= mt).
  Proof.
    intros C Z x HX. destruct Hhd as [K|K]; [lia|]. destruct Hne as [NA NB].
    assert (I : forall t, t <= mt -> f t = [t]).
    { intros t L. apply (c_id _ _ _ _ _ _ _ _ _ _ C). intros J. apply (c_unk _ _ _ _ _ _ _ _ _ _ C) in J. lia. }
    rewrite (c_A _ _ _ _ _ _ _ _ _ _ C), (c_B _ _ _ _ _ _ _ _ _ _ C) in HX.
    destruct A0 as [|a A']; [congruence|]. destruct B0 as [|b B']; [congruence|]. cbn [app flat_map hd_error] in HX.
    rewrite (I a) in HX by (apply K; left; reflexivity). rewrite (I b) in HX by (apply K; right; reflexivity).
    cbn [app hd_error] in HX. destruct HX as [HX|HX]; injection HX as <-; apply K; [left|right]; reflexivity.
  Qed.

  Lemma side_pend flag x s top rest f n ss ns : u_stk s = top :: rest -> tmpOK s -> stkOK rest -> l_var top = x ->
    u_A s = l_A top -> u_B s = l_B top -> l_starts top = u_p s :: ss -> l_lens top = n :: ns -> u_starts s = u_p s :: ss -> u_lens s = n :: ns ->
    place f flag (u_A s) (u_B s) (u_p s) x n (vars rest) ss ns -> u_min e <= n ->
    (~ In mt (seg (if flag then u_B s else u_A s) (u_p s) n) \/ seg (if flag then u_B s else u_A s) (u_p s) n = [mt]) ->
    exists o, side e cap flag x s = Ok o /\
      match o with
      | UScan s' => goodA s' /\ u_stk s' = top :: rest
      | UBack s' => goodBack s' /\ (u_stk s' = rest \/ u_stk s' = top :: rest)
      | _ => False
      end.
  Proof.
    intros ES T SR EV EA EB E1 E2 E3 E4 P Hn HM. unfold side. replace (u_tmp s x) with true.
    2:{ symmetry. apply T. rewrite ES. left. exact EV. }
    cbn [rbind]. rewrite ES, E4, EV, Nat.eqb_refl. cbn [negb].
    fold (seg (if flag then u_B s else u_A s) (u_p s) n). set (O := if flag then u_B s else u_A s) in *. set (w := seg O (u_p s) n) in *.
    assert (LV : ~ In mt w -> lvlOK top rest).
    { intros N. exists f, flag, (u_p s), n, ss, ns. rewrite <- EA, <- EB, EV. split; [exact E1|split; [exact E2|split; [exact P|split; [exact Hn|exact N]]]]. }
    assert (GB : ~ In mt w -> goodBack s).
    { intros N. split; [rewrite ES; split; [exact (LV N)|exact SR]|exact T]. }
    destruct (existsb (Nat.eqb x) w) eqn:EX.
    - eexists. split; [reflexivity|]. cbn beta iota. split; [|right; exact ES]. apply GB.
      destruct HM as [HM|HM]; [exact HM|]. exfalso. rewrite HM in EX. cbn [existsb] in EX. pose proof (pl_unk _ _ _ _ _ _ _ _ _ _ P). lia.
    - destruct HM as [HM|HM].
      2:{ rewrite HM. cbn [hd_error isTok]. rewrite Nat.eqb_refl. eexists. split; [reflexivity|]. cbn [u_stk].
          split; [|left; reflexivity]. split; cbn [u_stk]; [exact SR|]. intros t. cbn [u_tmp u_stk]. unfold setTmp.
          destruct (t =? x) eqn:Et.
          - split; [discriminate|]. intros I. exfalso. apply Nat.eqb_eq in Et. subst t.
            destruct (c_free _ _ _ _ _ _ _ _ _ _ (pl_core _ _ _ _ _ _ _ _ _ _ P) x I) as [F1 F2]. pose proof (pl_at _ _ _ _ _ _ _ _ _ _ P) as K.
            apply nth_error_In in K. destruct flag; contradiction.
          - rewrite (T t), ES. cbn [vars map In]. rewrite EV. split; [intros [K|K]; [lia|exact K]|intros K; right; exact K]. }
      assert (NH : isTok (hd_error w) mt = false).
      { destruct w as [|t w']; [reflexivity|]. cbn [hd_error isTok]. destruct (t =? mt) eqn:Et; [|reflexivity].
        exfalso. apply HM. left. lia. }
      rewrite NH. destruct (reject e w) eqn:Rj; [eexists; split; [reflexivity|]; split; [exact (GB HM)|right; exact ES]|].
      assert (NX : ~ In x w).
      { intros I. assert (existsb (Nat.eqb x) w = true) by (apply existsb_exists; exists x; split; [exact I|apply Nat.eqb_refl]). congruence. }
      assert (Lw : length w = n) by (apply seg_len, P).
      pose proof (core_sub e A0 B0 flag f (u_A s) (u_B s) (u_p s) (vars rest) ss ns x n (pl_core _ _ _ _ _ _ _ _ _ _ P)
        (pl_at _ _ _ _ _ _ _ _ _ _ P) (pl_unk _ _ _ _ _ _ _ _ _ _ P) (pl_len _ _ _ _ _ _ _ _ _ _ P) NX HM Hn Rj) as C. cbn zeta in C.
      rewrite doSubst_ok.
      + cbn [rbind]. eexists. split; [reflexivity|]. cbn [u_stk]. split; [|exact ES]. split; [|split]; cbn [u_stk].
        * rewrite ES. split; [exact (LV HM)|exact SR].
        * exact T.
        * eexists. cbn [u_A u_B u_p u_starts u_lens u_stk]. rewrite ES. cbn [vars map]. rewrite EV, E3, E4.
          assert (FL : firstn (u_p s) (if flag then u_A s else u_B s) = firstn (u_p s) (u_A s)).
          { destruct flag; [reflexivity|]. symmetry. apply (c_pre _ _ _ _ _ _ _ _ _ _ (pl_core _ _ _ _ _ _ _ _ _ _ P)). }
          rewrite FL, Lw. fold O in C. fold w in C. exact C.
      + exact NX.
      + apply P.
      + destruct (Nat.eq_dec (length w) 0) as [Z|Z]; [right|left; lia].
        assert (u_min e = 0) by lia. pose proof (head_same _ _ _ _ _ _ _ (pl_core _ _ _ _ _ _ _ _ _ _ P) H) as HS.
        pose proof (pl_unk _ _ _ _ _ _ _ _ _ _ P). split; intros K; [specialize (HS x (or_introl K))|specialize (HS x (or_intror K))]; lia.
  Qed.

  Lemma core_next f A B p vs ss ns t : core f A B p vs ss ns -> nth_error A p = Some t -> nth_error B p = Some t -> S p < length A ->
    core f A B (S p) vs ss ns.
  Proof.
    intros C HA HB HL. destruct (core_ends _ _ _ _ _ _ _ _ _ _ C) as [[A1 EA] [B1 EB]].
    destruct (core_cnt _ _ _ _ _ _ _ _ _ _ C) as [K1 K2]. destruct C as [C1 C2 C3 C4 C5 C6 C7 C8 C9 C10 C11 C12 C13 C14 C15].
    assert (C11' : firstn (S p) A = firstn (S p) B) by (rewrite (firstn_S_nth A p t HA), (firstn_S_nth B p t HB), C11; reflexivity).
    constructor; try assumption.
    - intros x s n I. destruct (C4 x s n I) as [X1 [X2 X3]]. split; [exact X1|split; [lia|exact X3]].
    - destruct (Nat.eq_dec (length B) (S p)) as [Z|Z]; [exfalso|lia].
      pose proof (prefix_end e A B A1 B1 p EA EB) as PE. rewrite PE in HL; [lia|lia|exact C11'|lia|exact Z].
  Qed.
  Lemma scanLoop_ok f A B vs ss ns : forall fuel p, core f A B p vs ss ns -> length A < fuel + p ->
    exists p', scanLoop fuel A B p = Ok p' /\ core f A B p' vs ss ns /\
      (nth_error A p' <> nth_error B p' \/ (nth_error A p' = nth_error B p' /\ S p' = length A)).
  Proof.
    induction fuel as [|fuel IH]; intros p C HF; pose proof (c_pA _ _ _ _ _ _ _ _ _ _ C) as PA; pose proof (c_pB _ _ _ _ _ _ _ _ _ _ C) as PB; [lia|].
    cbn [scanLoop]. destruct (rd_lt A p PA) as [a [Ra Na]]. destruct (rd_lt B p PB) as [b [Rb Nb]]. rewrite Ra, Rb. cbn [rbind sameTok].
    destruct (a =? b) eqn:E.
    - apply Nat.eqb_eq in E. subst b. destruct (Nat.eq_dec (S p) (length A)) as [Z|Z].
      + rewrite Z, rd_end. cbn [rbind]. exists p. split; [reflexivity|]. split; [exact C|]. right. split; [congruence|exact Z].
      + destruct (rd_lt A (S p)) as [t [Rt Nt]]; [lia|]. rewrite Rt. cbn [rbind]. apply IH; [|lia].
        apply (core_next _ _ _ _ _ _ _ _ C Na Nb). lia.
    - exists p. split; [reflexivity|]. split; [exact C|]. left. rewrite Na, Nb. intros F. injection F as F. lia.
  Qed.

  (* the branching at a difference *)
  Definition pick (s : ust) (x y : nat) : res uout :=
    if (mt <? y) && (mt <? x) then
      if negb (u_tmp s y) then side e cap true x s
      else if u_tmp s x then Bug 1902
      else side e cap false y s
    else if mt <? y then side e cap false y s
    else if mt <? x then side e cap true x s
    else Ok (UBack s).
  Lemma scan_split s f vs ss ns : core f (u_A s) (u_B s) (u_p s) vs ss ns ->
    exists s', (exists p, s' = mkU (u_A s) (u_B s) p (u_stk s) (u_starts s) (u_lens s) (u_tmp s) (u_tc s)) /\
      core f (u_A s) (u_B s) (u_p s') vs ss ns /\
      ((scanStep e cap s = Ok (UDone s') /\ u_A s = u_B s /\ length (u_A s) = S (u_p s')) \/
       (exists x y, nth_error (u_A s) (u_p s') = Some x /\ nth_error (u_B s) (u_p s') = Some y /\ x <> y /\
         (scanStep e cap s = pick s' x y \/ (x <= mt /\ y <= mt /\ scanStep e cap s = Ok (UBack s'))) )) /\
      (nth_error (u_A s) (u_p s) <> nth_error (u_B s) (u_p s) -> u_p s' = u_p s).
  Proof.
    intros C. unfold scanStep. destruct (scanLoop_ok f (u_A s) (u_B s) vs ss ns (S (length (u_A s))) (u_p s) C) as [p' [E1 [C' D]]]; [lia|].
    assert (ST : nth_error (u_A s) (u_p s) <> nth_error (u_B s) (u_p s) -> p' = u_p s).
    { intros N. cbn [scanLoop] in E1. destruct (rd_lt (u_A s) (u_p s) (c_pA _ _ _ _ _ _ _ _ _ _ C)) as [a [Ra Na]].
      destruct (rd_lt (u_B s) (u_p s) (c_pB _ _ _ _ _ _ _ _ _ _ C)) as [b [Rb Nb]]. rewrite Ra, Rb in E1. cbn [rbind sameTok] in E1.
      destruct (a =? b) eqn:Eab; [exfalso; apply N; rewrite Na, Nb; f_equal; lia|]. congruence. }
    rewrite E1. cbn [rbind u_A u_B]. exists (mkU (u_A s) (u_B s) p' (u_stk s) (u_starts s) (u_lens s) (u_tmp s) (u_tc s)).
    split; [exists p'; reflexivity|]. cbn [u_p]. split; [exact C'|]. split; [|exact ST].
    destruct (rd_lt (u_A s) p' (c_pA _ _ _ _ _ _ _ _ _ _ C')) as [a [Ra Na]].
    destruct (rd_lt (u_B s) p' (c_pB _ _ _ _ _ _ _ _ _ _ C')) as [b [Rb Nb]]. rewrite Ra, Rb. cbn [rbind isTok sameTok unk].
    destruct D as [D|[D Z]].
    - right. exists a, b. split; [exact Na|]. split; [exact Nb|]. rewrite Na, Nb in D. assert (N : a <> b) by congruence. split; [exact N|].
      destruct ((a =? mt) || (b =? mt)) eqn:Em; [|left; reflexivity].
      replace (a =? b) with false by lia. destruct (negb (mt <? a) && negb (mt <? b)) eqn:Eu; [|left; reflexivity].
      right. split; [lia|]. split; [lia|reflexivity].
    - left. destruct (core_ends _ _ _ _ _ _ _ _ _ _ C') as [[A1 EA] [B1 EB]]. destruct (core_cnt _ _ _ _ _ _ _ _ _ _ C') as [K1 K2].
      assert (Ea : a = mt).
      { rewrite EA, app_length in Z. cbn [length] in Z. rewrite EA, nth_error_app2 in Na by lia. replace (p' - length A1) with 0 in Na by lia.
        cbn in Na. congruence. }
      assert (b = a) by congruence. subst b. subst a. rewrite Nat.eqb_refl. cbn [orb]. rewrite Z, rd_end. cbn [rbind]. split; [reflexivity|].
      split; [|reflexivity].
      assert (F : firstn (S p') (u_A s) = firstn (S p') (u_B s)) by (rewrite (firstn_S_nth _ _ _ Na), (firstn_S_nth _ _ _ Nb), (c_pre _ _ _ _ _ _ _ _ _ _ C'); reflexivity).
      assert (LB : length (u_B s) = S p').
      { apply (prefix_end e (u_B s) (u_A s) B1 A1 p' EB EA); [lia|symmetry; exact F|apply (c_pB _ _ _ _ _ _ _ _ _ _ C')|lia]. }
      rewrite !firstn_all2 in F by lia. exact F.
  Qed.

  Lemma side_new (flag : bool) x (s : ust) f : goodA s -> core f (u_A s) (u_B s) (u_p s) (vars (u_stk s)) (u_starts s) (u_lens s) ->
    nth_error (if flag then u_A s else u_B s) (u_p s) = Some x -> mt < x -> nth_error (u_A s) (u_p s) <> nth_error (u_B s) (u_p s) ->
    exists o top, side e cap flag x s = Ok o /\
      match o with
      | UScan s' => goodA s' /\ u_stk s' = top :: u_stk s
      | UBack s' => goodBack s' /\ (u_stk s' = u_stk s \/ u_stk s' = top :: u_stk s)
      | _ => False
      end.
  Proof.
    intros [SO [T _]] C NX Ux D.
    assert (IX : In x (u_A s) \/ In x (u_B s)) by (destruct flag; [left|right]; eapply nth_error_In; exact NX).
    assert (NV : ~ In x (vars (u_stk s))) by (intros I; destruct (c_free _ _ _ _ _ _ _ _ _ _ C x I); tauto).
    assert (ET : u_tmp s x = false) by (destruct (u_tmp s x) eqn:E; [exfalso; apply NV, T, E|reflexivity]).
    assert (HC : length (u_stk s) < cap).
    { assert (K : length (x :: vars (u_stk s)) <= cap).
      { apply Hcap; [constructor; [exact NV|apply (c_nd _ _ _ _ _ _ _ _ _ _ C)]|]. intros t [<-|I]; [|apply (c_unk _ _ _ _ _ _ _ _ _ _ C), I].
        split; [exact Ux|]. destruct (c_in _ _ _ _ _ _ _ _ _ _ C x IX); [assumption|lia]. }
      cbn [length] in K. unfold vars in K. rewrite map_length in K. lia. }
    set (lv := mkLevel x (u_p s :: u_starts s) (u_min e :: u_lens s) (u_A s) (u_B s)).
    set (s1 := mkU (u_A s) (u_B s) (u_p s) (lv :: u_stk s) (u_p s :: u_starts s) (u_min e :: u_lens s) (setTmp (u_tmp s) x true) (u_tc s)).
    assert (ES : side e cap flag x s = side e cap flag x s1).
    { unfold side. rewrite ET. replace (length (u_stk s) <? cap) with true by lia. cbn [rbind].
      fold lv. fold s1. replace (u_tmp s1 x) with true by (unfold s1, setTmp; cbn [u_tmp]; rewrite Nat.eqb_refl; reflexivity). reflexivity. }
    rewrite ES. pose proof (c_pA _ _ _ _ _ _ _ _ _ _ C) as PA. pose proof (c_pB _ _ _ _ _ _ _ _ _ _ C) as PB.
    assert (T1 : tmpOK s1).
    { intros t. unfold s1, setTmp. cbn [u_tmp u_stk vars map In]. cbn [l_var lv]. destruct (t =? x) eqn:Et.
      - split; [intros _; left; lia|reflexivity].
      - rewrite (T t). split; [intros K; right; exact K|intros [K|K]; [lia|exact K]]. }
    assert (P : place f flag (u_A s1) (u_B s1) (u_p s1) x (u_min e) (vars (u_stk s)) (u_starts s) (u_lens s)).
    { constructor; try assumption. cbn [s1 u_A u_B u_p]. destruct flag; lia. }
    assert (HM : ~ In mt (seg (if flag then u_B s1 else u_A s1) (u_p s1) (u_min e)) \/ seg (if flag then u_B s1 else u_A s1) (u_p s1) (u_min e) = [mt]).
    { set (w := seg _ _ _). assert (Lw : length w = u_min e) by (apply seg_len, P).
      destruct w as [|t [|t' w']]; cbn [length] in Lw; [left; intros []| |lia].
      destruct (Nat.eq_dec t mt) as [->|N]; [right; reflexivity|left; intros [F|[]]; congruence]. }
    destruct (side_pend flag x s1 lv (u_stk s) f (u_min e) (u_starts s) (u_lens s)) as [o [E O]]; try reflexivity; try assumption.
    exists o, lv. split; [exact E|exact O].
  Qed.
  Lemma goodA_p s s' p f : goodA s -> s' = mkU (u_A s) (u_B s) p (u_stk s) (u_starts s) (u_lens s) (u_tmp s) (u_tc s) ->
    core f (u_A s) (u_B s) p (vars (u_stk s)) (u_starts s) (u_lens s) -> goodA s'.
  Proof. intros [S1 [T _]] -> C. split; [exact S1|split; [exact T|exists f; exact C]]. Qed.
  Lemma scanA_step s : goodA s -> exists o top, scanStep e cap s = Ok o /\
      match o with
      | UDone s' => goodDone s' /\ u_stk s' = u_stk s
      | UScan s' => goodA s' /\ u_stk s' = top :: u_stk s
      | UBack s' => goodBack s' /\ (u_stk s' = u_stk s \/ u_stk s' = top :: u_stk s)
      | _ => False
      end.
  Proof.
    intros G. pose proof G as [SO [T [f C]]]. destruct (scan_split s f _ _ _ C) as [s' [[p Es'] [C' [[[E1 [E2 E3]]|[x [y [NX [NY [N K]]]]]] _]]]].
    - exists (UDone s'), (mkLevel 0 [] [] [] []). split; [exact E1|]. split; [|subst s'; reflexivity]. split; [|subst s'; cbn [u_A u_B u_p] in *; auto].
      apply (goodA_p s s' p f G Es'). subst s'. exact C'.
    - assert (G' : goodA s') by (apply (goodA_p s s' p f G Es'); subst s'; exact C').
      destruct K as [K|[K1 [K2 K3]]].
      2:{ exists (UBack s'), (mkLevel 0 [] [] [] []). split; [exact K3|]. subst s'. cbn [u_stk]. split; [split; [exact SO|exact T]|left; reflexivity]. }
      assert (Es : u_stk s' = u_stk s) by (subst s'; reflexivity).
      assert (F : forall z, In z (u_A s) \/ In z (u_B s) -> u_tmp s' z = false).
      { intros z I. destruct (u_tmp s' z) eqn:Ez; [exfalso|reflexivity]. assert (Iz : In z (vars (u_stk s))) by (subst s'; apply T, Ez).
        destruct (c_free _ _ _ _ _ _ _ _ _ _ C z Iz). tauto. }
      assert (D : nth_error (u_A s') (u_p s') <> nth_error (u_B s') (u_p s')) by (subst s'; cbn [u_A u_B u_p] in *; congruence).
      assert (C2 : core f (u_A s') (u_B s') (u_p s') (vars (u_stk s')) (u_starts s') (u_lens s')) by (subst s'; exact C').
      assert (NX' : nth_error (u_A s') (u_p s') = Some x) by (subst s'; exact NX).
      assert (NY' : nth_error (u_B s') (u_p s') = Some y) by (subst s'; exact NY).
      rewrite K. unfold pick. rewrite (F y) by (right; eapply nth_error_In; exact NY). cbn [negb]. rewrite <- Es.
      destruct (mt <? y) eqn:Ey, (mt <? x) eqn:Ex; cbn [andb].
      + destruct (side_new true x s' f G' C2 NX') as [o [top [E O]]]; [lia|exact D|]. exists o, top. split; [exact E|]. destruct o; tauto.
      + destruct (side_new false y s' f G' C2 NY') as [o [top [E O]]]; [lia|exact D|]. exists o, top. split; [exact E|]. destruct o; tauto.
      + destruct (side_new true x s' f G' C2 NX') as [o [top [E O]]]; [lia|exact D|]. exists o, top. split; [exact E|]. destruct o; tauto.
      + exists (UBack s'), (mkLevel 0 [] [] [] []). split; [reflexivity|]. split; [|left; reflexivity]. destruct G' as [G1 [G2 _]]. split; assumption.
  Qed.
  Lemma scanB_step s top rest : goodB s top rest -> exists o, scanStep e cap s = Ok o /\
      match o with
      | UScan s' => goodA s' /\ u_stk s' = top :: rest
      | UBack s' => goodBack s' /\ (u_stk s' = rest \/ u_stk s' = top :: rest)
      | _ => False
      end.
  Proof.
    intros [ES [SO [T [EA [EB [E1 [E2 E3]]]]]]]. rewrite ES in SO. cbn [stkOK] in SO. destruct SO as [[f [flag [p [n [ss [ns [X1 [X2 [P [Hn HM]]]]]]]]]] SR].
    rewrite X1 in E3. injection E3 as ->. pose proof (pl_core _ _ _ _ _ _ _ _ _ _ P) as C. rewrite <- EA, <- EB in *.
    destruct (scan_split s f _ _ _ C) as [s' [[p Es'] [C' [Z SP]]]]. pose proof (pl_dif _ _ _ _ _ _ _ _ _ _ P) as D. specialize (SP D).
    assert (Ess : s' = s) by (rewrite Es' in SP; cbn [u_p] in SP; rewrite Es', SP; destruct s; reflexivity). clear Es'. subst s'. clear SP C'.
    destruct Z as [[_ [Z _]]|[x [y [NX [NY [N K]]]]]]; [rewrite Z in D; congruence|].
    assert (UV : (mt < x /\ x = l_var top /\ flag = true) \/ (mt < y /\ y = l_var top /\ flag = false)).
    { pose proof (pl_at _ _ _ _ _ _ _ _ _ _ P) as Q. pose proof (pl_unk _ _ _ _ _ _ _ _ _ _ P). destruct flag; [left|right]; repeat split; try congruence; replace x with (l_var top) by congruence || replace y with (l_var top) by congruence; assumption. }
    destruct K as [K|[K1 [K2 _]]]; [|lia]. rewrite K.
    assert (EP : pick s x y = side e cap flag (l_var top) s).
    { unfold pick. assert (FT : forall z, In z (u_A s) \/ In z (u_B s) -> z <> l_var top -> u_tmp s z = false).
      { intros z I Nz. destruct (u_tmp s z) eqn:Ez; [exfalso|reflexivity]. apply T in Ez. rewrite ES in Ez. destruct Ez as [Ez|Ez]; [congruence|].
        destruct (c_free _ _ _ _ _ _ _ _ _ _ C z Ez). tauto. }
      assert (TT : u_tmp s (l_var top) = true) by (apply T; rewrite ES; left; reflexivity).
      destruct UV as [[U1 [U2 U3]]|[U1 [U2 U3]]]; rewrite U3.
      - replace (mt <? x) with true by lia. rewrite (FT y); [|right; eapply nth_error_In; exact NY|congruence]. cbn [negb].
        rewrite andb_true_r. destruct (mt <? y) eqn:Ey; [rewrite U2; reflexivity|rewrite U2; reflexivity].
      - replace (mt <? y) with true by lia. cbn [andb]. rewrite U2 at 1. rewrite TT. cbn [negb]. rewrite (FT x); [|left; eapply nth_error_In; exact NX|congruence].
        rewrite U2. destruct (mt <? x); reflexivity. }
    rewrite EP. destruct (side_pend flag (l_var top) s top rest f n ss ns) as [o [E O]]; try assumption; try reflexivity.
    - congruence.
    - congruence.
    - left. exact HM.
    - exists o. split; [exact E|]. destruct o; tauto.
  Qed.

  (* what is left to try for a variable *)
  Definition rem (lv : level) : nat :=
    match l_starts lv, l_lens lv with
    | p :: _, n :: _ => if isTok (nth_error (l_A lv) p) (l_var lv) then length (l_B lv) - p - n + length (l_A lv) + 1 else length (l_A lv) - p - n
    | _, _ => 0
    end.
  Lemma place_tok f flag A B p x n vs ss ns : place f flag A B p x n vs ss ns -> isTok (nth_error A p) x = flag.
  Proof.
    intros P. pose proof (pl_at _ _ _ _ _ _ _ _ _ _ P) as K. pose proof (pl_dif _ _ _ _ _ _ _ _ _ _ P) as D. destruct flag.
    - rewrite K. cbn [isTok]. apply Nat.eqb_refl.
    - destruct (nth_error A p) as [a|]; [|reflexivity]. cbn [isTok]. rewrite K in D. apply Nat.eqb_neq. congruence.
  Qed.
  Lemma back_step s top rest : goodBack s -> u_stk s = top :: rest -> exists o, backStep e s = Ok o /\
    match o with
    | UAbort _ _ => True
    | USwitch s' => exists top', goodSw s' top' rest /\ rem top' < rem top
    | _ => False
    end.
  Proof.
    intros [SO T] ES. rewrite ES in SO. cbn [stkOK] in SO. destruct SO as [[f [flag [p [n [ss [ns [X1 [X2 [P [Hn HM]]]]]]]]]] SR].
    unfold backStep. rewrite ES. set (tc := if 0 <? u_tc s then u_tc s + 1 else u_tc s).
    destruct ((0 <? u_tc s) && (u_max e <? tc)); [eexists; split; [reflexivity|exact I]|]. rewrite X1, X2. eexists. split; [reflexivity|].
    cbn beta iota. eexists. split.
    - split; [reflexivity|]. split.
      { intros t. cbn [u_tmp u_stk vars map l_var]. rewrite (T t), ES. reflexivity. }
      split; [exact SR|]. cbn [u_A u_B u_starts u_p l_A l_B l_starts l_lens l_var]. repeat (split; [reflexivity|]).
      exists f, flag, (S n), ss, ns. split; [reflexivity|]. split; [reflexivity|].
      replace (S n - 1) with n by lia. split; [exact P|]. split; [lia|exact HM].
    - unfold rem. cbn [l_starts l_lens l_A l_B l_var]. rewrite X1, X2, (place_tok _ _ _ _ _ _ _ _ _ _ P).
      pose proof (place_room _ _ _ _ _ _ _ _ _ _ P HM). destruct flag; lia.
  Qed.
  Lemma switch_step s top rest : goodSw s top rest -> exists o, switchStep e s = Ok o /\
    match o with
    | UBack s' => goodBack s' /\ u_stk s' = rest
    | UScan s' => goodB s' top rest
    | USwitch s' => exists top', goodSw s' top' rest /\ rem top' < rem top
    | _ => False
    end.
  Proof.
    intros [ES [T [SR [EA [EB [E1 [f [flag [n [ss [ns [X1 [X2 [P [Hn HM]]]]]]]]]]]]]]].
    unfold switchStep. rewrite ES, X2. cbn [u_A u_B u_starts u_lens u_tmp u_tc u_stk]. pose proof (pl_core _ _ _ _ _ _ _ _ _ _ P) as C. rewrite <- EA, <- EB in *.
    pose proof (c_pA _ _ _ _ _ _ _ _ _ _ C) as PA. pose proof (c_pB _ _ _ _ _ _ _ _ _ _ C) as PB. pose proof (place_room _ _ _ _ _ _ _ _ _ _ P HM) as RM.
    pose proof (place_tok _ _ _ _ _ _ _ _ _ _ P) as PT. pose proof (pl_at _ _ _ _ _ _ _ _ _ _ P) as AT. pose proof (pl_unk _ _ _ _ _ _ _ _ _ _ P) as UX.
    destruct (rd_lt (u_A s) (u_p s) PA) as [a [Ra Na]]. destruct (rd_lt (u_B s) (u_p s) PB) as [b [Rb Nb]].
    rewrite Ra. cbn [rbind]. rewrite <- Na, PT.
    assert (IX : In (l_var top) (u_A s) \/ In (l_var top) (u_B s)) by (destruct flag; [left|right]; eapply nth_error_In; exact AT).
    assert (NV : ~ In (l_var top) (vars rest)) by (intros K; destruct (c_free _ _ _ _ _ _ _ _ _ _ C _ K); tauto).
    assert (POP : forall A B p ss ns tc, goodBack (mkU A B p rest ss ns (setTmp (u_tmp s) (l_var top) false) tc)).
    { intros A B p ss' ns' tc. split; [exact SR|]. intros t. cbn [u_tmp u_stk]. unfold setTmp. destruct (t =? l_var top) eqn:Et.
      - apply Nat.eqb_eq in Et. subst t. split; [discriminate|contradiction].
      - rewrite (T t), ES. cbn [vars map In]. split; [intros [K|K]; [lia|exact K]|intros K; right; exact K]. }
    set (O := if flag then u_B s else u_A s) in *.
    assert (RE : exists c, rdEnd O (u_p s) n = Ok (Some c) /\ (c <> mt -> u_p s + n <= length O /\ ~ In mt (seg O (u_p s) n))).
    { unfold rdEnd. destruct n as [|m].
      - assert (P1 : 1 <= u_p s).
        { destruct (u_p s) eqn:Ep; [exfalso|lia]. assert (Z : u_min e = 0) by lia. pose proof (head_same _ _ _ _ _ _ _ C Z (l_var top)) as HS.
          enough (l_var top <= mt) by lia. apply HS. destruct flag; [left|right].
          - destruct (u_A s); [discriminate AT|exact AT].
          - destruct (u_B s); [discriminate AT|exact AT]. }
        destruct (u_p s) as [|q] eqn:Ep; [lia|]. cbn [plus]. rewrite Nat.add_0_r. destruct (rd_lt O q) as [c [R1 R2]]; [cbn in RM; lia|].
        exists c. split; [exact R1|]. intros _. cbn in RM. split; [lia|]. unfold seg. rewrite firstn_O. intros [].
      - rewrite Nat.add_succ_r. replace (S m - 1) with m in * by lia. destruct (rd_lt O (u_p s + m) RM) as [c [R1 R2]]. exists c. split; [exact R1|].
        intros Nc. split; [lia|]. rewrite (seg_S _ _ _ _ R2). intros J. apply in_app_iff in J. destruct J as [J|[J|[]]]; [exact (HM J)|congruence]. }
    assert (GB : forall c, rdEnd O (u_p s) n = Ok (Some c) -> c <> mt ->
      goodB (mkU (u_A s) (u_B s) (u_p s) (top :: rest) (u_starts s) (n :: ns) (u_tmp s) (u_tc s)) top rest).
    { intros c Rc Nc. destruct RE as [c' [Rc' K]]. rewrite Rc in Rc'. injection Rc' as <-. destruct (K Nc) as [K1 K2].
      split; [reflexivity|]. split.
      - cbn [u_stk stkOK]. split; [|exact SR]. exists f, flag, (u_p s), n, ss, ns. rewrite <- EA, <- EB. split; [exact X1|]. split; [exact X2|].
        split; [|split; [exact Hn|exact K2]]. destruct P as [Q1 Q2 Q3 Q4 Q5]. constructor; assumption.
      - split; [intros t; cbn [u_tmp u_stk]; rewrite <- ES; apply T|]. cbn [u_A u_B u_starts u_lens u_p]. rewrite X1, X2. rewrite E1, X1. auto 7. }
    destruct flag; subst O; cbn iota in *.
    - destruct RE as [c [Rc K]]. rewrite Rc. cbn [rbind isTok]. destruct (c =? mt) eqn:Ec.
      2:{ eexists. split; [reflexivity|]. cbn beta iota. apply (GB c Rc). lia. }
      rewrite Rb. cbn [rbind]. destruct (mt <? b) eqn:Eb.
      2:{ eexists. split; [reflexivity|]. cbn beta iota. split; [apply POP|reflexivity]. }
      assert (Nb' : b <> l_var top).
      { pose proof (pl_dif _ _ _ _ _ _ _ _ _ _ P) as D. congruence. }
      assert (NBV : ~ In b (vars rest)).
      { intros J. destruct (c_free _ _ _ _ _ _ _ _ _ _ C _ J) as [_ F]. apply F. eapply nth_error_In. exact Nb. }
      assert (Tb : setTmp (u_tmp s) (l_var top) false b = false).
      { unfold setTmp. replace (b =? l_var top) with false by lia. destruct (u_tmp s b) eqn:Et; [exfalso|reflexivity].
        apply T in Et. rewrite ES in Et. destruct Et as [Et|Et]; [congruence|contradiction]. }
      rewrite Tb. eexists. split; [reflexivity|]. cbn beta iota. eexists. split.
      + split; [reflexivity|]. split.
        { intros t. cbn [u_tmp u_stk vars map l_var In]. unfold setTmp at 1. destruct (t =? b) eqn:Et; [split; [left; lia|reflexivity]|].
          destruct (POP [] [] 0 [] [] 0) as [_ PP]. specialize (PP t). cbn [u_tmp u_stk] in PP. rewrite PP.
          split; [intros J; right; exact J|intros [J|J]; [lia|exact J]]. }
        split; [exact SR|]. cbn [u_A u_B u_starts u_p l_A l_B l_starts l_lens l_var]. split; [first [exact EA|reflexivity]|]. split; [first [exact EB|reflexivity]|]. split; [first [exact E1|reflexivity]|].
        exists f, false, (u_min e), ss, ns. split; [exact X1|]. split; [reflexivity|]. rewrite <- ?EA, <- ?EB. cbn iota.
        replace (u_min e - 1) with 0 by lia. split; [|split; [lia|unfold seg; rewrite firstn_O; intros []]].
        destruct P as [Q1 Q2 Q3 Q4 Q5]. constructor; try assumption; lia.
      + unfold rem. cbn [l_starts l_lens l_A l_B l_var]. rewrite X1, X2, <- ?EA, <- ?EB, PT. rewrite Na. cbn [isTok].
        replace (a =? b) with false; [lia|]. symmetry. apply Nat.eqb_neq. pose proof (pl_dif _ _ _ _ _ _ _ _ _ _ P) as D. congruence.
    - destruct RE as [c [Rc K]]. rewrite Rc. cbn [rbind isTok]. destruct (c =? mt) eqn:Ec.
      + eexists. split; [reflexivity|]. cbn beta iota. split; [apply POP|reflexivity].
      + eexists. split; [reflexivity|]. cbn beta iota. apply (GB c Rc). lia.
  Qed.
End Step.
