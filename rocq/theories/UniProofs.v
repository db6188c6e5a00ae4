(* UniProofs.v -- proofs about UniModel: unify() against UniSpec *)
From Coq Require Import ZifyBool ZifyNat.
From Verif Require Import Base UniModel UniSpec UniSub UniCore UniStep UniRun.
Open Scope nat_scope.

Lemma unkVars_spec e l : forall acc, NoDup acc -> NoDup (unkVars e l acc) /\ (forall x, In x acc \/ (In x l /\ u_mt e < x) -> In x (unkVars e l acc)).
Proof.
  induction l as [|t l IH]; intros acc N; cbn [unkVars].
  - split; [exact N|]. intros x [K|[[] _]]. exact K.
  - destruct ((u_mt e <? t) && negb (existsb (Nat.eqb t) acc)) eqn:E.
    + assert (NI : ~ In t acc).
      { intros K. assert (existsb (Nat.eqb t) acc = true) by (apply existsb_exists; exists t; split; [exact K|apply Nat.eqb_refl]). lia. }
      destruct (IH (acc ++ [t])) as [H1 H2].
      { apply NoDup_rev in N. rewrite <- (rev_involutive (acc ++ [t])). apply NoDup_rev. rewrite rev_app_distr. cbn. constructor; [rewrite <- in_rev; exact NI|exact N]. }
      split; [exact H1|]. intros x [K|[[->|K] L]]; apply H2; [left; apply in_app_iff; auto|left; apply in_app_iff; right; left; reflexivity|right; auto].
    + destruct (IH acc N) as [H1 H2]. split; [exact H1|]. intros x [K|[[->|K] L]]; apply H2; [auto| |auto].
      left. destruct (existsb (Nat.eqb x) acc) eqn:E2; [|lia]. apply existsb_exists in E2. destruct E2 as [y [K1 K2]]. apply Nat.eqb_eq in K2. subst y. exact K1.
Qed.
Lemma unkCount_cap e A B l : NoDup l -> (forall x, In x l -> u_mt e < x /\ In x (A ++ B)) -> length l <= unkCount e A B.
Proof.
  intros N H. unfold unkCount. destruct (unkVars_spec e A [] (NoDup_nil _)) as [N1 I1]. destruct (unkVars_spec e B _ N1) as [N2 I2].
  apply NoDup_incl_length; [exact N|]. intros x K. destruct (H x K) as [L J]. apply in_app_iff in J. apply I2.
  destruct J as [J|J]; [left; apply I1; right; auto|right; auto].
Qed.

Section U.
  Variable e : uenv.
  Variables A0 B0 : list nat.
  Hypothesis OK : okInput e A0 B0.
  Notation mt := (u_mt e).
  Notation cap := (unkCount e A0 B0).
  Lemma ok_ne : A0 <> [] /\ B0 <> [].
  Proof. split; [apply (ok_A _ _ _ OK)|apply (ok_B _ _ _ OK)]. Qed.

  Definition answer (s : ust) : Prop := goodDone e A0 B0 s.
  Lemma lookup_spec : forall stk ss ns t, length ss = length stk -> length ns = length stk -> NoDup (vars stk) ->
    match lookup stk ss ns t with
    | Some (a, n) => In (t, (a, n)) (combine (vars stk) (combine ss ns))
    | None => ~ In t (vars stk)
    end.
  Proof.
    induction stk as [|l stk IH]; intros ss ns t L1 L2 N; [cbn; tauto|]. destruct ss as [|a ss]; [discriminate L1|]. destruct ns as [|n ns]; [discriminate L2|].
    cbn [lookup vars map combine length] in *. inversion N as [|? ? N1 N2]. subst. specialize (IH ss ns t ltac:(lia) ltac:(lia) N2).
    destruct (lookup stk ss ns t) as [[b m]|]; [right; exact IH|]. destruct (l_var l =? t) eqn:E.
    - left. apply Nat.eqb_eq in E. subst t. reflexivity.
    - intros [K|K]; [lia|]. contradiction.
  Qed.
  Lemma vars_len stk : length (vars stk) = length stk.
  Proof. apply map_length. Qed.
  Lemma answer_core s f : core e A0 B0 f (u_A s) (u_B s) (u_p s) (vars (u_stk s)) (u_starts s) (u_lens s) -> u_A s = u_B s -> length (u_A s) = S (u_p s) ->
    unifier mt (u_min e) A0 B0 (unified s) f /\
    (forall l, makeSubst e s l = Ok (app_subst f l, existsb (fun t => (mt <? t) && negb (existsb (Nat.eqb t) (vars (u_stk s)))) l)) /\
    forall t, In t (vars (u_stk s)) <-> f t <> [t].
  Proof.
    intros C EAB LP. pose proof (core_mt _ _ _ _ _ _ _ _ _ _ C) as M.
    assert (UA : unified s = flat_map f A0).
    { unfold unified. rewrite (c_A _ _ _ _ _ _ _ _ _ _ C), flat_map_app. cbn [flat_map]. rewrite M, app_nil_r, app_length. cbn [length].
      rewrite firstn_app. replace (length (flat_map f A0) + 1 - 1 - length (flat_map f A0)) with 0 by lia. rewrite firstn_O, app_nil_r. apply firstn_all2. lia. }
    assert (UB : unified s = flat_map f B0).
    { unfold unified. rewrite EAB, (c_B _ _ _ _ _ _ _ _ _ _ C), flat_map_app. cbn [flat_map]. rewrite M, app_nil_r, app_length. cbn [length].
      rewrite firstn_app. replace (length (flat_map f B0) + 1 - 1 - length (flat_map f B0)) with 0 by lia. rewrite firstn_O, app_nil_r. apply firstn_all2. lia. }
    assert (UP : unified s = firstn (u_p s) (u_A s)) by (unfold unified; rewrite LP; f_equal; lia).
    pose proof (c_ss _ _ _ _ _ _ _ _ _ _ C) as L1. pose proof (c_ns _ _ _ _ _ _ _ _ _ _ C) as L2. rewrite vars_len in L1, L2.
    pose proof (c_nd _ _ _ _ _ _ _ _ _ _ C) as ND.
    assert (VAL : forall t, In t (vars (u_stk s)) -> exists a n, lookup (u_stk s) (u_starts s) (u_lens s) t = Some (a, n) /\
      f t = seg (unified s) a n /\ a + n <= length (unified s) /\ u_min e <= n).
    { intros t I. pose proof (lookup_spec (u_stk s) (u_starts s) (u_lens s) t L1 L2 ND) as LS.
      destruct (lookup (u_stk s) (u_starts s) (u_lens s) t) as [[a n]|]; [|contradiction]. exists a, n.
      destruct (c_val _ _ _ _ _ _ _ _ _ _ C t a n LS) as [V1 [V2 V3]]. split; [reflexivity|]. rewrite UP. split; [rewrite seg_pre by lia; exact V1|].
      rewrite firstn_length, LP. split; [lia|exact V3]. }
    assert (FREE : forall t, In t (vars (u_stk s)) -> ~ In t (unified s)).
    { intros t I K. rewrite UP in K. apply (proj1 (c_free _ _ _ _ _ _ _ _ _ _ C t I)). rewrite <- (firstn_skipn (u_p s) (u_A s)). apply in_app_iff. left. exact K. }
    assert (FV : forall t u, In t (vars (u_stk s)) -> ~ In t (f u)).
    { intros t u I K. destruct (in_dec Nat.eq_dec u (vars (u_stk s))) as [J|J].
      - destruct (VAL u J) as [a [n [_ [V _]]]]. rewrite V in K. apply seg_in in K. exact (FREE t I K).
      - rewrite (c_id _ _ _ _ _ _ _ _ _ _ C u J) in K. destruct K as [K|[]]. congruence. }
    assert (DOM : forall t, In t (vars (u_stk s)) <-> f t <> [t]).
    { intros t. split.
      - intros I K. apply (FV t t I). rewrite K. left. reflexivity.
      - intros K. destruct (in_dec Nat.eq_dec t (vars (u_stk s))) as [J|J]; [exact J|]. exfalso. apply K, (c_id _ _ _ _ _ _ _ _ _ _ C t J). }
    split; [|split; [|exact DOM]].
    - constructor.
      + symmetry. exact UA.
      + symmetry. exact UB.
      + intros t L. apply (c_id _ _ _ _ _ _ _ _ _ _ C). intros I. apply (c_unk _ _ _ _ _ _ _ _ _ _ C) in I. lia.
      + intros t. unfold app_subst. assert (X : forall l, (forall u, In u l -> f u = [u]) -> flat_map f l = l).
        { induction l as [|u l IH]; intros H; [reflexivity|]. cbn [flat_map]. rewrite (H u) by (left; reflexivity). cbn [app]. f_equal. apply IH. intros v K. apply H. right. exact K. }
        apply X. intros u I. apply (c_id _ _ _ _ _ _ _ _ _ _ C). intros J. exact (FV u t J I).
      + intros t K. apply DOM in K. split; [exact (FREE t K)|]. intros u. exact (FV t u K).
      + intros t. destruct (in_dec Nat.eq_dec t (vars (u_stk s))) as [J|J].
        * destruct (VAL t J) as [a [n [_ [V [V2 V3]]]]]. rewrite V, seg_len by exact V2. exact V3.
        * rewrite (c_id _ _ _ _ _ _ _ _ _ _ C t J). cbn [length]. apply (ok_min _ _ _ OK).
      + intros t I. destruct (in_dec Nat.eq_dec t (vars (u_stk s))) as [J|J].
        * exfalso. exact (c_sep _ _ _ _ _ _ _ _ _ _ C t J I).
        * rewrite (c_id _ _ _ _ _ _ _ _ _ _ C t J) in I. destruct I as [I|[]]. exact I.
      + intros t K. apply DOM in K. apply (c_unk _ _ _ _ _ _ _ _ _ _ C) in K. apply K.
      + intros t u K I. apply DOM in K. pose proof (c_sep _ _ _ _ _ _ _ _ _ _ C t K) as SP. destruct (VAL t K) as [a [n [_ [V _]]]].
        assert (I' : In u (u_A s)). { rewrite V in I. apply seg_in in I. rewrite UP in I. rewrite <- (firstn_skipn (u_p s) (u_A s)). apply in_app_iff. left. exact I. }
        destruct (c_in _ _ _ _ _ _ _ _ _ _ C u (or_introl I')) as [Q|Q]; [exact Q|]. subst u. contradiction.
    - intros l. induction l as [|t l IH]; [reflexivity|]. cbn [makeSubst]. rewrite IH. clear IH. cbn [app_subst flat_map existsb].
      assert (IDT : ~ In t (vars (u_stk s)) -> f t = [t]) by apply (c_id _ _ _ _ _ _ _ _ _ _ C).
      assert (EXV : existsb (Nat.eqb t) (vars (u_stk s)) = true <-> In t (vars (u_stk s))).
      { rewrite existsb_exists. split; [intros [y [K1 K2]]; apply Nat.eqb_eq in K2; subst y; exact K1|intros K; exists t; split; [exact K|apply Nat.eqb_refl]]. }
      assert (LOW : t <= mt -> f t = [t]).
      { intros L. apply IDT. intros I. apply (c_unk _ _ _ _ _ _ _ _ _ _ C) in I. lia. }
      destruct (u_con e t) eqn:Ec.
      + pose proof (ok_con _ _ _ OK t Ec) as L. rewrite (LOW L). replace (mt <? t) with false by lia. reflexivity.
      + destruct (mt <? t) eqn:Et.
        2:{ rewrite LOW by lia. reflexivity. }
        pose proof (lookup_spec (u_stk s) (u_starts s) (u_lens s) t L1 L2 ND) as LS.
        destruct (in_dec Nat.eq_dec t (vars (u_stk s))) as [J|J].
        * destruct (VAL t J) as [a [n [V0 [V [V2 V3]]]]]. rewrite V0. replace (a + n <=? length (unified s)) with true by lia. cbn [rbind fst snd].
          rewrite (proj2 EXV J), V. reflexivity.
        * destruct (lookup (u_stk s) (u_starts s) (u_lens s) t) as [[a n]|] eqn:EL.
          { exfalso. apply J. apply in_combine_l in LS. exact LS. }
          cbn [rbind fst snd]. rewrite (IDT J). destruct (existsb (Nat.eqb t) (vars (u_stk s))) eqn:EE; [exfalso; apply J, EXV; reflexivity|reflexivity].
  Qed.

  Lemma answer_spec s : answer s -> exists f, unifier mt (u_min e) A0 B0 (unified s) f /\ forall l, exists b, makeSubst e s l = Ok (app_subst f l, b).
  Proof.
    intros [[SO [T [f C]]] [EAB LP]]. exists f. destruct (answer_core s f C EAB LP) as [U [M _]]. split; [exact U|]. intros l. eexists. apply M.
  Qed.
  Lemma quick_ok : exists b, quickNo e A0 B0 = Ok b.
  Proof. destruct ok_ne as [NA NB]. unfold quickNo. destruct A0 as [|a A]; [congruence|]. destruct B0 as [|b B]; [congruence|]. eexists. reflexivity. Qed.
  (* every call ends *)
  Definition goodRes (r : ures * nat) : Prop := match fst r with UYes s => answer s | _ => True end.
  Lemma finish_end o : goodEnd e A0 B0 o -> exists r, finish o = Ok r /\ goodRes r.
  Proof.
    destruct o as [s|s|s|s|c tc]; intros G; try contradiction; cbn [finish]; eexists; (split; [reflexivity|]); unfold goodRes; cbn [fst].
    - exact G.
    - destruct (c =? 0); exact I.
  Qed.
  Lemma runs_good o : (exists o', runs e cap o o' /\ goodEnd e A0 B0 o') ->
    exists r k, goodRes r /\ forall fuel, k <= fuel -> (do o' <- urun fuel e cap o; finish o') = Ok r.
  Proof.
    intros [o' [R G]]. destruct (finish_end o' G) as [r [E Gr]]. destruct (runs_urun _ _ _ _ R) as [k K]; [destruct o'; try contradiction; reflexivity|].
    exists r, k. split; [exact Gr|]. intros fuel L. rewrite (K fuel L). cbn [rbind]. exact E.
  Qed.
  Lemma unify_good tc : exists r k, goodRes r /\ forall fuel, k <= fuel -> unify fuel e A0 B0 tc = Ok r.
  Proof.
    unfold unify. destruct quick_ok as [b ->]. cbn [rbind]. destruct b.
    - exists (UNo, tc), 0. split; [exact I|reflexivity].
    - apply runs_good. apply scan_all; try apply OK; [apply ok_ne|apply unkCount_cap|].
      apply start_good with (cap := cap); first [apply OK|apply ok_ne|apply unkCount_cap].
  Qed.
  Lemma unifyNext_good s tc : answer s -> exists r k, goodRes r /\ forall fuel, k <= fuel -> unifyNext fuel e A0 B0 s tc = Ok r.
  Proof.
    intros [[SO [T _]] _]. unfold unifyNext. destruct quick_ok as [b ->]. cbn [rbind]. destruct b.
    - exists (UNo, tc), 0. split; [exact I|reflexivity].
    - apply runs_good. apply (back_all e A0 B0) with (stk := u_stk s); try apply OK; [apply ok_ne|apply unkCount_cap| |reflexivity].
      split; [exact SO|]. intros t. cbn [u_tmp u_stk]. unfold vars. rewrite existsb_exists, in_map_iff.
      split; [intros [l [K1 K2]]; exists l; split; [lia|exact K1]|intros [l [K1 K2]]; exists l; split; [exact K2|lia]].
  Qed.
  Lemma urun_finish_same o a b f1 f2 : (do o' <- urun f1 e cap o; finish o') = Ok a -> (do o' <- urun f2 e cap o; finish o') = Ok b -> a = b.
  Proof.
    intros H1 H2. destruct (urun f1 e cap o) as [o1| | |] eqn:E1; try discriminate H1. destruct (urun f2 e cap o) as [o2| | |] eqn:E2; try discriminate H2.
    rewrite (urun_same _ _ _ _ _ _ _ E1 E2) in H1. cbn [rbind] in *. congruence.
  Qed.
  Lemma unify_sound fuel tc r : unify fuel e A0 B0 tc = Ok r -> goodRes r.
  Proof.
    intros H. destruct (unify_good tc) as [r' [k [G K]]]. specialize (K k (le_n _)). unfold unify in *. destruct quick_ok as [b Q]. rewrite Q in *. cbn [rbind] in *.
    destruct b; [injection H as <-; exact I|]. rewrite (urun_finish_same _ _ _ _ _ H K). exact G.
  Qed.
  Lemma unifyNext_sound fuel s tc r : answer s -> unifyNext fuel e A0 B0 s tc = Ok r -> goodRes r.
  Proof.
    intros As H. destruct (unifyNext_good s tc As) as [r' [k [G K]]]. specialize (K k (le_n _)). unfold unifyNext in *. destruct quick_ok as [b Q]. rewrite Q in *. cbn [rbind] in *.
    destruct b; [injection H as <-; exact I|]. rewrite (urun_finish_same _ _ _ _ _ H K). exact G.
  Qed.
End U.
