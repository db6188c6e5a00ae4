(* PoolMach.v -- programs using nmbrStrings: the pools implement variables with values. *)
From Coq Require Import Permutation.
From Verif Require Import Base PoolModel PoolSpec PoolProofs PoolLet.
Open Scope Z_scope.

Section Proofs.
  Variables (w absMax : Z) (grow maxTemp : nat).
  Variable allowed : Prop.
  Notation Inv := (PoolProofs.Inv allowed).
  Notation orOom := (PoolProofs.orOom allowed).
  Hypothesis Hw : 0 < w.
  Hypothesis Hgrow : (0 < grow)%nat.
  Notation strB := (strB w).

  Fixpoint okSaves (start : nat) (saves : list nat) : Prop :=
    match saves with [] => True | s :: r => (s <= start)%nat /\ okSaves s r end.
  Record MI (m : mach) (a : astate) : Prop := mkMI {
    mi_inv : Inv 0 (m_pool m) (inUse m);
    mi_inj : forall x y s, m_vars m x = Some s -> m_vars m y = Some s -> x = y;
    mi_nd : NoDup (m_temps m);
    mi_vt : forall x s, m_vars m x = Some s -> ~ In s (m_temps m);
    mi_vars : forall x, match m_vars m x with None => a_vars a x = None
                        | Some s => exists l, a_vars a x = Some l /\ strB (m_pool m) s l (2 * w) end;
    mi_temps : Forall2 (fun s l => strB (m_pool m) s l w) (m_temps m) (a_temps a);
    mi_start : m_start m = a_start a;
    mi_saves : m_saves m = a_saves a;
    mi_le : (m_start m <= length (m_temps m))%nat;
    mi_ok : okSaves (m_start m) (m_saves m) }.

  Lemma F2_nth {A B} (R : A -> B -> Prop) l r k x : Forall2 R l r -> nth_error l k = Some x -> exists y, nth_error r k = Some y /\ R x y.
  Proof. intros F. revert k. induction F; intros [|k] H0; try discriminate; cbn in *; [injection H0 as <-; eauto|eauto]. Qed.
  Lemma F2_nth_r {A B} (R : A -> B -> Prop) l r k y : Forall2 R l r -> nth_error r k = Some y -> exists x, nth_error l k = Some x /\ R x y.
  Proof. intros F. revert k. induction F; intros [|k] H0; try discriminate; cbn in *; [injection H0 as <-; eauto|eauto]. Qed.
  Lemma F2_imp {A B} (R S : A -> B -> Prop) l r : Forall2 R l r -> (forall x y, In x l -> R x y -> S x y) -> Forall2 S l r.
  Proof. induction 1; intros K; constructor; [apply K; [left; reflexivity|assumption]|apply IHForall2; intros; apply K; [right; assumption|assumption]]. Qed.
  Lemma F2_firstn {A B} (R : A -> B -> Prop) n l r : Forall2 R l r -> Forall2 R (firstn n l) (firstn n r).
  Proof. intros F. revert n. induction F; intros [|n]; cbn; constructor; auto. Qed.
  Lemma F2_len {A B} (R : A -> B -> Prop) l r : Forall2 R l r -> length l = length r.
  Proof. induction 1; cbn; congruence. Qed.

  Lemma freeTemps_ok : forall fuel ts p V start, Inv 0 p (fun x => V x \/ In x ts) -> NoDup ts -> (forall x, V x -> ~ In x ts) ->
    (start <= length ts)%nat -> (length ts <= fuel)%nat ->
    orOom (freeTemps grow fuel p ts start) (fun r => Inv 0 (fst r) (fun x => V x \/ In x (firstn start ts)) /\ snd r = firstn start ts /\
      forall x, frame p (fst r) x).
  Proof.
    induction fuel as [|fuel IH]; intros ts p V start I Nd D Hs Hf; cbn [freeTemps].
    - destruct ts; [|cbn in Hf; lia]. cbn in Hs. replace start with 0%nat by lia. cbn [length Nat.eqb firstn orOom fst snd].
      split; [exact I|]. split; [reflexivity|]. intros; apply frame_refl.
    - destruct (Nat.eqb_spec (length ts) start) as [<-|Ne].
      + rewrite firstn_all. cbn. split; [exact I|]. split; [reflexivity|]. intros; apply frame_refl.
      + assert (ts <> []) as Hne by (intros ->; cbn in *; lia).
        destruct (last_split ts Hne) as (a & Ha & El). destruct ts as [|t0 ts0] eqn:Et; [congruence|]. rewrite <- Et in *.
        cbv zeta. rewrite Ha. cbn [rget rbind]. set (f := firstn (length ts - 1) ts) in *.
        assert (~ In a f) as Naf. { rewrite El in Nd. apply NoDup_remove_2 in Nd. rewrite app_nil_r in Nd. exact Nd. }
        eapply orOom_bind.
        { apply (poolFree_ok grow allowed p _ a Hgrow I). right. eapply nth_error_In; exact Ha. }
        intros q (I1 & K1). eapply orOom_imp.
        { apply (IH f q V start).
          - eapply inv_ext; [|exact I1]. intros x. unfold without. rewrite El at 1. rewrite in_app_iff. cbn.
            split.
            + intros [[H|[H|[H|[]]]] N]; auto. congruence.
            + intros [H|H]; split; auto.
              * intros ->. apply (D a H). eapply nth_error_In; exact Ha.
              * intros ->. contradiction.
          - rewrite El in Nd. apply NoDup_remove_1 in Nd. rewrite app_nil_r in Nd. exact Nd.
          - intros x Hx Hx'. apply (D x Hx). rewrite El. apply in_or_app. auto.
          - unfold f. rewrite firstn_length. lia.
          - unfold f. rewrite firstn_length. lia. }
        intros r (I2 & E2 & K2).
        assert (firstn start f = firstn start ts) as Ef by (unfold f; rewrite firstn_firstn; f_equal; lia).
        rewrite Ef in *. split; [exact I2|]. split; [exact E2|]. intros x. eapply frame_trans; [apply K1|apply K2].
  Qed.

  Lemma holds_mi m a : MI m a -> holds m a.
  Proof.
    intros M. constructor.
    - intros x. pose proof (mi_vars _ _ M x) as V. destruct (m_vars m x) as [s|]; [|exact V].
      destruct V as (l & E & b & H1 & H2 & _). unfold contents. rewrite H1, E. cbn. split; [congruence|discriminate].
    - pose proof (mi_temps _ _ M) as F. induction F as [|s l ts ls (b & H1 & H2 & _) F IH]; [reflexivity|]. cbn. f_equal; [|exact IH].
      unfold contents. rewrite H1. cbn. congruence.
    - apply (mi_start _ _ M).
    - apply (mi_saves _ _ M).
  Qed.
  Lemma share_mi m a : MI m a -> noSharing m.
  Proof.
    intros M. constructor.
    - apply (mi_inj _ _ M).
    - apply (mi_nd _ _ M).
    - apply (mi_vt _ _ M).
    - apply (i_disj _ _ _ _ (mi_inv _ _ M)).
    - apply (i_nodup _ _ _ _ (mi_inv _ _ M)).
    - apply (i_live _ _ _ _ (mi_inv _ _ M)).
  Qed.
  Lemma sum_ok p f l : (forall a, In a l -> p_heap p a <> None) ->
    sumUp p f l = Ok (zs (fun a => match p_heap p a with Some b => f b | None => 0 end) l).
  Proof.
    induction l as [|a l IH]; intros H; [reflexivity|]. cbn [sumUp]. specialize (H a (or_introl eq_refl)) as Ha.
    destruct (p_heap p a) as [b|] eqn:E; [|congruence]. rewrite (get_ok _ _ _ E). cbn [rbind].
    rewrite IH by (intros; apply H; right; assumption). cbn [rbind zs]. rewrite E. reflexivity.
  Qed.
  Lemma stats_mi m a : MI m a -> exists x y z, getPoolStats (m_pool m) = Ok (x, y, z) /\ p_total (m_pool m) = x + y.
  Proof.
    intros M. pose proof (mi_inv _ _ M) as I. unfold getPoolStats.
    assert (forall s, In s (p_free (m_pool m)) -> p_heap (m_pool m) s <> None) as H1 by (intros s Hs; apply (i_live _ _ _ _ I); auto).
    assert (forall s, In s (p_used (m_pool m)) -> p_heap (m_pool m) s <> None) as H2.
    { intros s Hs. apply In_nth_error in Hs. destruct Hs as [i Hi]. apply (i_live _ _ _ _ I). left. apply (i_used _ _ _ _ I i s Hi). }
    rewrite !sum_ok by assumption. cbn [rbind]. do 3 eexists. split; [reflexivity|].
    pose proof (i_total _ _ _ _ I) as T. unfold al, slack in T. lia.
  Qed.

  (* every block that stays in use is framed *)
  Lemma vars_frame p p' (m : mach) a : (forall s, inUse m s -> frame p p' s) ->
    (forall x, match m_vars m x with None => a_vars a x = None | Some s => exists l, a_vars a x = Some l /\ strB p s l (2 * w) end) ->
    forall x, match m_vars m x with None => a_vars a x = None | Some s => exists l, a_vars a x = Some l /\ strB p' s l (2 * w) end.
  Proof.
    intros K V x. specialize (V x). destruct (m_vars m x) as [s|] eqn:E; [|exact V]. destruct V as (l & El & H).
    exists l. split; [exact El|]. eapply strB_frame; [|exact H]. apply K. left. eauto.
  Qed.
  Lemma temps_frame p p' (m : mach) ls : (forall s, inUse m s -> frame p p' s) ->
    Forall2 (fun s l => strB p s l w) (m_temps m) ls -> Forall2 (fun s l => strB p' s l w) (m_temps m) ls.
  Proof. intros K F. eapply F2_imp; [exact F|]. cbn. intros s l Hs H. eapply strB_frame; [|exact H]. apply K. right. exact Hs. Qed.

  Lemma step_mi m a c a' : ((maxTemp - 1 <= length (a_temps a))%nat -> allowed) -> MI m a -> astep a c = Some a' -> orOom (exec w absMax grow maxTemp m c) (fun m' => MI m' a').
  Proof.
    intros Hlim M Hst. pose proof (mi_inv _ _ M) as I. rewrite <- (F2_len _ _ _ (mi_temps _ _ M)) in Hlim. destruct c as [l|x s|k n|x n|x| | |x l|x|]; cbn [astep] in Hst; cbn [exec].
    - (* CTemp *)
      injection Hst as <-. destruct (Nat.leb_spec (maxTemp - 1) (length (m_temps m))) as [Hm|_]; [exact (Hlim Hm)|].
      eapply orOom_bind; [apply (poolMalloc_ok absMax grow allowed (m_pool m) (inUse m)); [exact Hgrow|exact I]|].
      intros [q b] (I1 & Nb & K1 & bb & Hb & Act & Al). cbn [fst snd] in *.
      destruct (fill_ok w grow allowed Hgrow q _ b bb l I1 (or_intror eq_refl) Hb Al) as (q2 & E & I2 & K2 & H2). rewrite E. cbn [rbind orOom].
      assert (forall s, inUse m s -> frame (m_pool m) q2 s) as K.
      { intros s Hs. eapply frame_trans; [apply K1, Hs|apply K2]. intros ->. contradiction. }
      constructor; cbn [m_pool m_vars m_temps m_start m_saves a_vars a_temps a_start a_saves]; try apply M.
      + eapply inv_ext; [|exact I2]. intros x. unfold inUse. cbn. rewrite in_app_iff. cbn. intuition auto.
      + rewrite Permutation_app_comm. constructor; [|apply M]. intros H. apply Nb. right. exact H.
      + intros x s Hx. rewrite in_app_iff. cbn. intros [H|[H|[]]]; [apply (mi_vt _ _ M x s Hx H)|].
        apply Nb. left. subst s. eauto.
      + apply (vars_frame (m_pool m) q2 m a K), M.
      + apply Forall2_app; [apply (temps_frame (m_pool m) q2 m _ K), M|]. constructor; [|constructor].
        eexists. split; [exact H2|]. cbn. repeat split; auto. nia.
      + rewrite app_length. pose proof (mi_le _ _ M). lia.
    - (* CLet *)
      destruct (asource a s) as [l|] eqn:Es; [|discriminate]. injection Hst as <-.
      assert (exists sa, lookup m s = Ok sa /\ match sa with None => l = [] | Some b => inUse m b /\ strB (m_pool m) b l w end) as (sa & El & Hsa).
      { destruct s as [y|k|]; cbn in Es |- *.
        - injection Es as <-. exists (m_vars m y). split; [reflexivity|]. pose proof (mi_vars _ _ M y) as V.
          destruct (m_vars m y) as [b|] eqn:Ey; [|rewrite V; reflexivity]. destruct V as (l & E & H). rewrite E. cbn.
          split; [left; eauto|]. eapply (strB_le w grow Hgrow); [|exact H]. lia.
        - destruct (F2_nth_r _ _ _ k l (mi_temps _ _ M) Es) as (b & Hb & H). exists (Some b). rewrite Hb. split; [reflexivity|].
          split; [right; eapply nth_error_In; exact Hb|exact H].
        - injection Es as <-. exists None. auto. }
      rewrite El. cbn [rbind].
      eapply orOom_bind.
      { apply (nmbrLet_ok w absMax grow allowed Hw Hgrow (m_pool m) (inUse m) (m_vars m x) sa l I); [|exact Hsa].
        pose proof (mi_vars _ _ M x) as V. destruct (m_vars m x) as [t|] eqn:Ex; [|exact Logic.I]. destruct V as (lt & _ & H). split; [left; eauto|eauto]. }
      intros [q t'] (K1 & P1). cbn [fst snd] in *.
      set (V := fun y => (exists z, setVar (m_vars m) x t' z = Some y)).
      assert (forall t, m_vars m x = Some t -> ~ In t (m_temps m)) as Nt by (intros; eapply (mi_vt _ _ M); eassumption).
      assert (forall t2, t' = Some t2 -> ~ minus (inUse m) (m_vars m x) t2) as N2 by (intros t2 ->; apply P1).
      assert (forall y, V y \/ In y (m_temps m) <-> minus (inUse m) (m_vars m x) y \/ Some y = t') as Own.
      { intros y. unfold V, minus, inUse, setVar. split.
        - intros [[z Hz]|H].
          + destruct (Nat.eqb_spec z x) as [Ez|Nz]; [right; congruence|]. left. split; [left; eauto|].
            intros E. apply Nz. eapply (mi_inj _ _ M); [exact Hz|congruence].
          + left. split; [auto|]. intros E. apply (Nt y (eq_sym E) H).
        - intros [[[[z Hz]|H] N]|E].
          + left. exists z. destruct (Nat.eqb_spec z x) as [E|Nz]; [exfalso; apply N; congruence|exact Hz].
          + right. exact H.
          + left. exists x. rewrite Nat.eqb_refl. congruence. }
      assert (forall y, V y -> ~ In y (m_temps m)) as DV.
      { intros y [z Hz] H. unfold setVar in Hz. destruct (Nat.eqb_spec z x) as [Ez|Nz]; [|apply (mi_vt _ _ M z y Hz H)].
        apply (N2 y Hz). split; [right; exact H|]. intros E. apply (Nt y (eq_sym E) H). }
      assert (Inv 0 q (fun y => V y \/ In y (m_temps m))) as I1.
      { destruct t' as [t2|].
        - destruct P1 as (_ & I1 & _). eapply inv_ext; [|exact I1]. intros y. rewrite Own. intuition congruence.
        - destruct P1 as (_ & I1). eapply inv_ext; [|exact I1]. intros y. rewrite Own. intuition congruence. }
      eapply orOom_bind.
      { apply (freeTemps_ok (length (m_temps m)) (m_temps m) q V (m_start m) I1 (mi_nd _ _ M) DV (mi_le _ _ M)). lia. }
      intros [q2 ts] (I2 & E2 & K2). cbn [fst snd] in *. subst ts. cbn [orOom].
      assert (forall y, In y (firstn (m_start m) (m_temps m)) -> In y (m_temps m)) as Sub.
      { intros y Hy. rewrite <- (firstn_skipn (m_start m) (m_temps m)). apply in_or_app. auto. }
      constructor; cbn [m_pool m_vars m_temps m_start m_saves a_vars a_temps a_start a_saves]; try apply M.
      + exact I2.
      + intros y z s0 Hy Hz. unfold setVar in Hy, Hz.
        destruct (Nat.eqb_spec y x) as [->|Ny], (Nat.eqb_spec z x) as [->|Nz]; auto.
        * exfalso. apply (N2 s0 Hy). split; [left; eauto|]. intros E. apply Nz. eapply (mi_inj _ _ M); [exact Hz|congruence].
        * exfalso. apply (N2 s0 Hz). split; [left; eauto|]. intros E. apply Ny. eapply (mi_inj _ _ M); [exact Hy|congruence].
        * eapply (mi_inj _ _ M); eassumption.
      + pose proof (mi_nd _ _ M) as Nd. rewrite <- (firstn_skipn (m_start m) (m_temps m)) in Nd. clear - Nd.
        revert Nd. generalize (firstn (m_start m) (m_temps m)) as l. generalize (skipn (m_start m) (m_temps m)) as r. intros r l.
        induction l as [|x l IH]; cbn; intros Nd; [constructor|]. inversion Nd; subst. constructor; [|auto].
        intros H. apply H1, in_or_app. auto.
      + intros y s0 Hy H. apply (DV s0); [exists y; exact Hy|apply Sub, H].
      + intros y. unfold setVar, avar. destruct (Nat.eqb_spec y x) as [->|Ny].
        * destruct t' as [t2|].
          -- destruct P1 as (Hl & _ & _ & Hstr). exists l. destruct l as [|z l0]; [congruence|]. split; [reflexivity|].
             eapply strB_frame; [apply K2|exact Hstr].
          -- destruct P1 as (-> & _). reflexivity.
        * pose proof (mi_vars _ _ M y) as Vy. destruct (m_vars m y) as [b|] eqn:Ey; [|exact Vy]. destruct Vy as (lb & E & H).
          exists lb. split; [exact E|]. eapply strB_frame; [apply K2|]. eapply strB_frame; [apply K1|exact H].
          -- left. eauto.
          -- intros Eb. apply Ny. eapply (mi_inj _ _ M); [exact Ey|congruence].
      + rewrite <- (mi_start _ _ M). apply F2_firstn. eapply F2_imp; [exact (mi_temps _ _ M)|]. cbn. intros b lb Hb H.
        eapply strB_frame; [apply K2|]. eapply strB_frame; [apply K1|exact H].
        * right. exact Hb.
        * intros Eb. apply (Nt b (eq_sym Eb) Hb).
      + rewrite firstn_length. pose proof (mi_le _ _ M). lia.
    - (* CZapTemp *)
      destruct (nth_error (a_temps a) k) as [l|] eqn:Ek; [|discriminate].
      destruct (Nat.leb_spec n (length l)) as [Hn|]; [|discriminate]. injection Hst as <-.
      destruct (F2_nth_r _ _ _ k l (mi_temps _ _ M) Ek) as (b & Hb & H). rewrite Hb. cbn [rget rbind].
      assert (In b (m_temps m)) as Hin by (eapply nth_error_In; exact Hb).
      destruct (zap_ok w grow allowed Hw Hgrow (m_pool m) (inUse m) b l w n I (or_intror Hin) H Hn ltac:(lia)) as (q & E & I1 & K1 & H1).
      rewrite E. cbn [rbind orOom].
      constructor; cbn [m_pool m_vars m_temps m_start m_saves a_vars a_temps a_start a_saves]; try apply M.
      + exact I1.
      + intros x. pose proof (mi_vars _ _ M x) as V. destruct (m_vars m x) as [s|] eqn:Ex; [|exact V]. destruct V as (lx & El & Hl).
        exists lx. split; [exact El|]. eapply strB_frame; [|exact Hl]. apply K1. intros ->. apply (mi_vt _ _ M x b Ex Hin).
      + pose proof (mi_nd _ _ M) as Nd. pose proof (mi_temps _ _ M) as F. 
        destruct (nth_error_split _ _ Hb) as (t1 & t2 & Et & Lt). destruct (nth_error_split _ _ Ek) as (u1 & u2 & Eu & Lu).
        unfold replace. rewrite Eu, Et in *. 
        assert (Forall2 (fun s l => strB (m_pool m) s l w) t1 u1 /\ Forall2 (fun s l => strB (m_pool m) s l w) t2 u2) as [F1 F2].
        { clear - F Lt Lu. revert u1 k Lt Lu F. induction t1 as [|x t1 IH]; intros [|y u1] k Lt Lu F; cbn in *; try lia.
          - inversion F; subst. auto.
          - inversion F; subst. destruct (IH u1 (length t1) eq_refl ltac:(lia) H4). auto. }
        apply NoDup_remove_2 in Nd.
        rewrite firstn_app, <- Lu, firstn_all, Nat.sub_diag. cbn [firstn]. rewrite app_nil_r.
        rewrite skipn_app, skipn_all2 by lia. replace (S (length u1) - length u1)%nat with 1%nat by lia. cbn [skipn app].
        apply Forall2_app; [|constructor; [exact H1|]].
        * eapply F2_imp; [exact F1|]. cbn. intros s0 l0 Hs Hl. eapply strB_frame; [|exact Hl]. apply K1. intros ->. apply Nd, in_or_app. auto.
        * eapply F2_imp; [exact F2|]. cbn. intros s0 l0 Hs Hl. eapply strB_frame; [|exact Hl]. apply K1. intros ->. apply Nd, in_or_app. auto.
    - (* CZapVar *)
      destruct (a_vars a x) as [l|] eqn:Ea; [|discriminate]. destruct (Nat.leb_spec n (length l)) as [Hn|]; [|discriminate]. injection Hst as <-.
      pose proof (mi_vars _ _ M x) as V. destruct (m_vars m x) as [b|] eqn:Ex; [|congruence]. destruct V as (l' & El & Hl).
      rewrite Ea in El. injection El as <-. cbn [rget rbind].
      destruct (zap_ok w grow allowed Hw Hgrow (m_pool m) (inUse m) b l (2 * w) n I (or_introl (ex_intro _ x Ex)) Hl Hn ltac:(lia)) as (q & E & I1 & K1 & H1).
      rewrite E. cbn [rbind orOom].
      constructor; cbn [m_pool m_vars m_temps m_start m_saves a_vars a_temps a_start a_saves]; try apply M.
      + exact I1.
      + intros y. unfold avar. destruct (Nat.eqb_spec y x) as [->|Ny].
        * rewrite Ex. eauto.
        * pose proof (mi_vars _ _ M y) as V. destruct (m_vars m y) as [s|] eqn:Ey; [|exact V]. destruct V as (ly & Ey' & Hly).
          exists ly. split; [exact Ey'|]. eapply strB_frame; [|exact Hly]. apply K1. intros ->. apply Ny. eapply (mi_inj _ _ M); eassumption.
      + eapply F2_imp; [exact (mi_temps _ _ M)|]. cbn. intros s0 l0 Hs Hl0. eapply strB_frame; [|exact Hl0]. apply K1. intros ->. apply (mi_vt _ _ M x b Ex Hs).
    - (* CMake *)
      destruct (Nat.leb_spec (maxTemp - 1) (length (m_temps m))) as [Hm|_]; [exact (Hlim Hm)|].
      pose proof (mi_vars _ _ M x) as V. destruct (m_vars m x) as [b|] eqn:Ex.
      + destruct V as (l & El & Hl). rewrite El in Hst. pose proof Hl as (bb & H1 & H2 & H3 & H4).
        rewrite (get_ok _ _ _ H1). cbn [rbind]. rewrite H2. destruct l as [|z l0]; [discriminate|]. injection Hst as <-. cbn [orOom].
        constructor; cbn [m_pool m_vars m_temps m_start m_saves a_vars a_temps a_start a_saves]; try apply M.
        * eapply inv_ext; [|exact I]. intros y. unfold inUse, setVar. cbn. rewrite in_app_iff. cbn. split.
          -- intros [[u Hu]|H]; auto. destruct (Nat.eq_dec u x) as [->|Nu]; [right; right; left; congruence|].
             left. exists u. destruct (Nat.eqb_spec u x); [contradiction|exact Hu].
          -- intros [[u Hu]|[H|[H|[]]]]; auto.
             ++ destruct (Nat.eqb_spec u x); [discriminate|]. left. eauto.
             ++ left. exists x. congruence.
        * intros y u s Hy Hu. unfold setVar in Hy, Hu. destruct (Nat.eqb_spec y x); [discriminate|]. destruct (Nat.eqb_spec u x); [discriminate|].
          eapply (mi_inj _ _ M); eassumption.
        * rewrite Permutation_app_comm. constructor; [apply (mi_vt _ _ M x b Ex)|apply M].
        * intros y s Hy. unfold setVar in Hy. destruct (Nat.eqb_spec y x) as [|Ny]; [discriminate|]. rewrite in_app_iff. cbn.
          intros [H|[H|[]]]; [apply (mi_vt _ _ M y s Hy H)|]. subst s. apply Ny. eapply (mi_inj _ _ M); eassumption.
        * intros y. unfold setVar, avar. destruct (Nat.eqb_spec y x) as [->|Ny]; [reflexivity|]. apply (mi_vars _ _ M y).
        * apply Forall2_app; [apply M|]. constructor; [|constructor]. eapply (strB_le w grow Hgrow); [|exact Hl]. lia.
        * rewrite app_length. pose proof (mi_le _ _ M). lia.
      + rewrite V in Hst. injection Hst as <-. cbn. exact M.
    - (* CEnter *)
      injection Hst as <-. cbn. constructor; cbn [m_pool m_vars m_temps m_start m_saves a_vars a_temps a_start a_saves]; try apply M.
      + apply (F2_len _ _ _ (mi_temps _ _ M)).
      + f_equal; apply M.
      + lia.
      + cbn. split; apply M.
    - (* CLeave *)
      destruct (a_saves a) as [|s r] eqn:Es; [discriminate|]. injection Hst as <-.
      pose proof (mi_saves _ _ M) as E. rewrite Es in E. rewrite E. cbn.
      pose proof (mi_ok _ _ M) as O. rewrite E in O. cbn in O. destruct O as [O1 O2].
      constructor; cbn [m_pool m_vars m_temps m_start m_saves a_vars a_temps a_start a_saves]; try apply M; auto.
      pose proof (mi_le _ _ M). lia.
    - (* CFixed *)
      destruct (a_vars a x) as [|] eqn:Ea; [discriminate|]. destruct l as [|z0 l0]; [discriminate|]. set (l := z0 :: l0) in *. injection Hst as <-.
      pose proof (mi_vars _ _ M x) as V. destruct (m_vars m x) as [b0|] eqn:Ex; [destruct V as (? & V & _); congruence|].
      eapply orOom_bind; [apply (poolFixedMalloc_ok absMax grow allowed (m_pool m) (inUse m)); exact I|].
      intros [q b] (I1 & Nb & K1 & bb & Hb & Act & Al). cbn [fst snd] in *.
      destruct (fill_ok w grow allowed Hgrow q _ b bb l I1 (or_intror eq_refl) Hb Al) as (q2 & E & I2 & K2 & H2). rewrite E. cbn [rbind orOom].
      assert (forall s, inUse m s -> frame (m_pool m) q2 s) as K.
      { intros s Hs. eapply frame_trans; [apply K1, Hs|apply K2]. intros ->. contradiction. }
      constructor; cbn [m_pool m_vars m_temps m_start m_saves a_vars a_temps a_start a_saves]; try apply M.
      + eapply inv_ext; [|exact I2]. intros y. unfold inUse, setVar. cbn. split.
        * intros [[[u Hu]|H]| ->]; auto.
          -- left. exists u. destruct (Nat.eqb_spec u x); [congruence|exact Hu].
          -- left. exists x. rewrite Nat.eqb_refl. reflexivity.
        * intros [[u Hu]|H]; auto. destruct (Nat.eqb_spec u x); [right; congruence|left; left; eauto].
      + intros y u s Hy Hu. unfold setVar in Hy, Hu. destruct (Nat.eqb_spec y x) as [->|Ny], (Nat.eqb_spec u x) as [->|Nu]; auto.
        * exfalso. apply Nb. left. exists u. congruence.
        * exfalso. apply Nb. left. exists y. congruence.
        * eapply (mi_inj _ _ M); eassumption.
      + intros y s Hy H. unfold setVar in Hy. destruct (Nat.eqb_spec y x) as [->|Ny]; [|apply (mi_vt _ _ M y s Hy H)].
        apply Nb. right. congruence.
      + intros y. unfold setVar, avar. destruct (Nat.eqb_spec y x) as [->|Ny].
        * exists l. split; [reflexivity|]. eexists. split; [exact H2|]. cbn [k_data k_act k_alloc]. split; [reflexivity|]. split; [exact Act|].
          assert (1 <= Z.of_nat (length l)) by (unfold l; cbn [length]; lia). nia.
        * apply (vars_frame (m_pool m) q2 m a K (mi_vars _ _ M) y).
      + apply (temps_frame (m_pool m) q2 m _ K), M.
    - (* CFree *)
      destruct (a_vars a x) as [l|] eqn:Ea; [|discriminate]. injection Hst as <-.
      pose proof (mi_vars _ _ M x) as V. destruct (m_vars m x) as [b|] eqn:Ex; [|congruence]. cbn [rget rbind].
      eapply orOom_bind; [apply (poolFree_ok grow allowed (m_pool m) (inUse m) b Hgrow I); left; eauto|]. intros q (I1 & K1). cbn [orOom].
      constructor; cbn [m_pool m_vars m_temps m_start m_saves a_vars a_temps a_start a_saves]; try apply M.
      + eapply inv_ext; [|exact I1]. intros y. unfold without, inUse, setVar. cbn. split.
        * intros [[[u Hu]|H] N]; auto. left. exists u. destruct (Nat.eqb_spec u x); [congruence|exact Hu].
        * intros [[u Hu]|H].
          -- destruct (Nat.eqb_spec u x) as [|Nu]; [discriminate|]. split; [left; eauto|]. intros ->. apply Nu. eapply (mi_inj _ _ M); eassumption.
          -- split; [auto|]. intros ->. apply (mi_vt _ _ M x b Ex H).
      + intros y u s Hy Hu. unfold setVar in Hy, Hu. destruct (Nat.eqb_spec y x); [discriminate|]. destruct (Nat.eqb_spec u x); [discriminate|].
        eapply (mi_inj _ _ M); eassumption.
      + intros y s Hy. unfold setVar in Hy. destruct (Nat.eqb_spec y x); [discriminate|]. apply (mi_vt _ _ M y s Hy).
      + intros y. unfold setVar, avar. destruct (Nat.eqb_spec y x) as [->|Ny]; [reflexivity|].
        apply (vars_frame (m_pool m) q m a (fun s _ => K1 s) (mi_vars _ _ M) y).
      + apply (temps_frame (m_pool m) q m _ (fun s _ => K1 s)), M.
    - (* CPurge *)
      injection Hst as <-. destruct (purge_ok absMax grow allowed false (m_pool m) (inUse m) I) as (q & E & I1 & K1). rewrite E. cbn [rbind orOom].
      assert (forall s, inUse m s -> frame (m_pool m) q s) as K by (intros s Hs; unfold frame; rewrite K1 by assumption; reflexivity).
      constructor; cbn [m_pool m_vars m_temps m_start m_saves a_vars a_temps a_start a_saves]; try apply M.
      + exact I1.
      + apply (vars_frame (m_pool m) q m a K), M.
      + apply (temps_frame (m_pool m) q m _ K), M.
  Qed.
  Lemma start_mi mal malP : Forall (eq true) mal \/ allowed -> Forall (eq true) malP -> MI (mach0 mal malP) astart.
  Proof.
    intros H0 H. assert (forall s, ~ inUse (mach0 mal malP) s) as N by (intros s [[x Hx]|[]]; discriminate).
    constructor; cbn; auto.
    - constructor; cbn; auto.
      + constructor.
      + intros s. split; [congruence|]. intros [K|[]]. exfalso. exact (N s K).
      + intros i s Hi. destruct i; discriminate.
      + discriminate.
    - discriminate.
    - constructor.
  Qed.
  Lemma execs_mi cs : forall m a a',
    (forall cs1 cs2 a1, cs = cs1 ++ cs2 -> asteps a cs1 = Some a1 -> (maxTemp - 1 <= length (a_temps a1))%nat -> allowed) ->
    MI m a -> asteps a cs = Some a' -> orOom (execs w absMax grow maxTemp m cs) (fun m' => MI m' a').
  Proof.
    induction cs as [|c cs IH]; intros m a a' L M H; cbn [asteps execs] in *; [injection H as <-; exact M|].
    destruct (astep a c) as [a1|] eqn:E; [|discriminate].
    eapply orOom_bind; [apply (step_mi m a c a1); [exact (L [] (c :: cs) a eq_refl eq_refl)|exact M|exact E]|].
    intros m1 M1. apply (IH m1 a1 a'); [|exact M1|exact H].
    intros cs1 cs2 a2 Ec Ha. apply (L (c :: cs1) cs2 a2); [cbn; congruence|]. cbn [asteps]. rewrite E. exact Ha.
  Qed.
End Proofs.
Lemma all_true mal : Forall (eq true) mal \/ In false mal.
Proof. induction mal as [|[|] mal [IH|IH]]; [left; constructor|left; constructor; auto|right; right; auto|right; left; auto|right; left; auto]. Qed.
Lemma program_ok w absMax grow maxTemp cs mal malP a' : 0 < w -> (0 < grow)%nat -> Forall (eq true) malP -> asteps astart cs = Some a' ->
  (execs w absMax grow maxTemp (mach0 mal malP) cs = oom /\ mayRunOut maxTemp cs mal) \/
  exists m, execs w absMax grow maxTemp (mach0 mal malP) cs = Ok m /\ holds m a' /\ noSharing m /\
    exists x y z, getPoolStats (m_pool m) = Ok (x, y, z) /\ p_total (m_pool m) = x + y.
Proof.
  intros Hw Hg Hp Ha. 
  assert (Forall (eq true) mal \/ mayRunOut maxTemp cs mal) as Hm by (destruct (all_true mal); [auto|right; left; assumption]).
  pose proof (execs_mi w absMax grow maxTemp (mayRunOut maxTemp cs mal) Hw Hg cs _ _ a'
    (fun cs1 cs2 a1 E1 E2 E3 => or_intror (ex_intro _ cs1 (ex_intro _ cs2 (ex_intro _ a1 (conj E1 (conj E2 E3))))))
    (start_mi w _ mal malP Hm Hp) Ha) as H. unfold orOom in H.
  destruct (execs w absMax grow maxTemp (mach0 mal malP) cs) as [m|[|n]| |]; try contradiction; [right|left; split; [reflexivity|exact H]].
  exists m. split; [reflexivity|]. split; [exact (holds_mi w _ m a' H)|]. split; [exact (share_mi w _ m a' H)|]. exact (stats_mi w grow _ Hg m a' H).
Qed.
