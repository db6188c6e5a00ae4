(* StmFlags.v -- the flags on the stack of active variables. *)
From Verif Require Import Base LabModel StmModel StmSpec StmTab StmScope StmLook.
From Coq Require Import Permutation Sorted.
Open Scope nat_scope.

Definition inb (k : nat) (l : list nat) : bool := existsb (Nat.eqb k) l.
Lemma inb_iff k l : inb k l = true <-> In k l.
Proof.
  unfold inb. rewrite existsb_exists. split.
  - intros (x & H & E). apply Nat.eqb_eq in E. now subst.
  - intros H. exists k. split; [exact H|apply Nat.eqb_refl].
Qed.
Lemma inb_false k l : inb k l = false <-> ~ In k l.
Proof. rewrite <- inb_iff. destruct (inb k l); split; intros H; auto; try discriminate. now destruct H. Qed.

Definition inVars (k : nat) (hs : list hent) : Prop := exists h, In h hs /\ In k (h_vars h).
Lemma classic_inVars k hs : inVars k hs \/ ~ inVars k hs.
Proof.
  destruct (existsb (fun h => inb k (h_vars h)) hs) eqn:E.
  - left. apply existsb_exists in E. destruct E as (h & H1 & H2). exists h. split; [exact H1|now apply inb_iff].
  - right. intros (h & H1 & H2). assert (existsb (fun h => inb k (h_vars h)) hs = true); [|congruence].
    apply existsb_exists. exists h. split; [exact H1|now apply inb_iff].
Qed.
Section Flags.
  Variable toks : list mtok.
  Variable T : tenv.
  Hypothesis HT : tk_toks T = toks.
  Variable dd : nat -> Z.
  Variable s : pst.
  Variable vl : list nat.
  Hypothesis HTmp : forall j t, nth_error vl j = Some t -> p_tmp s t = j.

  (* v is the stack with flag F t on variable t *)
  Definition vst (v : nat -> option ventry) (F : nat -> nat) : Prop :=
    forall j t, nth_error vl j = Some t -> v j = Some (mkV t (dd t) (F t)).

  Lemma vst_ext v F G : vst v F -> (forall t, In t vl -> F t = G t) -> vst v G.
  Proof. intros H E j t Hj. rewrite (H _ _ Hj), E; [reflexivity|]. now apply nth_error_In in Hj. Qed.
  Lemma tmp_at t : In t vl -> nth_error vl (p_tmp s t) = Some t.
  Proof. intros H. apply In_nth_error in H. destruct H as (j & H). now rewrite (HTmp _ _ H). Qed.
  Lemma getFlag_ok v F t : vst v F -> In t vl -> getFlag (setV v s) t = Ok (F t).
  Proof. intros H HI. unfold getFlag, setV. cbn. now rewrite (H _ _ (tmp_at _ HI)). Qed.
  Lemma setFlag_ok v F t f : vst v F -> In t vl -> exists v', setFlag t f (setV v s) = setV v' s /\ vst v' (upd F t f).
  Proof.
    intros H HI. unfold setFlag. cbn [setV p_v p_tmp]. rewrite (H _ _ (tmp_at _ HI)). cbn [ve_tok ve_scope].
    eexists. split; [reflexivity|]. intros j u Hj. unfold upd.
    destruct (Nat.eqb_spec j (p_tmp s t)) as [->|N].
    - rewrite (tmp_at _ HI) in Hj. injection Hj as <-. now rewrite Nat.eqb_refl.
    - destruct (Nat.eqb_spec u t) as [->|N']; [now rewrite (HTmp _ _ Hj) in N|]. now apply H.
  Qed.

  Lemma newVars_ok f : f <> 0 -> forall math v F, vst v F -> (forall k, In k math -> tkVar toks k = true -> In k vl) ->
    exists l v', newVars T f math (setV v s) = Ok (l, setV v' s) /\ NoDup l /\
      (forall k, In k l <-> In k math /\ tkVar toks k = true /\ F k = 0) /\
      vst v' (fun k => if inb k l then f else F k).
  Proof.
    intros Hf. induction math as [|k r IH]; intros v F HV HM; cbn [newVars].
    - exists [], v. split; [reflexivity|]. split; [constructor|]. split; [intros k; cbn; tauto|exact HV].
    - rewrite HT. assert (HR : forall u, In u r -> tkVar toks u = true -> In u vl) by (intros u Hu; apply HM; now right).
      destruct (tkVar toks k) eqn:EK.
      + rewrite (getFlag_ok v F k HV) by (apply HM; [now left|exact EK]). cbn [rbind].
        destruct (Nat.eqb_spec (F k) 0) as [E0|N0].
        * destruct (setFlag_ok v F k f HV) as (v1 & E1 & V1); [apply HM; [now left|exact EK]|]. rewrite E1.
          destruct (IH v1 _ V1 HR) as (l & v2 & E2 & ND & IN & V2). rewrite E2. cbn [rbind fst snd].
          exists (k :: l), v2. split; [reflexivity|]. split; [|split].
          -- constructor; [|exact ND]. rewrite IN. unfold upd. rewrite Nat.eqb_refl. intros (_ & _ & E). contradiction.
          -- intros u. cbn [In]. rewrite IN. unfold upd. destruct (Nat.eqb_spec u k) as [->|N].
             ++ split; [intros _; auto|intros _; now left].
             ++ split; [intros [E|H]; [congruence|tauto]|intros ([E|H] & A & B); [congruence|tauto]].
          -- eapply vst_ext; [exact V2|]. intros u _. cbn [inb existsb]. unfold upd. fold (inb u l).
             destruct (Nat.eqb_spec u k) as [->|N]; cbn [orb]; [now destruct (inb k l)|reflexivity].
        * destruct (IH v F HV HR) as (l & v2 & E2 & ND & IN & V2). exists l, v2. split; [exact E2|]. split; [exact ND|].
          split; [|exact V2]. intros u. rewrite IN. cbn [In]. split; [tauto|]. intros ([<-|H] & A & B); [contradiction|auto].
      + destruct (IH v F HV HR) as (l & v2 & E2 & ND & IN & V2). exists l, v2. split; [exact E2|]. split; [exact ND|].
        split; [|exact V2]. intros u. rewrite IN. cbn [In]. split; [tauto|]. intros ([<-|H] & A & B); [congruence|auto].
  Qed.
  Lemma clearFlags_ok : forall vars v F, vst v F -> (forall k, In k vars -> In k vl) ->
    exists v', clearFlags vars (setV v s) = setV v' s /\ vst v' (fun k => if inb k vars then 0 else F k).
  Proof.
    unfold clearFlags. induction vars as [|k r IH]; intros v F HV HM; cbn [fold_left].
    - exists v. auto.
    - destruct (setFlag_ok v F k 0 HV) as (v1 & E1 & V1); [apply HM; now left|]. rewrite E1.
      destruct (IH v1 _ V1) as (v2 & E2 & V2); [intros u Hu; apply HM; now right|]. exists v2. split; [exact E2|].
      eapply vst_ext; [exact V2|]. intros u _. unfold upd. cbn [inb existsb]. fold (inb u r).
      destruct (Nat.eqb_spec u k); cbn [orb]; destruct (inb u r); reflexivity.
  Qed.

  Lemma eVars_ok : forall vars v F, vst v F -> (forall k, In k vars -> In k vl) ->
    exists l v', eVars vars (setV v s) = Ok (l, setV v' s) /\ NoDup l /\
      (forall k, In k l <-> In k vars /\ F k = 0) /\
      vst v' (fun k => if inb k vars then 1 else F k).
  Proof.
    induction vars as [|k r IH]; intros v F HV HM; cbn [eVars].
    - exists [], v. split; [reflexivity|]. split; [constructor|]. split; [intros k; cbn; tauto|exact HV].
    - rewrite (getFlag_ok v F k HV) by (apply HM; now left). cbn [rbind].
      destruct (setFlag_ok v F k 1 HV) as (v1 & E1 & V1); [apply HM; now left|]. rewrite E1.
      destruct (IH v1 _ V1) as (l & v2 & E2 & ND & IN & V2); [intros u Hu; apply HM; now right|].
      rewrite E2. cbn [rbind fst snd]. eexists _, v2. split; [reflexivity|].
      assert (NK : ~ In k l) by (rewrite IN; unfold upd; rewrite Nat.eqb_refl; intros [_ E]; discriminate).
      split; [|split].
      + destruct (Nat.eqb (F k) 0); [constructor; auto|exact ND].
      + intros u. destruct (Nat.eqb_spec (F k) 0) as [E0|N0]; cbn [In]; rewrite IN; unfold upd;
          destruct (Nat.eqb_spec u k) as [->|N].
        * split; [auto|auto].
        * split; [intros [E|H]; [congruence|tauto]|intros [[E|H] A]; [congruence|tauto]].
        * split; [intros [_ E]; discriminate|intros [_ E]; contradiction].
        * split; [tauto|intros [[E|H] A]; [congruence|tauto]].
      + eapply vst_ext; [exact V2|]. intros u _. unfold upd. cbn [inb existsb]. fold (inb u r).
        destruct (Nat.eqb_spec u k); cbn [orb]; destruct (inb u r); reflexivity.
  Qed.

  Lemma eScan_ok : forall hs v F, vst v F -> (forall k, inVars k hs -> In k vl) ->
    exists l v' G, eScan hs (setV v s) = Ok (l, setV v' s) /\ NoDup l /\
      (forall k, In k l <-> inVars k hs /\ F k = 0) /\ vst v' G /\
      (forall k, inVars k hs -> G k = 1) /\ (forall k, ~ inVars k hs -> G k = F k).
  Proof.
    induction hs as [|h r IH]; intros v F HV HM; cbn [eScan].
    - exists [], v, F. split; [reflexivity|]. split; [constructor|]. split; [|split; [exact HV|]].
      + intros k. split; [intros []|intros [(h & [] & _) _]].
      + split; [intros k (h & [] & _)|auto].
    - destruct (eVars_ok (h_vars h) v F HV) as (l1 & v1 & E1 & ND1 & IN1 & V1).
      { intros k Hk. apply HM. exists h. split; [now left|exact Hk]. }
      rewrite E1. cbn [rbind fst snd].
      destruct (IH v1 _ V1) as (l2 & v2 & G & E2 & ND2 & IN2 & V2 & G1 & G0).
      { intros k (h' & H1 & H2). apply HM. exists h'. split; [now right|exact H2]. }
      rewrite E2. cbn [rbind fst snd]. exists (l1 ++ l2), v2, G. split; [reflexivity|].
      assert (SP : forall k, inVars k (h :: r) <-> In k (h_vars h) \/ inVars k r).
      { intros k. split.
        - intros (h' & [ <- |H1] & H2); [auto|right; exists h'; auto].
        - intros [H|(h' & H1 & H2)]; [exists h; split; [now left|exact H]|exists h'; split; [now right|exact H2]]. }
      split; [|split; [|split; [exact V2|split]]].
      + assert (forall k, In k l1 -> ~ In k l2).
        { intros k H1 H2. apply IN1 in H1. apply IN2 in H2. destruct H2 as [_ H2].
          destruct H1 as [H1 _]. apply inb_iff in H1. rewrite H1 in H2. discriminate. }
        clear -ND1 ND2 H. induction ND1 as [|k l N ND IH]; cbn [app]; [exact ND2|]. constructor.
        * rewrite in_app_iff. intros [H1|H1]; [auto|]. apply (H k); [now left|exact H1].
        * apply IH. intros u Hu. apply H. now right.
      + intros k. rewrite in_app_iff, IN1, IN2, SP. destruct (inb k (h_vars h)) eqn:E.
        * apply inb_iff in E. split; [intros [A|[_ A]]; [tauto|discriminate]|intros [_ A]; auto].
        * apply inb_false in E. tauto.
      + intros k H. destruct (classic_inVars k r) as [Hr|Hr]; [now apply G1|]. rewrite (G0 _ Hr).
        apply SP in H. destruct H as [H|H]; [|contradiction]. apply inb_iff in H. now rewrite H.
      + intros k H. rewrite SP in H. rewrite G0 by tauto. destruct (inb k (h_vars h)) eqn:E; [|reflexivity].
        apply inb_iff in E. tauto.
  Qed.

  Definition reqB (F : nat -> nat) (h : hent) : bool :=
    match h_vars h with k :: _ => negb (Nat.eqb (F k) 0) | [] => true end.
  Lemma fScan_ok n : forall hs v F, vst v F -> (forall h, In h hs -> exists k, h_vars h = [k] /\ In k vl) ->
    exists v' G, fScan n hs (setV v s) =
        Ok (map h_stmt (filter (reqB F) hs), map h_stmt (filter (fun h => negb (reqB F h)) hs), setV v' s) /\
      vst v' G /\ (forall k, inVars k hs -> F k <> 0 -> G k = 1) /\
      (forall k, ~ (inVars k hs /\ F k <> 0) -> G k = F k).
  Proof.
    induction hs as [|h r IH]; intros v F HV HM; cbn [fScan].
    - exists v, F. split; [reflexivity|]. split; [exact HV|]. split; [intros k (h & [] & _)|auto].
    - destruct (HM h (or_introl eq_refl)) as (k & EK & IK). rewrite EK.
      rewrite (getFlag_ok v F k HV IK). cbn [rbind fOthers].
      assert (HR : forall h, In h r -> exists k, h_vars h = [k] /\ In k vl) by (intros u Hu; apply HM; now right).
      assert (SP : forall u, inVars u (h :: r) <-> u = k \/ inVars u r).
      { intros u. split.
        - intros (h' & [ <- |H1] & H2); [rewrite EK in H2; destruct H2 as [H2|[]]; auto|right; exists h'; auto].
        - intros [ -> |(h' & H1 & H2)]; [exists h; rewrite EK; split; now left|exists h'; split; [now right|exact H2]]. }
      cbn [filter map]. assert (EB : reqB F h = negb (Nat.eqb (F k) 0)) by (unfold reqB; now rewrite EK). rewrite !EB. clear EB.
      destruct (Nat.eqb_spec (F k) 0) as [E0|N0]; cbn [negb].
      + destruct (IH v F HV HR) as (v' & G & E & VG & G1 & G0). rewrite E. cbn [rbind fst snd map].
        exists v', G. split; [reflexivity|]. split; [exact VG|]. split.
        * intros u Hu N. apply SP in Hu. destruct Hu as [ -> |Hu]; [contradiction|auto].
        * intros u Hu. apply G0. intros [A B]. apply Hu. split; [apply SP; auto|exact B].
      + destruct (setFlag_ok v F k 1 HV IK) as (v1 & E1 & V1). rewrite E1.
        destruct (IH v1 _ V1 HR) as (v' & G & E & VG & G1 & G0). rewrite E. cbn [rbind fst snd map].
        assert (FE : forall h, reqB (upd F k 1) h = reqB F h).
        { intros u. unfold reqB, upd. destruct (h_vars u) as [|w ws]; [reflexivity|].
          destruct (Nat.eqb_spec w k) as [->|]; [|reflexivity]. destruct (Nat.eqb_spec (F k) 0); [contradiction|reflexivity]. }
        exists v', G. split; [|split; [exact VG|split]].
        * rewrite (filter_ext _ _ FE). rewrite (filter_ext (fun h => negb (reqB (upd F k 1) h)) (fun h => negb (reqB F h))); [reflexivity|].
          intros u. now rewrite FE.
        * intros u Hu N. destruct (classic_inVars u r) as [Hr|Hr].
          -- apply G1; [exact Hr|]. unfold upd. destruct (Nat.eqb u k); [lia|exact N].
          -- apply SP in Hu. destruct Hu as [ -> |Hu]; [|contradiction]. rewrite G0 by tauto. unfold upd. now rewrite Nat.eqb_refl.
        * intros u Hu. rewrite SP in Hu. rewrite G0.
          -- unfold upd. destruct (Nat.eqb_spec u k) as [->|]; [tauto|reflexivity].
          -- intros [A B]. apply Hu. split; [auto|]. unfold upd in B. destruct (Nat.eqb_spec u k) as [->|]; [exact N0|exact B].
  Qed.

  Lemma orphan_ok n : forall math v F, vst v F ->
    (forall k, In k math -> tkVar toks k = true -> In k vl) ->
    (forall k, In k math -> tkVar toks k = true -> F k <> 2) -> orphan T n math (setV v s) = Ok (setV v s).
  Proof.
    induction math as [|k r IH]; intros v F HV HM HN; cbn [orphan]; [reflexivity|]. rewrite HT.
    assert (HR : orphan T n r (setV v s) = Ok (setV v s)).
    { apply (IH v F HV); intros u Hu; [apply HM|apply HN]; now right. }
    destruct (tkVar toks k) eqn:EK; [|exact HR].
    rewrite (getFlag_ok v F k HV) by (apply HM; [now left|exact EK]). cbn [rbind].
    destruct (Nat.eqb_spec (F k) 2) as [E|N]; [|exact HR]. now destruct (HN k (or_introl eq_refl) EK).
  Qed.
  Definition bothB (F : nat -> nat) (d : dent) : bool := negb (Nat.eqb (F (d_a d)) 0) && negb (Nat.eqb (F (d_b d)) 0).
  Definition dTriple (d : dent) := (d_a d, d_b d, d_stmt d).
  Lemma dSplit_ok : forall ds v F, vst v F -> (forall d, In d ds -> In (d_a d) vl /\ In (d_b d) vl) ->
    dSplit ds (setV v s) = Ok (map dTriple (filter (bothB F) ds), map dTriple (filter (fun d => negb (bothB F d)) ds)).
  Proof.
    induction ds as [|d r IH]; intros v F HV HM; cbn [dSplit]; [reflexivity|].
    destruct (HM d (or_introl eq_refl)) as [HA HB].
    rewrite (getFlag_ok v F _ HV HA). cbn [rbind]. rewrite (IH v F HV) by (intros u Hu; apply HM; now right).
    cbn [filter map]. assert (EB : bothB F d = negb (Nat.eqb (F (d_a d)) 0) && negb (Nat.eqb (F (d_b d)) 0)) by reflexivity. rewrite !EB. clear EB.
    destruct (Nat.eqb (F (d_a d)) 0); cbn [rbind negb andb].
    - reflexivity.
    - rewrite (getFlag_ok v F _ HV HB). cbn [rbind]. destruct (Nat.eqb (F (d_b d)) 0); reflexivity.
  Qed.
  Lemma optScan_ok : forall k i v F, vst v F -> NoDup vl -> i + k = length vl ->
    (forall j t, nth_error vl j = Some t -> j < i -> F t = 0) ->
    exists v', optScan i k (setV v s) = Ok (filter (fun t => Nat.eqb (F t) 0) (skipn i vl), setV v' s) /\ vst v' (fun _ => 0).
  Proof.
    induction k as [|k IH]; intros i v F HV ND HL H0; cbn [optScan].
    - exists v. rewrite skipn_all2 by lia. split; [reflexivity|]. intros j t Hj. rewrite (HV _ _ Hj).
      rewrite (H0 j t Hj); [reflexivity|]. assert (j < length vl) by (apply nth_error_Some; congruence). lia.
    - destruct (nth_some vl i) as (t & Et); [lia|]. cbn [setV p_v]. rewrite (HV _ _ Et). cbn [rget rbind ve_flag ve_tok ve_scope].
      rewrite (skipn_at t i vl Et). cbn [filter]. destruct (Nat.eqb_spec (F t) 0) as [E0|N0].
      + destruct (IH (S i) v F HV ND ltac:(lia)) as (v' & E & V').
        { intros j u Hj Hi. destruct (Nat.eq_dec j i) as [->|]; [congruence|]. apply (H0 j u Hj). lia. }
        unfold setV in E. unfold setV. rewrite E. cbn [rbind fst snd]. exists v'. split; [reflexivity|exact V'].
      + change (setV (upd v i (Some (mkV t (dd t) 0))) (setV v s)) with (setV (upd v i (Some (mkV t (dd t) 0))) s).
        assert (V1 : vst (upd v i (Some (mkV t (dd t) 0))) (upd F t 0)).
        { intros j u Hj. unfold upd. destruct (Nat.eqb_spec j i) as [->|N].
          - rewrite Et in Hj. injection Hj as <-. now rewrite Nat.eqb_refl.
          - destruct (Nat.eqb_spec u t) as [->|]; [|now apply HV].
            exfalso. apply N. apply (proj1 (NoDup_nth_error vl) ND); [|congruence].
            apply nth_error_Some. congruence. }
        destruct (IH (S i) _ _ V1 ND ltac:(lia)) as (v' & E & V').
        { intros j u Hj Hi. unfold upd. destruct (Nat.eqb_spec u t); [reflexivity|].
          destruct (Nat.eq_dec j i) as [->|]; [congruence|]. apply (H0 j u Hj). lia. }
        exists v'. split; [|exact V']. rewrite E. f_equal. f_equal. apply filter_ext_in. intros u Hu. unfold upd.
        destruct (Nat.eqb_spec u t) as [->|]; [|reflexivity]. exfalso.
        rewrite <- (firstn_skipn i vl) in ND. apply nodup_app_r in ND. rewrite (skipn_at t i vl Et) in ND.
        inversion ND; auto.
  Qed.
  Lemma optScan_all v F : vst v F -> NoDup vl ->
    exists v', optScan 0 (length vl) (setV v s) = Ok (filter (fun t => Nat.eqb (F t) 0) vl, setV v' s) /\ vst v' (fun _ => 0).
  Proof.
    intros HV ND. destruct (optScan_ok (length vl) 0 v F HV ND eq_refl) as (v' & E & V'); [intros; lia|].
    exists v'. auto.
  Qed.
  Lemma count_ok (F : nat -> nat) l : NoDup vl -> NoDup l -> (forall k, In k l <-> In k vl /\ F k <> 0) ->
    length (filter (fun t => Nat.eqb (F t) 0) vl) + length l = length vl.
  Proof.
    intros NV NL HL. assert (P : Permutation l (filter (fun t => negb (Nat.eqb (F t) 0)) vl)).
    { apply NoDup_Permutation; [exact NL|now apply NoDup_filter|]. intros k. rewrite HL, filter_In.
      destruct (Nat.eqb_spec (F k) 0); cbn; intuition discriminate. }
    rewrite (Permutation_length P). clear. induction vl as [|t r IH]; [reflexivity|]. cbn [filter].
    destruct (Nat.eqb (F t) 0); cbn [negb length]; lia.
  Qed.
End Flags.

(* ---- merging of the two sorted lists of hypotheses ---- *)
Lemma merge_in : forall a b x, In x (mergeHyps a b) <-> In x a \/ In x b.
Proof.
  induction a as [|e a IH]; intros b x.
  - destruct b; cbn; tauto.
  - induction b as [|f b IHb]; [cbn; tauto|]. cbn [mergeHyps]. destruct (f <? e).
    + change (In x (f :: mergeHyps (e :: a) b) <-> In x (e :: a) \/ In x (f :: b)). cbn [In]. cbn [In] in IHb. rewrite IHb. tauto.
    + cbn [In]. rewrite IH. cbn [In]. tauto.
Qed.
Lemma merge_sorted : forall a b, StronglySorted lt a -> StronglySorted lt b -> (forall x, In x a -> ~ In x b) ->
  StronglySorted lt (mergeHyps a b).
Proof.
  induction a as [|e a IH]; intros b HA HB HD.
  - destruct b; exact HB.
  - induction b as [|f b IHb]; [exact HA|]. cbn [mergeHyps]. inversion HA as [|? ? HA1 HA2]; subst. inversion HB as [|? ? HB1 HB2]; subst.
    rewrite Forall_forall in HA2, HB2.
    assert (NE : e <> f) by (intros ->; apply (HD f); now left).
    destruct (Nat.ltb_spec f e) as [H|H].
    + change (StronglySorted lt (f :: mergeHyps (e :: a) b)). constructor.
      * apply IHb; auto. intros x Hx Hy. apply (HD x Hx). now right.
      * apply Forall_forall. intros x Hx. apply merge_in in Hx. destruct Hx as [[ <- |Hx]|Hx]; [lia| |auto].
        specialize (HA2 _ Hx). lia.
    + constructor.
      * apply IH; auto. intros x Hx. apply HD. now right.
      * apply Forall_forall. intros x Hx. apply merge_in in Hx. destruct Hx as [Hx|[ <- |Hx]]; [auto|lia|].
        specialize (HB2 _ Hx). lia.
Qed.
