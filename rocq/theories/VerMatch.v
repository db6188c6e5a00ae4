(* VerMatch.v -- correctness of the back-tracking matcher of assignVar.
   Lemmas only; the property theorems are in VerProps.v. *)
From Verif Require Import Base MMSpec VerModel.
Open Scope nat_scope.

(* ---------------- generic list lemmas ---------------- *)
Lemma memb_In x l : memb x l = true <-> In x l.
Proof.
  unfold memb. rewrite existsb_exists. split.
  - intros [y [Hy E]]. apply Nat.eqb_eq in E. subst; auto.
  - intros H. exists x. split; auto. apply Nat.eqb_refl.
Qed.

Lemma memb_false x l : memb x l = false <-> ~ In x l.
Proof. rewrite <- memb_In. destruct (memb x l); split; congruence. Qed.

Lemma indexOf_Some t l i : indexOf t l = Some i ->
  nth_error l i = Some t /\ (forall j, j < i -> nth_error l j <> Some t).
Proof.
  revert i. induction l as [|x l IH]; simpl; intros i H; [discriminate|].
  destruct (Nat.eqb x t) eqn:E.
  - injection H as <-. apply Nat.eqb_eq in E. subst. split; [reflexivity|]. lia.
  - destruct (indexOf t l) as [k|] eqn:Ek; [|discriminate]. injection H as <-.
    destruct (IH k eq_refl) as [H1 H2]. split; [exact H1|].
    intros j Hj. destruct j; simpl.
    + apply Nat.eqb_neq in E. congruence.
    + apply H2. lia.
Qed.

Lemma indexOf_None t l : indexOf t l = None <-> ~ In t l.
Proof.
  induction l as [|x l IH]; simpl.
  - split; auto.
  - destruct (Nat.eqb x t) eqn:E.
    + apply Nat.eqb_eq in E. subst. split; [discriminate|]. intros H. exfalso; auto.
    + apply Nat.eqb_neq in E. destruct (indexOf t l).
      * split; [discriminate|]. intros H. exfalso. apply H. right.
        destruct (in_dec Nat.eq_dec t l) as [Hi|Hn]; auto. apply IH in Hn. discriminate.
      * split; auto. intros _ [H|H]; [congruence|]. apply IH in H; auto.
Qed.

Lemma indexOf_In t l : In t l -> exists i, indexOf t l = Some i.
Proof.
  intros H. destruct (indexOf t l) eqn:E; eauto. apply indexOf_None in E. tauto.
Qed.

Lemma indexOf_lt t l i : indexOf t l = Some i -> i < length l.
Proof. intros H. apply indexOf_Some in H. apply nth_error_Some. destruct H; congruence. Qed.

Lemma indexOf_NoDup t l i : NoDup l -> nth_error l i = Some t -> indexOf t l = Some i.
Proof.
  intros ND H. destruct (indexOf_In t l) as [j Hj]; [eapply nth_error_In; eauto|].
  rewrite Hj. f_equal. apply indexOf_Some in Hj. destruct Hj as [Hj _].
  eapply (proj1 (NoDup_nth_error l)); eauto.
  - apply nth_error_Some. congruence.
  - congruence.
Qed.

Lemma firstn_S_nth {A} (l : list A) n x :
  nth_error l n = Some x -> firstn (S n) l = firstn n l ++ [x].
Proof.
  revert n. induction l as [|a l IH]; intros [|n] H; simpl in *; try discriminate.
  - congruence.
  - f_equal. apply IH. exact H.
Qed.

Lemma skipn_nth {A} (l : list A) n x :
  nth_error l n = Some x -> skipn n l = x :: skipn (S n) l.
Proof.
  revert n. induction l as [|a l IH]; intros [|n] H; simpl in *; try discriminate.
  - congruence.
  - apply IH. exact H.
Qed.

Lemma firstn_plus {A} (l : list A) a b :
  firstn (a + b) l = firstn a l ++ firstn b (skipn a l).
Proof.
  revert l. induction a as [|a IH]; intros l; simpl; auto.
  destruct l; simpl; [now rewrite firstn_nil|]. f_equal. apply IH.
Qed.

Lemma app_len_inj {A} (a b c d : list A) :
  a ++ b = c ++ d -> length a = length c -> a = c /\ b = d.
Proof.
  revert c. induction a as [|x a IH]; intros [|y c] H L; simpl in *; try discriminate; auto.
  injection H as -> H. destruct (IH c H) as [-> ->]; auto.
Qed.

Lemma nth_error_firstn_lt {A} (l : list A) n i :
  i < n -> nth_error (firstn n l) i = nth_error l i.
Proof.
  revert n i. induction l as [|a l IH]; intros [|n] [|i] H; simpl; try lia; auto.
  apply IH. lia.
Qed.

Lemma nth_error_skipn {A} (l : list A) n i :
  nth_error (skipn n l) i = nth_error l (n + i).
Proof.
  revert n. induction l as [|a l IH]; intros [|n]; simpl; auto.
  destruct i; reflexivity.
Qed.

Lemma skipn_skipn {A} (l : list A) a b : skipn a (skipn b l) = skipn (b + a) l.
Proof.
  revert b. induction l as [|x l IH]; intros [|b]; simpl; auto.
  - now rewrite !skipn_nil.
Qed.

Definition cnt (x : nat) (l : list nat) : nat := count_occ Nat.eq_dec l x.

Lemma cnt_app x a b : cnt x (a ++ b) = cnt x a + cnt x b.
Proof. apply count_occ_app. Qed.

Lemma cnt_notin x l : ~ In x l -> cnt x l = 0.
Proof. intros H. apply count_occ_not_In. exact H. Qed.

(* ---------------- substitution lemmas ---------------- *)
Section SubstLemmas.
  Variable isvar : nat -> bool.

  Lemma subst_app s a b : subst isvar s (a ++ b) = subst isvar s a ++ subst isvar s b.
  Proof. unfold subst. apply flat_map_app. Qed.

  Lemma subst_ext s s' e :
    (forall t, In t e -> isvar t = true -> s t = s' t) -> subst isvar s e = subst isvar s' e.
  Proof.
    unfold subst. induction e as [|t e IH]; simpl; intros H; auto. rewrite IH; [|auto].
    destruct (isvar t) eqn:E; auto. rewrite (H t); auto.
  Qed.

  Lemma subst_cnt sep s e :
    isvar sep = false ->
    (forall t, In t e -> isvar t = true -> ~ In sep (s t)) ->
    cnt sep (subst isvar s e) = cnt sep e.
  Proof.
    intros Hs. unfold subst. induction e as [|t e IH]; simpl; intros H; auto.
    rewrite cnt_app, IH by auto. unfold cnt at 3. simpl. fold (cnt sep e).
    destruct (isvar t) eqn:E.
    - rewrite cnt_notin by (apply H; auto).
      destruct (Nat.eq_dec t sep); [congruence|]. reflexivity.
    - unfold cnt at 1. simpl. destruct (Nat.eq_dec t sep); reflexivity.
  Qed.

  Lemma subst_len_lt s s' e x :
    In x e -> isvar x = true ->
    length (s x) < length (s' x) ->
    (forall t, In t e -> isvar t = true -> t <> x -> s t = s' t) ->
    length (subst isvar s e) < length (subst isvar s' e).
  Proof.
    intros Hin Hv Hl Hag.
    assert (Hle : forall e', (forall t, In t e' -> In t e) ->
               length (subst isvar s e') <= length (subst isvar s' e')).
    { induction e' as [|t e' IH]; intros Hsub; simpl; auto.
      rewrite !app_length. assert (In t e) by (apply Hsub; left; auto).
      assert (length (subst isvar s e') <= length (subst isvar s' e'))
        by (apply IH; intros; apply Hsub; right; auto).
      unfold subst in *.
      destruct (isvar t) eqn:E; [|simpl; lia].
      destruct (Nat.eq_dec t x) as [->|Hn]; [lia|]. rewrite (Hag t); auto. lia. }
    apply in_split in Hin. destruct Hin as [e1 [e2 ->]].
    rewrite !subst_app. rewrite !app_length.
    assert (length (subst isvar s e1) <= length (subst isvar s' e1))
      by (apply Hle; intros; apply in_or_app; auto).
    assert (length (subst isvar s e2) <= length (subst isvar s' e2))
      by (apply Hle; intros; apply in_or_app; right; right; auto).
    unfold subst in *. simpl. rewrite Hv. rewrite !app_length. lia.
  Qed.
End SubstLemmas.

(* ---------------- extractVars ---------------- *)
Section Extract.
  Variable isvar : nat -> bool.

  Lemma extractVarsGo_app m1 m2 v :
    extractVarsGo isvar (m1 ++ m2) v = extractVarsGo isvar m2 (extractVarsGo isvar m1 v).
  Proof.
    revert v. induction m1 as [|t m1 IH]; intros v; simpl; auto.
    destruct (isvar t && negb (memb t v)); apply IH.
  Qed.

  Lemma extractVarsGo_prefix m v : exists w, extractVarsGo isvar m v = v ++ w.
  Proof.
    revert v. induction m as [|t m IH]; intros v; simpl.
    - exists []. now rewrite app_nil_r.
    - destruct (isvar t && negb (memb t v)).
      + destruct (IH (v ++ [t])) as [w Hw]. exists (t :: w). rewrite Hw.
        now rewrite <- app_assoc.
      + apply IH.
  Qed.

  Lemma extractVarsGo_In m v t :
    In t (extractVarsGo isvar m v) <-> In t v \/ (In t m /\ isvar t = true).
  Proof.
    revert v. induction m as [|x m IH]; intros v; simpl.
    - tauto.
    - destruct (isvar x) eqn:Ex; simpl.
      + destruct (memb x v) eqn:Em; simpl; rewrite IH.
        * apply memb_In in Em. split; [tauto|]. intros [H|[[->|H] H2]]; auto.
        * rewrite in_app_iff. simpl. split.
          -- intros [[H|[->|[]]]|[H1 H2]]; auto.
          -- intros [H|[[->|H] H2]]; auto.
      + rewrite IH. split; [tauto|]. intros [H|[[->|H] H2]]; auto. congruence.
  Qed.

  Lemma extractVarsGo_NoDup m v : NoDup v -> NoDup (extractVarsGo isvar m v).
  Proof.
    revert v. induction m as [|x m IH]; intros v H; simpl; auto.
    destruct (isvar x && negb (memb x v)) eqn:E; auto.
    apply IH. apply andb_true_iff in E. destruct E as [_ E].
    apply negb_true_iff, memb_false in E.
    rewrite <- (rev_involutive (v ++ [x])). apply NoDup_rev.
    rewrite rev_app_distr. simpl. constructor.
    - rewrite <- in_rev. exact E.
    - apply NoDup_rev. exact H.
  Qed.

  Lemma extractVars_In m t : In t (extractVars isvar m) <-> In t m /\ isvar t = true.
  Proof. unfold extractVars. rewrite extractVarsGo_In. simpl. tauto. Qed.

  Lemma extractVars_NoDup m : NoDup (extractVars isvar m).
  Proof. apply extractVarsGo_NoDup. constructor. Qed.

  (* variables of a prefix are a prefix of the variables *)
  Lemma extractVars_prefix m1 m2 : exists w,
    extractVars isvar (m1 ++ m2) = extractVars isvar m1 ++ w.
  Proof. unfold extractVars. rewrite extractVarsGo_app. apply extractVarsGo_prefix. Qed.

  Lemma extractVars_snoc m t :
    extractVars isvar (m ++ [t]) =
    if isvar t && negb (memb t (extractVars isvar m)) then extractVars isvar m ++ [t]
    else extractVars isvar m.
  Proof.
    unfold extractVars. rewrite extractVarsGo_app. simpl.
    destruct (isvar t && negb (memb t (extractVarsGo isvar m []))); reflexivity.
  Qed.
End Extract.

(* ---------------- the matcher ---------------- *)
Section Matcher.
  Variable isvar : nat -> bool.
  Variable sep : nat.
  Variable Sc In_ : list nat.             (* scheme and instance, without their last token *)
  Hypothesis sep_con : isvar sep = false.
  Let Sch := Sc ++ [sep].
  Let Ins := In_ ++ [sep].
  Hypothesis sep_cnt : cnt sep Sc = cnt sep In_.
  Let vars := extractVars isvar Sch.

  Definition seg (st len : nat) : list nat := firstn len (skipn st Ins).

  (* expression currently assigned to token t *)
  Definition val (asg : list (nat * nat)) (t : nat) : list nat :=
    match indexOf t vars with
    | Some i => match asgGet asg i with Some (s, l) => seg s l | None => [] end
    | None => []
    end.

  Definition nvar (p : nat) : nat := length (extractVars isvar (firstn p Sch)).

  Lemma vars_firstn p : extractVars isvar (firstn p Sch) = firstn (nvar p) vars.
  Proof.
    unfold nvar, vars. destruct (extractVars_prefix isvar (firstn p Sch) (skipn p Sch)) as [w Hw].
    rewrite firstn_skipn in Hw. rewrite Hw.
    rewrite firstn_app, Nat.sub_diag, firstn_all. simpl. now rewrite app_nil_r.
  Qed.

  Lemma vars_NoDup : NoDup vars.
  Proof. apply extractVars_NoDup. Qed.

  Lemma nvar_le p : nvar p <= length vars.
  Proof.
    unfold nvar. rewrite vars_firstn. rewrite firstn_length. lia.
  Qed.

  (* a variable inside firstn p has an index below nvar p *)
  Lemma index_in_prefix p t : In t (firstn p Sch) -> isvar t = true ->
    exists i, indexOf t vars = Some i /\ i < nvar p.
  Proof.
    intros H1 H2.
    assert (H : In t (firstn (nvar p) vars)).
    { rewrite <- vars_firstn. apply extractVars_In. auto. }
    apply In_nth_error in H. destruct H as [i Hi].
    assert (Hlt : i < length (firstn (nvar p) vars)) by (apply nth_error_Some; congruence).
    rewrite firstn_length in Hlt.
    rewrite nth_error_firstn_lt in Hi by lia.
    exists i. split; [|lia]. apply indexOf_NoDup; auto. apply vars_NoDup.
  Qed.

  Lemma asgGet_cons a rest i : i < length rest -> asgGet (a :: rest) i = asgGet rest i.
  Proof.
    intros H. unfold asgGet. simpl length.
    destruct (i <? S (length rest)) eqn:E1; [|apply Nat.ltb_ge in E1; lia].
    destruct (i <? length rest) eqn:E2; [|apply Nat.ltb_ge in E2; lia].
    replace (S (length rest) - 1 - i) with (S (length rest - 1 - i)) by lia. reflexivity.
  Qed.

  Lemma asgGet_top a rest : asgGet (a :: rest) (length rest) = Some a.
  Proof.
    unfold asgGet. simpl length.
    destruct (length rest <? S (length rest)) eqn:E; [|apply Nat.ltb_ge in E; lia].
    replace (S (length rest) - 1 - length rest) with 0 by lia. reflexivity.
  Qed.

  (* substitution by an extended assignment does not change a prefix whose
     variables were all assigned before *)
  Lemma subst_val_cons a rest p : nvar p <= length rest ->
    subst isvar (val (a :: rest)) (firstn p Sch) = subst isvar (val rest) (firstn p Sch).
  Proof.
    intros H. apply subst_ext. intros t H1 H2.
    destruct (index_in_prefix p t H1 H2) as [i [Hi Hlt]].
    unfold val. rewrite Hi. rewrite asgGet_cons; [reflexivity|lia].
  Qed.

  (* well-formed assignment stack *)
  Fixpoint wfasg (asg : list (nat * nat)) : Prop :=
    match asg with
    | [] => True
    | (st, len) :: rest =>
        wfasg rest /\
        (exists fo, firstOcc vars Sch (length rest) = Some fo /\
                    nvar fo = length rest /\ nvar (S fo) = S (length rest) /\
                    fo < length Sc /\
                    firstn st Ins = subst isvar (val rest) (firstn fo Sch)) /\
        st + len < length Ins /\ ~ In sep (seg st len)
    end.

  Definition Inv (s : mst) : Prop :=
    m_p s < length Sch /\ m_q s < length Ins /\
    length (m_asg s) = nvar (m_p s) /\ wfasg (m_asg s) /\
    firstn (m_q s) Ins = subst isvar (val (m_asg s)) (firstn (m_p s) Sch).

  (* a substitution that makes scheme and instance equal, without separators
     inside the substituted expressions *)
  Definition sol (sg : nat -> list nat) : Prop :=
    subst isvar sg Sch = Ins /\ (forall t, In t vars -> ~ In sep (sg t)).

  Fixpoint agree (asg : list (nat * nat)) (sg : nat -> list nat) : Prop :=
    match asg with
    | [] => True
    | (st, len) :: rest =>
        agree rest sg /\ (forall t, nth_error vars (length rest) = Some t -> length (sg t) = len)
    end.

  Fixpoint lexlt (asg : list (nat * nat)) (sg : nat -> list nat) : Prop :=
    match asg with
    | [] => False
    | (st, len) :: rest =>
        lexlt rest sg \/
        (agree rest sg /\ (forall t, nth_error vars (length rest) = Some t -> len < length (sg t)))
    end.

  Definition lexle asg sg : Prop := lexlt asg sg \/ agree asg sg.

  Lemma firstOcc_spec i fo : firstOcc vars Sch i = Some fo ->
    exists t, nth_error vars i = Some t /\ nth_error Sch fo = Some t /\ isvar t = true.
  Proof.
    unfold firstOcc. destruct (nth_error vars i) as [t|] eqn:E; [|discriminate].
    intros H. exists t. split; [reflexivity|]. apply indexOf_Some in H.
    split; [tauto|]. apply nth_error_In in E. apply extractVars_In in E. tauto.
  Qed.

  (* a solution agreeing with the stack has exactly the assigned values *)
  Lemma agree_val asg sg : wfasg asg -> sol sg -> agree asg sg ->
    forall i t, i < length asg -> nth_error vars i = Some t -> sg t = val asg t.
  Proof.
    intros Hwf [Hs Hns]. induction asg as [|[st len] rest IH]; intros Hag i t Hi Ht.
    - simpl in Hi. lia.
    - simpl in Hwf. destruct Hwf as [Hwf [[fo [Hfo [Hn1 [Hn2 [Hfl Hst]]]]] [Hb Hsp]]].
      simpl in Hag. destruct Hag as [Hag Hlen]. specialize (IH Hwf Hag).
      pose proof (indexOf_NoDup _ _ _ vars_NoDup Ht) as Hidx.
      destruct (Nat.eq_dec i (length rest)) as [->|Hne].
      + assert (Hpre : subst isvar sg (firstn fo Sch) = firstn st Ins).
        { rewrite Hst. apply subst_ext. intros u Hu1 Hu2.
          destruct (index_in_prefix fo u Hu1 Hu2) as [k [Hk Hlt]].
          apply (IH k); [lia|]. apply indexOf_Some in Hk. tauto. }
        destruct (firstOcc_spec _ _ Hfo) as [t' [Ht' [Hn Hv]]].
        rewrite Ht in Ht'. injection Ht' as <-.
        assert (Hspl : Ins = firstn st Ins ++ sg t ++ subst isvar sg (skipn (S fo) Sch)).
        { rewrite <- Hpre. rewrite <- Hs at 1.
          rewrite <- (firstn_skipn fo Sch) at 1. rewrite subst_app. f_equal.
          rewrite (skipn_nth _ _ _ Hn). unfold subst at 1. simpl. rewrite Hv. reflexivity. }
        unfold val. rewrite Hidx, asgGet_top. unfold seg.
        pose proof (firstn_skipn st Ins) as Hfs.
        assert (Hsk : skipn st Ins = sg t ++ subst isvar sg (skipn (S fo) Sch)).
        { rewrite Hspl in Hfs at 3. apply app_inv_head in Hfs. exact Hfs. }
        rewrite Hsk. rewrite <- (Hlen t Ht).
        rewrite firstn_app, Nat.sub_diag, firstn_all. simpl. now rewrite app_nil_r.
      + simpl in Hi. rewrite (IH i t) by (auto; lia).
        unfold val. rewrite Hidx, asgGet_cons by lia. reflexivity.
  Qed.

  (* hence the whole processed prefix is substituted identically *)
  Lemma agree_prefix asg sg p : wfasg asg -> sol sg -> agree asg sg -> length asg = nvar p ->
    subst isvar sg (firstn p Sch) = subst isvar (val asg) (firstn p Sch).
  Proof.
    intros Hwf Hsol Hag Hl. apply subst_ext. intros t H1 H2.
    destruct (index_in_prefix p t H1 H2) as [i [Hi Hlt]].
    apply (agree_val asg sg Hwf Hsol Hag i); [lia|]. apply indexOf_Some in Hi. tauto.
  Qed.

  Lemma agree_suffix s sg : Inv s -> sol sg -> agree (m_asg s) sg ->
    skipn (m_q s) Ins = subst isvar sg (skipn (m_p s) Sch).
  Proof.
    intros (Hp & Hq & Hl & Hwf & Heq) Hsol Hag.
    pose proof (agree_prefix _ _ (m_p s) Hwf Hsol Hag Hl) as Hpre.
    rewrite <- Heq in Hpre. destruct Hsol as [Hs _].
    rewrite <- (firstn_skipn (m_p s) Sch) in Hs. rewrite subst_app, Hpre in Hs.
    rewrite <- (firstn_skipn (m_q s) Ins) in Hs at 2.
    apply app_inv_head in Hs. auto.
  Qed.

  (* lengths *)
  Lemma len_Sch : length Sch = S (length Sc).
  Proof. unfold Sch. rewrite app_length. simpl. lia. Qed.
  Lemma len_Ins : length Ins = S (length In_).
  Proof. unfold Ins. rewrite app_length. simpl. lia. Qed.

  Lemma nth_Sch_last : nth_error Sch (length Sc) = Some sep.
  Proof. unfold Sch. rewrite nth_error_app2, Nat.sub_diag by lia. reflexivity. Qed.
  Lemma nth_Ins_last : nth_error Ins (length In_) = Some sep.
  Proof. unfold Ins. rewrite nth_error_app2, Nat.sub_diag by lia. reflexivity. Qed.

  Lemma seg_len st len : st + len <= length Ins -> length (seg st len) = len.
  Proof. intros H. unfold seg. rewrite firstn_length, skipn_length. lia. Qed.

  Lemma val_sepfree asg : wfasg asg -> forall t, ~ In sep (val asg t).
  Proof.
    induction asg as [|[st len] rest IH]; intros Hwf t.
    - unfold val. destruct (indexOf t vars); simpl; auto.
    - simpl in Hwf. destruct Hwf as [Hwf [_ [Hb Hsp]]]. specialize (IH Hwf t).
      unfold val in *. destruct (indexOf t vars) as [i|]; [|auto].
      destruct (Nat.eq_dec i (length rest)) as [->|Hne].
      + rewrite asgGet_top. exact Hsp.
      + destruct (lt_dec i (length rest)) as [Hlt|Hge].
        * rewrite asgGet_cons by lia. exact IH.
        * unfold asgGet. simpl length. destruct (i <? S (length rest)) eqn:E; [apply Nat.ltb_lt in E; lia|].
          auto.
  Qed.

  (* number of separators passed is the same on both sides *)
  Lemma Inv_cnt s : Inv s -> cnt sep (firstn (m_q s) Ins) = cnt sep (firstn (m_p s) Sch).
  Proof.
    intros (Hp & Hq & Hl & Hwf & Heq). rewrite Heq. apply subst_cnt; auto.
    intros t _ _. apply val_sepfree. exact Hwf.
  Qed.

  Lemma cnt_firstn_le k l : cnt sep (firstn k l) <= cnt sep l.
  Proof. rewrite <- (firstn_skipn k l) at 2. rewrite cnt_app. lia. Qed.

  Lemma firstn_Sch p : p <= length Sc -> firstn p Sch = firstn p Sc.
  Proof.
    intros H. unfold Sch. rewrite firstn_app.
    replace (p - length Sc) with 0 by lia. simpl. now rewrite app_nil_r.
  Qed.
  Lemma firstn_Ins p : p <= length In_ -> firstn p Ins = firstn p In_.
  Proof.
    intros H. unfold Ins. rewrite firstn_app.
    replace (p - length In_) with 0 by lia. simpl. now rewrite app_nil_r.
  Qed.

  (* when both tokens are the separator, either both are last or neither is *)
  Lemma sep_sync s : Inv s -> nth_error Sch (m_p s) = Some sep -> nth_error Ins (m_q s) = Some sep ->
    (m_p s = length Sc <-> m_q s = length In_).
  Proof.
    intros HI H1 H2. pose proof (Inv_cnt s HI) as Hc.
    destruct HI as (Hp & Hq & _). rewrite len_Sch in Hp. rewrite len_Ins in Hq.
    assert (E1 : cnt sep (firstn (S (m_p s)) Sch) = S (cnt sep (firstn (m_p s) Sch))).
    { rewrite (firstn_S_nth _ _ _ H1), cnt_app. unfold cnt at 2. simpl.
      destruct (Nat.eq_dec sep sep); [lia|congruence]. }
    assert (E2 : cnt sep (firstn (S (m_q s)) Ins) = S (cnt sep (firstn (m_q s) Ins))).
    { rewrite (firstn_S_nth _ _ _ H2), cnt_app. unfold cnt at 2. simpl.
      destruct (Nat.eq_dec sep sep); [lia|congruence]. }
    split; intros E.
    - destruct (Nat.eq_dec (m_q s) (length In_)) as [|Hne]; auto. exfalso.
      rewrite E in *. rewrite (firstn_Sch (length Sc)), firstn_all in Hc by lia.
      rewrite (firstn_Ins (S (m_q s))) in E2 by lia.
      pose proof (cnt_firstn_le (S (m_q s)) In_). lia.
    - destruct (Nat.eq_dec (m_p s) (length Sc)) as [|Hne]; auto. exfalso.
      rewrite E in *. rewrite (firstn_Ins (length In_)), firstn_all in Hc by lia.
      rewrite (firstn_Sch (S (m_p s))) in E1 by lia.
      pose proof (cnt_firstn_le (S (m_p s)) Sc). lia.
  Qed.

  (* ---- backtracking ---- *)
  Lemma backtrack_ok asg (P : (nat -> list nat) -> Prop) :
    wfasg asg -> (forall sg, P sg -> sol sg) -> (forall sg, P sg -> lexlt asg sg) ->
    (backtrack vars Sch Ins sep asg = Ok None /\ (forall sg, ~ P sg)) \/
    (exists s', backtrack vars Sch Ins sep asg = Ok (Some s') /\ Inv s' /\
                (forall sg, P sg -> lexle (m_asg s') sg)).
  Proof.
    induction asg as [|[st len] rest IH]; intros Hwf HP Hlt.
    - left. split; [reflexivity|]. intros sg H. apply (Hlt sg H).
    - simpl in Hwf. destruct Hwf as [Hwf [[fo [Hfo [Hn1 [Hn2 [Hfl Hst]]]]] [Hb Hsp]]].
      simpl. rewrite Hfo. replace (st + (len + 1) - 1) with (st + len) by lia.
      destruct (nth_error Ins (st + len)) as [t|] eqn:Et;
        [|apply nth_error_None in Et; lia].
      destruct (firstOcc_spec _ _ Hfo) as [u [Hu [Hun Huv]]].
      destruct (Nat.eqb t sep) eqn:Es.
      + (* separator reached: no solution can extend further here *)
        apply Nat.eqb_eq in Es. subst t.
        apply IH; auto. intros sg Hsg. destruct (Hlt sg Hsg) as [H|[Hag H]]; auto. exfalso.
        specialize (H u Hu). specialize (HP sg Hsg).
        assert (Hval : firstn st Ins = subst isvar sg (firstn fo Sch)).
        { rewrite Hst. symmetry. apply agree_prefix; auto. }
        destruct HP as [Hs Hns].
        assert (Hin : In sep (sg u)).
        { rewrite <- (firstn_skipn fo Sch) in Hs. rewrite subst_app, <- Hval in Hs.
          rewrite <- (firstn_skipn st Ins) in Hs at 2. apply app_inv_head in Hs.
          rewrite (skipn_nth _ _ _ Hun) in Hs. unfold subst in Hs at 1. simpl in Hs.
          rewrite Huv in Hs.
          assert (E : nth_error (skipn st Ins) len = Some sep) by (rewrite nth_error_skipn; auto).
          rewrite <- Hs in E. rewrite nth_error_app1 in E by lia.
          eapply nth_error_In; eauto. }
        apply (Hns u); auto. eapply nth_error_In; eauto.
      + apply Nat.eqb_neq in Es.
        assert (Hq : st + (len + 1) < length Ins).
        { rewrite len_Ins in *. destruct (Nat.eq_dec (st + len) (length In_)) as [E|]; [|lia].
          rewrite E, nth_Ins_last in Et. congruence. }
        destruct (length Ins <=? st + (len + 1)) eqn:El; [apply Nat.leb_le in El; lia|].
        right. eexists. split; [reflexivity|].
        assert (Hnp : ~ In sep (seg st (len + 1))).
        { unfold seg. rewrite Nat.add_comm. simpl plus.
          assert (E : nth_error (skipn st Ins) len = Some t) by (rewrite nth_error_skipn; auto).
          rewrite (firstn_S_nth _ _ _ E). rewrite in_app_iff. simpl.
          intros [H|[H|[]]]; [apply Hsp; exact H|congruence]. }
        split.
        * unfold Inv. cbn [m_p m_q m_asg length].
          replace (fo + 1) with (S fo) by lia.
          repeat split; auto.
          -- rewrite len_Sch. lia.
          -- exists fo. repeat split; auto.
          -- rewrite (firstn_S_nth _ _ _ Hun), subst_app.
             rewrite subst_val_cons by lia. rewrite <- Hst.
             unfold subst at 1. simpl. rewrite Huv, app_nil_r.
             unfold val. rewrite (indexOf_NoDup _ _ _ vars_NoDup Hu), asgGet_top.
             unfold seg. apply firstn_plus.
        * intros sg Hsg. cbn [m_asg]. unfold lexle. simpl.
          destruct (Hlt sg Hsg) as [H|[Hag H]]; [auto|].
          specialize (H u Hu).
          destruct (Nat.eq_dec (length (sg u)) (len + 1)) as [E|Hne].
          -- right. split; auto. intros t' Ht'. congruence.
          -- left. right. split; auto. intros t' Ht'. rewrite Hu in Ht'.
             injection Ht' as <-. lia.
  Qed.

  (* ---- sameSeg ---- *)
  Lemma sameSeg_spec st q len : st + len <= length Ins ->
    (sameSeg Ins st q len = Ok true /\ seg st len = seg q len /\ q + len <= length Ins \/ 
     sameSeg Ins st q len = Ok true /\ len = 0) \/
    (sameSeg Ins st q len = Ok false /\ (forall r, skipn q Ins <> seg st len ++ r)).
  Proof.
    revert st q. induction len as [|len IH]; intros st q Hb; simpl.
    - left. right. auto.
    - destruct (length Ins <=? q) eqn:El.
      + apply Nat.leb_le in El. right. split; auto. intros r.
        rewrite skipn_all2 by lia. intros H. symmetry in H. apply app_eq_nil in H.
        destruct H as [H _]. apply (f_equal (@length nat)) in H.
        rewrite seg_len in H by lia. discriminate.
      + apply Nat.leb_gt in El.
        destruct (nth_error Ins st) as [a|] eqn:Ea; [|apply nth_error_None in Ea; lia].
        destruct (nth_error Ins q) as [b|] eqn:Eb; [|apply nth_error_None in Eb; lia].
        assert (Es : seg st (S len) = a :: seg (st + 1) len).
        { unfold seg. rewrite (skipn_nth _ _ _ Ea). simpl. now rewrite Nat.add_1_r. }
        assert (Eq : forall k, firstn (S k) (skipn q Ins) = b :: firstn k (skipn (q + 1) Ins)).
        { intros k. rewrite (skipn_nth _ _ _ Eb). simpl. now rewrite Nat.add_1_r. }
        destruct (Nat.eqb a b) eqn:Eab.
        * apply Nat.eqb_eq in Eab. subst b.
          destruct (IH (st + 1) (q + 1)) as [[[H1 [H2 H3]]|[H1 H2]]|[H1 H2]]; [lia| | |].
          -- left. left. split; auto. split; [|lia]. rewrite Es. unfold seg at 2. rewrite Eq. f_equal. exact H2.
          -- left. left. split; auto. subst len. split; [|lia]. rewrite Es. unfold seg at 2. rewrite Eq. reflexivity.
          -- right. split; auto. intros r Hr. rewrite (skipn_nth _ _ _ Eb), Es in Hr.
             simpl in Hr. injection Hr as Hr. apply (H2 r). now rewrite Nat.add_1_r.
        * apply Nat.eqb_neq in Eab. right. split; auto. intros r Hr.
          rewrite (skipn_nth _ _ _ Eb), Es in Hr. simpl in Hr. injection Hr as Hr _. congruence.
  Qed.

  Lemma nvar_S p t : nth_error Sch p = Some t ->
    nvar (S p) = if isvar t && negb (memb t (firstn (nvar p) vars)) then S (nvar p) else nvar p.
  Proof.
    intros H. unfold nvar at 1. rewrite (firstn_S_nth _ _ _ H), extractVars_snoc.
    rewrite vars_firstn. destruct (isvar t && negb (memb t (firstn (nvar p) vars))).
    - rewrite app_length. simpl. rewrite <- vars_firstn. fold (nvar p). lia.
    - rewrite <- vars_firstn. reflexivity.
  Qed.

  Lemma wfasg_get asg i st len : wfasg asg -> asgGet asg i = Some (st, len) ->
    st + len < length Ins /\ ~ In sep (seg st len).
  Proof.
    induction asg as [|[st' len'] rest IH]; intros Hwf H.
    - unfold asgGet in H. simpl in H. discriminate.
    - simpl in Hwf. destruct Hwf as [Hwf [_ [Hb Hsp]]].
      destruct (lt_eq_lt_dec i (length rest)) as [[Hlt| ->]|Hgt].
      + rewrite asgGet_cons in H by lia. auto.
      + rewrite asgGet_top in H. injection H as <- <-. auto.
      + unfold asgGet in H. simpl length in H.
        destruct (i <? S (length rest)) eqn:E; [apply Nat.ltb_lt in E; lia|discriminate].
  Qed.

  Lemma asgGet_Some asg i : i < length asg -> exists st len, asgGet asg i = Some (st, len).
  Proof.
    intros H. unfold asgGet. apply Nat.ltb_lt in H as E. rewrite E.
    destruct (nth_error asg (length asg - 1 - i)) as [[st len]|] eqn:E2; eauto.
    apply nth_error_None in E2. lia.
  Qed.

  (* ---- one scan step ---- *)
  Lemma scanStep_ok s (P : (nat -> list nat) -> Prop) :
    Inv s -> scanDone Sch Ins s = false ->
    (forall sg, P sg -> sol sg) -> (forall sg, P sg -> lexle (m_asg s) sg) ->
    (scanStep isvar sep vars Sch Ins s = Ok None /\ (forall sg, ~ P sg)) \/
    (exists s', scanStep isvar sep vars Sch Ins s = Ok (Some s') /\ Inv s' /\
                (forall sg, P sg -> lexle (m_asg s') sg)).
  Proof.
    intros HI Hnd HP Hle. pose proof HI as (Hp & Hq & Hl & Hwf & Heq).
    unfold scanStep.
    destruct (nth_error Sch (m_p s)) as [t|] eqn:Et; [|apply nth_error_None in Et; lia].
    destruct (nth_error Ins (m_q s)) as [u|] eqn:Eu; [|apply nth_error_None in Eu; lia].
    (* mismatch: every remaining candidate is strictly beyond the current stack *)
    assert (Hmis : (forall sg, P sg -> ~ agree (m_asg s) sg) ->
      (backtrack vars Sch Ins sep (m_asg s) = Ok None /\ (forall sg, ~ P sg)) \/
      (exists s', backtrack vars Sch Ins sep (m_asg s) = Ok (Some s') /\ Inv s' /\
                (forall sg, P sg -> lexle (m_asg s') sg))).
    { intros Hna. apply backtrack_ok; auto. intros sg Hsg.
      destruct (Hle sg Hsg) as [H|H]; auto. exfalso. eapply Hna; eauto. }
    assert (Hsuf : forall sg, P sg -> agree (m_asg s) sg ->
              skipn (S (m_q s)) Ins = tl (subst isvar sg (skipn (m_p s) Sch)) /\
              u :: skipn (S (m_q s)) Ins =
                (if isvar t then sg t else [t]) ++ subst isvar sg (skipn (S (m_p s)) Sch)).
    { intros sg Hsg Hag. pose proof (agree_suffix s sg HI (HP sg Hsg) Hag) as H.
      rewrite (skipn_nth _ _ _ Eu) in H. split.
      - rewrite <- H. reflexivity.
      - rewrite H. rewrite (skipn_nth _ _ _ Et). reflexivity. }
    destruct (isvar t) eqn:Ev; cbn [negb].
    - (* variable *)
      assert (Hin : In t vars).
      { apply extractVars_In. split; auto. eapply nth_error_In; eauto. }
      destruct (indexOf_In t vars Hin) as [v1 Hv1]. rewrite Hv1.
      pose proof (indexOf_Some _ _ _ Hv1) as [Hnv1 _].
      pose proof (nvar_S _ _ Et) as HnS. rewrite Ev in HnS. cbn [andb] in HnS.
      assert (Hpl : m_p s < length Sc).
      { rewrite len_Sch in Hp. destruct (Nat.eq_dec (m_p s) (length Sc)) as [E|]; [|lia].
        rewrite E, nth_Sch_last in Et. injection Et as <-. congruence. }
      destruct (length (m_asg s) <=? v1) eqn:Ele.
      + (* first occurrence *)
        apply Nat.leb_le in Ele.
        assert (Hnm : memb t (firstn (nvar (m_p s)) vars) = false).
        { apply memb_false. intros Hc. apply In_nth_error in Hc. destruct Hc as [k Hk].
          assert (k < length (firstn (nvar (m_p s)) vars)) by (apply nth_error_Some; congruence).
          rewrite firstn_length in H. rewrite nth_error_firstn_lt in Hk by lia.
          apply (indexOf_NoDup _ _ _ vars_NoDup) in Hk. rewrite Hv1 in Hk. injection Hk as <-. lia. }
        rewrite Hnm in HnS. cbn [negb] in HnS.
        assert (Hvx : nth_error vars (nvar (m_p s)) = Some t).
        { pose proof (vars_firstn (S (m_p s))) as Hvf. rewrite HnS in Hvf.
          rewrite (firstn_S_nth _ _ _ Et), extractVars_snoc, vars_firstn, Ev, Hnm in Hvf.
          cbn [andb negb] in Hvf.
          assert (Hlt : nvar (m_p s) < length vars).
          { pose proof (nvar_le (S (m_p s))). lia. }
          destruct (nth_error vars (nvar (m_p s))) as [w|] eqn:Ew;
            [|apply nth_error_None in Ew; lia].
          rewrite (firstn_S_nth _ _ _ Ew) in Hvf. apply app_inv_head in Hvf. congruence. }
        assert (Heqv : v1 = length (m_asg s)).
        { apply (indexOf_NoDup _ _ _ vars_NoDup) in Hvx. rewrite Hv1 in Hvx. injection Hvx as Hvx. rewrite Hvx; auto. }
        rewrite Heqv, Nat.eqb_refl. cbn [negb].
        right. eexists. split; [reflexivity|]. split.
        * unfold Inv. cbn [m_p m_q m_asg length].
          replace (m_p s + 1) with (S (m_p s)) by lia.
          rewrite <- Hl in Hvx.
          assert (Hfo : firstOcc vars Sch (length (m_asg s)) = Some (m_p s)).
          { unfold firstOcc. rewrite Hvx.
            destruct (indexOf_In t Sch) as [k Hk]; [eapply nth_error_In; eauto|].
            rewrite Hk. f_equal. apply indexOf_Some in Hk. destruct Hk as [Hk1 Hk2].
            destruct (lt_eq_lt_dec k (m_p s)) as [[Hlt|]|Hgt]; auto.
            - exfalso. apply memb_false in Hnm. apply Hnm. rewrite <- vars_firstn.
              apply extractVars_In. split; auto.
              rewrite <- (nth_error_firstn_lt Sch (m_p s)) in Hk1 by lia.
              eapply nth_error_In; eauto.
            - exfalso. eapply Hk2; eauto. }
          repeat split; auto; try lia.
          -- rewrite len_Sch. lia.
          -- exists (m_p s). repeat split; auto. lia.
          -- rewrite (firstn_S_nth _ _ _ Et), subst_app. rewrite subst_val_cons by lia.
             rewrite <- Heq. unfold subst. simpl. rewrite Ev. unfold val.
             rewrite Hv1, Heqv, asgGet_top. simpl. now rewrite app_nil_r.
        * intros sg Hsg. cbn [m_asg]. unfold lexle. simpl.
          destruct (Hle sg Hsg) as [H|H]; [auto|].
          destruct (Nat.eq_dec (length (sg t)) 0) as [E|Hne].
          -- right. split; auto. intros t' Ht'. rewrite <- Heqv, Hnv1 in Ht'. congruence.
          -- left. right. split; auto. intros t' Ht'. rewrite <- Heqv, Hnv1 in Ht'.
             injection Ht' as <-. lia.
      + (* already assigned *)
        apply Nat.leb_gt in Ele.
        destruct (asgGet_Some (m_asg s) v1 Ele) as [st [len Hg]].
        pose proof (wfasg_get _ _ _ _ Hwf Hg) as [Hb Hsf].
        assert (Hg' := Hg). unfold asgGet in Hg'. apply Nat.ltb_lt in Ele as E.
        rewrite E in Hg'. rewrite Hg'.
        assert (Hval : val (m_asg s) t = seg st len).
        { unfold val. rewrite Hv1, Hg. reflexivity. }
        assert (Hmem : memb t (firstn (nvar (m_p s)) vars) = true).
        { apply memb_In. rewrite <- Hl. apply nth_error_In with (n := v1).
          rewrite nth_error_firstn_lt by lia. exact Hnv1. }
        rewrite Hmem in HnS. cbn [negb] in HnS.
        assert (Hok : seg (m_q s) len = seg st len ->
                  m_q s + len < length Ins ->
                  Inv {| m_p := m_p s + 1; m_q := m_q s + len; m_asg := m_asg s |}).
        { intros Hsg Hlt. unfold Inv. cbn [m_p m_q m_asg].
          replace (m_p s + 1) with (S (m_p s)) by lia.
          repeat split; auto; try lia.
          - rewrite len_Sch. lia.
          - rewrite (firstn_S_nth _ _ _ Et), subst_app, <- Heq, firstn_plus. f_equal.
            unfold subst. simpl. rewrite Ev, app_nil_r, Hval, <- Hsg. reflexivity. }
        destruct (sameSeg_spec st (m_q s) len) as [[[H1 [H2 H3]]|[H1 H2]]|[H1 H2]]; [lia| | |].
        * rewrite H1. cbn [rbind]. right. eexists. split; [reflexivity|]. split; auto.
          apply Hok; auto.
          destruct (Nat.eq_dec (m_q s + len) (length Ins)) as [Ee|]; [|lia]. exfalso.
          destruct len as [|len]; [lia|].
          apply Hsf. rewrite H2. apply nth_error_In with (n := len).
          unfold seg. rewrite nth_error_firstn_lt, nth_error_skipn by lia.
          rewrite len_Ins in Ee. replace (m_q s + len) with (length In_) by lia. apply nth_Ins_last.
        * rewrite H1. cbn [rbind]. right. eexists. split; [reflexivity|]. split; auto.
          subst len. apply Hok; auto. lia.
        * rewrite H1. cbn [rbind]. apply Hmis. intros sg Hsg Hag.
          pose proof (agree_suffix s sg HI (HP sg Hsg) Hag) as Hs.
          rewrite (skipn_nth Sch _ _ Et) in Hs. unfold subst in Hs at 1. simpl in Hs.
          rewrite Ev in Hs. rewrite (agree_val _ _ Hwf (HP sg Hsg) Hag v1 t Ele Hnv1), Hval in Hs.
          eapply H2. exact Hs.
    - (* constant *)
      destruct (Nat.eqb t u) eqn:Etu.
      + apply Nat.eqb_eq in Etu. subst u.
        right. eexists. split; [reflexivity|].
        assert (Hb : m_p s <> length Sc /\ m_q s <> length In_).
        { unfold scanDone in Hnd. rewrite len_Sch, len_Ins in Hnd.
          replace (S (length Sc) - 1) with (length Sc) in Hnd by lia.
          replace (S (length In_) - 1) with (length In_) in Hnd by lia.
          assert (H : m_p s = length Sc <-> m_q s = length In_).
          { split; intros E.
            - assert (t = sep) by (rewrite E, nth_Sch_last in Et; congruence). subst t.
              apply sep_sync; auto.
            - assert (t = sep) by (rewrite E, nth_Ins_last in Eu; congruence). subst t.
              apply sep_sync; auto. }
          apply andb_false_iff in Hnd. rewrite !Nat.eqb_neq in Hnd. tauto. }
        rewrite len_Sch in Hp. rewrite len_Ins in Hq.
        pose proof (nvar_S _ _ Et) as HnS. rewrite Ev in HnS. cbn [andb] in HnS.
        split; auto. unfold Inv. cbn [m_p m_q m_asg].
        replace (m_p s + 1) with (S (m_p s)) by lia.
        replace (m_q s + 1) with (S (m_q s)) by lia.
        repeat split; auto; try lia.
        * rewrite len_Sch. lia.
        * rewrite len_Ins. lia.
        * rewrite (firstn_S_nth _ _ _ Et), subst_app, <- Heq, (firstn_S_nth _ _ _ Eu).
          f_equal. unfold subst. simpl. rewrite Ev. reflexivity.
      + apply Nat.eqb_neq in Etu. apply Hmis. intros sg Hsg Hag.
        destruct (Hsuf sg Hsg Hag) as [_ H]. simpl in H. injection H as H _. congruence.
  Qed.

  (* ---- termination ---- *)
  Let B := length Ins.
  Let n := length vars.
  Fixpoint hv (asg : list (nat * nat)) : nat :=
    match asg with [] => 0 | (_, len) :: rest => hv rest * B + len end.
  Definition pad asg := hv asg * B ^ (n - length asg).

  Lemma B_pos : 0 < B.
  Proof. unfold B. rewrite len_Ins. lia. Qed.

  Lemma wfasg_len asg : wfasg asg -> length asg <= n.
  Proof.
    destruct asg as [|[st len] rest]; simpl; [lia|].
    intros [_ [[fo [Hfo _]] _]]. unfold firstOcc in Hfo.
    destruct (nth_error vars (length rest)) eqn:E; [|discriminate].
    assert (length rest < length vars) by (apply nth_error_Some; congruence). unfold n. lia.
  Qed.

  Lemma pow_S_sub k : k < n -> B ^ (n - k) = B * B ^ (n - S k).
  Proof. intros H. replace (n - k) with (S (n - S k)) by lia. reflexivity. Qed.

  Lemma pad_bound asg : wfasg asg -> pad asg < B ^ n.
  Proof.
    intros Hwf. unfold pad.
    assert (H : hv asg < B ^ length asg).
    { induction asg as [|[st len] rest IH]; simpl in *; [lia|].
      destruct Hwf as [Hwf [_ [Hb _]]]. specialize (IH Hwf). fold B in Hb. nia. }
    pose proof (wfasg_len _ Hwf) as Hl.
    replace (B ^ n) with (B ^ length asg * B ^ (n - length asg)).
    - apply Nat.mul_lt_mono_pos_r; auto. pose proof (Nat.pow_nonzero B (n - length asg)).
      pose proof B_pos. lia.
    - rewrite <- Nat.pow_add_r. f_equal. lia.
  Qed.

  Lemma backtrack_pad asg s' : wfasg asg ->
    backtrack vars Sch Ins sep asg = Ok (Some s') ->
    pad asg + B ^ (n - length asg) <= pad (m_asg s').
  Proof.
    revert s'. induction asg as [|[st len] rest IH]; intros s' Hwf H; simpl in H; [discriminate|].
    pose proof (wfasg_len _ Hwf) as Hl. simpl in Hl.
    simpl in Hwf. destruct Hwf as [Hwf [[fo [Hfo _]] [Hb _]]]. rewrite Hfo in H.
    destruct (nth_error Ins (st + (len + 1) - 1)) as [t|].
    - destruct (Nat.eqb t sep).
      + specialize (IH _ Hwf H). unfold pad in *. rewrite (pow_S_sub (length rest)) in IH by lia.
        cbn [hv length]. fold B in Hb. nia.
      + destruct (length Ins <=? st + (len + 1)); [discriminate|].
        injection H as <-. unfold pad. cbn [m_asg hv length]. nia.
    - destruct (Nat.eqb (st + (len + 1) - 1) (length Ins)); discriminate.
  Qed.

  Definition mu (s : mst) : nat :=
    (B ^ n - pad (m_asg s)) * S (length Sch) + (length Sch - m_p s).

  Lemma scanStep_pad s s' : Inv s -> Inv s' ->
    scanStep isvar sep vars Sch Ins s = Ok (Some s') ->
    pad (m_asg s) < pad (m_asg s') \/ (pad (m_asg s) = pad (m_asg s') /\ m_p s' = S (m_p s)).
  Proof.
    intros (Hp & Hq & Hl & Hwf & Heq) (Hp' & Hq' & Hl' & Hwf' & Heq') H.
    assert (HB : 0 < B ^ (n - length (m_asg s))).
    { pose proof (Nat.pow_nonzero B (n - length (m_asg s))). pose proof B_pos. lia. }
    assert (Hbt : backtrack vars Sch Ins sep (m_asg s) = Ok (Some s') ->
                  pad (m_asg s) < pad (m_asg s')).
    { intros E. pose proof (backtrack_pad _ _ Hwf E). lia. }
    unfold scanStep in H.
    destruct (nth_error Sch (m_p s)) as [t|]; [|discriminate].
    destruct (negb (isvar t)).
    - destruct (nth_error Ins (m_q s)).
      + destruct (Nat.eqb t n0); [|auto]. injection H as <-. right. cbn [m_asg m_p]. split; auto. lia.
      + destruct (Nat.eqb (m_q s) (length Ins)); [auto|discriminate].
    - destruct (indexOf t vars) as [v1|]; [|discriminate].
      destruct (length (m_asg s) <=? v1).
      + destruct (negb (Nat.eqb v1 (length (m_asg s)))); [discriminate|].
        injection H as <-. right. cbn [m_asg m_p] in *. split; [|lia].
        pose proof (wfasg_len _ Hwf') as Hl2. simpl in Hl2.
        unfold pad. rewrite (pow_S_sub (length (m_asg s))) by lia. cbn [hv length]. nia.
      + destruct (nth_error (m_asg s) (length (m_asg s) - 1 - v1)) as [[st len]|]; [|discriminate].
        destruct (sameSeg Ins st (m_q s) len) as [[|] | | |]; cbn [rbind] in H; try discriminate; auto.
        injection H as <-. right. cbn [m_asg m_p]. split; auto. lia.
  Qed.

  Lemma scanStep_mu s s' : Inv s -> Inv s' ->
    scanStep isvar sep vars Sch Ins s = Ok (Some s') -> mu s' < mu s.
  Proof.
    intros HI HI' H. pose proof (scanStep_pad _ _ HI HI' H) as Hpd.
    destruct HI as (Hp & _ & _ & Hwf & _). destruct HI' as (Hp' & _ & _ & Hwf' & _).
    pose proof (pad_bound _ Hwf). pose proof (pad_bound _ Hwf').
    unfold mu. destruct Hpd as [Hlt|[E1 E2]].
    - assert (B ^ n - pad (m_asg s') < B ^ n - pad (m_asg s)) by lia. nia.
    - rewrite E1. lia.
  Qed.

  Lemma scan_ok fuel s (P : (nat -> list nat) -> Prop) :
    mu s < fuel -> Inv s ->
    (forall sg, P sg -> sol sg) -> (forall sg, P sg -> lexle (m_asg s) sg) ->
    (scan fuel isvar sep vars Sch Ins s = Ok None /\ (forall sg, ~ P sg)) \/
    (exists s', scan fuel isvar sep vars Sch Ins s = Ok (Some s') /\ Inv s' /\
                scanDone Sch Ins s' = true /\ pad (m_asg s) <= pad (m_asg s') /\
                (forall sg, P sg -> lexle (m_asg s') sg)).
  Proof.
    revert s. induction fuel as [|fuel IH]; intros s Hmu HI HP Hle; [lia|]. simpl.
    destruct (scanDone Sch Ins s) eqn:Ed.
    - right. exists s. auto 6.
    - destruct (scanStep_ok s P HI Ed HP Hle) as [[H1 H2]|[s' [H1 [H2 H3]]]]; rewrite H1; cbn [rbind].
      + left. auto.
      + pose proof (scanStep_mu _ _ HI H2 H1) as Hm.
        pose proof (scanStep_pad _ _ HI H2 H1) as Hpd.
        destruct (IH s') as [H|[s2 [Ha [Hb [Hc [Hd He]]]]]]; auto; [lia|].
        right. exists s2. do 3 (split; [assumption|]). split; [lia|assumption].
  Qed.

  Definition fuelBound : nat := S (B ^ n * S (length Sch) + length Sch).

  Lemma mu_bound s : mu s < fuelBound.
  Proof. unfold mu, fuelBound. nia. Qed.

  Lemma Inv_init : Inv (mkMst 0 0 []).
  Proof.
    unfold Inv. cbn [m_p m_q m_asg]. rewrite len_Sch, len_Ins.
    repeat split; try lia.
  Qed.

  Lemma done_full s : Inv s -> scanDone Sch Ins s = true ->
    length (m_asg s) = length vars /\ sol (val (m_asg s)).
  Proof.
    intros (Hp & Hq & Hl & Hwf & Heq) Hd. unfold scanDone in Hd.
    apply andb_true_iff in Hd. destruct Hd as [E1 E2]. apply Nat.eqb_eq in E1, E2.
    rewrite len_Sch in E1. rewrite len_Ins in E2.
    replace (S (length Sc) - 1) with (length Sc) in E1 by lia.
    replace (S (length In_) - 1) with (length In_) in E2 by lia.
    rewrite E1 in *. rewrite E2 in *.
    rewrite firstn_Sch, firstn_Ins, !firstn_all in Heq by lia.
    split.
    - rewrite Hl. pose proof (nvar_S _ _ nth_Sch_last) as H. rewrite sep_con in H. simpl in H.
      rewrite <- H. unfold nvar. rewrite <- len_Sch, firstn_all. reflexivity.
    - split.
      + unfold Sch at 1. rewrite subst_app, <- Heq. unfold Ins. f_equal.
        unfold subst. simpl. rewrite sep_con. reflexivity.
      + intros t _. apply val_sepfree. exact Hwf.
  Qed.

  Lemma full_agree_eq asg sg : wfasg asg -> length asg = length vars -> sol sg -> agree asg sg ->
    forall t, In t vars -> sg t = val asg t.
  Proof.
    intros Hwf Hl Hs Hag t Ht. apply In_nth_error in Ht. destruct Ht as [i Hi].
    apply (agree_val asg sg Hwf Hs Hag i); auto. rewrite Hl. apply nth_error_Some. congruence.
  Qed.

  (* a different solution lies strictly beyond the stack with the last variable dropped *)
  Lemma other_lexlt asg sg : wfasg asg -> length asg = length vars -> sol (val asg) -> sol sg ->
    lexle asg sg -> (exists t, In t vars /\ sg t <> val asg t) -> lexlt (tl asg) sg.
  Proof.
    intros Hwf Hl Hs0 Hs Hle [t0 [Ht0 Hne]].
    destruct asg as [|[st len] rest].
    - simpl in Hl. destruct vars; [contradiction|discriminate].
    - destruct Hle as [[H|[Hag Hlen]]|Hag].
      + exact H.
      + exfalso. simpl in Hl. pose proof Hwf as Hwf0. simpl in Hwf.
        destruct Hwf as [Hwf [[fo [Hfo [Hn1 [Hn2 [Hfl Hst]]]]] [Hb Hsp]]].
        destruct (firstOcc_spec _ _ Hfo) as [u [Hu [Hun Huv]]].
        assert (Hvu : val ((st, len) :: rest) u = seg st len).
        { unfold val. rewrite (indexOf_NoDup _ _ _ vars_NoDup Hu), asgGet_top. reflexivity. }
        assert (Hlt : length (subst isvar (val ((st, len) :: rest)) Sch) < length (subst isvar sg Sch)).
        { apply subst_len_lt with (x := u); auto.
          - eapply nth_error_In; eauto.
          - rewrite Hvu, seg_len by lia. apply Hlen. exact Hu.
          - intros t H1 H2 H3. symmetry.
            assert (Hin : In t vars) by (apply extractVars_In; auto).
            apply In_nth_error in Hin. destruct Hin as [i Hi].
            assert (i < length vars) by (apply nth_error_Some; congruence).
            assert (i <> length rest) by (intros ->; congruence).
            rewrite (agree_val rest sg Hwf Hs Hag i t) by (auto; lia).
            unfold val. rewrite (indexOf_NoDup _ _ _ vars_NoDup Hi), asgGet_cons by lia. reflexivity. }
        destruct Hs0 as [Hs0 _]. destruct Hs as [Hs _]. rewrite Hs0, Hs in Hlt. lia.
      + exfalso. apply Hne. eapply full_agree_eq; eauto.
  Qed.

  Lemma asg_lens_eq asg asg' : wfasg asg -> wfasg asg' -> length asg = length asg' ->
    (forall t, In t vars -> val asg t = val asg' t) -> hv asg = hv asg'.
  Proof.
    revert asg'. induction asg as [|[st len] rest IH]; intros [|[st' len'] rest'] Hwf Hwf' Hl Hv;
      simpl in Hl; try discriminate; auto.
    assert (Hl' : length rest = length rest') by lia.
    pose proof Hwf as W. pose proof Hwf' as W'.
    simpl in Hwf. destruct Hwf as [Hwf [[fo [Hfo _]] [Hb Hsp]]].
    simpl in Hwf'. destruct Hwf' as [Hwf' [_ [Hb' Hsp']]].
    destruct (firstOcc_spec _ _ Hfo) as [u [Hu _]].
    simpl. f_equal.
    - f_equal. apply IH; auto. intros t Ht.
      destruct (indexOf_In t vars Ht) as [i Hi].
      destruct (lt_dec i (length rest)) as [Hlt|Hge].
      + specialize (Hv t Ht). unfold val in *. rewrite Hi in *.
        rewrite !asgGet_cons in Hv by lia. exact Hv.
      + unfold val. rewrite Hi. unfold asgGet. rewrite <- Hl'.
        destruct (i <? length rest) eqn:E; [apply Nat.ltb_lt in E; lia|]. reflexivity.
    - specialize (Hv u (nth_error_In _ _ Hu)). unfold val in Hv.
      rewrite (indexOf_NoDup _ _ _ vars_NoDup Hu) in Hv. rewrite asgGet_top in Hv.
      rewrite Hl', asgGet_top in Hv. apply (f_equal (@length nat)) in Hv.
      rewrite !seg_len in Hv by lia. exact Hv.
  Qed.

  (* ---- summary: first phase ---- *)
  Lemma match_first fuel : fuelBound <= fuel ->
    (scan fuel isvar sep vars Sch Ins (mkMst 0 0 []) = Ok None /\ (forall sg, ~ sol sg)) \/
    (exists s, scan fuel isvar sep vars Sch Ins (mkMst 0 0 []) = Ok (Some s) /\ Inv s /\
       scanDone Sch Ins s = true /\ length (m_asg s) = length vars /\ sol (val (m_asg s)) /\
       (forall sg, sol sg -> lexle (m_asg s) sg)).
  Proof.
    intros Hf.
    destruct (scan_ok fuel (mkMst 0 0 []) sol) as [H|[s [H1 [H2 [H3 [H4 H5]]]]]]; auto.
    - pose proof (mu_bound (mkMst 0 0 [])). lia.
    - apply Inv_init.
    - intros sg _. right. exact I.
    - right. destruct (done_full s H2 H3). exists s. auto 8.
  Qed.

  (* ---- summary: second phase ---- *)
  Lemma match_second fuel s : fuelBound <= fuel -> Inv s -> scanDone Sch Ins s = true ->
    (forall sg, sol sg -> lexle (m_asg s) sg) ->
    let uniq := forall sg, sol sg -> forall t, In t vars -> sg t = val (m_asg s) t in
    (backtrack vars Sch Ins sep (tl (m_asg s)) = Ok None /\ uniq) \/
    (exists s1, backtrack vars Sch Ins sep (tl (m_asg s)) = Ok (Some s1) /\
       ((scan fuel isvar sep vars Sch Ins s1 = Ok None /\ uniq) \/
        (exists s2, scan fuel isvar sep vars Sch Ins s1 = Ok (Some s2) /\ Inv s2 /\
           scanDone Sch Ins s2 = true /\ length (m_asg s2) = length vars /\
           sol (val (m_asg s2)) /\ exists t, In t vars /\ val (m_asg s2) t <> val (m_asg s) t))).
  Proof.
    intros Hf HI Hd Hle uniq. destruct (done_full s HI Hd) as [Hl Hs].
    assert (Hwf : wfasg (m_asg s)) by (destruct HI as (_&_&_&?&_); auto).
    set (P := fun sg => sol sg /\ exists t, In t vars /\ sg t <> val (m_asg s) t).
    assert (HP : forall sg, P sg -> sol sg) by (intros sg [H _]; auto).
    assert (Hu : (forall sg, ~ P sg) -> uniq).
    { intros Hno sg Hsg t Ht. destruct (list_eq_dec Nat.eq_dec (sg t) (val (m_asg s) t)); auto.
      exfalso. apply (Hno sg). split; eauto. }
    assert (Hwt : wfasg (tl (m_asg s))).
    { destruct (m_asg s) as [|[st len] rest]; simpl in *; tauto. }
    destruct (backtrack_ok (tl (m_asg s)) P Hwt HP) as [[H1 H2]|[s1 [H1 [H2 H3]]]].
    { intros sg [Hsg Hd']. apply other_lexlt; auto. }
    { left. auto. }
    right. exists s1. split; auto.
    destruct (scan_ok fuel s1 P) as [[G1 G2]|[s2 [G1 [G2 [G3 [G4 G5]]]]]]; auto.
    { pose proof (mu_bound s1). lia. }
    right. destruct (done_full s2 G2 G3) as [K1 K2]. exists s2. do 5 (split; [assumption|]).
    { pose proof (backtrack_pad _ _ Hwt H1) as Hpd.
      assert (Hwf2 : wfasg (m_asg s2)) by (destruct G2 as (_&_&_&?&_); auto).
      destruct (Forall_Exists_dec (fun t => val (m_asg s2) t = val (m_asg s) t)
                  (fun t => list_eq_dec Nat.eq_dec _ _) vars) as [HF|HE].
      + exfalso. assert (hv (m_asg s2) = hv (m_asg s)).
        { apply asg_lens_eq; auto; [lia|]. apply Forall_forall. exact HF. }
        assert (E : pad (m_asg s2) = pad (m_asg s)) by (unfold pad; rewrite H, K1, Hl; reflexivity).
        destruct (m_asg s) as [|[st len] rest]; [discriminate H1|].
        simpl tl in *. simpl in Hl. simpl in Hwf. destruct Hwf as [_ [_ [Hb _]]].
        unfold pad in *. rewrite (pow_S_sub (length rest)) in Hpd by (unfold n; lia).
        cbn [hv length] in *. fold B in Hb.
        assert (HB : 0 < B ^ (n - S (length rest))).
        { pose proof (Nat.pow_nonzero B (n - S (length rest))). pose proof B_pos. lia. }
        nia.
      + apply Exists_exists in HE. exact HE. }
  Qed.
End Matcher.
