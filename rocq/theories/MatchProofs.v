From Verif Require Import Base VstrModel VstrSpec VstrProofs LabModel LabSpec LabProofs MatchModel MatchSpec.
From Coq Require Import Permutation Sorted.
Open Scope nat_scope.

Lemma rd_suffix s a b : s = a ++ b -> rd s (length a) = Ok (match b with [] => 0 | c :: _ => c end).
Proof.
  intros ->. unfold rd. rewrite <- app_assoc, nth_error_app2, Nat.sub_diag by lia.
  destruct b; reflexivity.
Qed.

Section Glob.
Variables (w o : nat).
Hypothesis (W0 : w <> 0) (O0 : o <> 0) (WO : w <> o).

Lemma glob_nil_inv t : glob w o [] t -> t = [].
Proof. intros H. inversion H; reflexivity. Qed.
Lemma glob_lit_inv c p t : c <> w -> glob w o (c :: p) t ->
  exists d t', t = d :: t' /\ (c = d \/ c = o) /\ glob w o p t'.
Proof.
  intros C H. inversion H; subst; try congruence.
  - exists c0, t0. auto.
  - exists c, t0. auto.
Qed.
Lemma glob_lit c d p t : c <> w -> (c = d \/ c = o) -> glob w o p t -> glob w o (c :: p) (d :: t).
Proof.
  intros C [ -> | -> ] H.
  - destruct (Nat.eq_dec d o) as [->|D]; [apply glob_one; exact H|apply glob_char; auto].
  - apply glob_one, H.
Qed.
Lemma glob_star_inv p t : glob w o (w :: p) t -> exists x t', t = x ++ t' /\ glob w o p t'.
Proof. intros H. inversion H; subst; try congruence; eauto. Qed.
Lemma glob_star_ext p t x : glob w o (w :: p) t -> glob w o (w :: p) (x ++ t).
Proof. intros H. apply glob_star_inv in H. destruct H as [y [t' [-> H]]]. rewrite app_assoc. apply glob_star, H. Qed.

(* literal part: the characters of sg match those of u *)
Inductive lit : list nat -> list nat -> Prop :=
| lit_nil : lit [] []
| lit_cons : forall c d sg u, c <> w -> (c = d \/ c = o) -> lit sg u -> lit (c :: sg) (d :: u).
Lemma lit_length sg u : lit sg u -> length sg = length u.
Proof. induction 1; simpl; congruence. Qed.
Lemma lit_snoc sg u c d : lit sg u -> c <> w -> (c = d \/ c = o) -> lit (sg ++ [c]) (u ++ [d]).
Proof. induction 1; intros; simpl; constructor; auto; constructor. Qed.
Lemma lit_glob sg u p t : lit sg u -> glob w o p t -> glob w o (sg ++ p) (u ++ t).
Proof. induction 1; intros H'; simpl; [exact H'|]. apply glob_lit; auto. Qed.
Lemma lit_split sg u : lit sg u -> forall p s, glob w o (sg ++ p) s ->
  exists v t, s = v ++ t /\ length v = length sg /\ glob w o p t.
Proof.
  induction 1 as [|c d sg u C D L IH]; intros p s H; [exists [], s; auto|].
  simpl in H. apply glob_lit_inv in H; [|exact C]. destruct H as [e [t' [-> [_ H]]]].
  destruct (IH p t' H) as [v [t [-> [LV G]]]]. exists (e :: v), t. simpl. auto.
Qed.
Lemma app_len_inv {A} (a b c d : list A) : a ++ b = c ++ d -> length a = length c -> a = c /\ b = d.
Proof.
  revert c. induction a as [|x a IH]; intros [|y c] E L; simpl in *; try lia; [auto|].
  inversion E. destruct (IH c H1 ltac:(lia)) as [-> ->]. auto.
Qed.

(* (a) next wildcard: nothing lost by taking the first place *)
Lemma star_cut sg u p t : lit sg u ->
  glob w o (w :: sg ++ w :: p) (u ++ t) <-> glob w o (w :: p) t.
Proof.
  intros L. split; intros H.
  - apply glob_star_inv in H. destruct H as [x [t' [E H]]].
    apply (lit_split sg u L) in H. destruct H as [v [t'' [-> [LV H]]]].
    rewrite app_assoc in E. pose proof (lit_length _ _ L) as LU.
    assert (exists y, t = y ++ t'') as [y ->].
    { assert (length (x ++ v) >= length u) by (rewrite app_length; lia). clear - E H0.
      exists (skipn (length u) (x ++ v)).
      assert (skipn (length u) (u ++ t) = skipn (length u) ((x ++ v) ++ t'')) as Q by (rewrite E; reflexivity).
      rewrite skipn_app, skipn_all, Nat.sub_diag in Q. simpl in Q. rewrite Q, skipn_app.
      replace (length u - length (x ++ v)) with 0 by lia. reflexivity. }
    apply glob_star_ext, H.
  - apply (glob_star w o [] (sg ++ w :: p) (u ++ t)). apply lit_glob; assumption.
Qed.
Lemma star_step p d t : ~ glob w o p (d :: t) -> (glob w o (w :: p) (d :: t) <-> glob w o (w :: p) t).
Proof.
  intros N. split; intros H.
  - apply glob_star_inv in H. destruct H as [x [t' [E H]]]. destruct x as [|y x]; simpl in E.
    + subst t'. contradiction.
    + inversion E; subst. apply glob_star, H.
  - apply (glob_star_ext p t [d]), H.
Qed.

Lemma skipn_nth {A} (l a b : list A) : l = a ++ b -> skipn (length a) l = b.
Proof. intros ->. rewrite skipn_app, skipn_all, Nat.sub_diag. reflexivity. Qed.

Variables (pat test : list nat).
Hypothesis (HP : isStr pat) (HT : isStr test).

Lemma scanWild_ok : forall fuel ppos tpos pctr i a sg p b u t,
  pat = a ++ w :: sg ++ p -> length a = ppos -> test = b ++ u ++ t -> length b = tpos + pctr ->
  lit sg u -> length sg = i ->
  (length p + length sg + length u + length t) * (length pat + 2) + length pat + 1 - i < fuel ->
  exists r, scanWild fuel test pat w o ppos tpos pctr i = Ok r /\ (r = true <-> glob w o (w :: sg ++ p) (u ++ t)).
Proof.
  induction fuel as [|f IH]; intros ppos tpos pctr i a sg p b u t EP LA ET LB L LS HF; [lia|].
  pose proof (lit_length _ _ L) as LU.
  assert (LPAT : length pat = length a + 1 + i + length p) by (rewrite EP, app_length; simpl; rewrite app_length; lia).
  cbn [scanWild].
  assert (R1 : rd pat (ppos + 1 + i) = Ok (match p with [] => 0 | c :: _ => c end)).
  { replace (ppos + 1 + i) with (length (a ++ w :: sg)) by (rewrite app_length; simpl; lia).
    apply rd_suffix. rewrite EP, <- app_assoc. reflexivity. }
  assert (R2 : rd test (tpos + pctr + i) = Ok (match t with [] => 0 | c :: _ => c end)).
  { replace (tpos + pctr + i) with (length (b ++ u)) by (rewrite app_length; lia).
    apply rd_suffix. rewrite ET, <- app_assoc. reflexivity. }
  rewrite R1. cbn [rbind].
  assert (PNZ : match p with [] => True | c :: _ => c <> 0 end).
  { destruct p as [|c p]; [exact I|]. unfold isStr in HP. rewrite Forall_forall in HP.
    assert (0 < c < 256); [|lia]. apply HP. rewrite EP. apply in_or_app. right. right. apply in_or_app. right. left. reflexivity. }
  assert (TNZ : match t with [] => True | c :: _ => c <> 0 end).
  { destruct t as [|c t]; [exact I|]. unfold isStr in HT. rewrite Forall_forall in HT.
    assert (0 < c < 256); [|lia]. apply HT. rewrite ET. apply in_or_app. right. apply in_or_app. right. left. reflexivity. }
  destruct p as [|c p].
  - (* end of the pattern *)
    replace (0 =? w) with false by (symmetry; apply Nat.eqb_neq; lia). rewrite R2. cbn [rbind].
    replace (0 =? o) with false by (symmetry; apply Nat.eqb_neq; lia).
    destruct t as [|d t].
    + cbn [Nat.eqb negb andb]. exists true. split; [reflexivity|]. split; [intros _|reflexivity].
      apply (glob_star w o [] (sg ++ []) (u ++ [])). apply lit_glob; [exact L|constructor].
    + replace (0 =? d) with false by (symmetry; apply Nat.eqb_neq; congruence).
      replace (d =? 0) with false by (symmetry; apply Nat.eqb_neq; congruence). cbn [negb andb orb].
      assert (NG : ~ glob w o (sg ++ []) (u ++ d :: t)).
      { intros G. apply (lit_split sg u L) in G. destruct G as [v [t' [E [LV G]]]]. apply glob_nil_inv in G. subst t'.
        apply (f_equal (@length nat)) in E. rewrite !app_length in E. simpl in E. lia. }
      assert (exists e s', u ++ d :: t = e :: s') as [e [s' ES]] by (destruct u; simpl; eauto).
      destruct (IH ppos tpos (S pctr) 0 a [] (sg ++ []) (b ++ [e]) [] s') as [r [E1 E2]]; auto.
      * rewrite ET, ES, <- app_assoc. reflexivity.
      * rewrite app_length. simpl. lia.
      * constructor.
      * apply (f_equal (@length nat)) in ES. rewrite app_length in ES. simpl in ES.
        rewrite app_length in *. simpl in *. nia.
      * exists r. split; [exact E1|]. rewrite E2. cbn [app]. rewrite ES in *. symmetry. apply star_step. exact NG.
  - destruct (c =? w) eqn:CW.
    + apply Nat.eqb_eq in CW. subst c.
      destruct (IH (ppos + 1 + i) (tpos + pctr + i) 0 0 (a ++ w :: sg) [] p (b ++ u) [] t) as [r [E1 E2]].
      * rewrite EP, <- app_assoc. reflexivity.
      * rewrite app_length. simpl. lia.
      * rewrite ET, <- app_assoc. reflexivity.
      * rewrite app_length. lia.
      * constructor.
      * reflexivity.
      * simpl length in *. nia.
      * exists r. split; [exact E1|]. rewrite E2. cbn [app]. symmetry. apply star_cut, L.
    + apply Nat.eqb_neq in CW. rewrite R2. cbn [rbind].
      replace (c =? 0) with false by (symmetry; apply Nat.eqb_neq; exact PNZ).
      destruct t as [|d t].
      * replace (0 =? 0) with true by reflexivity. rewrite orb_true_r, andb_true_r.
        replace (c =? 0) with false by (symmetry; apply Nat.eqb_neq; exact PNZ). cbn [negb].
        exists false. split; [reflexivity|]. split; [discriminate|]. intros G. exfalso.
        apply glob_star_inv in G. destruct G as [x [t' [E G]]]. apply (lit_split sg u L) in G.
        destruct G as [v [t'' [-> [LV G]]]]. apply glob_lit_inv in G; [|exact CW]. destruct G as [e [s [-> _]]].
        apply (f_equal (@length nat)) in E. rewrite !app_length in E. simpl in E. lia.
      * replace (d =? 0) with false by (symmetry; apply Nat.eqb_neq; exact TNZ). rewrite orb_false_r.
        destruct (negb (c =? d) && negb (c =? o)) eqn:M.
        -- apply andb_prop in M. destruct M as [M1 M2]. apply negb_true_iff, Nat.eqb_neq in M1, M2.
           assert (NG : ~ glob w o (sg ++ c :: p) (u ++ d :: t)).
           { intros G. apply (lit_split sg u L) in G. destruct G as [v [t' [E [LV G]]]].
             apply app_len_inv in E; [|lia]. destruct E as [_ <-].
             apply glob_lit_inv in G; [|exact CW]. destruct G as [e [s [Q [[R|R] _]]]]; inversion Q; subst; congruence. }
           assert (exists e s', u ++ d :: t = e :: s') as [e [s' ES]] by (destruct u; simpl; eauto).
           destruct (IH ppos tpos (S pctr) 0 a [] (sg ++ c :: p) (b ++ [e]) [] s') as [r [E1 E2]]; auto.
           ++ rewrite ET, ES, <- app_assoc. reflexivity.
           ++ rewrite app_length. simpl. lia.
           ++ constructor.
           ++ apply (f_equal (@length nat)) in ES. rewrite app_length in ES. simpl in ES.
              rewrite app_length in *. simpl in *. nia.
           ++ exists r. split; [exact E1|]. rewrite E2. cbn [app]. rewrite ES in *. symmetry. apply star_step. exact NG.
        -- assert (CD : c = d \/ c = o).
           { apply andb_false_iff in M. destruct M as [M|M]; apply negb_false_iff, Nat.eqb_eq in M; auto. }
           destruct (IH ppos tpos pctr (S i) a (sg ++ [c]) p b (u ++ [d]) t) as [r [E1 E2]]; auto.
           ++ rewrite EP, <- app_assoc. reflexivity.
           ++ rewrite ET, <- app_assoc. reflexivity.
           ++ apply lit_snoc; assumption.
           ++ rewrite app_length. simpl. lia.
           ++ rewrite !app_length. simpl in *. nia.
           ++ exists r. split; [exact E1|]. rewrite E2, <- !app_assoc. reflexivity.
Qed.

Lemma lit_app_glob sg u p t : lit sg u -> glob w o (sg ++ p) (u ++ t) <-> glob w o p t.
Proof.
  intros L. split; [|apply lit_glob, L]. intros G. apply (lit_split sg u L) in G.
  destruct G as [v [t' [E [LV G]]]]. apply app_len_inv in E; [|rewrite <- (lit_length _ _ L); lia].
  destruct E as [_ ->]. exact G.
Qed.

Hypothesis (WT : ~ In w test).
Lemma scanLit_ok : forall fuel ppos sg p u t,
  pat = sg ++ p -> test = u ++ t -> lit sg u -> length sg = ppos -> length p < fuel ->
  exists ppos' sg' p' u' t', scanLit fuel test pat o ppos = Ok ppos' /\
    pat = sg' ++ p' /\ test = u' ++ t' /\ lit sg' u' /\ length sg' = ppos' /\
    match p' with
    | [] => True
    | c :: _ => c = w \/ (c <> w /\ match t' with [] => True | d :: _ => c <> d /\ c <> o end)
    end.
Proof.
  induction fuel as [|f IH]; intros ppos sg p u t EP ET L LS HF; [lia|].
  pose proof (lit_length _ _ L) as LU. cbn [scanLit].
  assert (R1 : rd pat ppos = Ok (match p with [] => 0 | c :: _ => c end)) by (rewrite <- LS; apply rd_suffix; exact EP).
  assert (R2 : rd test ppos = Ok (match t with [] => 0 | c :: _ => c end)) by (rewrite <- LS, LU; apply rd_suffix; exact ET).
  rewrite R1, R2. cbn [rbind].
  assert (PNZ : match p with [] => True | c :: _ => c <> 0 end).
  { destruct p as [|c p]; [exact I|]. unfold isStr in HP. rewrite Forall_forall in HP.
    assert (0 < c < 256); [|lia]. apply HP. rewrite EP. apply in_or_app. right. left. reflexivity. }
  assert (TNZ : match t with [] => True | c :: _ => c <> 0 /\ c <> w end).
  { destruct t as [|c t]; [exact I|]. assert (IC : In c test) by (rewrite ET; apply in_or_app; right; left; reflexivity).
    unfold isStr in HT. rewrite Forall_forall in HT. specialize (HT c IC). split; [lia|]. intros ->. contradiction. }
  destruct p as [|c p].
  { rewrite andb_false_r. exists ppos, sg, [], u, t. repeat split; auto. }
  replace (c =? 0) with false by (symmetry; apply Nat.eqb_neq; exact PNZ). rewrite andb_true_r.
  destruct t as [|d t].
  - replace (c =? 0) with false by (symmetry; apply Nat.eqb_neq; exact PNZ). cbn [Nat.eqb negb orb]. rewrite andb_false_r.
    exists ppos, sg, (c :: p), u, []. repeat split; auto. destruct (Nat.eq_dec c w); auto.
  - destruct TNZ as [D0 DW]. replace (d =? 0) with false by (symmetry; apply Nat.eqb_neq; exact D0). rewrite andb_true_r.
    destruct ((c =? d) || (c =? o)) eqn:M.
    + apply orb_prop in M. rewrite !Nat.eqb_eq in M.
      apply (IH (S ppos) (sg ++ [c]) p (u ++ [d]) t).
      * rewrite EP, <- app_assoc. reflexivity.
      * rewrite ET, <- app_assoc. reflexivity.
      * apply lit_snoc; auto. intros ->. destruct M; congruence.
      * rewrite app_length. simpl. lia.
      * simpl in HF. lia.
    + apply orb_false_elim in M. rewrite !Nat.eqb_neq in M.
      exists ppos, sg, (c :: p), u, (d :: t). repeat split; auto. destruct (Nat.eq_dec c w); [auto|]. right. tauto.
Qed.

Lemma globMatch_ok fuel :
  (length pat + length test) * (length pat + 2) + length pat + 1 < fuel ->
  exists r, globMatch fuel test pat w o = Ok r /\ (r = true <-> glob w o pat test).
Proof.
  intros HF. unfold globMatch.
  destruct (scanLit_ok fuel 0 [] pat [] test) as [ppos [sg [p [u [t [E [EP [ET [L [LS Q]]]]]]]]]]; auto.
  { constructor. } { lia. }
  rewrite E. cbn [rbind]. pose proof (lit_length _ _ L) as LU.
  assert (R1 : rd pat ppos = Ok (match p with [] => 0 | c :: _ => c end)) by (rewrite <- LS; apply rd_suffix; exact EP).
  assert (R2 : rd test ppos = Ok (match t with [] => 0 | c :: _ => c end)) by (rewrite <- LS, LU; apply rd_suffix; exact ET).
  rewrite R1. cbn [rbind].
  assert (PNZ : match p with [] => True | c :: _ => c <> 0 end).
  { destruct p as [|c p]; [exact I|]. unfold isStr in HP. rewrite Forall_forall in HP.
    assert (0 < c < 256); [|lia]. apply HP. rewrite EP. apply in_or_app. right. left. reflexivity. }
  destruct p as [|c p].
  - cbn [Nat.eqb]. rewrite R2. cbn [rbind]. eexists. split; [reflexivity|].
    assert (G : glob w o pat test <-> glob w o [] t) by (rewrite EP, ET; apply lit_app_glob, L). rewrite G.
    destruct t as [|d t]; [split; [constructor|reflexivity]|].
    assert (d <> 0).
    { unfold isStr in HT. rewrite Forall_forall in HT. assert (0 < d < 256); [|lia]. apply HT. rewrite ET.
      apply in_or_app. right. left. reflexivity. }
    split; [intros Q'; apply Nat.eqb_eq in Q'; contradiction|]. intros G'. apply glob_nil_inv in G'. discriminate.
  - replace (c =? 0) with false by (symmetry; apply Nat.eqb_neq; exact PNZ).
    assert (G : glob w o pat test <-> glob w o (c :: p) t) by (rewrite EP, ET; apply lit_app_glob, L).
    destruct Q as [->|[CW Q]].
    + rewrite Nat.eqb_refl. cbn [negb].
      destruct (scanWild_ok fuel ppos ppos 0 0 sg [] p u [] t) as [r [E1 E2]]; auto; try lia.
      * constructor.
      * rewrite EP, ET in HF. rewrite EP. rewrite !app_length in *. simpl in *. nia.
      * exists r. split; [exact E1|]. rewrite E2, G. reflexivity.
    + replace (c =? w) with false by (symmetry; apply Nat.eqb_neq; exact CW). cbn [negb].
      exists false. split; [reflexivity|]. split; [discriminate|]. rewrite G. intros G'. exfalso.
      apply glob_lit_inv in G'; [|exact CW]. destruct G' as [d [t' [-> [R _]]]]. tauto.
Qed.
End Glob.

(* ---------- special patterns ---------- *)
Lemma strEq_ok a b : strEq a b = true <-> a = b.
Proof.
  unfold strEq. split.
  - destruct (strcmp a b) eqn:E; try discriminate. intros _. apply strcmp_eq, E.
  - intros ->. rewrite strcmp_refl. reflexivity.
Qed.
Lemma labNum_ok env l : env_ok env ->
  exists z, labNum env l = Ok z /\
    ((z = (-1)%Z /\ forall k, ~ asrtNamed env l k) \/
     (exists k, z = Z.of_nat k /\ asrtNamed env l k /\ forall j, asrtNamed env l j -> j = k)).
Proof.
  intros [sorted [Q [LO [all E]]]]. destruct (tables_ok _ _ Q LO) as [dups [all' [asrt [E2 [D [LK _]]]]]].
  rewrite E in E2. apply Ok_inj in E2. inversion E2; subst. unfold labNum.
  destruct (LK l) as [r [ER HR]]. rewrite ER. cbn [rbind]. eexists. split; [reflexivity|]. destruct r as [k|].
  - right. exists k. split; [reflexivity|]. split; [exact HR|]. intros j [Hj _].
    destruct (Nat.eq_dec j k) as [|N]; [assumption|]. exfalso. apply (D k). exists l, j. destruct HR. auto.
  - left. split; [reflexivity|]. intros k [A B]. apply (HR k); assumption.
Qed.
Lemma asrtNamed_range env l k : asrtNamed env l k -> 1 <= k <= length (e_stmts env).
Proof. intros [H _]. apply hasLabel_lab in H. apply inb_range. apply H. Qed.

Lemma instr_tilde a b : ~ In 126 a -> instr 1 (a ++ 126 :: b) [126] = length a + 1.
Proof.
  intros N. destruct (instr_ok 1 (a ++ 126 :: b) [126] ltac:(discriminate)) as [[_ H]|[q [E [O [_ M]]]]].
  - exfalso. apply (H (length a + 1)); [lia|]. exists a, b. auto.
  - rewrite E. assert (q <= length a + 1) by (apply M; [lia|exists a, b; auto]).
    destruct O as [x [y [EQ ->]]]. destruct (Nat.eq_dec (length x) (length a)); [lia|]. exfalso.
    apply N. assert (LT : length x < length a) by lia.
    assert (NE : nth_error (a ++ 126 :: b) (length x) = Some 126) by (rewrite EQ, nth_error_app2, Nat.sub_diag by lia; reflexivity).
    rewrite nth_error_app1 in NE by exact LT. eapply nth_error_In; eassumption.
Qed.
Lemma instr_none pat : ~ In 126 pat -> instr 1 pat [126] = 0.
Proof.
  intros N. destruct (instr_ok 1 pat [126] ltac:(discriminate)) as [[E _]|[q [_ [[x [y [-> _]]] _]]]]; [exact E|].
  exfalso. apply N. apply in_or_app. right. left. reflexivity.
Qed.

Lemma matches_range env test a b o fuel : env_ok env -> isStr (a ++ 126 :: b) -> ~ In 126 a ->
  exists r, matches fuel env test (a ++ 126 :: b) 42 o = Ok r /\
    (r = true <-> exists k, asrtNamed env test k /\
       (a = [] \/ exists i, asrtNamed env a i /\ i <= k) /\ (b = [] \/ exists j, asrtNamed env b j /\ k <= j)).
Proof.
  intros HE HS N. unfold matches. cbn [Nat.eqb]. rewrite (instr_tilde a b N). set (i := length a + 1).
  replace (i =? 0) with false by (symmetry; apply Nat.eqb_neq; lia). cbn [negb].
  set (r1 := if i =? 1 then _ else _).
  assert (H1 : exists z, r1 = Ok z /\ (forall k, (1 <= Z.of_nat k)%Z -> (((1 <=? z) && (z <=? Z.of_nat k))%Z = true <-> (a = [] \/ exists i, asrtNamed env a i /\ i <= k)))).
  { unfold r1. destruct (i =? 1) eqn:I1.
    - apply Nat.eqb_eq in I1. assert (a = []) by (destruct a; [reflexivity|unfold i in I1; simpl in I1; lia]).
      exists 1%Z. split; [reflexivity|]. intros k Hk. split; [auto|]. intros _. apply andb_true_intro. split; [reflexivity|apply Z.leb_le; exact Hk].
    - apply Nat.eqb_neq in I1. assert (a <> []) by (intros ->; apply I1; reflexivity).
      replace (Z.of_nat i - 1)%Z with (Z.of_nat (length a)) by (unfold i; lia).
      rewrite left_ok by exact HS. cbn [rbind]. unfold substr. rewrite Nat.add_sub. cbn [Nat.sub skipn].
      rewrite firstn_app, Nat.sub_diag, firstn_all, app_nil_r.
      destruct (labNum_ok env a HE) as [z [E Z0]]. exists z. split; [exact E|]. intros k Hk. split.
      + intros Q. apply andb_prop in Q. rewrite !Z.leb_le in Q. right. destruct Z0 as [[-> _]|[j [-> [A B]]]]; [lia|]. exists j. split; [exact A|lia].
      + intros [->|[j [A B]]]; [congruence|]. destruct Z0 as [[_ Q]|[j' [-> [A' B']]]]; [exfalso; apply (Q j A)|].
        rewrite (B' j A) in B. pose proof (asrtNamed_range _ _ _ A'). apply andb_true_intro. rewrite !Z.leb_le. lia. }
  destruct H1 as [z1 [-> Z1]]. cbn [rbind].
  destruct (labNum_ok env test HE) as [z2 [E2 Z2]]. rewrite E2. cbn [rbind].
  set (r3 := if i =? length (a ++ 126 :: b) then _ else _).
  assert (H3 : exists z, r3 = Ok z /\ (forall k, 1 <= k <= length (e_stmts env) -> (((1 <=? z) && (Z.of_nat k <=? z))%Z = true <-> (b = [] \/ exists i, asrtNamed env b i /\ k <= i)))).
  { unfold r3. destruct (i =? length (a ++ 126 :: b)) eqn:I1.
    - apply Nat.eqb_eq in I1. rewrite app_length in I1. simpl in I1. assert (b = []) by (destruct b; [reflexivity|unfold i in I1; simpl in I1; lia]).
      eexists. split; [reflexivity|]. intros k Hk. split; [auto|]. intros _. apply andb_true_intro. rewrite !Z.leb_le. lia.
    - apply Nat.eqb_neq in I1. rewrite app_length in I1. simpl in I1. assert (b <> []) by (intros ->; apply I1; unfold i; simpl; lia).
      replace (Z.of_nat i + 1)%Z with (Z.of_nat (length a + 2)) by (unfold i; lia).
      rewrite right_ok; [|exact HS|rewrite app_length; destruct b; simpl length; [congruence|lia]]. cbn [rbind].
      unfold substr. rewrite firstn_all2 by (rewrite skipn_length; rewrite app_length; simpl; lia).
      replace (a ++ 126 :: b) with ((a ++ [126]) ++ b) by (rewrite <- app_assoc; reflexivity).
      replace (length a + 2 - 1) with (length (a ++ [126])) by (rewrite app_length; simpl; lia).
      rewrite (skipn_nth _ _ _ eq_refl).
      destruct (labNum_ok env b HE) as [z [E Z0]]. exists z. split; [exact E|]. intros k Hk. split.
      + intros Q. apply andb_prop in Q. rewrite !Z.leb_le in Q. right. destruct Z0 as [[-> _]|[j [-> [A B]]]]; [lia|]. exists j. split; [exact A|lia].
      + intros [->|[j [A B]]]; [congruence|]. destruct Z0 as [[_ Q]|[j' [-> [A' B']]]]; [exfalso; apply (Q j A)|].
        rewrite (B' j A) in B. pose proof (asrtNamed_range _ _ _ A'). apply andb_true_intro. rewrite !Z.leb_le. lia. }
  destruct H3 as [z3 [-> Z3]]. cbn [rbind]. eexists. split; [reflexivity|].
  rewrite !andb_true_iff. split.
  - intros [[[[A1 A2] A3] A4] A5]. destruct Z2 as [[-> _]|[k [-> [K1 K2]]]]; [discriminate|].
    exists k. split; [exact K1|]. pose proof (asrtNamed_range _ _ _ K1). split.
    + apply Z1; [lia|]. rewrite A1, A4. reflexivity.
    + apply Z3; [lia|]. rewrite A3, A5. reflexivity.
  - intros [k [K1 [K2 K3]]]. destruct Z2 as [[_ Q]|[k' [-> [K1' U]]]]; [exfalso; apply (Q k K1)|].
    rewrite (U k K1) in *. clear k K1. pose proof (asrtNamed_range _ _ _ K1').
    apply Z1 in K2; [|lia]. apply Z3 in K3; [|lia]. apply andb_prop in K2, K3. destruct K2, K3. repeat split; auto. apply Z.leb_le; lia.
Qed.

Lemma decimal_snoc s : forall c acc, decimal (s ++ [c]) acc =
  match decimal s acc with Some v => if (48 <=? c) && (c <=? 57) then Some (10 * v + (c - 48)) else None | None => None end.
Proof.
  induction s as [|d s IH]; intros c acc; cbn [decimal app]; [destruct ((48 <=? c) && (c <=? 57)); reflexivity|].
  destruct ((48 <=? d) && (d <=? 57)); [apply IH|reflexivity].
Qed.
Lemma valLoop_ok s : forall n v p, decimal s 0 = Some n -> valLoop (rev s) v p false = (v + Z.of_nat n * p)%Z.
Proof.
  induction s as [|c s IH] using rev_ind; intros n v p H.
  - simpl in H. inversion H; subst. simpl. lia.
  - rewrite decimal_snoc in H. destruct (decimal s 0) as [m|] eqn:E; [|discriminate].
    rewrite rev_app_distr. cbn [rev app valLoop]. destruct ((48 <=? c) && (c <=? 57)); [|discriminate]. 
    assert (n = 10 * m + (c - 48)) by congruence. subst n.
    rewrite (IH m _ _ eq_refl). lia.
Qed.
Lemma val_ok s n : decimal s 0 = Some n -> val_ s = Z.of_nat n.
Proof. intros H. unfold val_. rewrite (valLoop_ok s n 0 1 H). lia. Qed.

Definition digits_no_tilde d n : decimal d 0 = Some n -> ~ In 126 d.
Proof.
  intros H I. apply in_split in I. destruct I as [a [b ->]].
  assert (G : forall a acc, decimal (a ++ 126 :: b) acc = None).
  { induction a0 as [|x a0 IH]; intros acc; cbn [decimal app]; [reflexivity|].
    destruct ((48 <=? x) && (x <=? 57)); [apply IH|reflexivity]. }
  rewrite G in H. discriminate.
Qed.
Lemma digits_isStr d n : decimal d 0 = Some n -> isStr d.
Proof.
  unfold isStr. generalize 0 at 1 as acc. induction d as [|c d IH]; intros acc H; [constructor|]. cbn [decimal] in H.
  destruct ((48 <=? c) && (c <=? 57)) eqn:E; [|discriminate]. apply andb_prop in E. rewrite !Nat.leb_le in E.
  constructor; [lia|eapply IH; eassumption].
Qed.
Lemma matches_number env test d n o fuel : decimal d 0 = Some n ->
  exists r, matches fuel env test (35 :: d) 42 o = Ok r /\
    (r = true <-> exists s, lnth (e_stmts env) n = Some s /\ l_label s = test).
Proof.
  intros H. unfold matches. cbn [Nat.eqb]. rewrite instr_none.
  2:{ intros [Q|Q]; [discriminate|]. eapply digits_no_tilde; eassumption. }
  cbn [Nat.eqb negb]. unfold rd. cbn [app nth_error rget rbind Nat.eqb].
  change 2%Z with (Z.of_nat 2). rewrite right_ok; [|constructor; [lia|eapply digits_isStr; eassumption]|simpl length; lia].
  cbn [rbind]. replace (substr (35 :: d) 2 (length (35 :: d))) with d.
  2:{ unfold substr. cbn [Nat.sub skipn length]. rewrite firstn_all2; [reflexivity|lia]. }
  rewrite (val_ok d n H). destruct ((Z.of_nat n <? 1) || (Z.of_nat (length (e_stmts env)) <? Z.of_nat n))%Z eqn:E.
  - exists false. split; [reflexivity|]. split; [discriminate|]. intros [s [Hs _]]. exfalso.
    assert (inb (e_stmts env) n) by (exists s; exact Hs). apply inb_range in H0.
    apply orb_prop in E. rewrite !Z.ltb_lt in E. lia.
  - apply orb_false_elim in E. rewrite !Z.ltb_ge in E. rewrite Nat2Z.id.
    assert (B : inb (e_stmts env) n) by (apply inb_range; lia). rewrite labelOf_ok by exact B. cbn [rbind].
    eexists. split; [reflexivity|]. rewrite strEq_ok. destruct B as [s Hs]. unfold lab. rewrite Hs.
    split; [eauto|]. intros [s' [Hs' L]]. congruence.
Qed.
Lemma matches_page env test d n o fuel : env_ok env -> decimal d 0 = Some n ->
  exists r, matches fuel env test (64 :: d) 42 o = Ok r /\
    (r = true <-> exists k, asrtNamed env test k /\ e_pink env k = Z.of_nat n).
Proof.
  intros HE H. unfold matches. cbn [Nat.eqb]. rewrite instr_none.
  2:{ intros [Q|Q]; [discriminate|]. eapply digits_no_tilde; eassumption. }
  cbn [Nat.eqb negb]. unfold rd. cbn [app nth_error rget rbind Nat.eqb].
  destruct (labNum_ok env test HE) as [z [E Z0]]. rewrite E. cbn [rbind].
  destruct Z0 as [[-> N]|[k [-> [K U]]]].
  - exists false. split; [reflexivity|]. split; [discriminate|]. intros [k [A _]]. exfalso. apply (N k A).
  - pose proof (asrtNamed_range _ _ _ K). replace (Z.of_nat k <? 1)%Z with false by (symmetry; apply Z.ltb_ge; lia).
    change 2%Z with (Z.of_nat 2). rewrite right_ok; [|constructor; [lia|eapply digits_isStr; eassumption]|simpl length; lia].
    cbn [rbind]. replace (substr (64 :: d) 2 (length (64 :: d))) with d.
    2:{ unfold substr. cbn [Nat.sub skipn length]. rewrite firstn_all2; [reflexivity|lia]. }
    rewrite (val_ok d n H), Nat2Z.id. eexists. split; [reflexivity|]. rewrite Z.eqb_eq.
    split; [eauto|]. intros [j [A B]]. rewrite <- (U j A). exact B.
Qed.
Lemma matches_prove env test o fuel : env_ok env -> (0 <= e_prove env)%Z ->
  exists r, matches fuel env test [61] 42 o = Ok r /\
    (r = true <-> exists k, asrtNamed env test k /\ e_prove env = Z.of_nat k).
Proof.
  intros HE HP. unfold matches. cbn -[labNum].
  destruct (labNum_ok env test HE) as [z [E Z0]]. rewrite E. cbn [rbind]. eexists. split; [reflexivity|].
  rewrite Z.eqb_eq. destruct Z0 as [[-> N]|[k [-> [K U]]]].
  - split; [lia|]. intros [k [A _]]. exfalso. apply (N k A).
  - split; [eauto|]. intros [j [A B]]. rewrite <- (U j A). exact B.
Qed.
Lemma matches_changed env test o fuel : env_ok env ->
  exists r, matches fuel env test [37] 42 o = Ok r /\
    (r = true <-> exists k s, asrtNamed env test k /\ lnth (e_stmts env) k = Some s /\ l_kind s = K_p /\ e_changed env k = true).
Proof.
  intros HE. unfold matches. cbn -[labNum Z.ltb].
  destruct (labNum_ok env test HE) as [z [E Z0]]. rewrite E. cbn [rbind].
  destruct Z0 as [[-> N]|[k [-> [K U]]]].
  - exists false. split; [reflexivity|]. split; [discriminate|]. intros [k [s [A _]]]. exfalso. apply (N k A).
  - pose proof (asrtNamed_range _ _ _ K). replace (0 <? Z.of_nat k)%Z with true by (symmetry; apply Z.ltb_lt; lia).
    rewrite Nat2Z.id. destruct K as [K1 K2]. pose proof K2 as [s [Hs _]].
    unfold kindOf. rewrite Hs. cbn [rget rbind]. eexists. split; [reflexivity|]. split.
    + intros Q. exists k, s. destruct (l_kind s) eqn:KD; try discriminate. split; [split; assumption|]. repeat split; auto.
    + intros [j [s' [A [B [C D]]]]]. rewrite (U j A) in *. rewrite Hs in B. inversion B; subst s'. rewrite C. exact D.
Qed.

Lemma matches_glob env test pat w o fuel :
  isStr pat -> isStr test -> w <> 0 -> o <> 0 -> w <> o -> ~ In w test -> (w = 42 -> ~ special pat) ->
  (length pat + length test) * (length pat + 2) + length pat + 1 < fuel ->
  exists r, matches fuel env test pat w o = Ok r /\ (r = true <-> glob w o pat test).
Proof.
  intros HP HT W0 O0 WO WT NS HF. unfold matches. destruct (w =? 42) eqn:W.
  2:{ apply globMatch_ok; assumption. }
  apply Nat.eqb_eq in W. specialize (NS W). unfold special in NS.
  rewrite instr_none by tauto. cbn [Nat.eqb negb].
  assert (R : rd pat 0 = Ok (match pat with [] => 0 | c :: _ => c end)) by (apply (rd_suffix pat [] pat); reflexivity).
  rewrite R. cbn [rbind].
  replace ((match pat with [] => 0 | c :: _ => c end) =? 35) with false.
  2:{ symmetry. apply Nat.eqb_neq. intros Q. apply NS. right. left. destruct pat as [|c p]; [discriminate|]. exists p. congruence. }
  replace ((match pat with [] => 0 | c :: _ => c end) =? 64) with false.
  2:{ symmetry. apply Nat.eqb_neq. intros Q. apply NS. right. right. left. destruct pat as [|c p]; [discriminate|]. exists p. congruence. }
  destruct (strEq pat [61]) eqn:E1; [apply strEq_ok in E1; tauto|].
  destruct (strEq pat [37]) eqn:E2; [apply strEq_ok in E2; tauto|].
  apply globMatch_ok; assumption.
Qed.

(* ---------- lists ---------- *)
Lemma matchesLoop_ok fuel env test pat w o : isStr pat ->
  (forall f, In f (fields pat) -> exists r, matches fuel env test f w o = Ok r) ->
  forall n i, i + n = length (fields pat) ->
  exists r, matchesLoop fuel env test pat w o (S i) n = Ok r /\
    (r = true <-> exists k f, i <= k /\ nth_error (fields pat) k = Some f /\ matches fuel env test f w o = Ok true).
Proof.
  intros HP HM. induction n as [|n IH]; intros i L.
  - exists false. split; [reflexivity|]. split; [discriminate|]. intros [k [f [A [B _]]]].
    assert (k < length (fields pat)) by (apply nth_error_Some; congruence). lia.
  - cbn [matchesLoop]. replace (Z.of_nat (S i)) with (Z.of_nat i + 1)%Z by lia. rewrite entry_ok by exact HP. cbn [rbind].
    destruct (nth_error (fields pat) i) as [f|] eqn:N; [|apply nth_error_None in N; lia].
    rewrite (nth_error_nth _ _ _ N). destruct (HM f (nth_error_In _ _ N)) as [r Er]. rewrite Er. cbn [rbind].
    destruct r.
    + exists true. split; [reflexivity|]. split; [|reflexivity]. intros _. exists i, f. auto.
    + destruct (IH (S i) ltac:(lia)) as [r [E R]]. exists r. split; [exact E|]. rewrite R. split.
      * intros [k [g [A [B C]]]]. exists k, g. split; [lia|auto].
      * intros [k [g [A [B C]]]]. exists k, g. destruct (Nat.eq_dec k i) as [->|D]; [|split; [lia|auto]].
        rewrite N in B. inversion B; subst. congruence.
Qed.
Lemma matchesList_ok fuel env test pat w o : isStr pat -> pat <> [] ->
  (forall f, In f (fields pat) -> exists r, matches fuel env test f w o = Ok r) ->
  exists r, matchesList fuel env test pat w o = Ok r /\
    (r = true <-> exists f, In f (fields pat) /\ matches fuel env test f w o = Ok true).
Proof.
  intros HP NE HM. unfold matchesList. rewrite numEntries_ok by exact NE.
  destruct (matchesLoop_ok fuel env test pat w o HP HM (length (fields pat)) 0 eq_refl) as [r [E R]].
  exists r. split; [exact E|]. rewrite R. split.
  - intros [k [f [_ [A B]]]]. exists f. split; [eapply nth_error_In; eassumption|exact B].
  - intros [f [A B]]. apply In_nth_error in A. destruct A as [k A]. exists k, f. split; [lia|auto].
Qed.
Lemma matchesList_empty fuel env test w o : matchesList fuel env test [] w o = Ok false.
Proof. reflexivity. Qed.

Lemma matches_total env test pat w o fuel : env_ok env ->
  isStr pat -> isStr test -> w <> 0 -> o <> 0 -> w <> o -> ~ In w test ->
  (length pat + length test) * (length pat + 2) + length pat + 1 < fuel ->
  exists r, matches fuel env test pat w o = Ok r.
Proof.
  intros HE HP HT W0 O0 WO WT HF.
  assert (LN : forall l, exists z, labNum env l = Ok z /\ ((z < 1)%Z \/ inb (e_stmts env) (Z.to_nat z))).
  { intros l. destruct (labNum_ok env l HE) as [z [E Z0]]. exists z. split; [exact E|].
    destruct Z0 as [[-> _]|[k [-> [A _]]]]; [left; lia|right]. rewrite Nat2Z.id. apply inb_range. eapply asrtNamed_range; eassumption. }
  assert (RT : forall n, 1 <= n <= length pat + 1 -> exists r, right_ pat (Z.of_nat n) = Ok r).
  { intros n Hn. rewrite right_ok by assumption. eauto. }
  destruct (globMatch_ok w o W0 O0 WO pat test HP HT WT fuel HF) as [g [EG _]].
  unfold matches. destruct (w =? 42) eqn:W; [|eauto].
  destruct (in_dec Nat.eq_dec 126 pat) as [I|NI].
  { subst. apply Nat.eqb_eq in W. subst w.
    assert (exists a b, pat = a ++ 126 :: b /\ ~ In 126 a) as [a [b [-> N]]].
    { clear - I. induction pat as [|c p IH]; [destruct I|]. destruct (Nat.eq_dec c 126) as [->|D].
      - exists [], p. auto.
      - destruct I as [Q|I]; [congruence|]. destruct (IH I) as [a [b [-> N]]]. exists (c :: a), b. split; [reflexivity|].
        intros [Q|Q]; [congruence|contradiction]. }
    destruct (matches_range env test a b o fuel HE HP N) as [r [E _]]. exists r. exact E. }
  rewrite instr_none by exact NI. cbn [Nat.eqb negb].
  assert (R : rd pat 0 = Ok (match pat with [] => 0 | c :: _ => c end)) by (apply (rd_suffix pat [] pat); reflexivity).
  rewrite R. cbn [rbind]. destruct pat as [|c p].
  - cbn [Nat.eqb]. unfold strEq. cbn [strcmp]. eauto.
  - destruct (RT 2) as [r2 E2]; [simpl; lia|]. change (Z.of_nat 2) with 2%Z in E2.
    destruct (c =? 35).
    + rewrite E2. cbn [rbind]. destruct (_ || _)%bool eqn:Q; [eauto|].
      apply orb_false_elim in Q. rewrite !Z.ltb_ge in Q. rewrite labelOf_ok by (apply inb_range; lia). cbn [rbind]. eauto.
    + destruct (LN test) as [z [EZ HZ]]. rewrite EZ. cbn [rbind]. destruct (c =? 64).
      * destruct (z <? 1)%Z; [eauto|]. rewrite E2. cbn [rbind]. eauto.
      * destruct (strEq (c :: p) [61]); [eauto|]. destruct (strEq (c :: p) [37]); [|eauto].
        destruct (0 <? z)%Z eqn:Q; [|eauto]. apply Z.ltb_lt in Q. destruct HZ as [HZ|HZ]; [lia|].
        rewrite kindOf_ok by exact HZ. cbn [rbind]. eauto.
Qed.
Lemma field_le s : forall f, In f (fields s) -> length f <= length s /\ (isStr s -> isStr f).
Proof.
  intros f H. apply In_nth_error in H. destruct H as [k H]. destruct (field_at s k f H) as [A [B _]].
  split; [lia|]. intros HS. rewrite <- A. apply isStr_firstn, isStr_skipn, HS.
Qed.
Lemma matchesList_union fuel env test pat w o : env_ok env ->
  isStr pat -> isStr test -> w <> 0 -> o <> 0 -> w <> o -> ~ In w test ->
  (length pat + length test) * (length pat + 2) + length pat + 1 < fuel ->
  exists r, matchesList fuel env test pat w o = Ok r /\
    (r = true <-> pat <> [] /\ exists f, In f (fields pat) /\ matches fuel env test f w o = Ok true).
Proof.
  intros HE HP HT W0 O0 WO WT HF. destruct pat as [|c p] eqn:EP.
  - exists false. split; [reflexivity|]. split; [discriminate|]. intros [Q _]; congruence.
  - rewrite <- EP in *. clear EP c p. destruct (list_eq_dec Nat.eq_dec pat []) as [->|NE].
    { exists false. split; [reflexivity|]. split; [discriminate|]. intros [Q _]; congruence. }
    destruct (matchesList_ok fuel env test pat w o HP NE) as [r [E R]].
    { intros f Hf. destruct (field_le pat f Hf) as [L1 L2]. apply matches_total; auto. nia. }
    exists r. split; [exact E|]. rewrite R. tauto.
Qed.
