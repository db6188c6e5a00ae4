(* MbxProofs.v *)
From Verif Require Import Base VstrModel VstrSpec VstrProofs MbxModel MbxSpec.
From Coq Require Import Sorted.
Open Scope nat_scope.

Lemma occ_pos m s p : occurs m s p -> 1 <= p <= length s + 1.
Proof. intros (a & b & -> & ->). rewrite app_length. lia. Qed.
Lemma occ_tag s p : occurs TAG s p -> p + 12 <= length s + 1.
Proof. intros (a & b & -> & ->). rewrite !app_length. cbn. lia. Qed.
Lemma tag_ne : TAG <> [].
Proof. discriminate. Qed.

Lemma lastTag_ok s : forall fuel p, length s + 1 < fuel + p -> (p = 0 \/ occurs TAG s p) ->
  exists r, lastTag fuel s p = Ok r /\ (r = 0 \/ occurs TAG s r) /\ p <= r /\ forall q, occurs TAG s q -> q <= r \/ q <= p.
Proof.
  induction fuel as [|f IH]; intros p HF HP; cbn [lastTag].
  - exfalso. destruct HP as [->|HP]; [lia|]. apply occ_pos in HP. lia.
  - destruct (instr_ok (Z.of_nat p + 1) s TAG tag_ne) as [[E N]|[q [E [O [L M]]]]].
    + rewrite E. cbn [Nat.eqb]. exists p. split; [reflexivity|]. split; [exact HP|]. split; [lia|]. intros q Oq.
      destruct (Nat.le_gt_cases q p); [auto|]. exfalso. apply (N q); [lia|exact Oq].
    + rewrite E. pose proof (occ_pos _ _ _ O) as OP. destruct (Nat.eqb_spec q 0); [lia|].
      destruct (IH q ltac:(lia) (or_intror O)) as (r & R & Rr & Rp & Rm). exists r. split; [exact R|]. split; [exact Rr|]. split; [lia|].
      intros q' O'. destruct (Rm q' O'); [auto|]. left. lia.
Qed.
Lemma lastTag_top fuel s : length s + 1 < fuel -> exists r, lastTag fuel s 0 = Ok r /\
  ((r = 0 /\ ~ opens s) \/ (0 < r /\ occurs TAG s r /\ forall q, occurs TAG s q -> q <= r)).
Proof.
  intros HF. destruct (lastTag_ok s fuel 0 ltac:(lia) (or_introl eq_refl)) as (r & R & Rr & _ & Rm). exists r. split; [exact R|].
  assert (MX : forall q, occurs TAG s q -> q <= r) by (intros q O; destruct (Rm q O); [assumption|pose proof (occ_pos _ _ _ O); lia]).
  destruct Rr as [->|O].
  - left. split; [reflexivity|]. intros [q O]. change heading with TAG in O. pose proof (MX q O). pose proof (occ_pos _ _ _ O). lia.
  - right. split; [apply occ_pos in O; lia|]. split; [exact O|exact MX].
Qed.
Lemma occ10 s q : occurs [10] s q <-> 1 <= q /\ nth_error s (q - 1) = Some 10.
Proof.
  split.
  - intros (a & b & -> & ->). split; [lia|]. rewrite Nat.add_sub. rewrite nth_error_app2 by lia. rewrite Nat.sub_diag. reflexivity.
  - intros [L E]. apply nth_error_split in E. destruct E as (a & b & E & La). exists a, b. split; [exact E|]. lia.
Qed.

(* one headed section *)
Lemma one_ok s u : isStr s -> headed s u -> forall r, occurs TAG s r -> (forall q, occurs TAG s q -> q <= r) ->
  exists q, instr (Z.of_nat r) s [10] = S q /\ seg s (Z.of_nat (r + 12)) (Z.of_nat (S q) - 1) = Ok u.
Proof.
  intros HS (a & b & E & NU & MX) r Or Mr. change heading with TAG in *.
  assert (r = length a + 1).
  { assert (occurs TAG s (length a + 1)) as O by (exists a, (u ++ 10 :: b); split; [rewrite E; reflexivity|reflexivity]).
    apply Mr in O. apply MX in Or. lia. }
  subst r. set (Q := length a + 12 + length u + 1).
  assert (OQ : occurs [10] s Q).
  { exists (a ++ TAG ++ u), b. split; [rewrite E, <- !app_assoc; reflexivity|]. rewrite !app_length. unfold Q. cbn. lia. }
  destruct (instr_ok (Z.of_nat (length a + 1)) s [10] ltac:(discriminate)) as [[E0 N]|[q [Eq [O [L M]]]]].
  { exfalso. apply (N Q); [unfold Q; lia|exact OQ]. }
  assert (EqQ : q = Q).
  { clear Eq. assert (q <= Q) as Lq by (apply (M Q); [unfold Q; lia|exact OQ]).
    destruct (Nat.eq_dec q Q) as [|NE]; [assumption|]. exfalso. apply occ10 in O. destruct O as [O1 O2].
    rewrite E in O2.
    rewrite nth_error_app2 in O2 by lia.
    destruct (Nat.le_gt_cases 12 (q - 1 - length a)) as [B|B].
    - rewrite nth_error_app2 in O2 by (cbn; lia). change (length TAG) with 12 in O2.
      rewrite nth_error_app1 in O2 by (unfold Q in *; lia). apply nth_error_In in O2. contradiction.
    - rewrite nth_error_app1 in O2 by (cbn; lia).
      apply nth_error_In in O2. cbn in O2. intuition discriminate. }
  rewrite EqQ in Eq. exists (Q - 1). split; [rewrite Eq; unfold Q; lia|].
  replace (S (Q - 1)) with Q by (unfold Q; lia). replace (Z.of_nat Q - 1)%Z with (Z.of_nat (Q - 1)) by (unfold Q; lia).
  rewrite seg_ok; [|exact HS|rewrite E, !app_length; cbn; lia]. f_equal. unfold substr, Q.
  replace (length a + 12 + length u + 1 - 1 + 1 - (length a + 1 + 12)) with (length u) by lia.
  replace (length a + 1 + 12 - 1) with (length (a ++ TAG)) by (rewrite app_length; cbn; lia).
  rewrite E, app_assoc, skipn_app, skipn_all, Nat.sub_diag. cbn [app skipn].
  rewrite firstn_app, firstn_all, Nat.sub_diag. cbn. apply app_nil_r.
Qed.

(* the scan of the sections *)
Definition before (x y : nat * list nat) := fst x < fst y.
Definition small (fuel : nat) (sects : list (list nat)) := forall k s, section sects k s -> length s + 1 < fuel.
Definition strs (sects : list (list nat)) := forall k s, section sects k s -> isStr s.

Lemma section_fun sects k s s' : section sects k s -> section sects k s' -> s = s'.
Proof. intros [_ A] [_ B]. congruence. Qed.
Lemma opens_of s u : headed s u -> opens s.
Proof. intros (a & b & E & _). exists (length a + 1). exists a, (u ++ 10 :: b). split; [exact E|reflexivity]. Qed.

Lemma locLoop_ok fuel sects : strs sects -> small fuel sects -> forall n stmt, 1 <= stmt -> stmt + n = length sects + 1 ->
  (forall k s, stmt <= k -> section sects k s -> opens s -> exists u, headed s u) ->
  exists l, locLoop fuel sects n stmt = Ok l /\ StronglySorted before l /\
    forall h u, In (h, u) l <-> stmt <= h /\ exists s, section sects h s /\ headed s u.
Proof.
  intros HS HF. induction n as [|n IH]; intros stmt L1 L2 HL.
  - exists []. split; [reflexivity|]. split; [constructor|]. intros h u. split; [intros []|].
    intros (A & s & [_ B] & _). assert (h - 1 < length sects) by (apply nth_error_Some; congruence). lia.
  - assert (exists s, nth_error sects (stmt - 1) = Some s) as [s Es].
    { destruct (nth_error sects (stmt - 1)) eqn:X; [eauto|]. apply nth_error_None in X. lia. }
    assert (SS : section sects stmt s) by (split; assumption).
    destruct (IH (S stmt) ltac:(lia) ltac:(lia)) as (l & R & So & Me); [intros k s' Lk; apply HL; lia|].
    cbn [locLoop]. rewrite Es. cbn [rget rbind].
    destruct (lastTag_top fuel s (HF _ _ SS)) as (r & Rr & C). rewrite Rr. cbn [rbind].
    destruct C as [[-> NO]|(Pr & Or & Mr)].
    + cbn [Nat.eqb]. exists l. split; [exact R|]. split; [exact So|]. intros h u. rewrite Me. split.
      * intros [A B]. split; [lia|exact B].
      * intros (A & s' & S' & H'). split; [|eauto]. destruct (Nat.eq_dec h stmt) as [->|]; [|lia].
        rewrite (section_fun _ _ _ _ S' SS) in H'. apply opens_of in H'. contradiction.
    + destruct (Nat.eqb_spec r 0); [lia|].
      destruct (HL stmt s (le_n _) SS) as [u Hu]; [exists r; exact Or|].
      destruct (one_ok s u (HS _ _ SS) Hu r Or Mr) as (q & Eq & Es'). rewrite Eq. cbn [Nat.eqb].
      change (length TAG) with 12. rewrite Es'. cbn [rbind]. rewrite R. cbn [rbind].
      exists ((stmt, u) :: l). split; [reflexivity|]. split.
      * constructor; [exact So|]. apply Forall_forall. intros [h v] I. apply Me in I. unfold before. cbn. lia.
      * intros h v. cbn [In]. rewrite Me. split.
        -- intros [E|[A B]]; [inversion E; subst; split; [lia|eauto]|split; [lia|exact B]].
        -- intros (A & s' & S' & H'). destruct (Nat.eq_dec h stmt) as [->|]; [left|right; split; [lia|eauto]].
           rewrite (section_fun _ _ _ _ S' SS) in H'.
           destruct (one_ok s v (HS _ _ SS) H' r Or Mr) as (q2 & Eq2 & Ev). rewrite Eq in Eq2. inversion Eq2; subst q2. congruence.
Qed.

(* the number of a statement's mathbox *)
Lemma num_ok k : forall l, StronglySorted before l ->
  (mathboxNum (map fst l) k = 0 /\ forall x, In x l -> k < fst x) \/
  (exists m x, mathboxNum (map fst l) k = S m /\ nth_error l m = Some x /\ fst x <= k /\
     forall y, In y l -> fst y <= fst x \/ k < fst y).
Proof.
  induction l as [|x l IH]; intros HS; [left; split; [reflexivity|intros ? []]|].
  inversion HS as [|? ? Sl Fl]; subst. cbn [map mathboxNum]. rewrite Forall_forall in Fl. destruct (Nat.ltb_spec k (fst x)) as [L|L].
  - left. split; [reflexivity|]. intros y [<-|I]; [exact L|]. apply Fl in I. unfold before in I. lia.
  - right. destruct (IH Sl) as [[E N]|(m & y & E & Ny & Ly & My)]; rewrite E.
    + exists 0, x. split; [reflexivity|]. split; [reflexivity|]. split; [exact L|]. intros y [<-|I]; [auto|]. right. apply N, I.
    + exists (S m), y. split; [reflexivity|]. split; [exact Ny|]. split; [exact Ly|]. intros z [<-|I]; [|apply My, I].
      apply nth_error_In in Ny. apply Fl in Ny. unfold before in Ny. left. lia.
Qed.
Lemma sorted_inj : forall l, StronglySorted before l -> forall i j x y, nth_error l i = Some x -> nth_error l j = Some y ->
  i < j -> fst x < fst y.
Proof.
  induction 1 as [|z l Sl IH Fl]; intros i j x y Ei Ej L; [destruct i; discriminate|].
  destruct j; [lia|]. cbn in Ej. destruct i; cbn in Ei.
  - inversion Ei; subst. rewrite Forall_forall in Fl. apply Fl. eapply nth_error_In; eassumption.
  - eapply IH; [exact Ei|exact Ej|lia].
Qed.

Section Info.
Context (fuel : nat) (sects : list (list nat)) (mb : nat).
Context (HS : strs sects) (HF : small fuel sects) (HM : mb <= length sects) (HL : lines sects mb).

Definition isBoxes (l : list (nat * list nat)) := StronglySorted before l /\
  forall h u, In (h, u) l <-> mb < h /\ exists s, section sects h s /\ headed s u.
Lemma loc_ok : exists l, mathboxLoc fuel sects mb = Ok l /\ isBoxes l.
Proof.
  destruct (locLoop_ok fuel sects HS HF (length sects - mb) (mb + 1) ltac:(lia) ltac:(lia)) as (l & R & So & Me).
  - intros k s Lk. apply HL. lia.
  - exists l. split; [exact R|]. split; [exact So|]. intros h u. rewrite Me. split; intros [A B]; (split; [lia|exact B]).
Qed.
Lemma box_of l k : isBoxes l -> 
  (mathboxNum (map fst l) k = 0 /\ inNone sects mb k) \/
  (exists m h u, mathboxNum (map fst l) k = S m /\ nth_error l m = Some (h, u) /\ inBox sects mb k h u).
Proof using HL. clear HM HS HF.
  intros [So Me]. destruct (num_ok k l So) as [[E N]|(m & [h u] & E & Nm & Lh & Mh)].
  - left. split; [exact E|]. intros j s Lj Sj Oj. destruct (HL j s ltac:(lia) Sj Oj) as [u Hu].
    assert (In (j, u) l) as I by (apply Me; split; [lia|eauto]). apply N in I. cbn in I. lia.
  - right. exists m, h, u. split; [exact E|]. split; [exact Nm|]. cbn in Lh. pose proof (nth_error_In _ _ Nm) as I. apply Me in I.
    destruct I as [A B]. split; [lia|]. split; [exact B|]. intros j s Lj Sj Oj. destruct (HL j s ltac:(lia) Sj Oj) as [v Hv].
    assert (In (j, v) l) as I by (apply Me; split; [lia|eauto]). apply Mh in I. cbn in I. lia.
Qed.
End Info.

Lemma headed_fun s u v : isStr s -> headed s u -> headed s v -> u = v.
Proof.
  intros HS Hu Hv. destruct (opens_of _ _ Hu) as [p0 O0].
  destruct (lastTag_top (length s + 2) s ltac:(lia)) as (r & _ & [[_ N]|(_ & Or & Mr)]); [exfalso; apply N; exists p0; exact O0|].
  destruct (one_ok s u HS Hu r Or Mr) as (q & Eq & E1). destruct (one_ok s v HS Hv r Or Mr) as (q' & Eq' & E2).
  rewrite Eq in Eq'. inversion Eq'; subst. congruence.
Qed.
Lemma inBox_fun sects mb k h u h' u' : strs sects -> inBox sects mb k h u -> inBox sects mb k h' u' -> h = h' /\ u = u'.
Proof.
  intros HS ([A1 A2] & (s & Ss & Hs) & N) ([B1 B2] & (s' & Ss' & Hs') & N').
  assert (h = h').
  { destruct (Nat.lt_trichotomy h h') as [L|[L|L]]; [|exact L|]; exfalso.
    - apply (N h' s'); [lia|exact Ss'|eapply opens_of; eassumption].
    - apply (N' h s); [lia|exact Ss|eapply opens_of; eassumption]. }
  subst h'. split; [reflexivity|]. rewrite (section_fun _ _ _ _ Ss' Ss) in Hs'. exact (headed_fun s u u' (HS _ _ Ss) Hs Hs').
Qed.
Lemma inBox_none sects mb k h u : inBox sects mb k h u -> inNone sects mb k -> False.
Proof. intros (A & (s & Ss & Hs) & _) N. apply (N h s); [lia|exact Ss|eapply opens_of; eassumption]. Qed.

Lemma forall_section {P : list nat -> Prop} sects : Forall P sects -> forall k s, section sects k s -> P s.
Proof. intros F k s [_ E]. rewrite Forall_forall in F. apply F. eapply nth_error_In. exact E. Qed.

Lemma nth_map {A B} (f : A -> B) l m x : nth_error l m = Some x -> nth_error (map f l) m = Some (f x).
Proof. intros E. rewrite nth_error_map, E. reflexivity. Qed.

Section Boxes.
Context (sects : list (list nat)) (mb : nat) (boxes : list (nat * list nat)).
Context (HS : strs sects) (HL : lines sects mb) (HB : isBoxes sects mb boxes).

Lemma num_none k : inNone sects mb k -> mathboxNum (map fst boxes) k = 0.
Proof.
  intros N. destruct (box_of sects mb HL boxes k HB) as [[E _]|(m & h & u & _ & _ & I)]; [exact E|].
  exfalso. eapply inBox_none; eassumption.
Qed.
Lemma num_box k h u : inBox sects mb k h u -> exists m, mathboxNum (map fst boxes) k = S m /\ nth_error boxes m = Some (h, u).
Proof.
  intros I. destruct (box_of sects mb HL boxes k HB) as [[_ N]|(m & h' & u' & E & Nm & I')].
  - exfalso. eapply inBox_none; eassumption.
  - destruct (inBox_fun _ _ _ _ _ _ _ HS I I') as [-> ->]. exists m. split; assumption.
Qed.
Lemma user_none k : inNone sects mb k -> mathboxUser boxes k = Ok [].
Proof. intros N. unfold mathboxUser. rewrite (num_none k N). reflexivity. Qed.
Lemma user_box k h u : inBox sects mb k h u -> mathboxUser boxes k = Ok u.
Proof.
  intros I. destruct (num_box k h u I) as (m & E & Nm). unfold mathboxUser. rewrite E. cbn [Nat.eqb at1].
  rewrite (nth_map snd _ _ _ Nm). reflexivity.
Qed.
Lemma same_nth i j h u v : nth_error boxes i = Some (h, u) -> nth_error boxes j = Some (h, v) -> i = j.
Proof.
  intros A B. destruct (Nat.lt_trichotomy i j) as [L|[L|L]]; [|exact L|]; exfalso.
  - pose proof (sorted_inj _ (proj1 HB) _ _ _ _ A B L) as X. cbn in X. lia.
  - pose proof (sorted_inj _ (proj1 HB) _ _ _ _ B A L) as X. cbn in X. lia.
Qed.
Lemma diff_ok k1 k2 : inDiffMathboxes boxes k1 k2 = true <->
  exists h1 u1 h2 u2, inBox sects mb k1 h1 u1 /\ inBox sects mb k2 h2 u2 /\ h1 <> h2.
Proof.
  unfold inDiffMathboxes. split.
  - destruct (box_of sects mb HL boxes k1 HB) as [[E1 _]|(m1 & h1 & u1 & E1 & N1 & I1)]; rewrite E1; [discriminate|].
    destruct (box_of sects mb HL boxes k2 HB) as [[E2 _]|(m2 & h2 & u2 & E2 & N2 & I2)]; rewrite E2; [discriminate|].
    cbn [Nat.eqb orb]. intros D. apply Bool.negb_true_iff, Nat.eqb_neq in D. exists h1, u1, h2, u2. split; [exact I1|]. split; [exact I2|].
    intros ->. apply D. apply (same_nth _ _ _ _ _ N1 N2).
  - intros (h1 & u1 & h2 & u2 & I1 & I2 & D). destruct (num_box _ _ _ I1) as (m1 & -> & N1). destruct (num_box _ _ _ I2) as (m2 & -> & N2).
    cbn [Nat.eqb orb]. apply Bool.negb_true_iff, Nat.eqb_neq. intros E. subst m2. rewrite N1 in N2. congruence.
Qed.
Lemma ends_nth n : forall l m (x : nat), nth_error l m = Some x -> nth_error (mathboxEnds l n) m =
  Some (match nth_error l (S m) with Some y => y - 1 | None => n end).
Proof.
  induction l as [|a l IH]; intros m x E; [destruct m; discriminate|]. cbn [mathboxEnds]. destruct l as [|b l].
  - destruct m; [reflexivity|]. destruct m; discriminate.
  - destruct m; [reflexivity|]. exact (IH m x E).
Qed.
Lemma ends_ok m h u : nth_error boxes m = Some (h, u) ->
  exists e, nth_error (mathboxEnds (map fst boxes) (length sects)) m = Some e /\
    forall k, 1 <= k <= length sects -> (h <= k <= e <-> inBox sects mb k h u).
Proof.
  intros E. eexists. split; [apply ends_nth with (x := h); apply (nth_map fst _ _ _ E)|]. intros k Lk.
  pose proof (nth_error_In _ _ E) as IE. apply (proj2 HB) in IE. destruct IE as [Lm Hd]. split.
  - intros [A B]. destruct (box_of sects mb HL boxes k HB) as [[E1 N]|(m1 & h1 & u1 & E1 & N1 & I1)].
    + exfalso. destruct Hd as (s & Ss & Hs). apply (N h s); [lia|exact Ss|eapply opens_of; eassumption].
    + assert (m1 = m); [|subst m1; rewrite E in N1; congruence].
      pose proof (nth_error_In _ _ N1) as J1. destruct I1 as (L1 & _ & N1').
      destruct (Nat.lt_trichotomy m1 m) as [L|[L|L]]; [exfalso|exact L|exfalso].
      * pose proof (sorted_inj _ (proj1 HB) _ _ _ _ N1 E L) as X. cbn in X. destruct Hd as (s & Ss & Hs).
        apply (N1' h s); [lia|exact Ss|eapply opens_of; eassumption].
      * destruct (nth_error boxes (S m)) as [[h2 u2]|] eqn:E2.
        -- rewrite (nth_map fst _ _ _ E2) in B. cbn in B.
           pose proof (sorted_inj _ (proj1 HB) _ _ _ _ E E2 ltac:(lia)) as X. cbn in X.
           assert (h2 <= h1); [|lia]. destruct (Nat.eq_dec (S m) m1) as [<-|].
           ++ rewrite E2 in N1. inversion N1. lia.
           ++ pose proof (sorted_inj _ (proj1 HB) _ _ _ _ E2 N1 ltac:(lia)) as Y. cbn in Y. lia.
        -- apply nth_error_None in E2. assert (m1 < length boxes) by (apply nth_error_Some; congruence). lia.
  - intros I. split; [exact (proj2 (proj1 I))|]. rewrite nth_error_map. destruct (nth_error boxes (S m)) as [[h2 u2]|] eqn:E2; cbn [option_map]; [|lia].
    pose proof (sorted_inj _ (proj1 HB) _ _ _ _ E E2 ltac:(lia)) as X. cbn in X |- *.
    apply nth_error_In, (proj2 HB) in E2. destruct E2 as (L2 & s2 & S2 & H2).
    destruct (Nat.le_gt_cases h2 k) as [L|L]; [|lia]. exfalso. destruct I as (_ & _ & N).
    apply (N h2 s2); [lia|exact S2|eapply opens_of; eassumption].
Qed.
Lemma notice_ok k p hk uk hp up : k <= p -> inBox sects mb k hk uk -> inBox sects mb p hp up ->
  assignNotice mb boxes k p = Ok (if hk =? hp then None else Some uk).
Proof.
  intros L Ik Ip. unfold assignNotice. destruct (num_box _ _ _ Ik) as (m1 & -> & N1). destruct (num_box _ _ _ Ip) as (m2 & -> & N2).
  cbn [at1]. rewrite (nth_map fst _ _ _ N2), (nth_map snd _ _ _ N1). cbn [rget rbind fst snd].
  destruct (Nat.ltb_spec mb k); [|destruct Ik as (X & _); lia]. destruct (Nat.ltb_spec mb p); [|destruct Ip as (X & _); lia]. cbn [andb].
  destruct (Nat.ltb_spec k hp) as [A|A]; destruct (Nat.eqb_spec hk hp) as [B|B]; try reflexivity; exfalso.
  - destruct Ik as (X & _). lia.
  - apply B. assert (inBox sects mb k hp up) as J.
    { destruct Ip as (X & Y & N). split; [lia|]. split; [exact Y|]. intros j s Lj. apply N. lia. }
    exact (proj1 (inBox_fun _ _ _ _ _ _ _ HS Ik J)).
Qed.
Lemma notice_none k p : mb < k <= p -> inNone sects mb k -> assignNotice mb boxes k p = UB.
Proof.
  intros L Nk. unfold assignNotice. destruct (Nat.ltb_spec mb k); [|lia]. destruct (Nat.ltb_spec mb p); [|lia]. cbn [andb].
  rewrite (num_none k Nk). destruct (box_of sects mb HL boxes p HB) as [[-> _]|(m & h & u & -> & Nm & I)]; [reflexivity|].
  cbn [at1]. rewrite (nth_map fst _ _ _ Nm). cbn [rget rbind fst]. destruct (Nat.ltb_spec k h); [reflexivity|]. exfalso.
  destruct I as (X & (s & Ss & Hs) & _). apply (Nk h s); [lia|exact Ss|eapply opens_of; eassumption].
Qed.
Lemma notice_main k p : k <= mb \/ p <= mb -> assignNotice mb boxes k p = Ok None.
Proof. intros [L|L]; unfold assignNotice; [destruct (Nat.ltb_spec mb k); [lia|]|destruct (Nat.ltb_spec mb p); [lia|rewrite Bool.andb_false_r]]; reflexivity. Qed.
Lemma box_or_none k : inNone sects mb k \/ exists h u, inBox sects mb k h u.
Proof. destruct (box_of sects mb HL boxes k HB) as [[_ N]|(m & h & u & _ & _ & I)]; eauto. Qed.
End Boxes.
