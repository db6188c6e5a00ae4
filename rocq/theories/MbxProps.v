(* MbxProps.v -- C74: mathboxes. *)
From Verif Require Import Base VstrModel VstrSpec VstrProofs MbxModel MbxSpec MbxProofs.
From Coq Require Import Sorted.
Open Scope nat_scope.

(* C74.  The mathboxes found after the statement labelled "mathbox" are exactly the documented
   ones: every statement is in one box or in none, the user reported is the one its heading
   names ("" if none), two statements are in different mathboxes iff both are in one and these
   are not the same, and the last statement recorded for a box is the last one in it. *)
Theorem C74_mathboxes fuel sects mb : Forall isStr sects -> Forall (fun s => length s + 1 < fuel) sects ->
  mb <= length sects -> lines sects mb ->
  exists boxes, mathboxInfo fuel sects (Some mb) = Ok (mb, boxes) /\
    (forall k, inNone sects mb k \/ exists h u, inBox sects mb k h u) /\
    (forall k, inNone sects mb k -> mathboxUser boxes k = Ok []) /\
    (forall k h u, inBox sects mb k h u -> mathboxUser boxes k = Ok u) /\
    (forall k1 k2, inDiffMathboxes boxes k1 k2 = true <->
       exists h1 u1 h2 u2, inBox sects mb k1 h1 u1 /\ inBox sects mb k2 h2 u2 /\ h1 <> h2) /\
    (forall h u, In (h, u) boxes <-> inBox sects mb h h u) /\
    (forall m h u, nth_error boxes m = Some (h, u) ->
       exists e, nth_error (mathboxEnds (map fst boxes) (length sects)) m = Some e /\
         forall k, 1 <= k <= length sects -> (h <= k <= e <-> inBox sects mb k h u)).
Proof.
  intros FS FF HM HL. pose proof (forall_section sects FS) as HS.
  destruct (loc_ok fuel sects mb HS (forall_section sects FF) HM HL) as (boxes & E & HB).
  exists boxes. unfold mathboxInfo. rewrite E. split; [reflexivity|].
  split; [intros k; eapply box_or_none; eassumption|]. split; [intros k; eapply user_none; eassumption|].
  split; [intros k h u; eapply user_box; eassumption|]. split; [intros; eapply diff_ok; eassumption|].
  split; [|intros; eapply ends_ok; eassumption].
  intros h u. rewrite (proj2 HB h u). unfold inBox. split; [intros [L X]; split; [lia|split; [exact X|lia]]|].
  intros (L & X & _). split; [lia|exact X].
Qed.
Theorem C74_one_box sects mb k : Forall isStr sects -> forall h u h' u',
  inBox sects mb k h u -> (inBox sects mb k h' u' -> h = h' /\ u = u') /\ ~ inNone sects mb k.
Proof.
  intros FS h u h' u' I. pose proof (forall_section sects FS) as HS. split; [intros I'; eapply inBox_fun; eassumption|].
  intros N. eapply inBox_none; eassumption.
Qed.
(* a database with no statement labelled "mathbox" has none *)
Theorem C74_no_mathbox_label fuel sects : exists mb boxes, mathboxInfo fuel sects None = Ok (mb, boxes) /\
  (forall k, mathboxUser boxes k = Ok []) /\ (forall j k, inDiffMathboxes boxes j k = false) /\
  (forall k p, k <= length sects -> assignNotice mb boxes k p = Ok None).
Proof.
  exists (length sects + 1), []. split; [reflexivity|]. split; [reflexivity|]. split; [reflexivity|].
  intros k p L. unfold assignNotice. destruct (Nat.ltb_spec (length sects + 1) k); [lia|reflexivity].
Qed.
(* ASSIGN of an earlier statement k in the proof of p: the notice appears iff they are in
   different mathboxes, and names the user of k's ... *)
Theorem C74_notice fuel sects mb boxes k p : Forall isStr sects -> Forall (fun s => length s + 1 < fuel) sects ->
  mb <= length sects -> lines sects mb -> mathboxInfo fuel sects (Some mb) = Ok (mb, boxes) -> k <= p ->
  (k <= mb -> assignNotice mb boxes k p = Ok None) /\
  (forall hk uk hp up, inBox sects mb k hk uk -> inBox sects mb p hp up ->
     (hk = hp -> assignNotice mb boxes k p = Ok None) /\ (hk <> hp -> assignNotice mb boxes k p = Ok (Some uk))).
Proof.
  intros FS FF HM HL EI Lkp. pose proof (forall_section sects FS) as HS.
  destruct (loc_ok fuel sects mb HS (forall_section sects FF) HM HL) as (boxes' & E & HB).
  unfold mathboxInfo in EI. rewrite E in EI. inversion EI; subst boxes'.
  split; [intros L; apply notice_main; left; exact L|].
  intros hk uk hp up Ik Ip. pose proof (notice_ok sects mb boxes HS HL HB k p hk uk hp up Lkp Ik Ip) as N.
  destruct (Nat.eqb_spec hk hp); split; intros; try contradiction; exact N.
Qed.
(* ... but after "mathbox" and before the first heading g_mathboxStart[-1] or g_mathboxUser[-1] is read *)
Theorem C74_notice_refuted fuel sects mb boxes k p : Forall isStr sects -> Forall (fun s => length s + 1 < fuel) sects ->
  mb <= length sects -> lines sects mb -> mathboxInfo fuel sects (Some mb) = Ok (mb, boxes) -> mb < k <= p ->
  inNone sects mb k -> assignNotice mb boxes k p = UB.
Proof.
  intros FS FF HM HL EI L N. pose proof (forall_section sects FS) as HS.
  destruct (loc_ok fuel sects mb HS (forall_section sects FF) HM HL) as (boxes' & E & HB).
  unfold mathboxInfo in EI. rewrite E in EI. inversion EI; subst boxes'.
  eapply notice_none; eassumption.
Qed.
(* a heading that its label section does not end with a line feed stops the program *)
Theorem C74_unended_heading_refuted : exists fuel sects mb, Forall isStr sects /\ Forall (fun s => length s + 1 < fuel) sects /\
  mb <= length sects /\ mathboxInfo fuel sects (Some mb) = Bug 2350.
Proof.
  exists 100, [[10]; [36; 40; 32] ++ heading ++ [65; 32; 36; 41]], 1.
  split; [repeat constructor; cbn; lia|]. split; [repeat constructor; cbn; lia|]. split; [cbn; lia|]. vm_compute. reflexivity.
Qed.

(* ---------------- examples ---------------- *)
(* 1 "mathbox", 2 no heading, 3 the empty box of A and the box of B, 4 no heading, 5 the box of C *)
Definition exM : list (list nat) := [[32]; [10]; [32] ++ heading ++ [65; 10] ++ heading ++ [66; 46; 10; 32]; [10; 10]; heading ++ [67; 10]].
Example C74_example :
  mathboxInfo 100 exM (Some 1) = Ok (1, [(3, [66; 46]); (5, [67])]) /\
  mathboxEnds [3; 5] (length exM) = [4; 5] /\
  mathboxUser [(3, [66; 46]); (5, [67])] 4 = Ok [66; 46] /\
  assignNotice 1 [(3, [66; 46]); (5, [67])] 4 5 = Ok (Some [66; 46]) /\
  assignNotice 1 [(3, [66; 46]); (5, [67])] 3 4 = Ok None /\
  assignNotice 1 [(3, [66; 46]); (5, [67])] 2 4 = UB.
Proof. vm_compute. repeat split. Qed.
Lemma heading_at s p : occurs heading s p -> firstn 12 (skipn (p - 1) s) = heading.
Proof. intros (a & b & -> & ->). rewrite Nat.add_sub, skipn_app, skipn_all, Nat.sub_diag. reflexivity. Qed.
Lemma exM_lines : lines exM 1.
Proof.
  intros k s L [L1 E] [p O].
  assert (k = 2 \/ k = 3 \/ k = 4 \/ k = 5) as K by (assert (k - 1 < 5) by (apply (nth_error_Some exM); congruence); lia).
  pose proof (occ_tag s p O) as B.
  destruct K as [K | [K | [K | K]]]; subst k; cbn in E; inversion E; subst s; cbn [length] in B.
  - cbn in B. lia.
  - exists [66; 46], ([32] ++ heading ++ [65; 10]), [32]. split; [reflexivity|]. split; [cbn; intuition discriminate|].
    intros q Oq. pose proof (occ_tag _ _ Oq) as Bq. apply heading_at in Oq. cbn [length app heading] in Bq |- *.
    destruct (Nat.le_gt_cases q 16) as [|Q]; [assumption|]. exfalso.
    assert (q = 17 \/ q = 18 \/ q = 19 \/ q = 20) as QQ by lia.
    destruct QQ as [QQ | [QQ | [QQ | QQ]]]; subst q; discriminate Oq.
  - cbn in B. lia.
  - exists [67], [], []. split; [reflexivity|]. split; [cbn; intuition discriminate|].
    intros q Oq. pose proof (occ_tag _ _ Oq) as Bq. apply heading_at in Oq. cbn in Bq |- *.
    destruct q as [|[|[|[|q]]]]; try lia; discriminate Oq.
Qed.
Example C74_example_hyps := C74_mathboxes 100 exM 1 ltac:(repeat constructor; cbn; lia) ltac:(repeat constructor; cbn; lia) ltac:(cbn; lia) exM_lines.
Example C74_example_box : inNone exM 1 2 /\ ~ inNone exM 1 4.
Proof.
  split.
  - intros j s L [_ E] [p O]. assert (j = 2) by lia. subst j. cbn in E. inversion E; subst s. apply occ_tag in O. cbn in O. lia.
  - intros N. refine (N 3 ([32] ++ heading ++ [65; 10] ++ heading ++ [66; 46; 10; 32]) ltac:(lia) (conj _ eq_refl) _); [lia|]. exists 16. exists ([32] ++ heading ++ [65; 10]), [66; 46; 10; 32]. split; reflexivity.
Qed.

Print Assumptions C74_mathboxes.
Print Assumptions C74_one_box.
Print Assumptions C74_no_mathbox_label.
Print Assumptions C74_notice.
Print Assumptions C74_notice_refuted.
Print Assumptions C74_unended_heading_refuted.
