(* SafeProofs.v *)
From Verif Require Import Base SafeModel SafeSpec.
Open Scope nat_scope.

Lemma nameEqb_spec x : forall y, reflect (x = y) (nameEqb x y).
Proof.
  induction x as [|a x IH]; intros [|b y]; cbn; try (constructor; congruence).
  destruct (Nat.eqb_spec a b) as [->|N]; cbn; [|constructor; congruence]. destruct (IH y) as [->|N]; constructor; congruence.
Qed.
Lemma bind_same d n f : bind d n f n = f.
Proof. unfold bind. destruct (nameEqb_spec n n); congruence. Qed.
Lemma bind_other d n f m : m <> n -> bind d n f m = d m.
Proof. unfold bind. destruct (nameEqb_spec m n); congruence. Qed.
Lemma version_inj fn v u : v <= 9 -> u <= 9 -> version fn v = version fn u -> v = u.
Proof.
  intros Hv Hu E. destruct v as [|v], u as [|u]; auto; unfold version in E.
  - apply (f_equal (@length _)) in E. rewrite app_length in E. cbn in E. lia.
  - apply (f_equal (@length _)) in E. rewrite app_length in E. cbn in E. lia.
  - apply app_inv_head in E. injection E as E. congruence.
Qed.
Lemma bak_version fn v : 1 <= v -> bak fn v = version fn v.
Proof. destruct v; [lia|reflexivity]. Qed.

(* ---------- the versions seen as ten places ---------- *)
Definition place (d : dir) fn v : list (list nat) := match d (version fn v) with Some f => [f_data f] | None => [] end.
Definition cells (g : nat -> list (list nat)) (a n : nat) := concat (map g (seq a n)).
Lemma versions_cells d fn : versions d fn = cells (place d fn) 0 10.
Proof. reflexivity. Qed.
Lemma cells_ext g h a n : (forall v, a <= v < a + n -> g v = h v) -> cells g a n = cells h a n.
Proof. intros H. unfold cells. f_equal. apply map_ext_in. intros v Hv. apply H. apply in_seq in Hv. lia. Qed.
Lemma cells_app g a n m : cells g a (n + m) = cells g a n ++ cells g (a + n) m.
Proof. unfold cells. rewrite seq_app, map_app, concat_app. reflexivity. Qed.
Lemma cells_S g a n : cells g a (S n) = g a ++ cells g (S a) n.
Proof. reflexivity. Qed.
Lemma place_ext d d' fn v : d (version fn v) = d' (version fn v) -> place d fn v = place d' fn v.
Proof. unfold place. intros ->. reflexivity. Qed.

(* moving a file to the next free place *)
Lemma move_versions d fn v f : v < 9 -> d (version fn v) = Some f -> d (version fn (S v)) = None ->
  let d' := rename true d (version fn v) (version fn (S v)) in
  versions d' fn = versions d fn /\ d' (version fn v) = None /\ d' (version fn (S v)) = Some f /\
  (forall n, n <> version fn v -> n <> version fn (S v) -> d' n = d n).
Proof.
  intros Hv Hf Hn d'. assert (version fn v <> version fn (S v)) as Ne by (intros E; apply version_inj in E; lia).
  assert (d' (version fn v) = None) as A by (unfold d', rename; rewrite Hf, bind_other, bind_same by congruence; reflexivity).
  assert (d' (version fn (S v)) = Some f) as B by (unfold d', rename; rewrite Hf, bind_same; reflexivity).
  assert (forall n, n <> version fn v -> n <> version fn (S v) -> d' n = d n) as C.
  { intros n N1 N2. unfold d', rename. rewrite Hf, !bind_other by assumption. reflexivity. }
  split; [|auto]. rewrite !versions_cells.
  assert (forall u, u <= 9 -> u <> v -> u <> S v -> place d' fn u = place d fn u) as P.
  { intros u Hu N1 N2. apply place_ext, C; intros E; apply version_inj in E; lia. }
  replace 10 with (v + S (S (8 - v))) by lia. rewrite !cells_app, !cells_S. rewrite Nat.add_0_l.
  rewrite (cells_ext (place d' fn) (place d fn) 0 v), (cells_ext (place d' fn) (place d fn) (S (S v)) (8 - v)) by (intros; apply P; lia).
  f_equal. unfold place at 1 2 4 5. rewrite A, B, Hf, Hn. reflexivity.
Qed.

Definition okDir (d : dir) fn (d' : dir) : Prop := usable d' fn /\ onlyVersions fn d d'.
Lemma okDir_refl d fn : usable d fn -> okDir d fn d.
Proof. intros U. split; [exact U|intros n _; reflexivity]. Qed.
Lemma okDir_move d0 d fn v f : v < 9 -> okDir d0 fn d -> d (version fn v) = Some f -> d (version fn (S v)) = None ->
  okDir d0 fn (rename true d (version fn v) (version fn (S v))).
Proof.
  intros Hv [U O] Hf Hn. destruct (move_versions d fn v f Hv Hf Hn) as (_ & A & B & C). split.
  - intros u g Hu Hg. destruct (Nat.eq_dec u v) as [->|N1]; [congruence|]. destruct (Nat.eq_dec u (S v)) as [->|N2].
    + rewrite B in Hg. injection Hg as <-. apply (U v f); [lia|exact Hf].
    + rewrite C in Hg; [apply (U u g Hu Hg)|intros E; apply version_inj in E; lia|intros E; apply version_inj in E; lia].
  - intros n Hn'. rewrite C; [apply O, Hn'|apply Hn'; lia|apply Hn'; lia].
Qed.
Lemma canRead_usable d fn v : usable d fn -> v <= 9 -> canRead d (version fn v) = match d (version fn v) with Some _ => true | None => false end.
Proof. intros U Hv. unfold canRead. destruct (d (version fn v)) as [f|] eqn:E; [|reflexivity]. apply (U v f Hv E). Qed.

(* every recorded state, and the last one, satisfies P *)
Definition allStates (P : dir -> Prop) (r : dir * trace) : Prop := P (fst r) /\ Forall P (snd r).

Lemma shiftUp_ok d0 fn V v : forall d tr, v < 9 ->
  (forall u, 1 <= u <= v -> d (version fn u) <> None) -> d (version fn (S v)) = None ->
  okDir d0 fn d -> versions d fn = V ->
  Forall (fun x => okDir d0 fn x /\ versions x fn = V) tr ->
  let r := shiftUp true d tr fn v in
  allStates (fun x => okDir d0 fn x /\ versions x fn = V) r /\ fst r (version fn 1) = None /\ fst r fn = d fn.
Proof.
  induction v as [|v IH]; intros d tr Hv He Hn O EV T r; unfold r; cbn [shiftUp].
  - split; [split; [split; assumption|exact T]|]. split; [exact Hn|reflexivity].
  - rewrite (bak_version fn (S v)) by lia. rewrite canRead_usable by (apply O || lia).
    destruct (d (version fn (S v))) as [f|] eqn:Ef; [|exfalso; apply (He (S v)); [lia|exact Ef]].
    rewrite (bak_version fn (S v + 1)) by lia. replace (S v + 1) with (S (S v)) by lia.
    destruct (move_versions d fn (S v) f ltac:(lia) Ef Hn) as (A & B & C & D).
    cbv zeta. set (d' := rename true d (version fn (S v)) (version fn (S (S v)))) in *.
    destruct (IH d' (d :: tr)) as (X & Y & Z).
    + lia.
    + intros u Hu. rewrite D; [apply He; lia| |]; intros E; apply version_inj in E; lia.
    + exact B.
    + apply (okDir_move d0 d fn (S v) f); auto; lia.
    + congruence.
    + constructor; [split; assumption|exact T].
    + split; [exact X|]. split; [exact Y|]. idtac. etransitivity; [exact Z|]. apply (D (version fn 0)); intros E; apply version_inj in E; lia.
Qed.
Lemma scan_ok d fn todo : usable d fn -> forall v last, 1 <= v -> v + todo = 10 -> last = v - 1 ->
  let s := scan d fn v todo last in
  last <= s <= 9 /\ (forall u, v <= u <= s -> d (version fn u) <> None) /\ (s < 9 -> d (version fn (S s)) = None).
Proof.
  intros U. induction todo as [|k IH]; intros v last Hv Hk Hl s; unfold s; cbn [scan].
  - split; [lia|]. split; [intros; lia|lia].
  - rewrite (bak_version fn v) by lia. rewrite canRead_usable by (assumption || lia). destruct (d (version fn v)) as [f|] eqn:E.
    + destruct (IH (S v) v ltac:(lia) ltac:(lia) ltac:(lia)) as (A & B & C). split; [lia|]. split; [|exact C].
      intros u Hu. destruct (Nat.eq_dec u v) as [->|N]; [congruence|]. apply B. lia.
    + split; [lia|]. split; [intros; lia|]. intros _. subst last. replace (S (v - 1)) with v by lia. exact E.
Qed.
Lemma full_len d fn : (forall u, u <= 9 -> d (version fn u) <> None) -> length (versions d fn) = 10 /\
  forall d', (forall u, u <= 8 -> d' (version fn u) = d (version fn u)) -> d' (version fn 9) = None -> versions d' fn = firstn 9 (versions d fn).
Proof.
  intros H.
  assert (forall n a, a + n <= 10 -> length (cells (place d fn) a n) = n) as L.
  { induction n as [|n IH]; intros a Ha; [reflexivity|]. rewrite cells_S, app_length, IH by lia. unfold place.
    destruct (d (version fn a)) eqn:E; [reflexivity|]. exfalso. apply (H a); [lia|exact E]. }
  split; [apply (L 10 0); lia|]. intros d' H1 H2. rewrite !versions_cells. change 10 with (9 + 1). rewrite !cells_app.
  rewrite (cells_ext (place d' fn) (place d fn) 0 9) by (intros; apply place_ext, H1; lia).
  rewrite firstn_app, L by lia. rewrite Nat.sub_diag. rewrite firstn_O. rewrite app_nil_r.
  rewrite firstn_all2 by (rewrite L; lia). assert (cells (place d' fn) (0 + 9) 1 = []) as -> by (rewrite cells_S; unfold place; cbn [Nat.add]; rewrite H2; reflexivity). apply app_nil_r.
Qed.
Lemma versions_len d fn : length (versions d fn) <= 10.
Proof.
  assert (forall n a, length (cells (place d fn) a n) <= n) as L.
  { induction n as [|n IH]; intros a; [cbn; lia|]. rewrite cells_S, app_length. specialize (IH (S a)). unfold place at 1.
    destruct (d (version fn a)); cbn [length]; lia. }
  apply (L 10 0).
Qed.
Lemma hole_len d fn v : v <= 9 -> d (version fn v) = None -> length (versions d fn) <= 9.
Proof.
  intros Hv H.
  assert (forall n a, length (cells (place d fn) a n) <= n) as L.
  { induction n as [|n IH]; intros a; [cbn; lia|]. rewrite cells_S, app_length. specialize (IH (S a)). unfold place at 1.
    destruct (d (version fn a)); cbn [length]; lia. }
  rewrite versions_cells. replace 10 with (v + S (9 - v)) by lia. rewrite cells_app, cells_S, !app_length.
  rewrite Nat.add_0_l. assert (place d fn v = []) as -> by (unfold place; rewrite H; reflexivity). cbn [length].
  pose proof (L v 0). pose proof (L (9 - v) (S v)). lia.
Qed.

Lemma backup_ok d fn : usable d fn ->
  let r := backup true d fn in let V := versions d fn in
  allStates (fun x => okDir d fn x /\ exists k, versions x fn = firstn k V /\ Nat.min 9 (length V) <= k) r /\
  fst r fn = None /\ versions (fst r) fn = firstn 9 V.
Proof.
  intros U r V. unfold r, backup. rewrite (canRead_usable d fn 0 U ltac:(lia) : canRead d fn = match d fn with Some _ => true | None => false end).
  destruct (d fn) as [f|] eqn:Ef.
  2:{ assert (length V <= 9) as L by (apply (hole_len d fn 0); [lia|exact Ef]). cbn [fst snd].
      assert (versions d fn = firstn 9 V) as E by (rewrite firstn_all2 by exact L; reflexivity).
      split; [split; [|constructor]|split; assumption]. cbn [fst snd]. split; [apply okDir_refl, U|]. exists 9. split; [exact E|lia]. }
  rewrite (bak_version fn 1) by lia. rewrite canRead_usable by (assumption || lia).
  (* the last step, from a state with place 1 free *)
  assert (forall x tr, allStates (fun x => okDir d fn x /\ exists k, versions x fn = firstn k V /\ Nat.min 9 (length V) <= k) (x, tr) ->
    x (version fn 1) = None -> x fn = Some f -> versions x fn = firstn 9 V ->
    let r := (rename true x fn (version fn 1), x :: tr) in
    allStates (fun x => okDir d fn x /\ exists k, versions x fn = firstn k V /\ Nat.min 9 (length V) <= k) r /\
    fst r fn = None /\ versions (fst r) fn = firstn 9 V) as Last.
  { intros x tr [[Ox Kx] T] H1 Hf Ev. cbn [fst snd] in *. destruct (move_versions x fn 0 f ltac:(lia) Hf H1) as (A & B & C & D). cbn [version] in *.
    split; [|split; [exact B|congruence]]. split; cbn [fst snd].
    - split; [apply (okDir_move d x fn 0 f); auto; lia|]. exists 9. split; [congruence|lia].
    - constructor; [split; assumption|exact T]. }
  destruct (d (version fn 1)) as [f1|] eqn:E1.
  2:{ apply Last; auto.
      - split; [|constructor]. cbn [fst snd]. split; [apply okDir_refl, U|]. exists 10. split; [symmetry; apply firstn_all2, versions_len|lia].
      - rewrite firstn_all2; [reflexivity|]. apply (hole_len d fn 1); [lia|exact E1]. }
  destruct (scan_ok d fn 9 U 1 0 ltac:(lia) ltac:(lia) ltac:(lia)) as (S1 & S2 & S3). unfold VERSIONS. set (s := scan d fn 1 9 0) in *. clearbody s.
  destruct (Nat.eqb_spec s 9) as [->|Ns].
  - rewrite (bak_version fn 9) by lia. rewrite canRead_usable by (assumption || lia).
    destruct (d (version fn 9)) as [f9|] eqn:E9; [|exfalso; apply (S2 9); [lia|exact E9]].
    assert (forall u, u <= 9 -> d (version fn u) <> None) as Full.
    { intros [|u] Hu; [cbn; congruence|]. apply S2. lia. }
    destruct (full_len d fn Full) as [L10 Rm].
    set (x := remove true d (version fn 9)).
    assert (forall n, n <> version fn 9 -> x n = d n) as X1 by (intros; apply bind_other; assumption).
    assert (x (version fn 9) = None) as X2 by apply bind_same.
    assert (forall u, u <= 8 -> x (version fn u) = d (version fn u)) as X3 by (intros u Hu; apply X1; intros E; apply version_inj in E; lia).
    assert (okDir d fn x) as Ox.
    { split.
      - intros u g Hu Hg. destruct (Nat.eq_dec u 9) as [->|N]; [congruence|]. rewrite X3 in Hg by lia. apply (U u g Hu Hg).
      - intros n Hn. apply X1, Hn. lia. }
    specialize (Rm x X3 X2).
    destruct (shiftUp_ok d fn (firstn 9 V) 8 x []) as (P1 & P2 & P3); auto.
    { intros u Hu. rewrite X3 by lia. apply Full. lia. }
    destruct (shiftUp true x [] fn 8) as [y tr] eqn:Ey. cbn [fst snd] in *. cbv beta iota zeta. fold x. change (9 - 1) with 8.
    assert (shiftUp true x [d] fn 8 = (y, tr ++ [d])) as ->.
    { clear - Ey. assert (forall v d tr tr0, shiftUp true d (tr ++ tr0) fn v = (fst (shiftUp true d tr fn v), snd (shiftUp true d tr fn v) ++ tr0)) as G.
      { induction v as [|v IH]; intros d0 tr1 tr0; cbn [shiftUp]; [reflexivity|]. destruct (canRead d0 (bak fn (S v))); [|apply IH].
        rewrite app_comm_cons. apply IH. }
      pose proof (G 8 x [] [d]) as G1. rewrite Ey in G1. exact G1. }
    apply Last.
    + destruct P1 as [[A B] C]. cbn [fst snd] in *. split; cbn [fst snd].
      * split; [exact A|]. exists 9. split; [exact B|lia].
      * apply Forall_app. split; [|constructor; [|constructor]].
        -- eapply Forall_impl; [|exact C]. cbv beta. intros z [Z1 Z2]. split; [exact Z1|]. exists 9. split; [exact Z2|lia].
        -- split; [apply okDir_refl, U|]. exists 10. split; [symmetry; apply firstn_all2, versions_len|lia].
    + exact P2.
    + rewrite P3. rewrite <- Ef. apply (X3 0). lia.
    + apply P1.
  - assert (d (version fn (S s)) = None) as Hs by (apply S3; lia).
    assert (length V <= 9) as L by (apply (hole_len d fn (S s)); [lia|exact Hs]).
    destruct (shiftUp_ok d fn V s d []) as (P1 & P2 & P3); auto.
    { lia. } { apply okDir_refl, U. }
    cbv beta iota zeta. destruct (shiftUp true d [] fn s) as [y tr] eqn:Ey. cbn [fst snd] in *.
    apply Last.
    + destruct P1 as [[A B] C]. cbn [fst snd] in *. split; cbn [fst snd].
      * split; [exact A|]. exists 9. split; [rewrite firstn_all2; assumption|lia].
      * eapply Forall_impl; [|exact C]. cbv beta. intros z [Z1 Z2]. split; [exact Z1|]. exists 9. split; [rewrite firstn_all2; assumption|lia].
    + exact P2.
    + congruence.
    + rewrite firstn_all2 by assumption. apply P1.
Qed.

(* ---------- saving ---------- *)
Lemma setTop_ok d0 d fn data : okDir d0 fn d ->
  let d' := bind d fn (Some (mkFile true true data)) in
  okDir d0 fn d' /\ d' fn = Some (mkFile true true data) /\ versions d' fn = data :: cells (place d fn) 1 9.
Proof.
  intros [U O] d'.
  assert (forall v, 1 <= v <= 9 -> d' (version fn v) = d (version fn v)) as D.
  { intros v Hv. apply bind_other. intros E. apply (version_inj fn v 0) in E; lia. }
  assert (d' fn = Some (mkFile true true data)) as D0 by apply bind_same. split; [split|split; [exact D0|]].
  - intros [|v] g Hv Hg.
    + cbn in Hg. rewrite D0 in Hg. injection Hg as <-. auto.
    + rewrite D in Hg by lia. apply (U (S v) g Hv Hg).
  - intros n H. unfold d'. rewrite bind_other; [apply O, H|]. apply (H 0). lia.
  - rewrite versions_cells, (cells_S (place d' fn) 0 9).
    rewrite (cells_ext (place d' fn) (place d fn) 1 9) by (intros; apply place_ext, D; lia).
    unfold place at 1. cbn [version]. rewrite D0. reflexivity.
Qed.
Lemma top_none d fn : d fn = None -> versions d fn = cells (place d fn) 1 9.
Proof. intros H. rewrite versions_cells, (cells_S _ 0 9). unfold place at 1. cbn [version]. rewrite H. reflexivity. Qed.
Lemma top_some d fn f : d fn = Some f -> versions d fn = f_data f :: cells (place d fn) 1 9.
Proof. intros H. rewrite versions_cells, (cells_S _ 0 9). unfold place at 1. cbn [version]. rewrite H. reflexivity. Qed.

Lemma output_ok d0 fn V blocks : forall todo donek x tr, blocks = donek ++ todo ->
  okDir d0 fn x -> x fn = Some (mkFile true true (concat donek)) -> versions x fn = concat donek :: V ->
  forall P : dir -> Prop, (forall y k, okDir d0 fn y -> versions y fn = concat (firstn k blocks) :: V -> P y) -> Forall P tr ->
  let r := output x tr fn todo in allStates P r /\ versions (fst r) fn = concat blocks :: V /\ okDir d0 fn (fst r).
Proof.
  induction todo as [|b todo IH]; intros donek x tr Eb O Hx Ev P HP T r; unfold r; cbn [output].
  - rewrite app_nil_r in Eb. subst donek. split; [|split; assumption]. split; [|exact T]. cbn.
    apply (HP x (length blocks) O). rewrite firstn_all. exact Ev.
  - unfold append. rewrite Hx. cbn [f_read f_write f_data].
    destruct (setTop_ok d0 x fn (concat donek ++ b) O) as (A & B & C).
    pose proof (top_some x fn _ Hx) as Tx. cbn [f_data] in Tx. rewrite Ev in Tx. injection Tx as Tx. rewrite <- Tx in C.
    apply (IH (donek ++ [b])); auto.
    + rewrite <- app_assoc. exact Eb.
    + rewrite concat_app. cbn. rewrite app_nil_r. exact B.
    + rewrite concat_app. cbn [concat]. rewrite app_nil_r. exact C.
    + constructor; [|exact T]. apply (HP x (length donek) O). rewrite Eb, firstn_app, firstn_all, Nat.sub_diag, firstn_O, app_nil_r. exact Ev.
Qed.

(* one attempt *)
Lemma save_ok d fn m blocks : usable d fn ->
  let r := save true d fn m false blocks in let V := versions d fn in
  allStates (fun x => okDir d fn x /\ (survived V (versions x fn) \/
    m = ModeW /\ exists k, versions x fn = concat (firstn k blocks) :: firstn 9 V)) r /\
  match m with ModeW => versions (fst r) fn = concat blocks :: firstn 9 V
             | ModeD => versions (fst r) fn = firstn 9 V
             | ModeR => fst r = d end.
Proof.
  intros U r V. unfold r, save, fSafeOpen. destruct m.
  - cbn [fst snd]. assert (forall b : bool, (if b then (d, @nil dir) else (d, [])) = (d, [])) as -> by (intros []; reflexivity).
    split; [|reflexivity]. split; [|constructor]. cbn [fst snd]. split; [apply okDir_refl, U|]. left.
    exists 10. split; [symmetry; apply firstn_all2, versions_len|lia].
  - destruct (backup_ok d fn U) as ([A T] & Hn & Ev). destruct (backup true d fn) as [x tr]. cbn [fst snd] in *.
    unfold openW. rewrite Hn. destruct A as [Ox Kx].
    destruct (setTop_ok d x fn [] Ox) as (B1 & B2 & B3). rewrite <- (top_none x fn Hn), Ev in B3.
    destruct (output_ok d fn (firstn 9 V) blocks blocks [] (bind x fn (Some (mkFile true true []))) (x :: tr) eq_refl B1 B2 B3
      (fun x => okDir d fn x /\ (survived V (versions x fn) \/ ModeW = ModeW /\ exists k, versions x fn = concat (firstn k blocks) :: firstn 9 V)))
      as (C1 & C2 & C3).
    + intros y k Oy Ey. split; [exact Oy|]. right. split; [reflexivity|]. exists k. exact Ey.
    + constructor; [split; [exact Ox|left; exact Kx]|]. eapply Forall_impl; [|exact T]. cbv beta. intros y [Y1 Y2]. split; [exact Y1|left; exact Y2].
    + split; assumption.
  - destruct (backup_ok d fn U) as ([A T] & Hn & Ev). destruct (backup true d fn) as [x tr]. cbn [fst snd] in *.
    split; [|exact Ev]. split; cbn [fst snd].
    + destruct A as [A1 A2]. split; [exact A1|left; exact A2].
    + eapply Forall_impl; [|exact T]. cbv beta. intros y [Y1 Y2]. split; [exact Y1|left; exact Y2].
Qed.
Lemma states_ok d fn m blocks x : usable d fn -> In x (states true d fn m false blocks) ->
  okDir d fn x /\ (survived (versions d fn) (versions x fn) \/
    m = ModeW /\ exists k, versions x fn = concat (firstn k blocks) :: firstn 9 (versions d fn)).
Proof.
  intros U H. destruct (save_ok d fn m blocks U) as [[A T] _]. unfold states in H.
  destruct (save true d fn m false blocks) as [y tr]. cbn [fst snd] in *. destruct H as [<-|H]; [exact A|].
  rewrite Forall_forall in T. apply T, H.
Qed.

(* ---------- histories ---------- *)
Lemma survived_refl V : survived V V.
Proof. exists (Nat.max 9 (length V)). split; [symmetry; apply firstn_all2; lia|lia]. Qed.
Lemma survived_trans V1 V2 V3 : survived V1 V2 -> survived V2 V3 -> survived V1 V3.
Proof.
  intros (k & -> & Hk) (j & -> & Hj). rewrite firstn_firstn. exists (Nat.min j k). split; [reflexivity|].
  rewrite firstn_length in Hj. lia.
Qed.
Lemma survived_cons a V1 V2 : survived V1 V2 -> survived (a :: V1) (a :: firstn 9 V2).
Proof.
  intros (k & -> & Hk). exists (S (Nat.min 9 k)). rewrite firstn_firstn. split; [reflexivity|]. cbn [length]. lia.
Qed.
Lemma onlyVersions_trans fn a b c : onlyVersions fn a b -> onlyVersions fn b c -> onlyVersions fn a c.
Proof. intros H1 H2 n Hn. rewrite (H2 n Hn). apply H1, Hn. Qed.
Lemma history_ok fn : forall d l d', attempts fn d l d' -> usable d fn -> forall log0, survived log0 (versions d fn) ->
  usable d' fn /\ onlyVersions fn d d' /\ exists log, logged log0 l log /\ survived log (versions d' fn).
Proof.
  induction 1 as [d|d m blocks d1 l d2 E H IH|d m blocks d1 l d2 E H IH]; intros U log0 S0.
  - split; [exact U|]. split; [intros n _; reflexivity|]. exists log0. split; [constructor|exact S0].
  - destruct (save_ok d fn m blocks U) as [[[[U1 O1] _] _] F]. subst d1.
    assert (exists log1, adds log0 (mkAttempt m blocks true) log1 /\ survived log1 (versions (fst (save true d fn m false blocks)) fn)) as (log1 & A & S1).
    { destruct m; [|exists (concat blocks :: log0)|].
      - exists log0. split; [constructor; discriminate|]. rewrite F. exact S0.
      - split; [constructor|]. rewrite F. apply survived_cons, S0.
      - exists log0. split; [constructor; discriminate|]. rewrite F. eapply survived_trans; [exact S0|]. exists 9. split; [reflexivity|lia]. }
    destruct (IH U1 log1 S1) as (U2 & O2 & log & L & S2). split; [exact U2|]. split; [eapply onlyVersions_trans; eassumption|].
    exists log. split; [econstructor; eassumption|exact S2].
  - destruct (states_ok d fn m blocks d1 U E) as [[U1 O1] F].
    assert (exists log1, adds log0 (mkAttempt m blocks false) log1 /\ survived log1 (versions d1 fn)) as (log1 & A & S1).
    { destruct F as [F|[-> [k F]]].
      - exists log0. split; [destruct m; constructor; discriminate|]. eapply survived_trans; eassumption.
      - exists (concat (firstn k blocks) :: log0). split; [constructor|]. rewrite F. apply survived_cons, S0. }
    destruct (IH U1 log1 S1) as (U2 & O2 & log & L & S2). split; [exact U2|]. split; [eapply onlyVersions_trans; eassumption|].
    exists log. split; [econstructor; eassumption|exact S2].
Qed.
Lemma noVersion_ok dirW d fn m blocks x : In x (states dirW d fn m true blocks) -> forall n, n <> fn -> x n = d n.
Proof.
  intros H n Hn. unfold states, save, fSafeOpen in H.
  assert (forall todo y tr z, In z (fst (output y tr fn todo) :: snd (output y tr fn todo)) -> y n = d n -> Forall (fun y => y n = d n) tr -> z n = d n) as G.
  { induction todo as [|b todo IH]; intros y tr z Hz Hy T; cbn [output fst snd] in Hz.
    - destruct Hz as [<-|Hz]; [exact Hy|]. rewrite Forall_forall in T. apply T, Hz.
    - apply (IH _ _ z Hz); [|constructor; assumption]. unfold append. destruct (y fn); [|exact Hy]. rewrite bind_other; assumption. }
  destruct m; cbn [fst snd] in H.
  - destruct (canRead d fn); destruct H as [<-|[]]; reflexivity.
  - destruct (openW dirW d fn) as [d1|] eqn:E; cbn in H.
    + destruct (output d1 [d] fn blocks) as [y tr] eqn:Eo. apply (G blocks d1 [d] x); [rewrite Eo; exact H| |constructor; [reflexivity|constructor]].
      unfold openW in E. destruct (d fn) as [f|]; [destruct (f_write f)|destruct dirW]; try discriminate; injection E as <-; apply bind_other; assumption.
    + destruct H as [<-|[]]; reflexivity.
  - cbn in H. destruct H as [<-|[<-|[]]]; [|reflexivity]. unfold remove. destruct dirW; [|reflexivity]. apply bind_other, Hn.
Qed.
