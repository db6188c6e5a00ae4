(* IncRun.v -- readInclude computes the expansion described in IncSpec. *)
From Verif Require Import Base TokSpec TokModel TokProofs SrcModel CmdModel IncModel IncSpec IncProofs IncLoop.
Open Scope nat_scope.

(* ---------------- the table ---------------- *)
Definition dfl := mkIC 0 [] [] 0 0 None 0.
Record tabOk (main : list nat) (open seen : list (list nat)) (tab : list incCall) : Prop := {
  tk_main : exists e r, tab = e :: r /\ ic_push e = 0 /\ ic_incl e = main;
  tk_last : ic_push (last tab dfl) = 1;
  tk_new : forall n, n <> main -> ~ In n seen -> findIncl n tab = None;
  tk_old : forall n, n <> main -> In n seen -> exists i e, findIncl n tab = Some (S i) /\ nth_error tab (S i) = Some e /\
             (~ In n open -> exists x, ic_isrc e = Some x) }.

Lemma findIncl_app n a b : findIncl n (a ++ b) =
  match findIncl n a with Some i => Some i | None => option_map (fun i => length a + i) (findIncl n b) end.
Proof.
  induction a as [|e a IH]; cbn [app findIncl length].
  - destruct (findIncl n b); reflexivity.
  - destruct (Nat.eqb (ic_push e) 0 && seqb (ic_incl e) n); [reflexivity|]. rewrite IH.
    destruct (findIncl n a); [reflexivity|]. destruct (findIncl n b); reflexivity.
Qed.
Lemma findIncl_lt n a i : findIncl n a = Some i -> i < length a.
Proof.
  revert i; induction a as [|e a IH]; cbn [findIncl length]; intros i; [discriminate|].
  destruct (Nat.eqb (ic_push e) 0 && seqb (ic_incl e) n); [intros [= <-]; lia|].
  destruct (findIncl n a) as [j|]; [|discriminate]. intros [= <-]. specialize (IH j eq_refl). lia.
Qed.
Lemma setNth_app {A} (a b : list A) x y : setNth (length a) x (a ++ y :: b) = a ++ x :: b.
Proof.
  unfold setNth. rewrite firstn_app_len. f_equal. f_equal.
  replace (S (length a)) with (length (a ++ [y])) by (rewrite app_length; cbn; lia).
  change (a ++ y :: b) with (a ++ [y] ++ b). rewrite app_assoc. apply skipn_app_len.
Qed.
Lemma close_tab (tab : list incCall) a b a' b' more :
  setNth (length tab + 1) b' (setNth (length tab + 1 - 1) a' (tab ++ a :: b :: more)) = tab ++ a' :: b' :: more.
Proof.
  rewrite Nat.add_sub, setNth_app. change (tab ++ a' :: b :: more) with (tab ++ [a'] ++ b :: more). rewrite app_assoc.
  replace (length tab + 1) with (length (tab ++ [a'])) by (rewrite app_length; reflexivity). rewrite setNth_app, <- app_assoc. reflexivity.
Qed.
Lemma last_app_ne {A} (a b : list A) d : b <> [] -> last (a ++ b) d = last b d.
Proof.
  intros N. destruct (exists_last N) as (x & y & ->). rewrite app_assoc, !last_last. reflexivity.
Qed.
Lemma hit_self e n : ic_push e = 0 -> ic_incl e = n -> Nat.eqb (ic_push e) 0 && seqb (ic_incl e) n = true.
Proof. intros -> ->. now rewrite seqb_refl. Qed.
Lemma hit_other e n m : ic_incl e = n -> m <> n -> Nat.eqb (ic_push e) 0 && seqb (ic_incl e) m = false.
Proof. intros -> H. rewrite seqb_neq by congruence. apply Bool.andb_false_r. Qed.
Lemma hit_push1 e m : ic_push e = 1 -> Nat.eqb (ic_push e) 0 && seqb (ic_incl e) m = false.
Proof. intros ->. reflexivity. Qed.

Lemma tabOk_push main open seen tab n a b : tabOk main open seen tab -> n <> main -> ~ In n seen ->
  ic_push a = 0 -> ic_incl a = n -> ic_push b = 1 -> tabOk main (n :: open) (n :: seen) (tab ++ [a; b]).
Proof.
  intros [M L N O] Nm Ns Pa Ia Pb. constructor.
  - destruct M as (e & r & -> & A & B). exists e, (r ++ [a; b]). auto.
  - rewrite last_app_ne by discriminate. exact Pb.
  - intros m Hm Hs. rewrite findIncl_app, N; [|exact Hm|intros I; apply Hs; now right]. cbn [findIncl].
    rewrite (hit_other a n m) by (auto; intros ->; apply Hs; now left). now rewrite hit_push1.
  - intros m Hm Hs. destruct (list_eq_dec Nat.eq_dec m n) as [->|D].
    + destruct M as (e & r & Er & A & B). exists (length r), a. rewrite findIncl_app, (N n Hm Ns). cbn [findIncl].
      rewrite (hit_self a n Pa Ia). cbn [option_map]. subst tab. cbn [length]. rewrite Nat.add_0_r. split; [reflexivity|].
      split; [cbn [app nth_error]; rewrite nth_error_app2 by lia; now rewrite Nat.sub_diag|]. intros X. exfalso. apply X. now left.
    + destruct Hs as [Hs|Hs]; [congruence|]. destruct (O m Hm Hs) as (i & e & F & E & X). exists i, e.
      rewrite findIncl_app, F. split; [reflexivity|]. split; [rewrite nth_error_app1; [exact E|now apply findIncl_lt in F]|].
      intros Y. apply X. intros Z. apply Y. now right.
Qed.
Lemma findIncl_close n m tab a b a' b' more : ic_push a = 0 -> ic_incl a = n -> ic_push b = 1 ->
  ic_push a' = 0 -> ic_incl a' = n -> ic_push b' = 1 ->
  findIncl m (tab ++ a' :: b' :: more) = findIncl m (tab ++ a :: b :: more).
Proof.
  intros A B C D E F. rewrite !findIncl_app. destruct (findIncl m tab); [reflexivity|]. cbn [findIncl].
  rewrite A, B, C, D, E, F. reflexivity.
Qed.
Lemma tabOk_close main open seen seen1 tab n a b a' b' more : tabOk main open seen tab -> n <> main -> ~ In n seen ->
  ic_push a = 0 -> ic_incl a = n -> ic_push b = 1 ->
  ic_push a' = 0 -> ic_incl a' = n -> (exists x, ic_isrc a' = Some x) -> ic_push b' = 1 -> (exists x, ic_isrc b' = Some x) ->
  tabOk main (n :: open) seen1 (tab ++ a :: b :: more) -> tabOk main open seen1 (tab ++ a' :: b' :: more).
Proof.
  intros [M0 L0 N0 O0] Nm Ns Pa Ia Pb Pa' Ia' Sa' Pb' Sb' [M L N O]. constructor.
  - destruct M0 as (e & r & -> & A & B). exists e, (r ++ a' :: b' :: more). auto.
  - rewrite last_app_ne in * by discriminate. cbn [last] in *. destruct more; [exact Pb'|]. exact L.
  - intros m Hm Hs. rewrite (findIncl_close n m tab a b) by assumption. now apply N.
  - intros m Hm Hs. destruct (O m Hm Hs) as (i & e & F & E & X).
    assert (F' := F). rewrite <- (findIncl_close n m tab a b a' b') in F' by assumption. exists i.
    assert (Hi : S i < length tab \/ S i = length tab \/ S i = S (length tab) \/ S (length tab) < S i) by lia.
    destruct Hi as [Hi|[Hi|[Hi|Hi]]].
    + exists e. split; [exact F'|]. rewrite nth_error_app1 in * by exact Hi. split; [exact E|]. intros Y. apply X. intros [Z|Z]; [|contradiction]. subst m.
      rewrite findIncl_app, (N0 n Hm Ns) in F. cbn [findIncl] in F. rewrite (hit_self a n Pa Ia) in F. cbn in F. injection F as F. lia.
    + exists a'. split; [exact F'|]. rewrite Hi, nth_error_app2, Nat.sub_diag by lia. split; [reflexivity|]. intros _. exact Sa'.
    + exists b'. split; [exact F'|]. rewrite Hi, nth_error_app2 by lia. replace (S (length tab) - length tab) with 1 by lia. split; [reflexivity|]. intros _. exact Sb'.
    + exists e. split; [exact F'|]. rewrite nth_error_app2 in * by lia. destruct (S i - length tab) as [|[|q]] eqn:Q; [lia|lia|]. cbn [nth_error] in *.
      split; [exact E|]. intros Y. apply X. intros [Z|Z]; [|contradiction]. subst m.
      rewrite findIncl_app, (N0 n Hm Ns) in F. cbn [findIncl] in F. rewrite (hit_self a n Pa Ia) in F. cbn in F. injection F as F. lia.
Qed.
Lemma tabOk_again main open seen tab n a b : tabOk main open seen tab -> n <> main -> In n seen ->
  ic_push a = 0 -> ic_incl a = n -> ic_push b = 1 -> tabOk main open seen (tab ++ [a; b]).
Proof.
  intros [M L N O] Nm Ns Pa Ia Pb. constructor.
  - destruct M as (e & r & -> & A & B). exists e, (r ++ [a; b]). auto.
  - rewrite last_app_ne by discriminate. exact Pb.
  - intros m Hm Hs. rewrite findIncl_app, N by assumption. cbn [findIncl].
    rewrite (hit_other a n m) by (auto; intros ->; contradiction). now rewrite hit_push1.
  - intros m Hm Hs. destruct (O m Hm Hs) as (i & e & F & E & X). exists i, e.
    rewrite findIncl_app, F. split; [reflexivity|]. split; [rewrite nth_error_app1; [exact E|now apply findIncl_lt in F]|exact X].
Qed.

(* ---------------- pieces of the buffer ---------------- *)
Lemma segT_mid a b c i j : i = length a + 1 -> j = length a + length b -> segT (a ++ b ++ c) i j = b.
Proof.
  intros -> ->. unfold segT. replace (length a + 1 - 1) with (length a) by lia. rewrite skipn_app_len.
  replace (S (length a + length b) - (length a + 1)) with (length b) by lia. apply firstn_app_len.
Qed.
Lemma leftT_app a b i : i = length a + 1 -> leftT (a ++ b) i = a.
Proof. intros ->. unfold leftT. rewrite Nat.add_sub. apply firstn_app_len. Qed.
Lemma rightT_app a b i : i = length a + 1 -> rightT (a ++ b) i = b.
Proof. intros ->. unfold rightT. rewrite Nat.add_sub. apply skipn_app_len. Qed.

Lemma written_begin n : beginMark n = written tBegin n ++ [10].
Proof. unfold beginMark, markup, written, comment. now rewrite <- !app_assoc. Qed.
Lemma written_end n : endMark n = written tEnd n.
Proof. unfold endMark, markup, written, comment. now rewrite <- !app_assoc. Qed.
Lemma written_skip n : skipMark n = written tSkip n.
Proof. unfold skipMark, markup, written, comment. now rewrite <- !app_assoc. Qed.

(* ---------------- the main induction ---------------- *)
Section Run.
Variable main : list nat.
Variable rd : list nat -> res (option (list nat)).
Let file (n t : list nat) : Prop := rd n = Ok (Some t).

Definition skips (gap t : list nat) : Prop := forall len, scan len None (gap ++ t) = scan len None t.
Definition run (open seen : list (list nat)) (t out : list nat) (seen' : list (list nat)) : Prop :=
  forall done gap off src size pline s, skips gap t -> tabOk main open seen (is_tab s) ->
  exists bound s' more,
    (forall f, bound < f -> readInclude f rd (done ++ gap ++ t) off src size pline (length done) s =
       Ok (done ++ gap ++ out, (size + Z.of_nat (length out) - Z.of_nat (length t))%Z, s')) /\
    is_err s' = is_err s /\ is_tab s' = is_tab s ++ more /\ tabOk main open seen' (is_tab s').

Lemma run_gap open seen x t out seen' : (forall r, x ++ t = x ++ r -> True) ->
  skips x t -> run open seen t out seen' -> run open seen (x ++ t) (x ++ out) seen'.
Proof.
  intros _ Sx R done gap off src size pline s G T.
  destruct (R done (gap ++ x) off src size pline s) as (bd & s' & more & H & E & M & T').
  - intros len. rewrite <- app_assoc, G. apply Sx.
  - exact T.
  - exists bd, s', more. split; [|auto]. intros f Hf. specialize (H f Hf). rewrite <- !app_assoc in H. rewrite H.
    rewrite !app_length, !Nat2Z.inj_add. do 3 f_equal. lia.
Qed.
Lemma run_nil open seen : run open seen [] [] seen.
Proof.
  intros done gap off src size pline s G T. exists 0, s, []. split; [|rewrite app_nil_r; auto].
  intros [|f] Hf; [lia|]. cbn [readInclude]. rewrite getNext_scan, G. cbn [rbind scan nextInc length skipRaw skipn rawWhiteSpaceLen rawTokenLen Nat.eqb].
  do 3 f_equal. lia.
Qed.
Lemma skips_nil t : skips [] t. Proof. intros len. reflexivity. Qed.

Lemma last_ok open seen s : tabOk main open seen (is_tab s) -> negb (Nat.eqb (ic_push (last (is_tab s) dfl)) 1) = false.
Proof. intros T. rewrite (tk_last _ _ _ _ T). reflexivity. Qed.

Lemma run_first ty open seen n cmd t o1 seen1 r o2 seen2 : (ty = TIncl \/ ty = TSkip) ->
  (forall len, length (cmd ++ r) <= len -> scan len None (cmd ++ r) = Ok (NFound ty (len - length (cmd ++ r) + 1) (len - length r + 1) 0 0 n)) ->
  n <> main -> ~ In n seen -> rd n = Ok (Some t) ->
  run (n :: open) (n :: seen) t o1 seen1 -> run open seen1 r o2 seen2 ->
  run open seen (cmd ++ r) (written tBegin n ++ 10 :: o1 ++ written tEnd n ++ o2) seen2.
Proof.
  intros Ty Sc Nm Ns Fl R1 R2 done gap off src size pline s G T.
  set (D := length (done ++ gap)).
  set (aft := (pline + countLines (done ++ gap ++ cmd ++ r) (length done + 1) (Z.of_nat (D + 1) - 1 - Z.of_nat (length done))
     + countLines (done ++ gap ++ cmd ++ r) (D + 1) (Z.of_nat (D + length cmd + 1) - Z.of_nat (D + 1) - 1))%Z).
  set (tab := is_tab s). set (a := mkIC 0 n [] 0 0 None 0). set (b := mkIC 1 src [] 0 aft None 0).
  set (s1 := mkIS (tab ++ [a; b]) (is_err s) (is_msgs s)).
  set (prefix := beginMark n). set (suffix := endMark n).
  destruct (R1 [] [] (off + Z.of_nat (D + 1) - 1 + Z.of_nat (length prefix))%Z n (Z.of_nat (length t)) 1%Z s1) as (bd1 & s2 & more1 & H1 & E1 & M1 & T1).
  { apply skips_nil. } { apply tabOk_push; try reflexivity; assumption. }
  set (isz := (Z.of_nat (length t) + Z.of_nat (length o1) - Z.of_nat (length t))%Z) in *.
  set (new := (Z.of_nat (length prefix) + isz + Z.of_nat (length suffix))%Z).
  set (s3 := closeCalls (length tab + 1) n src off (D + 1) (length prefix) true isz new 0 aft s2).
  cbn [is_tab s1] in M1. rewrite <- app_assoc in M1. cbn [app] in M1.
  assert (T3 : exists a' b', is_tab s3 = tab ++ a' :: b' :: more1 /\ tabOk main open seen1 (is_tab s3)).
  { unfold s3, closeCalls. cbn [is_tab]. rewrite M1, close_tab. eexists _, _. split; [reflexivity|].
    rewrite M1 in T1. eapply tabOk_close; [exact T| exact Nm| exact Ns| | | | | | | | |exact T1]; try reflexivity; eexists; reflexivity. }
  destruct T3 as (a' & b' & E3 & T3).
  destruct (R2 (done ++ gap ++ prefix ++ o1 ++ suffix) [] off src (size - (Z.of_nat (D + length cmd + 1) - Z.of_nat (D + 1)) + new)%Z aft s3 (skips_nil r) T3)
    as (bd2 & s4 & more2 & H2 & E2 & M2 & T4).
  exists (S (Nat.max bd1 bd2)), s4, (a' :: b' :: more1 ++ more2). split; [|split; [|split; [|exact T4]]].
  - intros [|f] Hf; [lia|]. cbn [readInclude]. rewrite getNext_scan, G, Sc by (rewrite !app_length; lia). cbn [rbind].
    replace (length (done ++ gap ++ cmd ++ r) - length (cmd ++ r) + 1) with (D + 1) by (unfold D; rewrite !app_length; lia).
    replace (length (done ++ gap ++ cmd ++ r) - length r + 1) with (D + length cmd + 1) by (unfold D; rewrite !app_length; lia).
    change (mkIC 0 [] [] 0 0 None 0) with dfl. rewrite (last_ok open seen s T). rewrite (tk_new _ _ _ _ T n Nm Ns).
    assert (step : (do t0 <- rd n;
      let '(tmp, s') := match t0 with Some x => (x, fun l1 l2 : Z => mkIS (is_tab s ++ [mkIC 0 n [] 0 l1 None 0; mkIC 1 src [] 0 l2 None 0]) (is_err s) (is_msgs s))
                         | None => ([], fun a b => incErr (MNotFound n) (mkIS (is_tab s ++ [mkIC 0 n [] 0 a None 0; mkIC 1 src [] 0 b None 0]) (is_err s) (is_msgs s))) end in
      do x <- readInclude f rd tmp (off + Z.of_nat (D + 1) - 1 + Z.of_nat (length (beginMark n))) n (Z.of_nat (length tmp)) 1 0 (s' 0 aft)%Z;
      let '(isrc, isz, s2) := x in
      readInclude f rd (leftT (done ++ gap ++ cmd ++ r) (D + 1) ++ beginMark n ++ isrc ++ endMark n ++ rightT (done ++ gap ++ cmd ++ r) (D + length cmd + 1)) off src
         (size - (Z.of_nat (D + length cmd + 1) - Z.of_nat (D + 1)) + (Z.of_nat (length (beginMark n)) + isz + Z.of_nat (length (endMark n))))%Z aft
         (Z.to_nat (Z.of_nat (D + 1) + (Z.of_nat (length (beginMark n)) + isz + Z.of_nat (length (endMark n))) - 1))
         (closeCalls (length (is_tab s) + 1) n src off (D + 1) (length (beginMark n)) true isz (Z.of_nat (length (beginMark n)) + isz + Z.of_nat (length (endMark n))) 0 aft s2))
      = Ok (done ++ gap ++ written tBegin n ++ 10 :: o1 ++ written tEnd n ++ o2,
         (size + Z.of_nat (length (written tBegin n ++ 10%nat :: o1 ++ written tEnd n ++ o2)) - Z.of_nat (length (cmd ++ r)))%Z, s4)).
    { rewrite Fl. cbn [rbind]. fold prefix suffix.
      assert (H1' := H1 f ltac:(lia)). cbn [app length] in H1'. fold tab a b s1. rewrite H1'. cbn [rbind]. fold new s3.
      replace (leftT (done ++ gap ++ cmd ++ r) (D + 1)) with (done ++ gap) by (rewrite app_assoc; symmetry; now apply leftT_app).
      replace (rightT (done ++ gap ++ cmd ++ r) (D + length cmd + 1)) with r
        by (rewrite app_assoc, app_assoc; symmetry; apply rightT_app; unfold D; rewrite !app_length; lia).
      assert (H2' := H2 f ltac:(lia)). cbn [app] in H2'. rewrite <- !app_assoc in *.
      replace (Z.to_nat (Z.of_nat (D + 1) + new - 1)) with (length (done ++ gap ++ prefix ++ o1 ++ suffix))
        by (unfold new, isz, D; rewrite !app_length; lia).
      rewrite H2'. unfold prefix, suffix. rewrite written_begin, written_end. rewrite <- !app_assoc. cbn [app].
      f_equal. f_equal. f_equal. unfold new, isz, prefix, suffix. rewrite written_begin, written_end. rewrite !app_length. cbn [length]. rewrite !app_length. lia. }
    destruct Ty as [-> | ->]; exact step.
  - rewrite E2. exact E1.
  - rewrite M2, E3, <- app_assoc. reflexivity.
Qed.

Lemma run_again open seen n cmd r o seen' :
  (forall len, length (cmd ++ r) <= len -> scan len None (cmd ++ r) = Ok (NFound TIncl (len - length (cmd ++ r) + 1) (len - length r + 1) 0 0 n)) ->
  n <> main -> In n seen -> run open seen r o seen' -> run open seen (cmd ++ r) (written tSkip n ++ o) seen'.
Proof.
  intros Sc Nm Ns R done gap off src size pline s G T.
  set (D := length (done ++ gap)).
  set (bef := (pline + countLines (done ++ gap ++ cmd ++ r) (length done + 1) (Z.of_nat (D + 1) - 1 - Z.of_nat (length done)))%Z).
  set (aft := (bef + countLines (done ++ gap ++ cmd ++ r) (D + 1) (Z.of_nat (D + length cmd + 1) - Z.of_nat (D + 1)))%Z).
  set (tab := is_tab s). set (a := mkIC 0 n [] 0 bef None 0). set (b := mkIC 1 src [] 0 aft None 0).
  set (s1 := mkIS (tab ++ [a; b]) (is_err s) (is_msgs s)).
  set (prefix := skipMark n). set (new := Z.of_nat (length prefix)).
  set (s3 := closeCalls (length tab + 1) n src off (D + 1) (length prefix) false 0 new bef aft s1).
  assert (T3 : exists a' b', is_tab s3 = tab ++ [a'; b'] /\ tabOk main open seen (is_tab s3)).
  { unfold s3, closeCalls. cbn [is_tab s1]. rewrite close_tab. eexists _, _. split; [reflexivity|].
    eapply tabOk_again; [exact T|exact Nm|exact Ns| | |]; reflexivity. }
  destruct T3 as (a' & b' & E3 & T3).
  destruct (R (done ++ gap ++ prefix) [] off src (size - (Z.of_nat (D + length cmd + 1) - Z.of_nat (D + 1)) + new)%Z aft s3 (skips_nil r) T3)
    as (bd & s4 & more & H & E & M & T4).
  destruct (tk_old _ _ _ _ T n Nm Ns) as (i & e & F & _ & _).
  exists (S bd), s4, (a' :: b' :: more). split; [|split; [|split; [|exact T4]]].
  - intros [|f] Hf; [lia|]. cbn [readInclude]. rewrite getNext_scan, G, Sc by (rewrite !app_length; lia). cbn [rbind].
    replace (length (done ++ gap ++ cmd ++ r) - length (cmd ++ r) + 1) with (D + 1) by (unfold D; rewrite !app_length; lia).
    replace (length (done ++ gap ++ cmd ++ r) - length r + 1) with (D + length cmd + 1) by (unfold D; rewrite !app_length; lia).
    change (mkIC 0 [] [] 0 0 None 0) with dfl. rewrite (last_ok open seen s T), F. cbn [Nat.eqb]. fold bef aft prefix tab a b s1 new s3.
    replace (leftT (done ++ gap ++ cmd ++ r) (D + 1)) with (done ++ gap) by (rewrite app_assoc; symmetry; now apply leftT_app).
    replace (rightT (done ++ gap ++ cmd ++ r) (D + length cmd + 1)) with r
      by (rewrite app_assoc, app_assoc; symmetry; apply rightT_app; unfold D; rewrite !app_length; lia).
    assert (H' := H f ltac:(lia)). cbn [app] in H'. rewrite <- !app_assoc in *.
    replace (Z.to_nat (Z.of_nat (D + 1) + new - 1)) with (length (done ++ gap ++ prefix)) by (unfold new, D; rewrite !app_length; lia).
    rewrite H'. unfold prefix. rewrite written_skip. f_equal. f_equal. f_equal. unfold new, prefix. rewrite written_skip, !app_length. lia.
  - exact E.
  - rewrite M, E3, <- app_assoc. reflexivity.
Qed.
Lemma run_skip open seen n cmd r o seen' :
  (forall len, length (cmd ++ r) <= len -> scan len None (cmd ++ r) = Ok (NFound TSkip (len - length (cmd ++ r) + 1) (len - length r + 1) 0 0 n)) ->
  n <> main -> In n seen -> run open seen r o seen' -> run open seen (cmd ++ r) (cmd ++ o) seen'.
Proof.
  intros Sc Nm Ns R done gap off src size pline s G T.
  set (D := length (done ++ gap)).
  set (bef := (pline + countLines (done ++ gap ++ cmd ++ r) (length done + 1) (Z.of_nat (D + 1) - 1 - Z.of_nat (length done)))%Z).
  set (aft := (bef + countLines (done ++ gap ++ cmd ++ r) (D + 1) (Z.of_nat (D + length cmd + 1) - Z.of_nat (D + 1)))%Z).
  set (tab := is_tab s). set (a := mkIC 0 n [] 0 bef None 0). set (b := mkIC 1 src [] 0 aft None 0).
  set (s1 := mkIS (tab ++ [a; b]) (is_err s) (is_msgs s)).
  set (prefix := segT (done ++ gap ++ cmd ++ r) (D + 1) (D + length cmd + 1 - 1)).
  set (new := (Z.of_nat (D + length cmd + 1) - Z.of_nat (D + 1))%Z).
  set (s3 := closeCalls (length tab + 1) n src off (D + 1) (length prefix) false 0 new bef (aft - 1) s1).
  assert (T3 : exists a' b', is_tab s3 = tab ++ [a'; b'] /\ tabOk main open seen (is_tab s3)).
  { unfold s3, closeCalls. cbn [is_tab s1]. rewrite close_tab. eexists _, _. split; [reflexivity|].
    eapply tabOk_again; [exact T|exact Nm|exact Ns| | |]; reflexivity. }
  destruct T3 as (a' & b' & E3 & T3).
  destruct (R (done ++ gap ++ cmd) [] off src size aft s3 (skips_nil r) T3) as (bd & s4 & more & H & E & M & T4).
  destruct (tk_old _ _ _ _ T n Nm Ns) as (i & e & F & _ & _).
  exists (S bd), s4, (a' :: b' :: more). split; [|split; [|split; [|exact T4]]].
  - intros [|f] Hf; [lia|]. cbn [readInclude]. rewrite getNext_scan, G, Sc by (rewrite !app_length; lia). cbn [rbind].
    replace (length (done ++ gap ++ cmd ++ r) - length (cmd ++ r) + 1) with (D + 1) by (unfold D; rewrite !app_length; lia).
    replace (length (done ++ gap ++ cmd ++ r) - length r + 1) with (D + length cmd + 1) by (unfold D; rewrite !app_length; lia).
    change (mkIC 0 [] [] 0 0 None 0) with dfl. rewrite (last_ok open seen s T), F. cbn [Nat.eqb]. fold bef aft prefix tab a b s1 new s3.
    assert (H' := H f ltac:(lia)). cbn [app] in H'. rewrite <- !app_assoc in H'.
    replace (Z.to_nat (Z.of_nat (D + 1) + new - 1)) with (length (done ++ gap ++ cmd)) by (unfold new, D; rewrite !app_length; lia).
    rewrite H'. f_equal. f_equal. f_equal. rewrite !app_length. lia.
  - exact E.
  - rewrite M, E3, <- app_assoc. reflexivity.
Qed.

(* a region of the buffer; x: Begin comment and white space, z: End comment *)
Lemma run_region open seen n x inner z seen1 r o2 seen2 :
  (forall len, length (x ++ inner ++ z ++ r) <= len -> scan len None (x ++ inner ++ z ++ r) =
     Ok (NFound TBegin (len - length (x ++ inner ++ z ++ r) + 1) (len - length (inner ++ z ++ r) + 1) (len - length (z ++ r) + 1) (len - length r + 1) n)) ->
  n <> main -> ~ In n seen ->
  run (n :: open) (n :: seen) inner inner seen1 -> run open seen1 r o2 seen2 ->
  run open seen (x ++ inner ++ z ++ r) (x ++ inner ++ z ++ o2) seen2.
Proof.
  intros Sc Nm Ns R1 R2 done gap off src size pline s G T.
  set (D := length (done ++ gap)). set (buf := done ++ gap ++ x ++ inner ++ z ++ r).
  set (c1 := D + 1). set (c2 := D + length x + 1). set (e1 := D + length x + length inner + 1). set (e2 := D + length x + length inner + length z + 1).
  set (bef := (pline + countLines buf (length done + 1) (Z.of_nat c2 - 1 - Z.of_nat (length done)))%Z).
  set (aft := (bef + countLines buf c2 (Z.of_nat e2 - Z.of_nat c2 - 1) + 1)%Z).
  set (tab := is_tab s). set (a := mkIC 0 n [] 0 (bef - 1) None 0). set (b := mkIC 1 src [] 0 (aft - 1) None 0).
  set (s1 := mkIS (tab ++ [a; b]) (is_err s) (is_msgs s)).
  assert (Px : segT buf c1 (c2 - 1) = x).
  { unfold buf. rewrite (app_assoc done). apply segT_mid; unfold c1, c2, D; lia. }
  assert (Pi : segT buf c2 (e1 - 1) = inner).
  { unfold buf. rewrite (app_assoc done), (app_assoc (done ++ gap)). apply segT_mid; unfold c2, e1, D; rewrite !app_length; lia. }
  assert (Pz : segT buf e1 (e2 - 1) = z).
  { unfold buf. rewrite (app_assoc done), (app_assoc (done ++ gap)), (app_assoc ((done ++ gap) ++ x)). apply segT_mid; unfold e1, e2, D; rewrite !app_length; lia. }
  destruct (R1 [] [] (off + Z.of_nat c1 - 1 + Z.of_nat (length x))%Z src (Z.of_nat e1 - Z.of_nat c2)%Z bef s1) as (bd1 & s2 & more1 & H1 & E1 & M1 & T1).
  { apply skips_nil. } { apply tabOk_push; try reflexivity; assumption. }
  set (isz := (Z.of_nat e1 - Z.of_nat c2 + Z.of_nat (length inner) - Z.of_nat (length inner))%Z) in *.
  set (new := (Z.of_nat (length x) + isz + Z.of_nat (length z))%Z).
  set (s3 := closeCalls (length tab + 1) n src off c1 (length x) false isz new (bef - 1) (aft - 1) s2).
  cbn [is_tab s1] in M1. rewrite <- app_assoc in M1. cbn [app] in M1.
  assert (T3 : exists a' b', is_tab s3 = tab ++ a' :: b' :: more1 /\ tabOk main open seen1 (is_tab s3)).
  { unfold s3, closeCalls. cbn [is_tab]. rewrite M1, close_tab. eexists _, _. split; [reflexivity|].
    rewrite M1 in T1. eapply tabOk_close; [exact T| exact Nm| exact Ns| | | | | | | | |exact T1]; try reflexivity; eexists; reflexivity. }
  destruct T3 as (a' & b' & E3 & T3).
  destruct (R2 (done ++ gap ++ x ++ inner ++ z) [] off src size aft s3 (skips_nil r) T3) as (bd2 & s4 & more2 & H2 & E2 & M2 & T4).
  exists (S (Nat.max bd1 bd2)), s4, (a' :: b' :: more1 ++ more2). split; [|split; [|split; [|exact T4]]].
  - intros [|f] Hf; [lia|]. cbn [readInclude]. unfold buf at 1. rewrite getNext_scan, G, Sc by (rewrite !app_length; lia). cbn [rbind]. fold buf.
    replace (length buf - length (x ++ inner ++ z ++ r) + 1) with c1 by (unfold c1, buf, D; rewrite !app_length; lia).
    replace (length buf - length (inner ++ z ++ r) + 1) with c2 by (unfold c2, buf, D; rewrite !app_length; lia).
    replace (length buf - length (z ++ r) + 1) with e1 by (unfold e1, buf, D; rewrite !app_length; lia).
    replace (length buf - length r + 1) with e2 by (unfold e2, buf, D; rewrite !app_length; lia).
    change (mkIC 0 [] [] 0 0 None 0) with dfl. rewrite (last_ok open seen s T). rewrite (tk_new _ _ _ _ T n Nm Ns).
    rewrite Px, Pi, Pz. fold bef aft. fold tab a b s1.
    assert (H1' := H1 f ltac:(lia)). cbn [app length] in H1'. rewrite H1'. cbn [rbind]. fold new s3.
    assert (H2' := H2 f ltac:(lia)). cbn [app] in H2'. rewrite <- !app_assoc in H2'. unfold buf at 1.
    replace (Z.to_nat (Z.of_nat c1 + new - 1)) with (length (done ++ gap ++ x ++ inner ++ z))
      by (unfold new, isz, c1, e1, c2, D; rewrite !app_length; lia).
    rewrite H2'. f_equal. f_equal. f_equal. rewrite !app_length. lia.
  - rewrite E2. exact E1.
  - rewrite M2, E3, <- app_assoc. reflexivity.
Qed.
Lemma run_drop open seen n x inner z r o seen' :
  (forall len, length (x ++ inner ++ z ++ r) <= len -> scan len None (x ++ inner ++ z ++ r) =
     Ok (NFound TBegin (len - length (x ++ inner ++ z ++ r) + 1) (len - length (inner ++ z ++ r) + 1) (len - length (z ++ r) + 1) (len - length r + 1) n)) ->
  n <> main -> In n seen -> ~ In n open -> run open seen r o seen' ->
  run open seen (x ++ inner ++ z ++ r) (written tSkip n ++ o) seen'.
Proof.
  intros Sc Nm Ns No R done gap off src size pline s G T.
  set (D := length (done ++ gap)). set (buf := done ++ gap ++ x ++ inner ++ z ++ r).
  set (c1 := D + 1). set (c2 := D + length x + 1). set (e1 := D + length x + length inner + 1). set (e2 := D + length x + length inner + length z + 1).
  set (bef := (pline + countLines buf (length done + 1) (Z.of_nat c2 - 1 - Z.of_nat (length done)))%Z).
  set (aft := (bef + countLines buf c2 (Z.of_nat e2 - Z.of_nat c2))%Z).
  set (tab := is_tab s). set (a := mkIC 0 n [] 0 bef None 0). set (b := mkIC 1 src [] 0 aft None 0).
  set (s1 := mkIS (tab ++ [a; b]) (is_err s) (is_msgs s)).
  set (prefix := skipMark n). set (new := Z.of_nat (length prefix)).
  destruct (tk_old _ _ _ _ T n Nm Ns) as (i & e & F & En & Is). destruct (Is No) as (old & Old).
  set (s2 := if seqb (segT buf c2 (e1 - 1)) old then s1 else incWarn (MMismatch (length (segT buf c2 (e1 - 1))) (length old)) s1).
  assert (S2 : is_tab s2 = tab ++ [a; b] /\ is_err s2 = is_err s) by (unfold s2; destruct seqb; split; reflexivity).
  set (s3 := closeCalls (length tab + 1) n src off c1 (length prefix) false 0 new bef aft s2).
  assert (T3 : exists a' b', is_tab s3 = tab ++ [a'; b'] /\ tabOk main open seen (is_tab s3)).
  { unfold s3, closeCalls. cbn [is_tab]. rewrite (proj1 S2), close_tab. eexists _, _. split; [reflexivity|].
    eapply tabOk_again; [exact T|exact Nm|exact Ns| | |]; reflexivity. }
  destruct T3 as (a' & b' & E3 & T3).
  destruct (R (done ++ gap ++ prefix) [] off src (size - (Z.of_nat e2 - Z.of_nat c1) + new)%Z aft s3 (skips_nil r) T3)
    as (bd & s4 & more & H & E & M & T4).
  exists (S bd), s4, (a' :: b' :: more). split; [|split; [|split; [|exact T4]]].
  - intros [|f] Hf; [lia|]. cbn [readInclude]. unfold buf at 1. rewrite getNext_scan, G, Sc by (rewrite !app_length; lia). cbn [rbind]. fold buf.
    replace (length buf - length (x ++ inner ++ z ++ r) + 1) with c1 by (unfold c1, buf, D; rewrite !app_length; lia).
    replace (length buf - length (inner ++ z ++ r) + 1) with c2 by (unfold c2, buf, D; rewrite !app_length; lia).
    replace (length buf - length (z ++ r) + 1) with e1 by (unfold e1, buf, D; rewrite !app_length; lia).
    replace (length buf - length r + 1) with e2 by (unfold e2, buf, D; rewrite !app_length; lia).
    change (mkIC 0 [] [] 0 0 None 0) with dfl. rewrite (last_ok open seen s T), F. cbn [Nat.eqb]. fold tab in En. fold tab. rewrite En. cbn [rget rbind]. rewrite Old. cbn [rget rbind].
    fold bef aft prefix. fold a b. fold s1. fold s2. fold new s3.
    replace (leftT buf c1) with (done ++ gap) by (unfold buf; rewrite app_assoc; symmetry; now apply leftT_app).
    replace (rightT buf e2) with r
      by (unfold buf; rewrite (app_assoc done), (app_assoc (done ++ gap)), (app_assoc ((done ++ gap) ++ x)), (app_assoc (((done ++ gap) ++ x) ++ inner));
          symmetry; apply rightT_app; unfold e2, D; rewrite !app_length; lia).
    assert (H' := H f ltac:(lia)). cbn [app] in H'. rewrite <- !app_assoc in *.
    replace (Z.to_nat (Z.of_nat c1 + new - 1)) with (length (done ++ gap ++ prefix)) by (unfold new, c1, D; rewrite !app_length; lia).
    rewrite H'. unfold prefix. rewrite written_skip. f_equal. f_equal. f_equal. unfold new, prefix, e2, c1. rewrite written_skip, !app_length. lia.
  - rewrite E. exact (proj2 S2).
  - rewrite M, E3, <- app_assoc. reflexivity.
Qed.

Lemma expands_run open seen t out ws seen' : Expands main file open seen t out ws seen' -> run open seen t out seen'.
Proof.
  intros X. induction X as [open seen|open seen c r o ws seen' G X IH|open seen w r o ws seen' W No Nl En X IH|open seen b r o ws seen' P En X IH
    |open seen n cmd t o1 ws1 seen1 r o2 ws2 seen2 C Nm Ns Fl Wt En X1 IH1 X2 IH2|open seen n cmd r o ws seen' C Nm Ns En X IH
    |open seen n b r o ws seen' M B Nm Ns En X IH|open seen n reg inner ws1 seen1 r o2 ws2 seen2 Rg Nm Ns En X1 IH1 X2 IH2
    |open seen n reg inner r o ws seen' Rg Nm Ns No En X IH].
  - apply run_nil.
  - apply (run_gap open seen [c] r o seen' (fun _ _ => I)); [|exact IH]. intros len. now apply scan_white.
  - apply run_gap; [trivial| |exact IH]. intros len. now apply scan_word.
  - apply run_gap; [trivial| |exact IH]. intros len. now apply scan_plain.
  - destruct C as [C|(b & M & B & ->)].
    + apply (run_first TIncl open seen n cmd t o1 seen1 r o2 seen2); auto. intros len L. now apply scan_command.
    + apply (run_first TSkip open seen n (comment b) t o1 seen1 r o2 seen2); auto. intros len L. now apply scan_skip.
  - apply run_again; auto. intros len L. now apply scan_command.
  - apply (run_skip open seen n); auto. intros len L. now apply scan_skip.
  - destruct Rg as (b1 & c & b2 & es & M1 & B1 & G & M2 & B2 & E & Nb & T & ->).
    replace ((comment b1 ++ c :: inner ++ comment b2) ++ r) with ((comment b1 ++ [c]) ++ inner ++ comment b2 ++ r) by (rewrite <- !app_assoc; cbn [app]; now rewrite <- !app_assoc).
    replace ((comment b1 ++ c :: inner ++ comment b2) ++ o2) with ((comment b1 ++ [c]) ++ inner ++ comment b2 ++ o2) by (rewrite <- !app_assoc; cbn [app]; now rewrite <- !app_assoc).
    apply (run_region open seen n _ inner (comment b2) seen1); auto. intros len L. now apply (scan_region len n b1 c inner b2 es r).
  - destruct Rg as (b1 & c & b2 & es & M1 & B1 & G & M2 & B2 & E & Nb & T & ->).
    replace ((comment b1 ++ c :: inner ++ comment b2) ++ r) with ((comment b1 ++ [c]) ++ inner ++ comment b2 ++ r) by (rewrite <- !app_assoc; cbn [app]; now rewrite <- !app_assoc).
    apply (run_drop open seen n _ inner (comment b2)); auto. intros len L. now apply (scan_region len n b1 c inner b2 es r).
Qed.
End Run.
