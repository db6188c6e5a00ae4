(* LineText.v -- printLongLine as a whole; quotations; words; compressed proofs *)
From Coq Require Import ZifyBool ZifyNat.
From Verif Require Import Base VstrModel VstrSpec VstrProofs LineModel LineSpec LineProofs.
Open Scope nat_scope.

(* ---------- quotations ---------- *)
Lemma quote_in v : forall a r, ~ In 34 v ->
  quoteSpaces (Some a) true (v ++ 34 :: r) = map prot v ++ 34 :: quoteSpaces (Some 34) false r.
Proof.
  induction v as [|c v IH]; intros a r N; cbn [app quoteSpaces map].
  - reflexivity.
  - destruct (Nat.eqb_spec c 34) as [->|E]; [exfalso; apply N; left; reflexivity|]. rewrite andb_true_r.
    rewrite IH by (intros I; apply N; right; exact I). unfold prot at 2, chSpace, chQuoted. reflexivity.
Qed.
Lemma quote_open v : forall a, ~ In 34 v -> quoteSpaces (Some a) true v = map prot v.
Proof.
  induction v as [|c v IH]; intros a N; cbn [quoteSpaces map]; [reflexivity|].
  destruct (Nat.eqb_spec c 34) as [->|E]; [exfalso; apply N; left; reflexivity|]. rewrite andb_true_r.
  rewrite IH by (intros I; apply N; right; exact I). reflexivity.
Qed.
Lemma split_34 s : (exists v r, s = v ++ 34 :: r /\ ~ In 34 v) \/ ~ In 34 s.
Proof.
  induction s as [|c s IH]; [right; simpl; tauto|].
  destruct (Nat.eq_dec c 34) as [->|N].
  - left. exists [], s. split; [reflexivity|simpl; tauto].
  - destruct IH as [[v [r [E I]]]|I].
    + left. exists (c :: v), r. split; [rewrite E; reflexivity|]. intros [X|X]; [congruence|tauto].
    + right. intros [X|X]; [congruence|tauto].
Qed.
Lemma quote_protects : forall n s prev, length s <= n -> ~ (prev = Some 61 /\ hd 0 s = 34) ->
  protects s (quoteSpaces prev false s).
Proof.
  induction n as [|n IH]; intros s prev L P.
  { destruct s; [constructor|simpl in L; lia]. }
  destruct s as [|c r]; [constructor|]. cbn [quoteSpaces].
  assert (Q : (if c =? 34 then match prev with None => false | Some a => if negb false && (a =? 61) then true else false end else false) = false).
  { destruct (Nat.eqb_spec c 34) as [->|]; [|reflexivity]. destruct prev as [a|]; [|reflexivity].
    cbn [negb andb]. destruct (Nat.eqb_spec a 61) as [->|]; [|reflexivity]. exfalso. apply P. split; reflexivity. }
  rewrite Q. rewrite andb_false_r. cbn [length] in L.
  destruct (Nat.eq_dec c 61) as [->|N]; [destruct r as [|d r]; [|destruct (Nat.eq_dec d 34) as [->|N]]|].
  - apply pr_char; [simpl; lia|apply IH; [simpl; lia|simpl; lia]].
  - (* opens a quotation *)
    cbn [quoteSpaces]. change (34 =? 34) with true. change (61 =? 61) with true. cbn [negb andb].
    change (34 =? chSpace) with false. cbn [andb].
    destruct (split_34 r) as [[v [r' [-> I]]]|I].
    + rewrite quote_in by exact I. apply pr_quote; [exact I|]. apply IH.
      * rewrite app_comm_cons, app_length in L. simpl in L. lia.
      * intros [X _]. discriminate.
    + rewrite quote_open by exact I. apply pr_open, I.
  - apply pr_char; [simpl; tauto|]. apply IH; [simpl in *; lia|]. simpl. tauto.
  - apply pr_char; [tauto|]. apply IH; [lia|]. intros [X _]. congruence.
Qed.
Lemma quote_len : forall s p q, length (quoteSpaces p q s) = length s.
Proof. induction s as [|c s IH]; intros p q; cbn [quoteSpaces length]; [reflexivity|]. rewrite IH. reflexivity. Qed.
Lemma quote_unquote : forall s p q, map unquote (quoteSpaces p q s) = map unquote s.
Proof.
  induction s as [|c s IH]; intros p q; cbn [quoteSpaces map]; [reflexivity|]. rewrite IH. f_equal.
  destruct (_ && _) eqn:E; [|reflexivity]. apply andb_prop in E. destruct E as [E _]. apply Nat.eqb_eq in E.
  subst. reflexivity.
Qed.
Lemma quote_in_chars : forall s p q c, In c (quoteSpaces p q s) -> In c s \/ c = 3.
Proof.
  induction s as [|d s IH]; intros p q c I; cbn [quoteSpaces] in I; [destruct I|].
  destruct I as [E|I].
  - destruct (_ && _); [right; rewrite <- E; reflexivity|left; left; exact E].
  - destruct (IH _ _ _ I) as [X|X]; [left; right; exact X|right; exact X].
Qed.

(* ---------- printLongLine ---------- *)
Definition textOf (brk line : list nat) : list nat := if hdIs 34 brk then quoteSpaces None false line else line.

Lemma pll_unfold fuel w line start brk : line <> [] ->
  printLongLine fuel w line start brk =
  wrapAll fuel (mkStyle (hdIs 126 start) (hdIs 1 brk) (breaksOf brk)) w
    (if hdIs 126 start then [32] else start) (callerLines (textOf brk line)).
Proof.
  intros N. unfold printLongLine, textOf. destruct line as [|c l]; [congruence|].
  destruct brk as [|b r]; [reflexivity|].
  cbn [hdIs tl]. destruct (Nat.eqb_spec b 1) as [->|N1].
  - reflexivity.
  - cbn [hdIs tl]. destruct (Nat.eqb_spec b 34) as [->|N2]; [reflexivity|].
    unfold breaksOf. destruct b as [|[|b]]; try reflexivity; try congruence.
    do 33 (try (destruct b as [|b]; try reflexivity; try congruence)).
Qed.

Lemma hd92 brk : hdIs 92 (breaksOf brk) = hdIs 92 brk.
Proof.
  unfold breaksOf. destruct brk as [|b r]; [reflexivity|].
  do 35 (try (destruct b as [|b]; try reflexivity)).
Qed.

Lemma isStr_quote line : isStr line -> isStr (quoteSpaces None false line).
Proof.
  intros H. unfold isStr in *. rewrite Forall_forall in *. intros c I.
  destruct (quote_in_chars _ _ _ _ I) as [X| ->]; [apply H, X|lia].
Qed.

Theorem pll_ok : forall fuel w line start brk, (4 <= w)%Z -> isStr line -> isStr start -> stylesOk start brk -> ~ In 3 brk ->
  (2 * len line + 2 < Z.of_nat fuel)%Z ->
  (printLongLine fuel w line start brk = Bug 1516 /\ exists c, In c line /\ breakChar (breaksOf brk) c /\ c <> 32) \/
  exists text ls lss,
    (if hdIs 34 brk then protects line text else text = line) /\
    linesOf text ls /\
    Forall2 (wrapped (breaksOf brk) (hdIs 1 brk) (startOf w start) (postOf start) (minRun w start brk) true) ls lss /\
    printLongLine fuel w line start brk = Ok (map (map unquote) (concat lss)) /\
    Forall2 (fun l r => forall x, In x r -> widthOk w start brk l x) ls lss.
Proof.
  intros fuel w line start brk W HL HS SO N3 FU. destruct line as [|c l] eqn:E.
  { right. exists [], [[]], [[[]]]. split; [destruct (hdIs 34 brk); [constructor|reflexivity]|].
    split; [split; [repeat constructor; simpl; tauto|split; [discriminate|left; reflexivity]]|].
    split. { constructor; [|constructor]. apply (wr_last _ _ _ _ _ true [] []). left. split; [reflexivity|left; reflexivity]. }
    split. { cbn [printLongLine]. rewrite print2_ok by (unfold len; simpl; lia). reflexivity. }
    constructor; [|constructor]. intros x [<-|[]]. left. unfold len. simpl. lia. }
  rewrite <- E in *. assert (NE : line <> []) by (rewrite E; discriminate). clear E c l.
  rewrite pll_unfold by exact NE.
  set (y := mkStyle (hdIs 126 start) (hdIs 1 brk) (breaksOf brk)).
  set (st := if hdIs 126 start then [32] else start).
  assert (HT : isStr (textOf brk line)). { unfold textOf. destruct (hdIs 34 brk); [apply isStr_quote, HL|exact HL]. }
  assert (LT : length (textOf brk line) = length line). { unfold textOf. destruct (hdIs 34 brk); [apply quote_len|reflexivity]. }
  assert (HSt : isStr st). { unfold st. destruct (hdIs 126 start); [repeat constructor; lia|exact HS]. }
  assert (CY : cost y = reserved start brk). { unfold cost, reserved, bz, y. cbn [y_tilde y_brk]. rewrite hd92. reflexivity. }
  destruct (wrapAll_ok fuel y w st (len line) (callerLines (textOf brk line))) as [[B [l [I [c [O1 [O2 O3]]]]]]|[lss [B F]]]; auto.
  - unfold y. cbn [y_tilde y_tree]. destruct (hdIs 126 start) eqn:T; [|reflexivity]. rewrite (proj1 (SO T)). reflexivity.
  - rewrite CY. unfold reserved. destruct (hdIs 126 start) eqn:T; [rewrite (proj2 (SO T))|destruct (hdIs 92 brk)]; lia.
  - intros l I. destruct (callerLines_in _ _ I) as [A C]. split.
    + unfold isStr in *. rewrite Forall_forall in *. intros x X. apply HT, C, X.
    + unfold len. lia.
  - left. split; [exact B|]. exists c. cbn [y y_brk] in O2. split; [|split; assumption].
    destruct (callerLines_in _ _ I) as [_ C]. specialize (C c O1). unfold textOf in C.
    destruct (hdIs 34 brk) eqn:T; [|exact C]. destruct (quote_in_chars _ _ _ _ C) as [X| ->]; [exact X|].
    (* code 3 as a break character of the HTML style: not protected text, so it was in the line *)
    destruct brk as [|b r]; [discriminate|]. cbn [hdIs] in T. apply Nat.eqb_eq in T. subst b.
    exfalso. unfold breakChar, breaksOf in O2. cbn [hdIs Nat.eqb In] in O2. apply N3. simpl. intuition congruence.
  - right. exists (textOf brk line), (callerLines (textOf brk line)), lss.
    split. { unfold textOf. destruct (hdIs 34 brk); [|reflexivity]. apply quote_protects with (length line); [lia|]. intros [X _]; discriminate. }
    split. { apply callerLines_spec. intros X. apply NE. rewrite X in LT. destruct line; [reflexivity|discriminate]. }
    split; [|split; [exact B|]].
    + clear B. unfold minRun. rewrite <- CY. induction F as [|a b la lb [Q _] F IH]; constructor; [exact Q|exact IH].
    + clear B. induction F as [|a b la lb [_ Q] F IH]; constructor; [|exact IH].
      intros x X. unfold widthOk. rewrite <- CY. exact (Q x X).
Qed.

(* ---------- words and ink ---------- *)
Lemma wordsFrom_blank : forall a cur c b, isBlank c = true -> wordsFrom cur (a ++ c :: b) = wordsFrom cur a ++ words b.
Proof.
  induction a as [|x a IH]; intros cur c b H; cbn [app wordsFrom].
  - rewrite H. destruct cur; reflexivity.
  - destruct (isBlank x) eqn:E; [destruct cur|]; rewrite IH by exact H; reflexivity.
Qed.
Lemma words_lead a b : Forall (fun c => isBlank c = true) a -> words (a ++ b) = words b.
Proof. induction 1 as [|c a H F IH]; [reflexivity|]. unfold words in *. cbn [app wordsFrom]. rewrite H. exact IH. Qed.
Lemma words_join ls : words (joinNl ls) = flat_map words ls.
Proof.
  induction ls as [|l ls IH]; [reflexivity|]. destruct ls as [|k ls].
  - cbn [joinNl flat_map]. rewrite app_nil_r. reflexivity.
  - cbn [flat_map] in *. rewrite <- IH.
    change (joinNl (l :: k :: ls)) with (l ++ 10 :: joinNl (k :: ls)).
    unfold words at 1. rewrite wordsFrom_blank by reflexivity. reflexivity.
Qed.
Lemma ink_app a b : ink (a ++ b) = ink a ++ ink b.
Proof. apply filter_app. Qed.
Lemma ink_blank a : Forall (fun c => isBlank c = true) a -> ink a = [].
Proof. induction 1 as [|c a H F IH]; [reflexivity|]. unfold ink in *. cbn [filter]. rewrite H. exact IH. Qed.
Lemma ink_join ls : ink (joinNl ls) = flat_map ink ls.
Proof.
  induction ls as [|l ls IH]; [reflexivity|]. destruct ls as [|k ls].
  - cbn [joinNl flat_map]. rewrite app_nil_r. reflexivity.
  - cbn [flat_map] in *. rewrite <- IH.
    change (joinNl (l :: k :: ls)) with (l ++ [10] ++ joinNl (k :: ls)). rewrite !ink_app. reflexivity.
Qed.
Lemma unq_blank a : Forall (fun c => c = 32) a -> Forall (fun c => isBlank c = true) (map unquote a).
Proof. induction 1 as [|c a H F IH]; constructor; [subst; reflexivity|exact IH]. Qed.
Lemma prefix_blank brk tree start m f t pre : Forall (fun c => c = 32) start -> prefixOk brk tree start m f t pre -> Forall (fun c => c = 32) pre.
Proof.
  intros H [[-> _]|[_ [n [-> _]]]]; [constructor|]. apply Forall_app. split; [exact H|].
  apply Forall_forall. intros x I. apply repeat_spec in I. exact I.
Qed.
Lemma gap_cases brk a gap b : breakAt brk a gap b -> gap = [] \/ gap = [32] \/ gap = [32; 32].
Proof. intros []; auto. Qed.

Lemma wrapped_ink brk tree start m f t ls : Forall (fun c => c = 32) start ->
  wrapped brk tree start [] m f t ls -> flat_map (fun l => ink (map unquote l)) ls = ink (map unquote t).
Proof.
  intros H W. induction W as [f t pre P|f a gap b pre ls P B W IH]; cbn [flat_map].
  - rewrite app_nil_r, map_app, ink_app, (ink_blank (map unquote pre)); [reflexivity|].
    apply unq_blank. eapply prefix_blank; eassumption.
  - rewrite app_nil_r, !map_app, !ink_app, IH, (ink_blank (map unquote pre)).
    2:{ apply unq_blank. eapply prefix_blank; eassumption. }
    destruct (gap_cases _ _ _ _ B) as [->|[->| ->]]; reflexivity.
Qed.
Lemma wrapped_words brk tree start m f t ls : Forall (fun c => c = 32) start ->
  brk <> [] -> hdIs 38 brk = false -> (forall c, In c t -> breakChar brk c -> c = 32) ->
  wrapped brk tree start [] m f t ls -> flat_map (fun l => words (map unquote l)) ls = words (map unquote t).
Proof.
  intros H N1 N2 N3 W. induction W as [f t pre P|f a gap b pre ls P B W IH]; cbn [flat_map].
  - rewrite app_nil_r, map_app, words_lead; [reflexivity|]. apply unq_blank. eapply prefix_blank; eassumption.
  - rewrite app_nil_r, map_app, words_lead by (apply unq_blank; eapply prefix_blank; eassumption).
    rewrite IH by (intros c I; apply N3; apply in_or_app; right; apply in_or_app; right; exact I).
    rewrite !map_app.
    destruct B as [E _ _|_ _ -> _|_ _ ->|c b' E1 E2 _ E4 _|a' x y E _ _ _ _ _ _|a' x y E _ _ _ _]; try congruence.
    + unfold words at 3. cbn [app map]. rewrite (wordsFrom_blank (map unquote a)) by reflexivity. reflexivity.
    + unfold words at 3. cbn [app map]. rewrite (wordsFrom_blank (map unquote a)) by reflexivity. reflexivity.
    + exfalso. apply E2. apply N3; [|exact E1]. rewrite E4. apply in_or_app. right. apply in_or_app. right. left. reflexivity.
Qed.

Lemma map_join ls : map unquote (joinNl ls) = joinNl (map (map unquote) ls).
Proof.
  induction ls as [|l ls IH]; [reflexivity|]. destruct ls as [|k ls]; [reflexivity|].
  change (joinNl (l :: k :: ls)) with (l ++ 10 :: joinNl (k :: ls)). rewrite map_app. cbn [map] in *. rewrite IH. reflexivity.
Qed.
Lemma flat_concat {A B} (g : A -> list B) lss : flat_map g (concat lss) = flat_map (flat_map g) lss.
Proof. induction lss as [|l lss IH]; [reflexivity|]. cbn [concat flat_map]. rewrite flat_map_app, IH. reflexivity. Qed.
Lemma flat_map_map {A B C} (g : B -> list C) (h : A -> B) l : flat_map g (map h l) = flat_map (fun x => g (h x)) l.
Proof. induction l as [|x l IH]; [reflexivity|]. cbn. rewrite IH. reflexivity. Qed.
Lemma lines_map (g : list nat -> list (list nat)) (Hg : forall ls, g (joinNl ls) = flat_map g ls)
  (Ht : forall t, g (t ++ [10]) = g t) text ls : linesOf text ls ->
  g (map unquote text) = flat_map (fun l => g (map unquote l)) ls.
Proof.
  intros [_ [_ [->| ->]]]; rewrite ?map_app; [|change (map unquote [10]) with [10]; rewrite Ht];
    rewrite map_join, Hg, flat_map_map; reflexivity.
Qed.
Lemma words_trail t : words (t ++ [10]) = words t.
Proof. unfold words. rewrite wordsFrom_blank by reflexivity. cbn. apply app_nil_r. Qed.
Lemma ink_trail t : ink (t ++ [10]) = ink t.
Proof. rewrite ink_app. cbn. apply app_nil_r. Qed.

Lemma protects_unquote line text : protects line text -> map unquote text = map unquote line.
Proof.
  assert (Q : forall v, map unquote (map prot v) = map unquote v).
  { intros v. rewrite map_map. apply map_ext. intros c. unfold prot, unquote, chQuoted, chSpace.
    destruct (Nat.eqb_spec c 32) as [->|N]; reflexivity. }
  induction 1 as [|v r r' N P IH|v N|c r r' N P IH]; cbn [map]; rewrite ?map_app; cbn [map]; rewrite ?Q, ?IH; reflexivity.
Qed.
Lemma unquote_id t : ~ In 3 t -> map unquote t = t.
Proof.
  intros N. rewrite <- map_id. apply map_ext_in. intros c I. unfold unquote, chQuoted.
  destruct (Nat.eqb_spec c 3) as [->|]; [contradiction|reflexivity].
Qed.
Lemma protects_in line text c : protects line text -> In c text -> In c line \/ c = 3.
Proof.
  assert (Q : forall v, In c (map prot v) -> In c v \/ c = 3).
  { intros v I. apply in_map_iff in I. destruct I as [x [E I]]. unfold prot in E.
    destruct (Nat.eqb_spec x 32); [right; congruence|left; subst; exact I]. }
  induction 1 as [|v r r' N P IH|v N|d r r' N P IH]; cbn [In]; rewrite ?in_app_iff; cbn [In]; intros I.
  - tauto.
  - destruct I as [I|[I|[I|[I|I]]]]; [tauto|tauto|destruct (Q v I); tauto|tauto|destruct (IH I); tauto].
  - destruct I as [I|[I|I]]; [tauto|tauto|destruct (Q v I); tauto].
  - destruct I as [I|I]; [tauto|destruct (IH I); tauto].
Qed.
Lemma lines_in text ls l c : linesOf text ls -> In l ls -> In c l -> In c text.
Proof.
  intros [_ [_ J]] I1 I2.
  assert (X : In c (joinNl ls)).
  { clear J. induction ls as [|x ls IH]; [destruct I1|]. destruct ls as [|k ls].
    - destruct I1 as [->|[]]. exact I2.
    - change (joinNl (x :: k :: ls)) with (x ++ 10 :: joinNl (k :: ls)). apply in_or_app.
      destruct I1 as [->|I1]; [left; exact I2|right; right; apply IH, I1]. }
  destruct J as [->| ->]; [exact X|apply in_or_app; left; exact X].
Qed.
Lemma start_blank w start : Forall (fun c => c = 32) start -> Forall (fun c => c = 32) (startOf w start).
Proof.
  intros H. unfold startOf. apply Forall_forall. intros x I.
  assert (J : In x (if hdIs 126 start then [32] else start)) by (rewrite <- (firstn_skipn (Z.to_nat (w - 4)) _); apply in_or_app; left; exact I).
  destruct (hdIs 126 start); [destruct J as [<-|[]]; reflexivity|]. rewrite Forall_forall in H. apply H, J.
Qed.
Lemma start_notilde start : Forall (fun c => c = 32) start -> hdIs 126 start = false.
Proof. intros H. destruct H as [|x l E]; [reflexivity|]. subst. reflexivity. Qed.

(* every non-blank character is printed once, in order *)
Lemma pll_ink fuel w line start brk out : (4 <= w)%Z -> isStr line -> ~ In 3 line -> ~ In 3 brk ->
  Forall (fun c => c = 32) start -> (2 * len line + 2 < Z.of_nat fuel)%Z ->
  printLongLine fuel w line start brk = Ok out -> ink (joinNl out) = ink line.
Proof.
  intros W HL N3 N4 HS FU E.
  assert (HS' : isStr start) by (unfold isStr; rewrite Forall_forall in *; intros x I; rewrite (HS x I); lia).
  pose proof (start_notilde start HS) as NT.
  assert (SO : stylesOk start brk) by (intros X; congruence).
  destruct (pll_ok fuel w line start brk W HL HS' SO N4 FU) as [[B _]|[text [ls [lss [T [L [F [B _]]]]]]]]; [congruence|].
  rewrite B in E. apply Ok_inj in E. subst out.
  rewrite <- map_join. rewrite map_join, ink_join, flat_map_map, flat_concat.
  assert (UT : map unquote text = line).
  { destruct (hdIs 34 brk); [rewrite (protects_unquote _ _ T)|subst text]; apply unquote_id, N3. }
  assert (Hi : ink (map unquote text) = flat_map (fun l => ink (map unquote l)) ls).
  { destruct L as [_ [_ [->| ->]]]; rewrite ?map_app; [|change (map unquote [10]) with [10]; rewrite ink_trail];
    rewrite map_join, ink_join, flat_map_map; reflexivity. }
  rewrite <- UT, Hi. unfold postOf in F. rewrite NT in F.
  clear -F HS. induction F as [|a b la lb Q F IH]; [reflexivity|]. cbn [flat_map]. rewrite IH. f_equal.
  eapply wrapped_ink; [|exact Q]. apply start_blank, HS.
Qed.
Lemma pll_words fuel w line start brk : (4 <= w)%Z -> isStr line -> ~ In 3 line -> ~ In 3 brk ->
  Forall (fun c => c = 32) start -> brk <> [] -> hdIs 38 brk = false ->
  (forall c, In c line -> breakChar (breaksOf brk) c -> c = 32) -> (2 * len line + 2 < Z.of_nat fuel)%Z ->
  exists out, printLongLine fuel w line start brk = Ok out /\ words (joinNl out) = words line.
Proof.
  intros W HL N3 N4 HS NE NA OB FU.
  assert (HS' : isStr start) by (unfold isStr; rewrite Forall_forall in *; intros x I; rewrite (HS x I); lia).
  pose proof (start_notilde start HS) as NT.
  assert (SO : stylesOk start brk) by (intros X; congruence).
  destruct (pll_ok fuel w line start brk W HL HS' SO N4 FU) as [[B [c [I [O1 O2]]]]|[text [ls [lss [T [L [F [B _]]]]]]]].
  { exfalso. apply O2, (OB c I O1). }
  exists (map (map unquote) (concat lss)). split; [exact B|].
  rewrite words_join, flat_map_map, flat_concat.
  assert (UT : map unquote text = line).
  { destruct (hdIs 34 brk); [rewrite (protects_unquote _ _ T)|subst text]; apply unquote_id, N3. }
  rewrite <- UT at 1. rewrite (lines_map words words_join words_trail text ls L).
  assert (NB : breaksOf brk <> []). { unfold breaksOf. destruct brk as [|b r]; [congruence|]. do 35 (try (destruct b as [|b]; try discriminate)). }
  assert (NA' : hdIs 38 (breaksOf brk) = false).
  { unfold breaksOf. destruct brk as [|b r]; [congruence|]. do 35 (try (destruct b as [|b]; try reflexivity)). exact NA. }
  assert (OB' : forall l c, In l ls -> In c l -> breakChar (breaksOf brk) c -> c = 32).
  { intros l c I1 I2 Bc. pose proof (lines_in _ _ _ _ L I1 I2) as X.
    destruct (hdIs 34 brk) eqn:Q; [|subst text; apply OB; assumption].
    destruct (protects_in _ _ _ T X) as [Y| ->]; [apply OB; assumption|].
    exfalso. destruct brk as [|b r]; [discriminate|]. cbn [hdIs] in Q. apply Nat.eqb_eq in Q. subst b.
    unfold breakChar, breaksOf in Bc. cbn [hdIs Nat.eqb In] in Bc. apply N4. simpl. intuition congruence. }
  unfold postOf in F. rewrite NT in F. clear -F HS NB NA' OB'.
  induction F as [|a b la lb Q F IH]; [reflexivity|]. cbn [flat_map]. rewrite IH by (intros l c I; apply OB'; right; exact I). f_equal.
  eapply wrapped_words; [| | | |exact Q]; auto; [apply start_blank, HS|]. intros c I. apply (OB' a c (or_introl eq_refl) I).
Qed.
