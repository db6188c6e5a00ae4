(* VstrEdit.v -- proofs about edit(). *)
From Verif Require Import Base VstrModel VstrSpec VstrProofs.
Open Scope nat_scope.

Lemma bit_flag w k : bit w k = flag w k.
Proof.
  unfold bit, flag. destruct (Nat.testbit w k) eqn:E.
  - apply Nat.testbit_true in E. rewrite E. reflexivity.
  - apply Nat.testbit_false in E. rewrite E. reflexivity.
Qed.
Lemma isblank_oneOf c : isblank c = oneOf [32; 9] c.
Proof. unfold isblank, oneOf. cbn [existsb]. rewrite orb_false_r. reflexivity. Qed.
Lemma isblanklf_oneOf c : isblanklf c = oneOf [32; 9; 10] c.
Proof. unfold isblanklf, oneOf. cbn [existsb]. rewrite orb_false_r, orb_assoc. reflexivity. Qed.
Lemma isctrl_oneOf c : isctrl c = oneOf [13; 10; 12; 27; 8] c.
Proof. unfold isctrl, oneOf. cbn [existsb]. rewrite orb_false_r, !orb_assoc. reflexivity. Qed.
Lemma land127 c : Nat.land c 127 = c mod 128.
Proof. change 127 with (Nat.ones 7). rewrite Nat.land_ones. reflexivity. Qed.
Lemma screen_box c : screenChar c = boxAscii c.
Proof.
  unfold screenChar, boxAscii, oneOf. cbn [existsb]. rewrite !orb_false_r, !orb_assoc.
  replace ((234 <=? c) && (c <=? 237)) with ((c =? 234) || (c =? 235) || (c =? 236) || (c =? 237)); [reflexivity|].
  apply Bool.eq_iff_eq_true. rewrite !orb_true_iff, andb_true_iff, !Nat.eqb_eq, !Nat.leb_le. lia.
Qed.
Definition cell (c : nat) : list nat := if c =? 0 then [] else [c].
Lemma stage_discard b p c : p 0 = false -> 
  discard b p (cell c) = cell (if b && p c then 0 else c).
Proof.
  intros P. unfold discard, cell. destruct b; [|reflexivity]. cbn [andb]. destruct (c =? 0) eqn:E.
  - apply Nat.eqb_eq in E. subst. rewrite P. reflexivity.
  - cbn [filter]. destruct (p c); [reflexivity|]. cbn [negb]. rewrite E. reflexivity.
Qed.
Lemma stage_change b f c : f 0 = 0 -> (forall x, f x = 0 -> x = 0) -> change b f (cell c) = cell (if b then f c else c).
Proof.
  intros F G. unfold change, cell. destruct b; [|reflexivity]. destruct (c =? 0) eqn:E.
  - apply Nat.eqb_eq in E. subst. rewrite F. reflexivity.
  - cbn [map]. destruct (f c =? 0) eqn:E2; [|reflexivity]. apply Nat.eqb_eq in E2. apply G in E2. subst. discriminate.
Qed.
Ltac ifs := repeat match goal with |- context [if ?b then _ else _] => destruct b eqn:? end.
Lemma charEdit_ok w c : 0 < c -> charEdit w c = cell (editChar w c).
Proof.
  intros C. unfold charEdit, editChar. rewrite !bit_flag.
  replace [c] with (cell c) by (unfold cell; destruct c; [lia|reflexivity]).
  rewrite stage_discard by reflexivity.
  set (c1 := if flag w 1 && oneOf [32; 9] c then 0 else c).
  replace (if flag w 1 && isblank c then 0 else c) with c1 by (rewrite isblank_oneOf; reflexivity).
  assert (S0 : discard (flag w 0) (oneOf [0]) (change (flag w 0) (fun c => c mod 128) (cell c1)) =
               cell (if flag w 0 then Nat.land c1 127 else c1)).
  { destruct (flag w 0); [|reflexivity]. rewrite land127. unfold discard, change, cell.
    destruct (c1 =? 0) eqn:E0.
    - apply Nat.eqb_eq in E0. rewrite E0. reflexivity.
    - cbn [map filter]. unfold oneOf. cbn [existsb]. rewrite orb_false_r. destruct (c1 mod 128 =? 0); reflexivity. }
  rewrite S0. generalize (if flag w 0 then Nat.land c1 127 else c1). intros c2. clear S0 c1 C.
  rewrite stage_discard by reflexivity. rewrite <- isctrl_oneOf. generalize (if flag w 2 && isctrl c2 then 0 else c2). clear c2. intros c2.
  rewrite stage_discard by reflexivity.
  replace (oneOf [13] c2) with (c2 =? 13) by (unfold oneOf; cbn [existsb]; rewrite orb_false_r; reflexivity).
  generalize (if flag w 13 && (c2 =? 13) then 0 else c2). clear c2. intros c2.
  rewrite stage_change.
  2:reflexivity.
  2:{ intros x. unfold toUpper. destruct ((97 <=? x) && (x <=? 122)) eqn:E; [|auto].
      apply andb_prop in E. destruct E as [E _]. apply Nat.leb_le in E. lia. }
  replace (if flag w 5 then toUpper c2 else c2) with (if flag w 5 && ((97 <=? c2) && (c2 <=? 122)) then c2 - 32 else c2)
    by (unfold toUpper; destruct (flag w 5); reflexivity).
  generalize (if flag w 5 && ((97 <=? c2) && (c2 <=? 122)) then c2 - 32 else c2). clear c2. intros c2.
  rewrite stage_change; [|reflexivity|intros x; unfold roundBracket; ifs; try discriminate; auto].
  replace (if flag w 6 then roundBracket c2 else c2) with
    (let c := if flag w 6 && (c2 =? 91) then 40 else c2 in if flag w 6 && (c =? 93) then 41 else c).
  2:{ unfold roundBracket. destruct (flag w 6); [|reflexivity]. cbn [andb]. cbv zeta. destruct (c2 =? 91); reflexivity. }
  cbv zeta. generalize (if flag w 6 && ((if flag w 6 && (c2 =? 91) then 40 else c2) =? 93) then 41
        else if flag w 6 && (c2 =? 91) then 40 else c2). clear c2. intros c2.
  rewrite stage_change.
  2:reflexivity.
  2:{ intros x. unfold toLower. destruct ((65 <=? x) && (x <=? 90)); lia. }
  replace (if flag w 9 then toLower c2 else c2) with (if flag w 9 && ((65 <=? c2) && (c2 <=? 90)) then c2 + 32 else c2)
    by (unfold toLower; destruct (flag w 9); reflexivity).
  generalize (if flag w 9 && ((65 <=? c2) && (c2 <=? 90)) then c2 + 32 else c2). clear c2. intros c2.
  rewrite stage_change; [|reflexivity|intros x; unfold boxAscii; ifs; try discriminate; auto].
  rewrite screen_box. reflexivity.
Qed.

Lemma editLoop_ok w : forall s q, isStr s -> filter nonzero (editLoop w q s) = charsEdit w q s.
Proof.
  induction s as [|c s IH]; intros q H; [reflexivity|]. inversion H as [|? ? Hc Hs]; subst.
  cbn [editLoop charsEdit]. rewrite bit_flag.
  replace (isquote c) with (oneOf [34; 39] c) by (unfold oneOf, isquote; cbn [existsb]; rewrite orb_false_r; reflexivity).
  set (q' := if flag w 8 && oneOf [34; 39] c then negb q else q).
  cbn [filter]. rewrite IH by exact Hs. destruct q'.
  - unfold nonzero. destruct c; [lia|]. reflexivity.
  - rewrite charEdit_ok by lia. unfold cell, nonzero. destruct (editChar w c =? 0); reflexivity.
Qed.
Lemma editLoop_length w : forall s q, length (editLoop w q s) = length s.
Proof. induction s; intros q; simpl; [reflexivity|]. f_equal. apply IHs. Qed.
Lemma leadZero_ok s : skipn (leadZero s) s = dropWhile (oneOf [32; 9]) s /\ leadZero s <= length s.
Proof.
  induction s as [|c s [IH IL]]; [split; [reflexivity|simpl; lia]|]. cbn [leadZero dropWhile]. rewrite <- isblank_oneOf.
  destruct (isblank c); simpl; [split; [exact IH|lia]|split; [reflexivity|lia]].
Qed.

(* the buffer holds the string str followed by a NUL *)
Definition holds (buf str : list nat) : Prop :=
  Forall (fun c => c <> 0) str /\ exists rest, buf = str ++ 0 :: rest.
Lemma holds_cstr buf str : holds buf str -> cstr buf = Ok str.
Proof.
  intros [F [rest ->]]. induction F as [|c l Hc F IH]; [reflexivity|]. simpl. destruct c; [congruence|].
  simpl in IH. rewrite IH. reflexivity.
Qed.
Lemma holds_firstn buf str : holds buf str -> firstn (length str) buf = str.
Proof. intros [_ [rest ->]]. rewrite firstn_app, Nat.sub_diag, firstn_all. apply app_nil_r. Qed.
Lemma holds_length buf str : holds buf str -> length str < length buf.
Proof. intros [_ [rest ->]]. rewrite app_length. simpl. lia. Qed.
Lemma poke_length pos l buf : pos + length l <= length buf -> length (poke pos l buf) = length buf.
Proof. intros H. unfold poke. rewrite !app_length, firstn_length, skipn_length. lia. Qed.
Lemma holds_poke0 buf str : Forall (fun c => c <> 0) str -> holds (poke 0 (str ++ [0]) buf) str.
Proof. intros F. split; [exact F|]. exists (skipn (length (str ++ [0])) buf). unfold poke. cbn [firstn]. rewrite Nat.add_0_l, <- app_assoc. reflexivity. Qed.
Lemma holds_cut buf str k : holds buf str -> k <= length str -> holds (poke k [0] buf) (firstn k str).
Proof.
  intros [F [rest ->]] L. split.
  - rewrite Forall_forall in *. intros x Hx. apply F. rewrite <- (firstn_skipn k str). apply in_or_app. left; exact Hx.
  - unfold poke. rewrite firstn_app. replace (k - length str) with 0 by lia. rewrite app_nil_r. simpl. eexists. reflexivity.
Qed.
Lemma dropWhile_le p s : length (dropWhile p s) <= length s.
Proof. induction s; simpl; [lia|]. destruct (p a); simpl; lia. Qed.
Lemma dropEnd_snoc p s c : dropEnd p (s ++ [c]) = if p c then dropEnd p s else s ++ [c].
Proof. unfold dropEnd. rewrite rev_app_distr. simpl. destruct (p c); [reflexivity|]. simpl. rewrite rev_involutive. reflexivity. Qed.
Lemma trailKeep_ok p str : forall rest, 
  trailKeep p (str ++ rest) (length str) <= length str /\
  firstn (trailKeep p (str ++ rest) (length str)) str = dropEnd p str.
Proof.
  induction str as [|c str IH] using rev_ind; intros rest; [split; [simpl; lia|reflexivity]|].
  rewrite app_length, Nat.add_1_r. cbn [trailKeep]. rewrite <- app_assoc. simpl app.
  rewrite app_nth2, Nat.sub_diag by lia. cbn [nth]. rewrite dropEnd_snoc. destruct (p c).
  - destruct (IH (c :: rest)) as [A B]. split; [lia|]. rewrite firstn_app.
    replace (trailKeep p (str ++ c :: rest) (length str) - length str) with 0 by lia. rewrite app_nil_r. exact B.
  - split; [lia|]. rewrite firstn_all2; [reflexivity|]. rewrite app_length. simpl. lia.
Qed.
Lemma trail_step p buf str : holds buf str ->
  trailKeep p buf (length str) = length (dropEnd p str) /\ holds (poke (trailKeep p buf (length str)) [0] buf) (dropEnd p str).
Proof.
  intros H. pose proof H as [F [rest E]]. destruct (trailKeep_ok p str (0 :: rest)) as [A B]. rewrite <- E in *.
  split; [rewrite <- B, firstn_length; lia|]. rewrite <- B. apply holds_cut; assumption.
Qed.
Lemma reduceLoop_ok : forall l, reduceLoop l false = squeeze l /\
   reduceLoop l true = match l with c :: _ => if oneOf [32; 9] c then tl (squeeze l) else squeeze l | [] => [] end /\
   match l with c :: _ => if oneOf [32; 9] c then exists t, squeeze l = 32 :: t else True | [] => True end.
Proof.
  induction l as [|c l [I1 [I2 I3]]]; [repeat split|]. cbn [reduceLoop squeeze]. rewrite isblank_oneOf.
  destruct (oneOf [32; 9] c) eqn:E; cbn [app].
  - destruct l as [|d l].
    + repeat split. exists []. reflexivity.
    + destruct (oneOf [32; 9] d) eqn:D.
      * destruct I3 as [t I3]. rewrite I2, I3. repeat split. exists t. reflexivity.
      * rewrite I2. repeat split. exists (squeeze (d :: l)). reflexivity.
  - rewrite I1. repeat split.
Qed.
Lemma squeeze_le s : length (squeeze s) <= length s.
Proof. induction s as [|c s IH]; [simpl; lia|]. cbn [squeeze]. destruct (oneOf [32; 9] c); [|simpl; lia]. destruct s as [|d s]; [simpl; lia|]. destruct (oneOf [32;9] d); simpl in *; lia. Qed.
Lemma squeeze_nz s : Forall (fun c => c <> 0) s -> Forall (fun c => c <> 0) (squeeze s).
Proof. induction 1 as [|c s Hc F IH]; [constructor|]. cbn [squeeze]. destruct (oneOf [32; 9] c); [|constructor; assumption]. destruct s as [|d s]; [repeat constructor; lia|]. destruct (oneOf [32; 9] d); [assumption|constructor; [lia|assumption]]. Qed.
Lemma filter_nz l : Forall (fun c => c <> 0) (filter nonzero l).
Proof. apply Forall_forall. intros x Hx. apply filter_In in Hx. destruct Hx as [_ H]. unfold nonzero in H. destruct x; [discriminate|lia]. Qed.

Lemma filter_repeat0 n : filter nonzero (repeat 0 n) = [].
Proof. induction n; [reflexivity|exact IHn]. Qed.
Lemma editBase_ok s w g : isStr s -> length (fst (editBase s w g)) = length s + 1 + length g /\
  holds (fst (editBase s w g)) (editSpec w s) /\ snd (editBase s w g) = length (editSpec w s).
Proof.
  intros H. unfold editBase. rewrite !bit_flag.
  set (lead := if flag w 3 then leadZero s else 0).
  set (cells := repeat 0 lead ++ editLoop w false (skipn lead s)).
  set (s0 := if flag w 3 then dropWhile (oneOf [32; 9]) s else s).
  assert (L0 : lead <= length s /\ skipn lead s = s0).
  { unfold lead, s0. destruct (flag w 3); [destruct (leadZero_ok s); auto|]. split; [lia|reflexivity]. }
  destruct L0 as [L0 E0].
  assert (K : filter nonzero cells = charsEdit w false s0).
  { unfold cells. rewrite filter_app, filter_repeat0, E0. cbn [app]. apply editLoop_ok. rewrite <- E0. apply isStr_skipn, H. }
  assert (LC : length cells = length s). { unfold cells. rewrite app_length, repeat_length, editLoop_length, skipn_length. lia. }
  assert (LK : length (filter nonzero cells) <= length s). { rewrite <- LC. clear. induction cells; simpl; [lia|]. destruct (nonzero a); simpl; lia. }
  set (buf0 := cells ++ 0 :: g).
  set (kept := filter nonzero cells) in *.
  set (buf1 := poke 0 (kept ++ [0]) buf0).
  assert (H1 : holds buf1 kept) by (apply holds_poke0, filter_nz).
  assert (B1 : length buf1 = length s + 1 + length g).
  { unfold buf1. rewrite poke_length; unfold buf0; rewrite !app_length; simpl; lia. }
  clearbody buf1. 
  set (k1 := if flag w 7 then trailKeep isblank buf1 (length kept) else length kept).
  set (buf2 := if flag w 7 then poke k1 [0] buf1 else buf1).
  set (s1 := if flag w 7 then dropEnd isblank kept else kept).
  assert (H2 : holds buf2 s1 /\ k1 = length s1).
  { unfold buf2, s1, k1. destruct (flag w 7); [|auto]. destruct (trail_step isblank _ _ H1). auto. }
  assert (B2 : length buf2 = length s + 1 + length g).
  { unfold buf2. destruct (flag w 7); [|exact B1]. destruct H2 as [H2 K1].
    rewrite poke_length; [exact B1|]. pose proof (holds_length _ _ H2). unfold buf2, k1 in *. 
    simpl. unfold poke in H0. rewrite !app_length, firstn_length, skipn_length in H0. simpl in H0.
    unfold s1 in K1. pose proof (holds_length _ _ H1). unfold dropEnd in K1. rewrite rev_length in K1.
    pose proof (dropWhile_le isblank (rev kept)). rewrite rev_length in H4. lia. }
  destruct H2 as [H2 K1]. rewrite K1. clearbody buf2. clear K1. clear k1.
  set (k2 := if flag w 14 then trailKeep isblanklf buf2 (length s1) else length s1).
  set (buf3 := if flag w 14 then poke k2 [0] buf2 else buf2).
  set (s2 := if flag w 14 then dropEnd isblanklf s1 else s1).
  assert (H3 : holds buf3 s2 /\ k2 = length s2).
  { unfold buf3, s2, k2. destruct (flag w 14); [|auto]. destruct (trail_step isblanklf _ _ H2). auto. }
  destruct H3 as [H3 K2].
  assert (LS2 : length s2 <= length s1).
  { unfold s2. destruct (flag w 14); [|lia]. unfold dropEnd. rewrite rev_length. rewrite <- (rev_length s1). apply dropWhile_le. }
  assert (B3 : length buf3 = length s + 1 + length g).
  { unfold buf3. destruct (flag w 14); [|exact B2]. rewrite poke_length; [exact B2|]. pose proof (holds_length _ _ H2). simpl. lia. }
  rewrite K2. rewrite (holds_firstn _ _ H3). destruct (reduceLoop_ok s2) as [R _]. rewrite R.
  assert (SP : editSpec w s = if flag w 4 then squeeze s2 else s2).
  { unfold editSpec. fold s0. rewrite <- K. unfold s2, s1.
    assert (DE : forall p q l, (forall c, p c = q c) -> dropEnd p l = dropEnd q l).
    { intros p q l E. unfold dropEnd. f_equal. induction (rev l); [reflexivity|]. simpl. rewrite E. destruct (q a); [assumption|reflexivity]. }
    rewrite !(DE isblank _ _ isblank_oneOf). destruct (flag w 7); rewrite !(DE isblanklf _ _ isblanklf_oneOf); reflexivity. }
  rewrite SP. destruct (flag w 4); cbn [fst snd].
  - split.
    + rewrite poke_length; [exact B3|]. rewrite app_length. simpl. pose proof (squeeze_le s2). pose proof (holds_length _ _ H3). lia.
    + split; [apply holds_poke0, squeeze_nz, H3|reflexivity].
  - auto.
Qed.

Lemma edit_ok s w fuel : isStr s -> flag w 10 = false -> flag w 11 = false ->
  edit fuel s w [] = Ok (editSpec w s).
Proof.
  intros H T U. unfold edit. destruct (editBase_ok s w [] H) as [_ [A B]].
  destruct (editBase s w []) as [buf k]. cbn [fst snd] in *. rewrite !bit_flag, T, U. cbn [orb rbind].
  apply holds_cstr, A.
Qed.

(* ---------- UNTAB (2048) ---------- *)
Lemma expand_spaces n : forall l col, expand (repeat 32 n ++ l) col = repeat 32 n ++ expand l (col + n).
Proof.
  induction n as [|n IH]; intros l col; [simpl; rewrite Nat.add_0_r; reflexivity|].
  cbn [repeat app expand Nat.eqb]. rewrite IH. simpl. rewrite Nat.add_succ_r. reflexivity.
Qed.
Lemma repeat_S_snoc {A} (x : A) n l : x :: repeat x n ++ l = repeat x n ++ x :: l.
Proof. induction n; simpl; [reflexivity|]. rewrite IHn. reflexivity. Qed.
Lemma tabs_app a b : tabs (a ++ b) = tabs a + tabs b.
Proof. unfold tabs. rewrite filter_app, app_length. reflexivity. Qed.
Lemma tabs_spaces n : tabs (repeat 32 n) = 0.
Proof. unfold tabs. induction n; [reflexivity|exact IHn]. Qed.
Lemma n_range m : 1 <= 8 - m mod 8 <= 8.
Proof. pose proof (Nat.mod_upper_bound m 8 ltac:(lia)). lia. Qed.

Lemma untab_tail : forall fuel buf i m k pre junk,
  buf = pre ++ junk -> length pre = i - 1 -> 1 <= i -> ~ In 9 junk -> i <= k + 1 -> k <= length buf -> k + 1 < fuel + i ->
  untabLoop fuel buf i m k = Ok buf.
Proof.
  induction fuel as [|f IH]; intros buf i m k pre junk E LP I1 NJ IK KB HF.
  - lia.
  - cbn [untabLoop]. destruct (k <? i) eqn:KI; [reflexivity|]. apply Nat.ltb_ge in KI.
    destruct junk as [|c junk].
    { exfalso. rewrite E, app_length in KB. simpl in KB. lia. }
    assert (N : nth_error buf (i - 1) = Some c). { rewrite E, <- LP, nth_error_app2, Nat.sub_diag by lia. reflexivity. }
    rewrite N. cbn [rget rbind].
    assert (c <> 9) by (intros ->; apply NJ; left; reflexivity).
    assert (R : forall m', untabLoop f buf (S i) m' k = Ok buf).
    { intros m'. apply (IH buf (S i) m' k (pre ++ [c]) junk); try lia.
      - rewrite <- app_assoc. exact E.
      - rewrite app_length. simpl. lia.
      - intros Q. apply NJ. right. exact Q. }
    destruct (c =? 10); [apply R|]. destruct (c =? 9) eqn:C9; [apply Nat.eqb_eq in C9; congruence|]. apply R.
Qed.

Lemma untab_ok : forall fuel todo buf i m k done junk,
  buf = done ++ todo ++ 0 :: junk -> length done = i - 1 -> 1 <= i -> ~ In 9 junk ->
  length done + length todo <= k -> k + 8 * tabs todo <= length buf ->
  k + 8 * tabs todo + 1 < fuel + i ->
  exists junk', untabLoop fuel buf i m k = Ok (done ++ expand todo m ++ 0 :: junk').
Proof.
  induction fuel as [|f IH]; intros todo buf i m k done junk E LD I1 NJ KL KB HF; [lia|].
  destruct todo as [|c todo].
  - exists junk. cbn [expand app]. cbn [app] in E. rewrite <- E.
    apply (untab_tail (S f) buf i m k done (0 :: junk)); auto; try (unfold tabs in *; simpl in *; lia).
    intros [Q|Q]; [discriminate|tauto].
  - simpl length in KL. assert (N : nth_error buf (i - 1) = Some c). { rewrite E, <- LD, nth_error_app2, Nat.sub_diag by lia. reflexivity. }
    cbn [untabLoop]. replace (k <? i) with false by (symmetry; apply Nat.ltb_ge; lia).
    rewrite N. cbn [rget rbind]. cbn [expand].
    assert (T : tabs (c :: todo) = (if c =? 9 then 1 else 0) + tabs todo).
    { unfold tabs. cbn [filter]. rewrite (Nat.eqb_sym 9 c). destruct (c =? 9); reflexivity. }
    rewrite T in *.
    assert (ED : buf = (done ++ [c]) ++ todo ++ 0 :: junk) by (rewrite <- app_assoc; exact E).
    assert (LD' : length (done ++ [c]) = S i - 1) by (rewrite app_length; simpl; lia).
    destruct (c =? 10) eqn:C10.
    { destruct (c =? 9) eqn:C9; [apply Nat.eqb_eq in C9; apply Nat.eqb_eq in C10; lia|].
      destruct (IH todo buf (S i) 0 k (done ++ [c]) junk) as [j' J]; auto; try lia.
      exists j'. rewrite J, <- app_assoc. reflexivity. }
    destruct (c =? 9) eqn:C9; cbn [negb].
    + apply Nat.eqb_eq in C9. subst c. replace (S m - 1) with m by lia. set (n := 8 - m mod 8) in *.
      pose proof (n_range m) as NR. fold n in NR.
      replace (k + n <=? length buf) with true by (symmetry; apply Nat.leb_le; lia).
      set (tail := firstn (k + 1 - i) (skipn i buf)).
      assert (SK : skipn i buf = todo ++ 0 :: junk).
      { rewrite ED. replace i with (length (done ++ [9])) at 1 by lia. rewrite skipn_app, skipn_all, Nat.sub_diag. reflexivity. }
      assert (TL : exists junk1, tail = todo ++ 0 :: junk1 /\ (forall x, In x junk1 -> In x junk)).
      { unfold tail. rewrite SK, firstn_app, firstn_all2 by lia.
        destruct (k + 1 - i - length todo) as [|q] eqn:Q; [lia|]. exists (firstn q junk). split; [reflexivity|].
        intros x Hx. rewrite <- (firstn_skipn q junk). apply in_or_app. left; exact Hx. }
      destruct TL as [junk1 [TL NJ1]].
      assert (LT : length tail = k + 1 - i).
      { unfold tail. rewrite firstn_length, skipn_length. lia. }
      set (buf' := poke (i - 1) (repeat 32 n ++ tail) buf).
      assert (LB : length buf' = length buf).
      { unfold buf'. apply poke_length. rewrite app_length, repeat_length, LT. lia. }
      assert (FB : firstn (i - 1) buf = done).
      { rewrite E, <- LD, firstn_app, Nat.sub_diag, firstn_all. apply app_nil_r. }
      set (rest := skipn (i - 1 + length (repeat 32 n ++ tail)) buf).
      assert (NR9 : ~ In 9 rest).
      { intros Q. unfold rest in Q. rewrite app_length, repeat_length, LT in Q.
        replace (i - 1 + (n + (k + 1 - i))) with (i + length todo + S (k + n - i - length todo - 1)) in Q by lia.
        apply NJ. rewrite ED in Q.
        assert (G : forall (d : list nat) t j q x, In x (skipn (length d + q) (d ++ t ++ j)) -> In x (skipn q (t ++ j))).
        { clear. induction d; intros t j q x; simpl; [auto|]. apply IHd. }
        replace (i + length todo + S (k + n - i - length todo - 1)) with (length (done ++ [9]) + (length todo + S (k + n - i - length todo - 1))) in Q by lia.
        apply G in Q.
        assert (G2 : forall (d : list nat) j q x, In x (skipn (length d + S q) (d ++ 0 :: j)) -> In x j).
        { clear. induction d as [|y d IHd]; intros j q x; simpl.
          - intros Q. rewrite <- (firstn_skipn q j). apply in_or_app. right. exact Q.
          - apply IHd. }
        apply G2 in Q. exact Q. }
      destruct (IH (repeat 32 (n - 1) ++ todo) buf' (S i) (S m) (k + n) (done ++ [32]) (junk1 ++ rest)) as [j' J]; try lia.
      * unfold buf', poke. fold rest. rewrite FB, TL. replace n with (S (n - 1)) at 1 by lia. cbn [repeat].
        rewrite <- !app_assoc. cbn [app]. reflexivity.
      * rewrite app_length in *. simpl. lia.
      * intros Q. apply in_app_or in Q. destruct Q as [Q|Q]; [apply NJ, NJ1, Q|apply NR9, Q].
      * rewrite !app_length, repeat_length. simpl. lia.
      * rewrite tabs_app, tabs_spaces, LB. lia.
      * rewrite tabs_app, tabs_spaces. lia.
      * exists j'. rewrite J. f_equal. rewrite expand_spaces, <- !app_assoc. f_equal.
        change (expand (9 :: todo) m) with (repeat 32 n ++ expand todo (m + n)).
        replace (repeat 32 n) with (32 :: repeat 32 (n - 1)) by (replace n with (S (n - 1)) at 2 by lia; reflexivity).
        cbn [app]. rewrite <- ?app_assoc. replace (S m + (n - 1)) with (m + n) by lia. reflexivity.
    + destruct (IH todo buf (S i) (S m) k (done ++ [c]) junk) as [j' J]; auto; try lia.
      exists j'. rewrite J, <- app_assoc. reflexivity.
Qed.

Lemma expand_nz s : isStr s -> forall col, Forall (fun c => c <> 0) (expand s col).
Proof.
  induction 1 as [|c s Hc F IH]; intros col; [constructor|]. cbn [expand].
  destruct (c =? 10); [constructor; [lia|apply IH]|]. destruct (c =? 9).
  - apply Forall_app. split; [|apply IH]. apply Forall_forall. intros x Hx. apply repeat_spec in Hx. lia.
  - constructor; [lia|apply IH].
Qed.
Lemma editSpec_2048 s : editSpec 2048 s = s.
Proof.
  unfold editSpec. change (flag 2048 3) with false. change (flag 2048 7) with false.
  change (flag 2048 14) with false. change (flag 2048 4) with false. cbv iota zeta.
  induction s as [|c s IH]; [reflexivity|]. cbn [charsEdit]. change (flag 2048 8) with false. cbn [andb].
  rewrite IH. unfold charEdit. change (flag 2048 12) with false. change (flag 2048 9) with false.
  change (flag 2048 6) with false. change (flag 2048 5) with false. change (flag 2048 13) with false.
  change (flag 2048 2) with false. change (flag 2048 0) with false. change (flag 2048 1) with false. reflexivity.
Qed.
Lemma edit_untab_ok s g fuel : isStr s -> length g = 6 * length s + 6 -> ~ In 9 g ->
  8 * tabs s <= 6 * length s + 7 -> length s + 8 * tabs s < fuel ->
  edit fuel s 2048 g = Ok (expand s 0).
Proof.
  intros H LG NG TB HF. unfold edit.
  assert (EB : editBase s 2048 g = (s ++ 0 :: g, length s)).
  { destruct (editBase_ok s 2048 g H) as [LB [HB KB]]. rewrite editSpec_2048 in *.
    unfold editBase in *. change (bit 2048 3) with false in *. change (bit 2048 7) with false in *.
    change (bit 2048 14) with false in *. change (bit 2048 4) with false in *. cbv iota zeta in *. cbn [fst snd repeat app skipn] in *.
    rewrite (editLoop_ok 2048 s false H) in *. 
    assert (CE : charsEdit 2048 false s = s) by (pose proof (editSpec_2048 s) as Q; exact Q).
    rewrite CE in *. f_equal. unfold poke. cbn [firstn app Nat.add]. rewrite <- app_assoc. cbn [app].
    f_equal. f_equal. rewrite app_length. cbn [length].
    replace (editLoop 2048 false s ++ 0 :: g) with ((editLoop 2048 false s ++ [0]) ++ g) by (rewrite <- app_assoc; reflexivity).
    rewrite skipn_app. rewrite skipn_all2 by (rewrite app_length, editLoop_length; simpl; lia).
    rewrite app_length, editLoop_length. simpl length. rewrite Nat.sub_diag. reflexivity. }
  rewrite EB. change (bit 2048 11) with true. change (bit 2048 10) with false. cbn [orb].
  destruct (untab_ok fuel s (s ++ 0 :: g) 1 0 (length s) [] g) as [j' J]; auto; try (simpl; lia).
  { rewrite app_length. simpl. lia. }
  rewrite J. cbn [rbind app]. apply holds_cstr. split; [apply expand_nz, H|eexists; reflexivity].
Qed.

Lemma charsEdit_map w f : (forall c, 0 < c -> charEdit w c = f c) -> flag w 8 = false ->
  forall s, isStr s -> charsEdit w false s = flat_map f s.
Proof.
  intros F Q. induction 1 as [|c s Hc H IH]; [reflexivity|]. cbn [charsEdit flat_map]. rewrite Q. cbn [andb].
  rewrite IH, F by lia. reflexivity.
Qed.
Lemma flat_map_single {A B} (f : A -> B) l : flat_map (fun c => [f c]) l = map f l.
Proof. induction l; simpl; congruence. Qed.
Lemma flat_map_filter {A} (p : A -> bool) l : flat_map (fun c => if p c then [c] else []) l = filter p l.
Proof. induction l; simpl; [reflexivity|]. rewrite IHl. destruct (p a); reflexivity. Qed.
Lemma single_flags s fuel : isStr s ->
  edit fuel s 0 [] = Ok s /\
  edit fuel s 2 [] = Ok (filter (fun c => negb (oneOf [32; 9] c)) s) /\
  edit fuel s 8 [] = Ok (dropWhile (oneOf [32; 9]) s) /\
  edit fuel s 16 [] = Ok (squeeze s) /\
  edit fuel s 32 [] = Ok (map toUpper s) /\
  edit fuel s 128 [] = Ok (dropEnd (oneOf [32; 9]) s) /\
  edit fuel s 512 [] = Ok (map toLower s) /\
  edit fuel s 16384 [] = Ok (dropEnd (oneOf [32; 9; 10]) s).
Proof.
  intros H.
  assert (DW : isStr (dropWhile (oneOf [32; 9]) s)).
  { destruct (leadZero_ok s) as [<- _]. apply isStr_skipn, H. }
  assert (ID : forall w, (forall c, 0 < c -> charEdit w c = [c]) -> flag w 8 = false -> forall t, isStr t -> charsEdit w false t = t).
  { intros w F Q t Ht. rewrite (charsEdit_map w (fun c => [c]) F Q t Ht), flat_map_single. apply map_id. }
  rewrite !edit_ok by (try exact H; vm_compute; reflexivity).
  repeat split; f_equal; unfold editSpec.
  - rewrite (ID 0); [reflexivity|intros; reflexivity|reflexivity|exact H].
  - etransitivity; [exact (charsEdit_map 2 (fun c => if negb (oneOf [32; 9] c) then [c] else []) ltac:(intros; reflexivity) eq_refl s H)|].
    apply flat_map_filter.
  - exact (ID 8 ltac:(intros; reflexivity) eq_refl _ DW).
  - rewrite (ID 16); [reflexivity|intros; reflexivity|reflexivity|exact H].
  - etransitivity; [exact (charsEdit_map 32 (fun c => [toUpper c]) ltac:(intros; reflexivity) eq_refl s H)|]. apply flat_map_single.
  - rewrite (ID 128); [reflexivity|intros; reflexivity|reflexivity|exact H].
  - etransitivity; [exact (charsEdit_map 512 (fun c => [toLower c]) ltac:(intros; reflexivity) eq_refl s H)|]. apply flat_map_single.
  - change (dropEnd (oneOf [32; 9; 10]) (charsEdit 16384 false s) = dropEnd (oneOf [32; 9; 10]) s).
    rewrite (ID 16384); [reflexivity|intros; reflexivity|reflexivity|exact H].
Qed.

Lemma edit_bad :
  (forall g fuel, length g = 30 -> 100 <= fuel -> edit fuel [9; 9; 9; 9] 2048 g = UB) /\
  edit 100 [9] 1024 [] = UB /\
  edit 100 (repeat 32 9) 1024 [] = UB /\
  edit 100 [127] 4 [] = Ok [127].
Proof.
  repeat split; try (vm_compute; reflexivity).
  intros g fuel L F. replace fuel with (100 + (fuel - 100)) by lia. generalize (fuel - 100). intros f.
  do 30 (destruct g as [|? g]; [discriminate L|]). destruct g; [|discriminate L]. reflexivity.
Qed.
