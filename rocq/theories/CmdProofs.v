(* CmdProofs.v -- lemmas about command lines. *)
From Verif Require Import Base VstrModel VstrSpec VstrProofs VstrEdit CmdModel CmdSpec.
Open Scope nat_scope.

Lemma seqb_spec a b : reflect (a = b) (seqb a b).
Proof. unfold seqb. destruct (list_eq_dec Nat.eq_dec a b); constructor; assumption. Qed.
Lemma seqb_refl a : seqb a a = true.
Proof. destruct (seqb_spec a a); congruence. Qed.

Lemma inSet_spec set c : inSet set c = true <-> In c set.
Proof.
  unfold inSet. destruct (instr_ok 1 set [c]) as [[E N]|(q & E & (a & b & Ea & Eq) & _)]; [discriminate| |].
  - rewrite E. cbn. split; [discriminate|]. intros H. apply in_split in H. destruct H as (a & b & ->).
    exfalso. apply (N (length a + 1)); [lia|]. exists a, b. auto.
  - rewrite E. split.
    + intros _. rewrite Ea. apply in_or_app. right. left. reflexivity.
    + intros _. destruct (Nat.eqb_spec q 0); [lia|reflexivity].
Qed.
Lemma inSet_false set c : inSet set c = false <-> ~ In c set.
Proof. rewrite <- inSet_spec. destruct (inSet set c); split; congruence. Qed.

Lemma white_in c : inSet tokenWhiteSpace c = true <-> isWhite c.
Proof. rewrite inSet_spec. unfold isWhite. cbn. intuition. Qed.
Lemma white_out c : inSet tokenWhiteSpace c = false <-> ~ isWhite c.
Proof. rewrite <- white_in. destruct (inSet _ c); split; congruence. Qed.
Lemma special_in t c : inSet (specialOneCharTokens t) c = true <-> isSpecial t c.
Proof. rewrite inSet_spec. unfold isSpecial. destruct t; cbn; intuition congruence. Qed.
Lemma special_out t c : inSet (specialOneCharTokens t) c = false <-> ~ isSpecial t c.
Proof. rewrite <- special_in. destruct (inSet _ c); split; congruence. Qed.

Lemma start_any tools line rest : forall p ts ts', pcl tools line rest p MODE_START ts = pcl tools line rest p MODE_START ts'.
Proof.
  induction rest as [|c r IH]; intros; [reflexivity|]. cbn [pcl].
  rewrite (IH (S p) ts ts'). reflexivity.
Qed.

Definition stops (tools : bool) (rest : list nat) : Prop :=
  match rest with [] => True | c :: _ => isWhite c \/ isSpecial tools c \/ isQuote c end.
Lemma end_switch tools line rest p ts : 0 < p -> stops tools rest ->
  pcl tools line rest p MODE_END ts =
  do t <- seg line (Z.of_nat ts) (Z.of_nat p);
  do l <- pcl tools line rest p MODE_START ts; Ok ((ts, t) :: l).
Proof.
  intros Hp Hs. destruct rest as [|c r]; cbn [pcl]; [reflexivity|].
  destruct (Nat.eqb_spec p 0); [lia|]. cbn [andb].
  destruct (inSet tokenWhiteSpace c) eqn:Ew; [reflexivity|].
  destruct (inSet (specialOneCharTokens tools) c) eqn:Es.
  { destruct (seg line (Z.of_nat ts) (Z.of_nat p)); cbn [rbind]; try reflexivity.
    destruct (pcl tools line r (S p) MODE_START ts); reflexivity. }
  destruct (c =? chSq) eqn:E1; [reflexivity|]. destruct (c =? chDq) eqn:E2; [reflexivity|].
  exfalso. apply white_out in Ew. apply special_out in Es. apply Nat.eqb_neq in E1, E2.
  destruct Hs as [H|[H|[H|H]]]; unfold chSq, chDq in *; tauto.
Qed.
Lemma end_word tools line w : forall rest p ts,
  (forall c, In c w -> ~ isWhite c /\ ~ isSpecial tools c /\ ~ isQuote c) ->
  pcl tools line (w ++ rest) p MODE_END ts = pcl tools line rest (p + length w) MODE_END ts.
Proof.
  induction w as [|c w IH]; intros rest p ts H; cbn [app length]; [rewrite Nat.add_0_r; reflexivity|].
  cbn [pcl]. destruct (H c (or_introl eq_refl)) as (H1 & H2 & H3).
  rewrite (proj2 (white_out c) H1), (proj2 (special_out tools c) H2).
  unfold isQuote in H3.
  destruct (Nat.eqb_spec c chSq); [unfold chSq in *; tauto|]. destruct (Nat.eqb_spec c chDq); [unfold chDq in *; tauto|].
  rewrite IH by (intros; apply H; right; assumption). f_equal; lia.
Qed.
Lemma quote_body tools line q b : forall rest p ts, ~ In q b ->
  pcl tools line (b ++ rest) p (MODE_QUOTE q) ts = pcl tools line rest (p + length b) (MODE_QUOTE q) ts.
Proof.
  induction b as [|c b IH]; intros rest p ts H; cbn [app length]; [rewrite Nat.add_0_r; reflexivity|].
  cbn [pcl]. destruct (Nat.eqb_spec c q); [exfalso; apply H; left; auto|].
  rewrite IH by (intros Hi; apply H; right; assumption). f_equal; lia.
Qed.
Lemma seg_mid pre x post : isStr (pre ++ x ++ post) ->
  seg (pre ++ x ++ post) (Z.of_nat (length pre + 1)) (Z.of_nat (length pre + length x)) = Ok x.
Proof.
  intros H. rewrite seg_ok by (auto; rewrite !app_length; lia).
  unfold substr. rewrite Nat.add_sub.
  rewrite skipn_app, skipn_all, Nat.sub_diag. cbn [skipn app].
  replace (length pre + length x + 1 - (length pre + 1)) with (length x) by lia.
  rewrite firstn_app, firstn_all, Nat.sub_diag. cbn [firstn]. rewrite app_nil_r. reflexivity.
Qed.

Lemma pieces_stop tools ps : wfPieces tools ps -> (match ps with Word _ :: _ => False | _ => True end) ->
  stops tools (render ps).
Proof.
  destruct ps as [|[c|c|w|q b|q b] r]; cbn; intros H1 H2; try tauto.
Qed.
Lemma pcl_pieces tools line : isStr line -> forall ps pre, line = pre ++ render ps -> wfPieces tools ps ->
  (pre = [] -> hd 0 (render ps) <> 33) -> forall ts,
  pcl tools line (render ps) (length pre) MODE_START ts = Ok (arguments (length pre + 1) ps).
Proof.
  intros Hl. induction ps as [|x r IH]; intros pre Eline W Hc ts; [reflexivity|].
  assert (Rec : forall ts, pcl tools line (render r) (length pre + length (render1 x)) MODE_START ts
    = Ok (arguments (length pre + 1 + length (render1 x)) r)).
  { intros ts'. replace (length pre + length (render1 x)) with (length (pre ++ render1 x)) by apply app_length.
    rewrite IH.
    - f_equal. f_equal. rewrite app_length. lia.
    - rewrite Eline. unfold render. cbn [map concat]. rewrite app_assoc. reflexivity.
    - apply W.
    - intros E. destruct x; try (destruct pre; discriminate). destruct W as (_ & Wn & _).
      apply app_eq_nil in E. cbn in E. tauto. }
  change (render (x :: r)) with (render1 x ++ render r) in *. destruct W as [W0 W].
  assert (Hne : length pre = 0 -> pre = []) by (destruct pre; [reflexivity|discriminate]).
  destruct x as [c|c|w|q b|q b]; cbn [render1 arguments length app] in *.
  - cbn [pcl]. rewrite (proj2 (white_in c) W). rewrite <- Rec with (ts := ts). f_equal. lia.
  - cbn [pcl].
    assert (~ isWhite c) as Hw by (destruct W as [_ [-> | ->]]; unfold isWhite; lia).
    rewrite (proj2 (white_out c) Hw).
    assert (((length pre =? 0) && inSet [33] c) = false) as ->.
    { apply andb_false_iff. right. apply inSet_false. intros [<-|[]]. destruct W as [_ [W|W]]; discriminate. }
    rewrite (proj2 (special_in tools c) W).
    replace (S (length pre)) with (length pre + 1) by lia. rewrite Rec. cbn [rbind]. reflexivity.
  - destruct W as (Wn & Wc & Wr). destruct w as [|c w]; [congruence|]. cbn [pcl app].
    destruct (Wc c (or_introl eq_refl)) as (H1 & H2 & H3).
    rewrite (proj2 (white_out c) H1).
    assert (((length pre =? 0) && inSet [33] c) = false) as ->.
    { apply andb_false_iff. destruct (Nat.eqb_spec (length pre) 0); [right|left; reflexivity].
      apply inSet_false. intros [<-|[]]. apply (Hc (Hne e)). reflexivity. }
    rewrite (proj2 (special_out tools c) H2).
    unfold isQuote in H3.
    destruct (Nat.eqb_spec c chSq); [unfold chSq in *; tauto|]. destruct (Nat.eqb_spec c chDq); [unfold chDq in *; tauto|].
    rewrite end_word by (intros; apply Wc; right; assumption).
    rewrite end_switch; [|lia|apply pieces_stop; assumption].
    cbn [length] in Rec.
    replace (S (length pre) + length w) with (length pre + S (length w)) by lia.
    rewrite Rec. rewrite Eline.
    change (S (length w)) with (length (c :: w)) at 1. rewrite seg_mid by (rewrite <- Eline; assumption). reflexivity.
  - destruct W as (Wq & Wb). rewrite <- app_assoc in *. cbn [app pcl] in *.
    assert (~ isWhite q /\ ~ isSpecial tools q /\ q <> 33) as (H1 & H2 & H3).
    { unfold isWhite, isSpecial. destruct Wq as [-> | ->]; repeat split; lia. }
    rewrite (proj2 (white_out q) H1), (proj2 (special_out tools q) H2).
    assert (((length pre =? 0) && inSet [33] q) = false) as ->.
    { apply andb_false_iff. right. apply inSet_false. intros [<-|[]]. congruence. }
    assert (pcl tools line (b ++ q :: render r) (S (length pre)) (MODE_QUOTE q) (length pre + 2) =
      Ok ((length pre + 1 + 1, b) :: arguments (length pre + 1 + length (q :: b ++ [q])) r)) as K.
    { rewrite quote_body by assumption. cbn [pcl]. rewrite Nat.eqb_refl.
      assert (S (length pre) + length b = length (pre ++ [q]) + length b) as -> by (rewrite app_length; cbn; lia).
      replace (length pre + 2) with (length (pre ++ [q]) + 1) by (rewrite app_length; cbn; lia).
      assert (line = (pre ++ [q]) ++ b ++ q :: render r) as E2 by (rewrite Eline, <- app_assoc; reflexivity).
      rewrite E2 at 1. rewrite seg_mid by (rewrite <- E2; assumption). cbn [rbind].
      replace (S (length (pre ++ [q]) + length b)) with (length pre + length (q :: b ++ [q]))
        by (cbn; rewrite !app_length; cbn; lia).
      cbn [length] in Rec |- *. rewrite Rec. cbn [rbind].
      f_equal. f_equal. f_equal. rewrite app_length. cbn. lia. }
    destruct Wq as [-> | ->]; cbn; exact K.
  - destruct W as (Wq & Wb & ->). cbn [render map concat] in *. rewrite app_nil_r in *. cbn [pcl].
    assert (~ isWhite q /\ ~ isSpecial tools q /\ q <> 33) as (H1 & H2 & H3).
    { unfold isWhite, isSpecial. destruct Wq as [-> | ->]; repeat split; lia. }
    rewrite (proj2 (white_out q) H1), (proj2 (special_out tools q) H2).
    assert (((length pre =? 0) && inSet [33] q) = false) as ->.
    { apply andb_false_iff. right. apply inSet_false. intros [<-|[]]. congruence. }
    assert (pcl tools line b (S (length pre)) (MODE_QUOTE q) (length pre + 2) = Ok [(length pre + 1 + 1, b)]) as K.
    { rewrite <- (app_nil_r b) at 1. rewrite quote_body by assumption. cbn [pcl].
      assert (S (length pre) + length b = length (pre ++ [q]) + length b) as -> by (rewrite app_length; cbn; lia).
      replace (length pre + 2) with (length (pre ++ [q]) + 1) by (rewrite app_length; cbn; lia).
      assert (line = (pre ++ [q]) ++ b ++ []) as E2 by (rewrite Eline, <- app_assoc, app_nil_r; reflexivity).
      rewrite E2 at 1. rewrite seg_mid by (rewrite <- E2; assumption). cbn [rbind].
      f_equal. f_equal. f_equal. rewrite app_length. cbn. lia. }
    destruct Wq as [-> | ->]; cbn; exact K.
Qed.

Lemma white_dec c : {isWhite c} + {~ isWhite c}.
Proof. unfold isWhite. destruct (Nat.eq_dec c 32), (Nat.eq_dec c 9), (Nat.eq_dec c 10); [left; lia..|right; lia]. Qed.
Lemma special_dec t c : {isSpecial t c} + {~ isSpecial t c}.
Proof. unfold isSpecial. destruct t; [right; intros [? _]; discriminate|].
  destruct (Nat.eq_dec c 47), (Nat.eq_dec c 61); [left; auto..|right; lia]. Qed.
Lemma quote_dec c : {isQuote c} + {~ isQuote c}.
Proof. unfold isQuote. destruct (Nat.eq_dec c 39), (Nat.eq_dec c 34); [left; auto..|right; lia]. Qed.
Lemma first_split (q : nat) l : In q l -> exists a b, l = a ++ q :: b /\ ~ In q a.
Proof.
  induction l as [|x l IH]; intros H; [destruct H|]. destruct (Nat.eq_dec x q) as [->|Hn].
  - exists [], l. auto.
  - destruct H as [H|H]; [congruence|]. destruct (IH H) as (a & b & -> & Ha). exists (x :: a), b.
    split; auto. intros [E|E]; auto.
Qed.
Lemma decompose tools : forall n line, length line <= n -> exists ps, wfPieces tools ps /\ render ps = line.
Proof.
  induction n as [|n IH]; intros line Hl.
  { destruct line; [exists []; cbn; auto|cbn in Hl; lia]. }
  destruct line as [|c r]; [exists []; cbn; auto|]. cbn in Hl.
  destruct (white_dec c) as [Hw|Hw].
  { destruct (IH r ltac:(lia)) as (ps & W & E). exists (White c :: ps). cbn. split; auto. unfold render in *. cbn. congruence. }
  destruct (special_dec tools c) as [Hs|Hs].
  { destruct (IH r ltac:(lia)) as (ps & W & E). exists (Special c :: ps). cbn. split; auto. unfold render in *. cbn. congruence. }
  destruct (quote_dec c) as [Hq|Hq].
  { destruct (in_dec Nat.eq_dec c r) as [Hi|Hi].
    - destruct (first_split c r Hi) as (a & b & -> & Ha). rewrite app_length in Hl. cbn in Hl.
      destruct (IH b ltac:(lia)) as (ps & W & E). exists (Quoted c a :: ps). cbn. split; auto.
      unfold render in *. cbn. rewrite E, <- app_assoc. reflexivity.
    - exists [Unclosed c r]. cbn. split; auto. unfold render. cbn. rewrite app_nil_r. reflexivity. }
  destruct (IH r ltac:(lia)) as (ps & W & E).
  assert (Hone : forall x, x = c -> ~ isWhite x /\ ~ isSpecial tools x /\ ~ isQuote x) by (intros x ->; auto).
  destruct ps as [|[d|d|w|q b|q b] ps'].
  4:{ exists (Word (c :: w) :: ps'). cbn in W |- *. destruct W as (W0 & W1 & W2 & W3). split.
      - split; [assumption|]. split; [discriminate|]. split; [|assumption]. intros x [<-|Hx]; auto.
      - unfold render in *. cbn in *. congruence. }
  1: exists [Word [c]]. 2: exists (Word [c] :: White d :: ps'). 3: exists (Word [c] :: Special d :: ps').
  4: exists (Word [c] :: Quoted q b :: ps'). 5: exists (Word [c] :: Unclosed q b :: ps').
  all: (split; [|unfold render in *; cbn in *; congruence]).
  all: cbn in W |- *; split; [exact W|]; split; [discriminate|]; split; [|exact I];
    intros x [<-|[]]; apply Hone; reflexivity.
Qed.

Lemma split_ok tools pl ps : isStr (render ps) -> wfPieces tools ps -> hd 0 (render ps) <> 33 ->
  parseCommandLine tools pl (render ps) = Ok (map (fun x => (fst x + pl, snd x)) (arguments 1 ps)).
Proof.
  intros Hs W Hc. unfold parseCommandLine.
  pose proof (pcl_pieces tools (render ps) Hs ps [] eq_refl W (fun _ => Hc) 0) as K. cbn [length] in K.
  rewrite K. reflexivity.
Qed.
Lemma split_total tools pl line : isStr line -> hd 0 line <> 33 ->
  exists ps, wfPieces tools ps /\ render ps = line /\
    parseCommandLine tools pl line = Ok (map (fun x => (fst x + pl, snd x)) (arguments 1 ps)).
Proof.
  intros Hs Hc. destruct (decompose tools (length line) line ltac:(lia)) as (ps & W & E).
  exists ps. split; [exact W|]. split; [exact E|]. rewrite <- E in *. apply split_ok; assumption.
Qed.
Lemma comment_line tools pl r : parseCommandLine tools pl (33 :: r) = Ok [].
Proof.
  unfold parseCommandLine. destruct r; destruct tools; reflexivity.
Qed.
Definition quotePieces (l : list (list nat)) : list piece :=
  concat (map (fun a => [Quoted (if in_dec Nat.eq_dec 39 a then 34 else 39) a; White 32]) l).
Lemma quote_pieces l tools : (forall a, In a l -> ~ (In 39 a /\ In 34 a)) ->
  wfPieces tools (quotePieces l) /\ render (quotePieces l) = quoteAll l /\
  (forall k, map snd (arguments k (quotePieces l)) = l).
Proof.
  induction l as [|a l IH]; intros H; [repeat split|].
  destruct (IH (fun x Hx => H x (or_intror Hx))) as (I1 & I2 & I3).
  unfold quotePieces in *. cbn [map concat app]. repeat split.
  - exact I1.
  - left. reflexivity.
  - destruct (in_dec Nat.eq_dec 39 a); [right|left]; reflexivity.
  - destruct (in_dec Nat.eq_dec 39 a) as [Hi|Hi]; [|exact Hi]. intros Hj. apply (H a (or_introl eq_refl)). auto.
  - unfold render in *. cbn [map concat render1 quoteAll]. rewrite I2. unfold quote.
    destruct (in_dec Nat.eq_dec 39 a); reflexivity.
  - intros k. cbn [arguments map app snd]. rewrite I3. reflexivity.
Qed.
Lemma quote_roundtrip tools pl l : (forall a, In a l -> isStr a /\ ~ (In 39 a /\ In 34 a)) ->
  exists r, parseCommandLine tools pl (quoteAll l) = Ok r /\ map snd r = l.
Proof.
  intros H. destruct (quote_pieces l tools (fun a Ha => proj2 (H a Ha))) as (W & E & A).
  assert (isStr (quoteAll l)) as Hs.
  { clear W E A. induction l as [|a l IH]; [constructor|]. cbn. unfold quote.
    assert (isStr a) by (apply H; left; reflexivity).
    assert (isStr (quoteAll l)) by (apply IH; intros; apply H; right; assumption).
    destruct (in_dec Nat.eq_dec 39 a); unfold isStr in *; constructor; try lia;
      repeat (apply Forall_app; split); auto; repeat constructor; try lia; assumption. }
  rewrite <- E in Hs |- *. rewrite split_ok; auto.
  - eexists. split; [reflexivity|]. rewrite map_map. cbn. apply A.
  - rewrite E. destruct l as [|a l]; [discriminate|]. cbn. unfold quote. destruct (in_dec Nat.eq_dec 39 a); discriminate.
Qed.

(* ---------- keywords ---------- *)
Lemma joinBar_bar ks : ks <> [] -> joinBar ks ++ bar = concat (map (fun k => k ++ [124]) ks).
Proof.
  induction ks as [|k r IH]; intros H; [congruence|]. destruct r as [|k2 r].
  - cbn. rewrite app_nil_r. reflexivity.
  - change (joinBar (k :: k2 :: r)) with (k ++ 124 :: joinBar (k2 :: r)).
    change (concat (map (fun k => k ++ [124]) (k :: k2 :: r))) with ((k ++ [124]) ++ concat (map (fun k => k ++ [124]) (k2 :: r))).
    rewrite <- IH by discriminate. rewrite <- app_assoc. cbn. rewrite <- app_assoc. reflexivity.
Qed.
Lemma concat_bar_occ ks : forall q, occurs bar (concat (map (fun k => k ++ [124]) ks)) q -> ks <> [].
Proof. intros q (a & b & E & _) ->. destruct a; discriminate. Qed.
Lemma instr_bar pre k rest : ~ In 124 k ->
  instr (Z.of_nat (length pre) + 1) (pre ++ (k ++ [124]) ++ rest) bar = length pre + length k + 1.
Proof.
  intros Hk. destruct (instr_ok (Z.of_nat (length pre) + 1) (pre ++ (k ++ [124]) ++ rest) bar) as [[E N]|(q & E & O & Hq & M)];
    [discriminate| |].
  - exfalso. apply (N (length (pre ++ k) + 1)); [rewrite app_length; lia|].
    exists (pre ++ k), rest. split; [|reflexivity]. unfold bar. repeat rewrite <- app_assoc. reflexivity.
  - rewrite E.
    assert (q <= length (pre ++ k) + 1) as U.
    { apply M; [rewrite app_length; lia|]. exists (pre ++ k), rest. split; [|reflexivity]. unfold bar. repeat rewrite <- app_assoc. reflexivity. }
    rewrite app_length in U. destruct O as (a & b & Ea & Eq).
    assert (length a >= length pre) as La by lia.
    assert (nth_error (pre ++ (k ++ [124]) ++ rest) (length a) = Some 124) as Hn.
    { rewrite Ea. rewrite nth_error_app2 by lia. rewrite Nat.sub_diag. reflexivity. }
    rewrite nth_error_app2 in Hn by lia.
    destruct (Nat.lt_ge_cases (length a - length pre) (length k)) as [Hlt|Hge].
    + rewrite nth_error_app1 in Hn by (rewrite app_length; lia). rewrite nth_error_app1 in Hn by lia.
      apply nth_error_In in Hn. contradiction.
    + lia.
Qed.
Lemma instr_end l : instr (Z.of_nat (length l) + 1) l bar = 0.
Proof.
  destruct (instr_ok (Z.of_nat (length l) + 1) l bar) as [[E N]|(q & E & O & Hq & M)]; [discriminate|exact E|].
  apply occurs_bound in O. cbn in O. lia.
Qed.
Lemma splitBar_ok cmdList : isStr cmdList -> forall ks fuel pre, length ks < fuel ->
  cmdList ++ bar = pre ++ concat (map (fun k => k ++ [124]) ks) -> (forall k, In k ks -> ~ In 124 k) ->
  splitBar fuel cmdList (length pre) (length pre) = Ok ks.
Proof.
  intros Hs. induction ks as [|k r IH]; intros fuel pre Hf E Hk; (destruct fuel as [|fuel]; [cbn in Hf; lia|]); cbn [splitBar].
  - cbn in E. rewrite app_nil_r in E. rewrite E, instr_end. reflexivity.
  - cbn [map concat] in E. rewrite E at 1. rewrite instr_bar by (apply Hk; left; reflexivity).
    destruct (length pre + length k + 1) as [|p'] eqn:Ep; [lia|]. rewrite <- Ep.
    assert (length cmdList + 1 = length pre + (length k + 1 + length (concat (map (fun k => k ++ [124]) r)))) as L.
    { apply (f_equal (@length nat)) in E. rewrite !app_length in E. cbn in E. lia. }
    replace (Z.of_nat (length pre) + 1)%Z with (Z.of_nat (length pre + 1)) by lia.
    replace (Z.of_nat (length pre + length k + 1) - 1)%Z with (Z.of_nat (length pre + length k)) by lia.
    rewrite seg_ok by (auto; lia).
    assert (substr cmdList (length pre + 1) (length pre + length k) = k) as ->.
    { assert (substr (cmdList ++ bar) (length pre + 1) (length pre + length k) = k) as K.
      { rewrite E. unfold substr. rewrite Nat.add_sub, skipn_app, skipn_all, Nat.sub_diag. cbn [skipn app].
        replace (length pre + length k + 1 - (length pre + 1)) with (length k) by lia.
        rewrite <- app_assoc, firstn_app, firstn_all, Nat.sub_diag. cbn. apply app_nil_r. }
      rewrite <- K at 2. unfold substr. rewrite skipn_app, firstn_app.
      replace (_ - length (skipn _ cmdList)) with 0 by (rewrite skipn_length; lia).
      cbn [firstn]. rewrite app_nil_r. reflexivity. }
    cbn [rbind].
    replace (length pre + length k + 1) with (length (pre ++ k ++ [124])) by (rewrite !app_length; cbn; lia).
    rewrite IH; [reflexivity|cbn in Hf; lia| |intros; apply Hk; right; assumption].
    rewrite E, <- !app_assoc. reflexivity.
Qed.
Lemma joinBar_len ks : length ks <= length (joinBar ks) + 1.
Proof.
  induction ks as [|k r IH]; [cbn; lia|]. destruct r as [|k2 r]; [cbn; lia|].
  change (joinBar (k :: k2 :: r)) with (k ++ 124 :: joinBar (k2 :: r)). rewrite app_length. cbn [length] in *. lia.
Qed.
Lemma split_list ks : ks <> [] -> isStr (joinBar ks) -> (forall k, In k ks -> ~ In 124 k) ->
  splitBar (length (joinBar ks) + 2) (joinBar ks) 0 0 = Ok ks.
Proof.
  intros Hn Hs Hk. apply (splitBar_ok (joinBar ks) Hs ks _ []); auto.
  - pose proof (joinBar_len ks). lia.
  - apply joinBar_bar, Hn.
Qed.
Lemma joinBar_str ks : isStr (joinBar ks) <-> forall k, In k ks -> isStr k.
Proof.
  induction ks as [|k r IH]; [split; [intros _ ? []|constructor]|].
  destruct r as [|k2 r].
  - cbn. split; [intros H x [<-|[]]; exact H|intros H; apply H; left; reflexivity].
  - change (joinBar (k :: k2 :: r)) with (k ++ 124 :: joinBar (k2 :: r)). unfold isStr in *. rewrite Forall_app, Forall_cons_iff, IH.
    split.
    + intros (H1 & _ & H2) x [<-|Hx]; auto.
    + intros H. split; [apply H; left; reflexivity|]. split; [lia|]. intros x Hx. apply H. right. exact Hx.
Qed.

Lemma nth_last {A} (l : list A) x : nth_error (l ++ [x]) (length (l ++ [x]) - 1) = Some x.
Proof. rewrite app_length. cbn. rewrite nth_error_app2 by lia. replace (length l + 1 - 1 - length l) with 0 by lia. reflexivity. Qed.
Lemma left1 s : isStr s -> left_ s 1 = Ok (firstn 1 s).
Proof. intros H. change 1%Z with (Z.of_nat 1). rewrite left_ok by assumption. reflexivity. Qed.

(* a well-formed keyword list *)
Definition wfKws (ks : list (list nat)) : Prop :=
  ks <> [] /\ forall k, In k ks -> isStr k /\ k <> [] /\ ~ In 124 k /\ hd 0 k <> 60.
Lemma choices_plain ks : wfKws ks -> choices (joinBar ks) = Ok (shown ks, []).
Proof.
  intros [Hn Hk]. unfold choices.
  assert (forall k, In k ks -> isStr k) as Hs by (intros; apply Hk; assumption).
  rewrite split_list; auto; [|apply joinBar_str; assumption|intros; apply Hk; assumption].
  cbn [rbind]. destruct (exists_last Hn) as (l & x & ->).
  assert (In x (l ++ [x])) as Hx by (apply in_or_app; right; left; reflexivity).
  destruct (Hk x Hx) as (X1 & X2 & _ & X3).
  rewrite nth_last. cbn [rget rbind]. rewrite left1 by assumption. cbn [rbind].
  destruct (seqb_spec (firstn 1 x) [60]) as [E|_].
  { destruct x; [discriminate|]. cbn in E. injection E as ->. exfalso. apply X3. reflexivity. }
  destruct (Nat.eqb_spec (length (l ++ [x])) 0) as [E|_]; [rewrite app_length in E; cbn in E; lia|].
  rewrite nth_last. cbn [rget rbind]. unfold shown. rewrite last_last.
  destruct (seqb_spec x [36]) as [E|E].
  - destruct (list_eq_dec Nat.eq_dec x [36]); [|congruence].
    rewrite removelast_last, app_length. cbn. rewrite Nat.add_sub, firstn_app, firstn_all, Nat.sub_diag. cbn.
    rewrite app_nil_r. reflexivity.
  - destruct (list_eq_dec Nat.eq_dec x [36]); [congruence|]. reflexivity.
Qed.
Lemma choices_default ks d : wfKws ks -> isStr d -> ~ In 124 d ->
  choices (joinBar (ks ++ [60 :: d])) = Ok (shown ks, if seqb (60 :: d) [60; 36; 62] then sDefNothing else 60 :: d).
Proof.
  intros [Hn Hk] Hd Hb. unfold choices.
  assert (forall k, In k (ks ++ [60 :: d]) -> isStr k /\ ~ In 124 k) as Hs.
  { intros k Hi. apply in_app_or in Hi. destruct Hi as [Hi|[<-|[]]].
    - destruct (Hk k Hi) as (K1 & _ & K2 & _). auto.
    - split; [constructor; [lia|assumption]|]. intros [E|E]; [discriminate|auto]. }
  rewrite split_list; [|intros E; apply app_eq_nil in E; destruct E; discriminate|apply joinBar_str; apply Hs|apply Hs].
  cbn [rbind]. rewrite nth_last. cbn [rget rbind].
  rewrite left1 by (constructor; [lia|assumption]). cbn [rbind firstn].
  rewrite seqb_refl.
  rewrite app_length. cbn [length]. rewrite Nat.add_sub, firstn_app, firstn_all, Nat.sub_diag. cbn [firstn]. rewrite app_nil_r.
  destruct (exists_last Hn) as (l & x & ->).
  destruct (Nat.eqb_spec (length (l ++ [x])) 0) as [E|_]; [rewrite app_length in E; cbn in E; lia|].
  rewrite nth_last. cbn [rget rbind]. unfold shown. rewrite last_last.
  destruct (seqb_spec x [36]) as [E|E].
  - destruct (list_eq_dec Nat.eq_dec x [36]); [|congruence].
    rewrite removelast_last, app_length. cbn [length]. rewrite Nat.add_sub, firstn_app, firstn_all, Nat.sub_diag. cbn [firstn].
    rewrite app_nil_r. reflexivity.
  - destruct (list_eq_dec Nat.eq_dec x [36]); [congruence|]. reflexivity.
Qed.

Lemma scan_ok arg : forall poss i k j acc, (forall c, In c poss -> isStr c) ->
  let F := filter (isPrefix arg) poss in
  (In arg poss -> exists i' acc', scanKw poss i arg k j acc = Ok (1, i + i', acc') /\ nth_error poss i' = Some arg) /\
  (~ In arg poss -> exists j', scanKw poss i arg k j acc = Ok (k + length F, j', acc ++ F) /\
     (F = [] -> j' = j) /\ (forall c, F <> [] -> c = last F [] -> exists i', j' = i + i' /\ nth_error poss i' = Some c)).
Proof.
  induction poss as [|c r IH]; intros i k j acc Hs F.
  - split; [intros []|]. intros _. exists j. cbn. rewrite Nat.add_0_r, app_nil_r. repeat split; auto. congruence.
  - cbn [scanKw]. destruct (seqb_spec c arg) as [->|Hne].
    { split; [|intros H; exfalso; apply H; left; reflexivity]. intros _. exists 0, acc. rewrite Nat.add_0_r. auto. }
    rewrite left_ok by (apply Hs; left; reflexivity). cbn [rbind].
    assert (substr c 1 (length arg) = firstn (length arg) c) as ->.
    { unfold substr. rewrite Nat.add_sub. reflexivity. }
    assert (F = if seqb (firstn (length arg) c) arg then c :: filter (isPrefix arg) r else filter (isPrefix arg) r) as EF.
    { reflexivity. }
    clearbody F. subst F.
    destruct (seqb_spec (firstn (length arg) c) arg) as [Ep|Ep].
    + destruct (IH (S i) (S k) i (acc ++ [c]) (fun x Hx => Hs x (or_intror Hx))) as [I1 I2]. split.
      * intros [H|H]; [congruence|]. destruct (I1 H) as (i' & acc' & E & N). exists (S i'), acc'.
        rewrite E. split; [f_equal; f_equal; f_equal; lia|exact N].
      * intros H. destruct (I2 (fun Hx => H (or_intror Hx))) as (j' & E & J1 & J2). exists j'.
        rewrite E. split; [f_equal; f_equal; [f_equal; cbn; lia|rewrite <- app_assoc; reflexivity]|].
        split; [discriminate|]. intros x _ Hx.
        destruct (filter (isPrefix arg) r) as [|y f] eqn:Ef.
        -- cbn in Hx. subst x. exists 0. rewrite (J1 eq_refl). split; [lia|reflexivity].
        -- destruct (J2 x ltac:(discriminate) Hx) as (i' & -> & N). exists (S i'). split; [lia|exact N].
    + destruct (IH (S i) k j acc (fun x Hx => Hs x (or_intror Hx))) as [I1 I2]. split.
      * intros [H|H]; [congruence|]. destruct (I1 H) as (i' & acc' & E & N). exists (S i'), acc'.
        rewrite E. split; [f_equal; f_equal; f_equal; lia|exact N].
      * intros H. destruct (I2 (fun Hx => H (or_intror Hx))) as (j' & E & J1 & J2). exists j'.
        rewrite E. split; [reflexivity|]. split; [exact J1|]. intros x Hf Hx.
        destruct (J2 x Hf Hx) as (i' & -> & N). exists (S i'). split; [lia|exact N].
Qed.

Definition outOf (poss : list (list nat)) (v : verdict) : kwOut :=
  match v with Accept k => Keyword k | Unknown => Expected poss | Several l => Ambiguous l end.
Definition decideKw (poss : list (list nat)) (def a : list nat) : res kwOut :=
  do arg <- edit 0 a 32 [];
  do r <- scanKw poss 0 arg 0 0 [];
  let '(k, j, acc) := r in
  if k <? 1 then Ok (Expected poss)
  else if 1 <? k then Ok (Ambiguous acc)
  else do kw <- rget (nth_error poss j);
       match kw with
       | [] => if seqb def [60; 62] then Ok (Keyword []) else Ok NoDefault
       | _ => Ok (Keyword kw)
       end.
Lemma resolve_total ks a : exists v, resolves ks a v.
Proof.
  destruct (in_dec (list_eq_dec Nat.eq_dec) (map toUpper a) ks) as [H|H].
  - eexists. apply res_exact, H.
  - destruct (filter (isPrefix (map toUpper a)) ks) as [|k1 [|k2 r]] eqn:E.
    + eexists. apply res_none, E.
    + eexists. eapply res_unique; eassumption.
    + eexists. eapply res_several; eassumption.
Qed.
Lemma isPrefix_refl a : isPrefix a a = true.
Proof. unfold isPrefix. rewrite firstn_all. destruct (list_eq_dec Nat.eq_dec a a); congruence. Qed.
Lemma decide_ok poss def a v : isStr a -> (forall k, In k poss -> isStr k /\ k <> []) -> resolves poss a v ->
  decideKw poss def a = Ok (outOf poss v).
Proof.
  intros Ha Hp R. unfold decideKw.
  destruct (single_flags a 0 Ha) as (_ & _ & _ & _ & E32 & _). rewrite E32. cbn [rbind]. clear E32.
  destruct (scan_ok (map toUpper a) poss 0 0 0 [] (fun c Hc => proj1 (Hp c Hc))) as [S1 S2].
  assert (Hne : forall k i, nth_error poss i = Some k -> k <> []).
  { intros k i Hi. apply nth_error_In in Hi. apply Hp, Hi. }
  destruct R as [H|k H E|E|k1 k2 r H E].
  - destruct (S1 H) as (i' & acc' & -> & N). cbn -[nth_error]. rewrite N. cbn [rget rbind].
    pose proof (Hne _ _ N). destruct (map toUpper a); [congruence|reflexivity].
  - destruct (S2 H) as (j' & -> & _ & J). rewrite E in *.
    destruct (J k ltac:(discriminate) eq_refl) as (i' & -> & N). cbn -[nth_error]. rewrite N. cbn [rget rbind].
    pose proof (Hne _ _ N). destruct k; [congruence|reflexivity].
  - destruct (in_dec (list_eq_dec Nat.eq_dec) (map toUpper a) poss) as [H|H].
    + exfalso. assert (In (map toUpper a) (filter (isPrefix (map toUpper a)) poss)) as F.
      { apply filter_In. split; [exact H|apply isPrefix_refl]. } rewrite E in F. destruct F.
    + destruct (S2 H) as (j' & -> & _). rewrite E. reflexivity.
  - destruct (S2 H) as (j' & -> & _). rewrite E. reflexivity.
Qed.
Lemma shown_ok ks : wfKws ks -> forall k, In k (shown ks) -> isStr k /\ k <> [].
Proof.
  intros [Hn Hk] k. unfold shown. destruct (list_eq_dec Nat.eq_dec (last ks []) [36]).
  - destruct (exists_last Hn) as (l & x & ->). rewrite removelast_last. intros Hi. apply in_app_or in Hi.
    destruct Hi as [Hi|[<-|[]]].
    + destruct (Hk k) as (K1 & K2 & _); [apply in_or_app; left; exact Hi|auto].
    + split; [repeat constructor; lia|discriminate].
  - intros Hi. destruct (Hk k Hi) as (K1 & K2 & _). auto.
Qed.
Lemma shown_nonempty ks : ks <> [] -> exists l x, shown ks = l ++ [x].
Proof.
  intros Hn. unfold shown. destruct (list_eq_dec Nat.eq_dec (last ks []) [36]); [eauto|].
  destruct (exists_last Hn) as (l & x & ->). eauto.
Qed.

(* the keyword list as it appears in the code: with or without a default *)
Inductive kwList (ks : list (list nat)) : list nat -> list nat -> Prop :=
| kwPlain : kwList ks (joinBar ks) []
| kwDefault : forall d, isStr d -> ~ In 124 d -> d <> [36] -> kwList ks (joinBar (ks ++ [60 :: d ++ [62]])) d
| kwNothing : kwList ks (joinBar (ks ++ [[60; 36; 62]])) sNothing.

Lemma kwList_choices ks cl d : wfKws ks -> kwList ks cl d -> exists def, choices cl = Ok (shown ks, def) /\
  seg def 2 (Z.of_nat (length def) - 1) = Ok d /\ (seqb cl [36; 124; 60; 36; 62] = true -> ks = [[36]] /\ d = sNothing).
Proof.
  intros W H. destruct H as [|d Hd Hb Hne|].
  - exists []. split; [apply choices_plain, W|]. split; [reflexivity|].
    intros E. destruct (seqb_spec (joinBar ks) [36; 124; 60; 36; 62]) as [E1|]; [|discriminate]. exfalso.
    assert (splitBar (length (joinBar ks) + 2) (joinBar ks) 0 0 = Ok ks) as K.
    { destruct W as [Wn Wk]. apply split_list; [assumption|apply joinBar_str; intros k Hk; apply (Wk k Hk)|intros k Hk; apply (Wk k Hk)]. }
    rewrite E1 in K. vm_compute in K. injection K as <-. destruct W as [_ Wk].
    destruct (Wk [60; 36; 62]) as (_ & _ & _ & C); [cbn; tauto|]. apply C. reflexivity.
  - assert (isStr (d ++ [62])) as Hd2 by (apply Forall_app; split; [assumption|repeat constructor; lia]).
    assert (~ In 124 (d ++ [62])) as Hb2.
    { intros Hi. apply in_app_or in Hi. destruct Hi as [Hi|[Hi|[]]]; [auto|discriminate]. }
    exists (60 :: d ++ [62]).
    assert (d ++ [62] <> [36; 62]) as Hne2.
    { intros E. apply Hne. apply (app_inj_tail d [36] 62 62). exact E. }
    pose proof (choices_default ks (d ++ [62]) W Hd2 Hb2) as K.
    destruct (seqb_spec (60 :: d ++ [62]) [60; 36; 62]) as [E|_]; [congruence|].
    split; [exact K|]. split.
    + change 2%Z with (Z.of_nat (@length nat [60%nat] + 1)).
      assert (Z.of_nat (length (60%nat :: d ++ [62%nat])) - 1 = Z.of_nat (@length nat [60%nat] + length d))%Z as ->.
      { pose proof (app_length d [62]) as La. cbn [length] in *. lia. }
      apply (seg_mid [60] d [62]). constructor; [lia|exact Hd2].
    + intros E. destruct (seqb_spec (joinBar (ks ++ [60 :: d ++ [62]])) [36; 124; 60; 36; 62]) as [E1|]; [|discriminate]. exfalso.
      assert (splitBar (length (joinBar (ks ++ [60 :: d ++ [62]])) + 2) (joinBar (ks ++ [60 :: d ++ [62]])) 0 0 = Ok (ks ++ [60 :: d ++ [62]])) as K'.
      { destruct W as [Wn Wk]. apply split_list.
        - intros C. apply app_eq_nil in C. destruct C; discriminate.
        - rewrite E1. repeat constructor; lia.
        - intros k Hi. apply in_app_or in Hi. destruct Hi as [Hi|[<-|[]]]; [apply (Wk k Hi)|].
          intros [C|C]; [discriminate|auto]. }
      rewrite E1 in K'. vm_compute in K'. apply Ok_inj in K'.
      apply (app_inj_tail [[36]] ks _ _) in K'. destruct K' as [_ K']. injection K' as K'. apply Hne2. symmetry. exact K'.
  - exists sDefNothing. split.
    + apply (choices_default ks [36; 62] W); [repeat constructor; lia|intros [E|[E|[]]]; discriminate].
    + split; [reflexivity|]. intros E.
      destruct (seqb_spec (joinBar (ks ++ [[60; 36; 62]])) [36; 124; 60; 36; 62]) as [E1|]; [|discriminate].
      split; [|reflexivity].
      assert (splitBar (length (joinBar (ks ++ [[60; 36; 62]])) + 2) (joinBar (ks ++ [[60; 36; 62]])) 0 0 = Ok (ks ++ [[60; 36; 62]])) as K.
      { destruct W as [Wn Wk]. apply split_list.
        - intros C. apply app_eq_nil in C. destruct C; discriminate.
        - rewrite E1. repeat constructor; lia.
        - intros k Hi. apply in_app_or in Hi. destruct Hi as [Hi|[<-|[]]]; [apply (Wk k Hi)|].
          intros [C|[C|[C|[]]]]; discriminate. }
      rewrite E1 in K. vm_compute in K. apply Ok_inj in K.
      apply (app_inj_tail [[36]] ks _ _) in K. symmetry. apply K.
Qed.

Lemma given_ok ks cl d qm a ans v : wfKws ks -> kwList ks cl d -> isStr a -> resolves (shown ks) a v ->
  getKeyword cl qm (Some a) ans = Ok (outOf (shown ks) v).
Proof.
  intros W L Ha R. destruct (kwList_choices ks cl d W L) as (def & E & _).
  unfold getKeyword. rewrite E. cbn [rbind].
  destruct (shown_nonempty ks (proj1 W)) as (l & x & Es).
  rewrite Es at 1 2. rewrite nth_last. cbn [rget rbind].
  apply (decide_ok (shown ks) def a v Ha); [apply shown_ok, W|exact R].
Qed.
Lemma shown_len ks : ks <> [] -> length (shown ks) = length ks.
Proof.
  intros Hn. unfold shown. destruct (list_eq_dec Nat.eq_dec (last ks []) [36]); [|reflexivity].
  destruct (exists_last Hn) as (l & x & ->). rewrite removelast_last, !app_length. reflexivity.
Qed.
Lemma prompt_ok ks cl d qm ans : wfKws ks -> kwList ks cl d ->
  getKeyword cl qm None ans =
  if negb (seqb (last (shown ks) []) sNothing) || qm then
    let a := if length ks =? 1 then d else match ans with [] => d | _ => ans end in
    if seqb a sNothing then Ok Nothing else getKeyword cl qm (Some a) ans
  else Ok Nothing.
Proof.
  intros W L. destruct (kwList_choices ks cl d W L) as (def & E & Ed & Ec).
  unfold getKeyword. rewrite E. cbn [rbind].
  pose proof (shown_len ks (proj1 W)) as Ln.
  destruct (shown_nonempty ks (proj1 W)) as (l & x & Es).
  assert (nth_error (shown ks) (length (shown ks) - 1) = Some x) as N by (rewrite Es; apply nth_last).
  assert (last (shown ks) [] = x) as Lx by (rewrite Es; apply last_last).
  rewrite N, Lx. cbn [rget rbind].
  destruct (negb (seqb x sNothing) || qm); [|reflexivity]. rewrite Ln.
  destruct (Nat.eqb_spec (length ks) 1) as [E1|E1]; cbn [negb].
  - destruct (seqb cl [36; 124; 60; 36; 62]) eqn:Ecl.
    + destruct (Ec eq_refl) as [-> ->]. vm_compute in Es. vm_compute. reflexivity.
    + cbn [rbind]. rewrite Ed. cbn [rbind]. destruct (seqb_spec d sNothing); reflexivity.
  - cbn [rbind]. destruct ans as [|c r].
    + rewrite Ed. cbn [rbind]. destruct (seqb_spec d sNothing); reflexivity.
    + cbn [rbind]. destruct (seqb_spec (c :: r) sNothing); reflexivity.
Qed.

(* ---------- cmdMatches, switchPos ---------- *)
Lemma spaces_app a b : spaces (a ++ b) = spaces a + spaces b.
Proof. induction a as [|c a IH]; cbn; [reflexivity|]. rewrite IH. lia. Qed.
Lemma spaces_none a : spaces a = 0 <-> ~ In 32 a.
Proof.
  induction a as [|c a IH]; cbn; [tauto|]. destruct (Nat.eqb_spec c 32) as [->|H].
  - split; [discriminate|]. intros K. exfalso. auto.
  - cbn. rewrite IH. split; [intros K [E|E]; auto|auto].
Qed.
Definition pre32 (l : list (list nat)) : list nat := concat (map (cons 32) l).
Lemma joinSpace_pre l : l <> [] -> 32 :: joinSpace l = pre32 l.
Proof.
  induction l as [|a r IH]; intros H; [congruence|]. destruct r as [|b r].
  - cbn. rewrite app_nil_r. reflexivity.
  - change (joinSpace (a :: b :: r)) with (a ++ 32 :: joinSpace (b :: r)). rewrite IH by discriminate. reflexivity.
Qed.
Lemma spaces_pre l : spaces (pre32 l) = length l + list_sum (map spaces l).
Proof. induction l as [|a r IH]; [reflexivity|]. unfold pre32 in *.
  cbn [map concat app spaces length Nat.eqb]. rewrite spaces_app, IH.
  change (list_sum (spaces a :: map spaces r)) with (spaces a + list_sum (map spaces r)).
  change (32 =? 32) with true. cbv iota. lia. Qed.
Lemma joinArgs_ok n : forall i args acc, i + n <= length args ->
  joinArgs n i args acc = Ok (acc ++ pre32 (firstn n (skipn i args))).
Proof.
  induction n as [|n IH]; intros i args acc H; [cbn; rewrite app_nil_r; reflexivity|].
  cbn [joinArgs]. destruct (nth_error args i) as [a|] eqn:E; [|apply nth_error_None in E; lia].
  cbn [rget rbind]. rewrite IH by lia.
  assert (skipn i args = a :: skipn (S i) args) as ->.
  { clear - E. revert i E. induction args as [|x l IH]; intros [|i] E; try discriminate; cbn in *; [congruence|]. apply IH, E. }
  cbn [firstn]. unfold pre32. cbn [map concat]. rewrite <- !app_assoc. reflexivity.
Qed.
Lemma pre32_inj : forall a b, (forall x, In x a -> ~ In 32 x) -> (forall x, In x b -> ~ In 32 x) -> pre32 a = pre32 b -> a = b.
Proof.
  induction a as [|x a IH]; intros [|y b] Ha Hb E; try reflexivity; try discriminate.
  unfold pre32 in E. cbn in E. injection E as E.
  assert (forall (u v : list nat) s t, ~ In 32 u -> ~ In 32 v -> (s = [] \/ hd 0 s = 32) -> (t = [] \/ hd 0 t = 32) ->
    u ++ s = v ++ t -> u = v /\ s = t) as K.
  { clear. induction u as [|c u IH]; intros [|d v] s t Hu Hv Hs Ht E; cbn in *; auto.
    - subst s. destruct Hs as [Hs|Hs]; [discriminate|]. cbn in Hs. exfalso. apply Hv. left. exact Hs.
    - subst t. destruct Ht as [Ht|Ht]; [discriminate|]. cbn in Ht. exfalso. apply Hu. left. exact Ht.
    - injection E as <- E. destruct (IH v s t) as [-> ->]; auto. }
  assert (forall l : list (list nat), concat (map (cons 32) l) = [] \/ hd 0 (concat (map (cons 32) l)) = 32) as Hd
    by (intros [|? ?]; [left|right]; reflexivity).
  destruct (K x y _ _ (Ha x (or_introl eq_refl)) (Hb y (or_introl eq_refl)) (Hd a) (Hd b) E) as [-> E2].
  f_equal. apply IH; [intros; apply Ha; right; assumption|intros; apply Hb; right; assumption|exact E2].
Qed.
Lemma cmdMatches_ok args ws : ws <> [] -> (forall w, In w ws -> ~ In 32 w) ->
  exists b, cmdMatches args (joinSpace ws) = Ok b /\ (b = true <-> firstn (length ws) args = ws).
Proof.
  intros Hn Hw. unfold cmdMatches.
  assert (list_sum (map spaces ws) = 0) as Z0.
  { clear Hn. induction ws as [|w r IH]; [reflexivity|].
    change (spaces w + list_sum (map spaces r) = 0). rewrite IH by (intros; apply Hw; right; assumption).
    rewrite (proj2 (spaces_none w)); [reflexivity|apply Hw; left; reflexivity]. }
  assert (S (spaces (joinSpace ws)) = length ws) as Ls.
  { change (S (spaces (joinSpace ws))) with (spaces (32 :: joinSpace ws)). rewrite joinSpace_pre by assumption.
    rewrite spaces_pre. lia. }
  destruct (Nat.leb_spec (length args) (spaces (joinSpace ws))) as [Hl|Hl].
  - exists false. split; [reflexivity|]. split; [discriminate|]. intros E.
    apply (f_equal (@length (list nat))) in E. rewrite firstn_length in E. lia.
  - rewrite joinArgs_ok by lia. cbn [rbind app skipn]. eexists. split; [reflexivity|].
    replace (spaces (joinSpace ws) + 1) with (length ws) by lia. rewrite joinSpace_pre by assumption.
    destruct (seqb_spec (pre32 ws) (pre32 (firstn (length ws) args))) as [E|E].
    + split; [|reflexivity]. intros _. symmetry. apply pre32_inj; auto.
      intros x Hx. apply spaces_none.
      apply (f_equal spaces) in E. rewrite !spaces_pre, Z0, firstn_length in E.
      assert (list_sum (map spaces (firstn (length ws) args)) = 0) as Z1 by lia.
      clear - Z1 Hx. induction (firstn (length ws) args) as [|y l IH]; [destruct Hx|].
      change (spaces y + list_sum (map spaces l) = 0) in Z1.
      destruct Hx as [->|Hx]; [lia|apply IH; [exact Hx|lia]].
    + split; [discriminate|]. intros K. exfalso. apply E. rewrite K. reflexivity.
Qed.
Definition switchAt (args : list (list nat)) (sw : list nat) (i : nat) : Prop :=
  nth_error args i = Some [47] /\ nth_error args (i + 1) = Some sw.
Lemma switchLoop_ok sw : forall args i,
  (switchLoop args i sw = 0 /\ forall n, ~ switchAt args sw n) \/
  (exists n, switchLoop args i sw = i + n + 1 /\ switchAt args sw n /\ forall m, switchAt args sw m -> n <= m).
Proof.
  induction args as [|a r IH]; intros i.
  - left. split; [reflexivity|]. intros n [H _]. destruct n; discriminate.
  - cbn [switchLoop].
    destruct (seqb a [47] && match r with b :: _ => seqb b sw | [] => false end) eqn:E.
    + right. apply andb_prop in E. destruct E as [E1 E2]. destruct (seqb_spec a [47]) as [->|]; [|discriminate].
      destruct r as [|b r]; [discriminate|]. destruct (seqb_spec b sw) as [->|]; [|discriminate].
      exists 0. split; [lia|]. split; [split; reflexivity|]. lia.
    + assert (~ switchAt (a :: r) sw 0) as N0.
      { intros [H1 H2]. cbn in H1, H2. injection H1 as ->. destruct r as [|b r]; [discriminate|]. injection H2 as ->.
        rewrite !seqb_refl in E. discriminate. }
      destruct (IH (S i)) as [[E1 N]|(n & E1 & S1 & M)].
      * left. split; [exact E1|]. intros [|n]; [exact N0|]. intros [H1 H2]. apply (N n). split; [exact H1|exact H2].
      * right. exists (S n). split; [rewrite E1; lia|]. split; [exact S1|].
        intros [|m] Hm; [contradiction|]. destruct Hm as [H1 H2]. apply le_n_S, M. split; [exact H1|exact H2].
Qed.
Lemma switchPos_ok args sw : ~ In 32 sw ->
  (switchPos args sw = Ok 0 /\ forall n, ~ switchAt args sw n) \/
  (exists n, switchPos args sw = Ok (n + 1) /\ switchAt args sw n /\ forall m, switchAt args sw m -> n <= m).
Proof.
  intros H. unfold switchPos.
  assert (instr 1 sw [32] = 0) as ->.
  { apply inSet_false in H. unfold inSet in H. apply negb_false_iff, Nat.eqb_eq in H. exact H. }
  cbn [Nat.eqb negb]. destruct (switchLoop_ok sw args 0) as [[E N]|(n & E & S1 & M)]; [left|right].
  - rewrite E. auto.
  - exists n. rewrite E. auto.
Qed.
