(* NrmText.v -- SAVE PROOF /NORMAL and /PACKED: the text stored and how it is read. *)
From Coq Require Import ZifyBool ZifyNat.
From Verif Require Import Base TokSpec MMSpec VerModel VerSpec TokModel TokProofs ParModel ParSpec CmpSpec CheckPar VstrModel VstrSpec CmdModel CmdProofs
  SqModel SqSpec SqProofs SqPack SqValid SqGood OrdModel LineModel LineSpec LineProofs LineText SavModel LineCmp SavProofs ReadWords NrmModel NrmSpec NrmProofs NrmParse.
Open Scope nat_scope.

(* ---- words ---- *)
Definition noBlank (t : list nat) : Prop := Forall (fun c => isBlank c = false) t.
Lemma wordsFrom_solid x : forall cur t, noBlank x -> wordsFrom cur (x ++ t) = wordsFrom (cur ++ x) t.
Proof.
  induction x as [|c x IH]; intros cur t F; [rewrite app_nil_r; reflexivity|]. inversion F as [|? ? C F']; subst. cbn [app wordsFrom]. rewrite C, IH by exact F'.
  rewrite <- app_assoc. reflexivity.
Qed.
Lemma words_blanks w t : Forall (fun c => isBlank c = true) w -> LineSpec.words (w ++ t) = LineSpec.words t.
Proof. intros F. induction F as [|c w C F IH]; [reflexivity|]. unfold LineSpec.words in *. cbn [app wordsFrom]. rewrite C. exact IH. Qed.
Lemma words_solid x t : x <> [] -> noBlank x -> (t = [] \/ exists c r, t = c :: r /\ isBlank c = true) -> LineSpec.words (x ++ t) = x :: LineSpec.words t.
Proof.
  intros N F T. unfold LineSpec.words. rewrite (wordsFrom_solid x [] t F). cbn [app]. destruct x as [|c x]; [congruence|].
  destruct T as [->|(d & r & -> & B)]; [reflexivity|]. cbn [wordsFrom]. rewrite B. reflexivity.
Qed.
Lemma wordsFrom_split : forall t (cur : list nat), exists x r : list nat, t = x ++ r /\ noBlank x /\ (r = [] \/ exists c r', r = c :: r' /\ isBlank c = true) .
Proof.
  intros t _. induction t as [|c t IH]; [exists [], []; split; [reflexivity|]; split; [constructor|now left]|].
  destruct (isBlank c) eqn:B.
  - exists [], (c :: t). split; [reflexivity|]. split; [constructor|]. right. eauto.
  - destruct IH as (x & r & -> & A & C). exists (c :: x), r. split; [reflexivity|]. split; [now constructor|exact C].
Qed.
Lemma strip_blanks t : exists w s, t = w ++ s /\ Forall (fun c => isBlank c = true) w /\ (s = [] \/ exists c r, s = c :: r /\ isBlank c = false).
Proof.
  induction t as [|c t IH]; [exists [], []; repeat split; [constructor|now left]|]. destruct (isBlank c) eqn:B.
  - destruct IH as (w & s & -> & A & C). exists (c :: w), s. split; [reflexivity|]. split; [now constructor|exact C].
  - exists [], (c :: t). split; [reflexivity|]. split; [constructor|]. right. eauto.
Qed.
Lemma words_nil t : LineSpec.words t = [] -> Forall (fun c => isBlank c = true) t.
Proof.
  intros H. destruct (strip_blanks t) as (w & s & -> & A & [->|(c & r & -> & B)]); [rewrite app_nil_r; exact A|].
  rewrite words_blanks in H by exact A. destruct (wordsFrom_split (c :: r) []) as (x & r' & E & F & T). rewrite E in H.
  destruct x as [|d x].
  - cbn in E. subst r'. destruct T as [T|(c' & r' & E & B')]; [discriminate|]. injection E as <- <-. congruence.
  - rewrite words_solid in H; [discriminate|discriminate|exact F|exact T].
Qed.
Lemma words_cons t x xs : LineSpec.words t = x :: xs -> exists w r, t = w ++ x ++ r /\ Forall (fun c => isBlank c = true) w /\
  (r = [] \/ exists c r', r = c :: r' /\ isBlank c = true) /\ LineSpec.words r = xs.
Proof.
  intros H. destruct (strip_blanks t) as (w & s & -> & A & [->|(c & r & -> & B)]).
  - rewrite words_blanks in H by exact A. discriminate.
  - rewrite words_blanks in H by exact A. destruct (wordsFrom_split (c :: r) []) as (y & r' & E & F & T). rewrite E in *.
    destruct y as [|d y].
    + cbn in E. subst r'. destruct T as [T|(c' & r' & E & B')]; [discriminate|]. injection E as <- <-. congruence.
    + rewrite words_solid in H; [|discriminate|exact F|exact T]. injection H as <- <-. exists w, r'. auto.
Qed.

(* ---- words to tokens ---- *)
Inductive chunkTok : list nat -> list label -> Prop :=
| ck_word c : labelWord c -> chunkTok c [c]
| ck_q : chunkTok [chQ] [[chQ]]
| ck_loc a b : labelWord a -> labelWord b -> chunkTok (a ++ chColon :: b) [a; [chColon]; b].

Lemma blank_white c : isBlank c = true -> ~ graphic c.
Proof. unfold isBlank, graphic. rewrite orb_true_iff, !Nat.eqb_eq. lia. Qed.
Lemma blanks_of w s : Forall (fun c => isBlank c = true) w -> TokSpec.blanks w s.
Proof.
  intros F. induction F as [|c w C F IH]; [constructor|]. change (c :: w) with ([c] ++ w). constructor; [|exact IH]. constructor. apply blank_white, C.
Qed.
Lemma word_ink a r : labelWord a -> startsInk (a ++ r).
Proof.
  intros [N F]. destruct a as [|c a]; [congruence|]. inversion F as [|? ? C _]; subst. apply labelChar_plain in C. destruct C as (G & D & _).
  right. exists c, (a ++ r). split; [reflexivity|]. split; [exact G|]. intros ->. congruence.
Qed.
Lemma one_ink c r : oneCharToken c -> startsInk (c :: r).
Proof.
  intros H. right. exists c, r. split; [reflexivity|]. unfold oneCharToken in H. cbn [In] in H. unfold graphic, dollar. split; [lia|]. intros ->. lia.
Qed.
Lemma word_proofTok a s : labelWord a -> plainEnds s -> proofToken a s.
Proof. intros H E. right. split; [apply H|]. split; [now apply word_plain|exact E]. Qed.

Lemma chunk_tokens rest (SR : stops rest) : rest <> [] -> forall cs tss, Forall2 chunkTok cs tss -> forall t, LineSpec.words t = cs ->
  exists w s, t ++ 32 :: rest = w ++ s /\ TokSpec.blanks w s /\ startsInk s /\ tokenised proofToken noProofToken s (concat tss) rest.
Proof.
  intros NR. induction 1 as [|c ts cs tss CK F IH]; intros t W.
  - apply words_nil in W. exists (t ++ [32]), rest. split; [rewrite <- app_assoc; reflexivity|].
    split; [apply blanks_of; apply Forall_app; split; [exact W|repeat constructor]|]. split; [now apply stops_ink|].
    constructor. destruct SR as [->|(c & r & -> & H1 & _)]; [exact I|]. cbn. right. auto.
  - destruct (words_cons _ _ _ W) as (w0 & r & -> & B0 & T & W'). destruct (IH r W') as (w & s & E & B & SI & TK).
    assert (ED : exists d u, w ++ s = d :: u /\ ~ graphic d).
    { rewrite <- E. destruct T as [->|(d & r' & -> & BD)]; [exists 32, rest|exists d, (r' ++ 32 :: rest)]; (split; [reflexivity|]); [unfold graphic; lia|now apply blank_white]. }
    assert (PE : plainEnds (w ++ s)) by (destruct ED as (d & u & -> & G); left; exact G).
    exists w0, (c ++ w ++ s). split; [rewrite <- E, <- !app_assoc; reflexivity|]. split; [now apply blanks_of|].
    destruct CK as [c LW| |a b LA LB]; cbn [concat app].
    + split; [now apply word_ink|]. apply tk_tok; auto. now apply word_proofTok.
    + split; [apply one_ink; right; now left|]. apply (tk_tok _ _ [chQ] w s); auto. left. exists chQ. split; [reflexivity|]. right. now left.
    + rewrite <- app_assoc. split; [now apply word_ink|]. cbn [app].
      change (a ++ chColon :: b ++ w ++ s) with (a ++ [] ++ (chColon :: b ++ w ++ s)).
      assert (CI : oneCharToken chColon) by (left; reflexivity).
      apply tk_tok; [apply word_proofTok; [exact LA|]; cbn; right; left; exact CI|constructor|now apply one_ink|].
      change (chColon :: b ++ w ++ s) with ([chColon] ++ [] ++ (b ++ w ++ s)).
      apply tk_tok; [left; exists chColon; auto|constructor|now apply word_ink|].
      apply tk_tok; auto. now apply word_proofTok.
Qed.

(* ---- breaking at spaces only ---- *)
Definition Tail0 (t : list nat) : Prop := t = [36; 46] \/ exists u, t = u ++ [32; 36; 46].
Lemma tail_break a gap b t : Tail0 t -> t = a ++ gap ++ b -> breakAt [32] a gap b -> Tail0 b.
Proof.
  intros T E B.
  assert (G : forall g, gap = g ++ [32] -> Tail0 b).
  { intros g EG. subst gap. rewrite <- app_assoc in E. cbn [app] in E. rewrite app_assoc in E. set (a' := a ++ g) in E. clearbody a'.
    destruct T as [->|[u ->]].
    - destruct a' as [|x [|y [|z a']]]; try discriminate.
    - destruct b as [|b1 [|b2 [|b3 b]]].
      + exfalso. apply (f_equal (@rev nat)) in E. rewrite !rev_app_distr in E. discriminate.
      + exfalso. apply (f_equal (@rev nat)) in E. rewrite !rev_app_distr in E. discriminate.
      + left. apply (f_equal (@rev nat)) in E. rewrite !rev_app_distr in E. cbn in E. injection E as -> -> _. reflexivity.
      + right. destruct (exists_last (l := b1 :: b2 :: b3 :: b) ltac:(discriminate)) as (l1 & y1 & E1).
        rewrite E1 in E |- *. destruct l1 as [|z1 l1]; [discriminate|]. destruct (exists_last (l := z1 :: l1) ltac:(discriminate)) as (l2 & y2 & E2). rewrite E2 in *.
        destruct l2 as [|z2 l2]; [discriminate|]. destruct (exists_last (l := z2 :: l2) ltac:(discriminate)) as (l3 & y3 & E3). rewrite E3 in *.
        exists l3. apply (f_equal (@rev nat)) in E. rewrite !rev_app_distr in E. cbn in E. rewrite !rev_app_distr in E. cbn in E. injection E as <- <- <- _.
        rewrite <- !app_assoc. reflexivity. }
  destruct B as [E1 _ _|_ _ -> _|_ _ ->|c b' E1 E2 _ _ _|a' x y E1 _ _ _ _ _ _|a' x y E1 _ _ _ _]; try discriminate.
  - apply (G []). reflexivity.
  - apply (G [32]). reflexivity.
  - exfalso. unfold breakChar in E1. cbn in E1. destruct E1 as [E1|[]]. congruence.
Qed.
Lemma wrapped_tail start m f t ls : Forall (fun c => c = 32) start -> start <> [] -> 3 <= m ->
  wrapped [32] false start [] m f t ls -> Tail0 t -> (f = true -> t <> [36; 46]) -> exists K, joinNl ls = K ++ [32; 36; 46].
Proof.
  intros HS NS M W. induction W as [f t pre P|f a gap b pre ls P B W IH]; intros TT NF.
  - cbn [joinNl]. destruct TT as [->|[u ->]].
    + destruct P as [[_ [->|[r [v [E [Lr _]]]]]]|[_ [n [-> Hn]]]].
      * exfalso. apply NF; reflexivity.
      * exfalso. apply (f_equal (@length nat)) in E. rewrite app_length in E. simpl in E. lia.
      * rewrite (Hn eq_refl). simpl. rewrite app_nil_r. destruct (exists_last NS) as [s0 [x E]].
        assert (x = 32). { rewrite E in HS. apply Forall_app in HS. destruct HS as [_ X]. inversion X; assumption. } subst x.
        exists s0. rewrite E, <- app_assoc. reflexivity.
    + exists (pre ++ u). rewrite <- !app_assoc. reflexivity.
  - rewrite app_nil_r. rewrite joinNl_cons by (eapply wrapped_ne; exact W).
    pose proof (tail_break _ _ _ _ TT eq_refl B) as TB. destruct (IH TB) as [K E]; [discriminate|].
    exists ((pre ++ a) ++ 10 :: K). rewrite E, <- !app_assoc. reflexivity.
Qed.

Lemma joinSp_words cs t : (forall c, In c cs -> c <> [] /\ noBlank c) -> cs <> [] -> LineSpec.words (joinSp cs ++ 32 :: t) = cs ++ LineSpec.words t.
Proof.
  induction cs as [|c cs IH]; [congruence|]. intros H _. destruct (H c (or_introl eq_refl)) as [N F]. destruct cs as [|d cs].
  - cbn [joinSp]. rewrite (words_solid c) by (auto; right; eauto). reflexivity.
  - change (joinSp (c :: d :: cs)) with (c ++ 32 :: joinSp (d :: cs)). rewrite <- app_assoc. cbn [app].
    rewrite (words_solid c) by (auto; right; eauto). change (LineSpec.words (32 :: joinSp (d :: cs) ++ 32 :: t)) with (LineSpec.words (joinSp (d :: cs) ++ 32 :: t)). rewrite IH; [reflexivity|..]; [intros; apply H; now right|discriminate].
Qed.

Lemma pll_normal fuel w ind cs : (5 <= w)%Z -> 0 < ind -> cs <> [] -> (forall x c, In x cs -> In c x -> 45 <= c <= 122) -> (forall x, In x cs -> x <> []) ->
  (2 * len (normalText ind (joinSp cs)) + 2 < Z.of_nat fuel)%Z ->
  exists out K, printLongLine fuel w (normalText ind (joinSp cs)) (repeat 32 ind) [32] = Ok out /\ joinNl out = K ++ [32; 36; 46] /\ LineSpec.words K = cs.
Proof.
  intros W I0 NC HC HN FU. set (line := normalText ind (joinSp cs)) in *. set (start := repeat 32 ind).
  assert (HS : Forall (fun c => c = 32) start) by (apply Forall_forall; intros c I; apply repeat_spec in I; exact I).
  assert (CH : forall c, In c line -> c = 32 \/ c = 36 \/ 45 <= c <= 122).
  { intros c. unfold line, normalText. rewrite !in_app_iff. cbn [In]. intros [I|[I|[I|[I|[I|[]]]]]]; try lia.
    - apply repeat_spec in I. lia.
    - apply joinSp_in in I. destruct I as [->|[n [I1 I2]]]; [auto|]. specialize (HC n c I1 I2). lia. }
  assert (IS : isStr line). { unfold isStr. apply Forall_forall. intros c I. specialize (CH c I). lia. }
  assert (IS2 : isStr start) by (unfold isStr; rewrite Forall_forall in *; intros c I; rewrite (HS c I); lia).
  assert (N3 : ~ In 3 line) by (intros I; specialize (CH 3 I); lia).
  assert (NTs : hdIs 126 start = false) by (apply start_notilde, HS).
  assert (N3b : ~ In 3 [32]) by (intros [X|[]]; discriminate).
  destruct (pll_words fuel w line start [32] ltac:(lia) IS N3 N3b HS ltac:(discriminate) eq_refl) as (out & E & EW); auto.
  { intros c _ Bc. unfold breakChar, breaksOf in Bc. cbn [hdIs Nat.eqb In] in Bc. destruct Bc as [Bc|[]]. now symmetry. }
  destruct (pll_ok fuel w line start [32] ltac:(lia) IS IS2) as [[_ [c [I [O1 O2]]]]|[text [ls [lss [T [Ln [F [B _]]]]]]]]; auto.
  { intros X. congruence. }
  { exfalso. unfold breakChar, breaksOf in O1. cbn [hdIs Nat.eqb In] in O1. destruct O1 as [<-|[]]. congruence. }
  change (hdIs 34 [32]) with false in T. cbv iota in T. subst text.
  assert (LS : ls = [line]).
  { destruct Ln as [_ [NE J]].
    assert (N10 : ~ In 10 line) by (intros I; specialize (CH 10 I); lia).
    destruct ls as [|x [|y ls]]; [congruence| |].
    - cbn [joinNl] in J. destruct J as [->|J]; [reflexivity|]. exfalso. apply N10. rewrite J. apply in_or_app. right. left. reflexivity.
    - exfalso. apply N10. change (joinNl (x :: y :: ls)) with (x ++ 10 :: joinNl (y :: ls)) in J.
      destruct J as [->| ->]; rewrite ?in_app_iff; cbn [In]; auto. }
  subst ls. inversion F as [|? r ? lss' Wr F']; subst. inversion F'; subst. cbn [concat] in B. rewrite app_nil_r in B.
  rewrite B in E. apply Ok_inj in E.
  change (hdIs 1 [32]) with false in Wr. unfold postOf in Wr. rewrite NTs in Wr. change (breaksOf [32]) with [32] in Wr.
  pose proof (start_blank w start HS) as HSw.
  assert (SW : startOf w start <> []).
  { unfold startOf. rewrite NTs. unfold start. destruct ind; [lia|]. cbn [repeat]. destruct (Z.to_nat (w - 4)) eqn:Q; [lia|]. discriminate. }
  assert (MR : 3 <= minRun w start [32]).
  { unfold minRun, reserved. rewrite NTs. cbn [hdIs Nat.eqb].
    assert (length (startOf w start) <= Z.to_nat (w - 4)) by (unfold startOf; rewrite firstn_length; lia). lia. }
  assert (TL : Tail0 line). { right. exists (repeat 32 ind ++ joinSp cs). unfold line, normalText. rewrite <- app_assoc. reflexivity. }
  destruct (wrapped_tail _ _ _ _ _ HSw SW MR Wr TL) as [K EK].
  { intros _ X. unfold line, normalText in X. apply (f_equal (@length nat)) in X. rewrite !app_length, repeat_length in X. simpl in X.
    destruct cs as [|c0 cs]; [congruence|]. pose proof (HN c0 (or_introl eq_refl)) as C0. destruct c0 as [|z c0]; [congruence|].
    assert (0 < length (joinSp ((z :: c0) :: cs))) by (destruct cs; cbn; lia). lia. }
  (* the characters printed *)
  assert (UQ : joinNl out = map unquote (K) ++ [32; 36; 46]).
  { rewrite <- E, <- map_join, EK, map_app. reflexivity. }
  exists out, (map unquote K). split; [rewrite B, E; reflexivity|]. split; [exact UQ|].
  rewrite UQ in EW. unfold line, normalText in EW. rewrite (words_blanks (repeat 32 ind)) in EW by (apply Forall_forall; intros c Hc; apply repeat_spec in Hc; subst; reflexivity).
  change [32; 36; 46] with (32 :: [36; 46]) in EW at 2. rewrite joinSp_words in EW; [|intros c Hc; split; [now apply HN|]|exact NC].
  - unfold LineSpec.words in EW at 1. rewrite (wordsFrom_blank (map unquote K)) in EW by reflexivity.
    change (wordsFrom [] [36; 46]) with [[36; 46]] in EW. change (LineSpec.words [36; 46]) with [[36; 46]] in EW. apply app_inj_tail in EW. apply EW.
  - apply Forall_forall. intros d Hd. specialize (HC c d Hc Hd). unfold isBlank. lia.
Qed.

Lemma labelChar_45 c : labelChar c = true -> 45 <= c <= 122.
Proof. intros H. apply labelChar_range in H. lia. Qed.

Section Saved.
  Variable env : penv.
  Hypothesis WD : wf_db (e_db env).
  Hypothesis WE : wf_env env.
  Hypothesis UE : uniq_env env.
  Variable n : nat.
  Variable st : stmtRec.
  Hypothesis HS : stmtAt (e_db env) n st.
  Hypothesis HT : s_type st = S_p.
  Let db := e_db env.

  Lemma chunk_toks q nm : (forall m, In (Stm m) q -> refersTo env n st m) ->
    forall l k, (forall m, In (Stm m) l -> In (Stm m) q) -> exists tss, Forall2 chunkTok (chunks env q nm k l) tss /\ concat tss = toks env q nm k l.
  Proof.
    intros RF. induction l as [|x l IH]; intros k IL; cbn [chunks toks]; [exists []; split; [constructor|reflexivity]|].
    destruct (IH (S k)) as (tss & A & B); [intros; apply IL; now right|].
    exists (toksOf env q nm k x :: tss). split; [|cbn; rewrite B; reflexivity]. constructor; [|exact A].
    destruct x as [|i|m]; cbn [chunk toksOf].
    - apply ck_q.
    - apply ck_word, num_word.
    - pose proof (ref_word env UE n st m (RF m (IL m (or_introl eq_refl)))) as LW. destruct (decl q k); [apply ck_loc; [apply num_word|exact LW]|apply ck_word, LW].
  Qed.

  Lemma stored q : goodProof db n st q ->
    (forall i, In (Loc i) q -> exists m sm, nth_error q i = Some (Stm m) /\ stmtAt db m sm /\ isAssertion sm) ->
    forall w ind, (5 <= w)%Z -> 0 < ind ->
    (cvtR env (map encStep q) = UB /\ ~ (noNumericLabel env /\ (~ In Unk q \/ shortLabels env))) \/
    exists s out sec, cvtR env (map encStep q) = Ok s /\
      printLongLine (2 * length (normalText ind s) + 3) w (normalText ind s) (repeat 32 ind) [32] = Ok out /\
      section out = Ok sec /\
      forall rest fuel max, parseText fuel env n max sec (chDollar :: chDot :: rest) =
        Ok (Some (if existsb (fun x => match x with Unk => true | _ => false end) q then 1 else 0, map encStep q, 0)).
  Proof.
    intros G LA w ind W I0.
    assert (RF : forall m, In (Stm m) q -> refersTo env n st m) by (intros m H; exact (gp_ref _ _ _ _ G m H)).
    assert (LB : forall k i, nth_error q k = Some (Loc i) -> i < k) by (intros k i H; apply (gp_loc _ _ _ _ G k i H)).
    destruct (gp_wf _ _ _ _ G) as [BAL _].
    assert (NE : q <> []) by (intros ->; discriminate).
    assert (SO : forall m, In (Stm m) q -> stmOk env m).
    { intros m H. destruct (RF m H) as (sm & A & K). split.
      - destruct K as [[K _]|[_ K]].
        + pose proof (ue_keys _ UE m sm A K) as X. apply (we_keys _ WE) in X. destruct X as (m' & _ & P0 & E & _). lia.
        + apply (hyp_labelled env WE n st HS HT m K).
      - exists sm. split; [exact A|]. destruct K as [[K _]|[K _]]; [now left|now right]. }
    destruct (cvt_ok env q SO LB LA) as (nm & [C|C] & NL & NI); [left; exact C|right].
    set (cs := chunks env q nm 0 q) in *.
    destruct (chunk_toks q nm RF q 0 (fun m H => H)) as (tss & CK & CT). fold cs in CK.
    assert (CN : cs <> []) by (unfold cs; destruct q; [congruence|discriminate]).
    assert (CC : forall x, In x cs -> x <> [] /\ forall c, In c x -> 45 <= c <= 122).
    { intros x I. clear - CK I. induction CK as [|c ts cs tss K F IH]; [destruct I|]. destruct I as [->|I]; [|auto]. clear IH F.
      destruct K as [c [N F]| |a b [N F] [N' F']].
      - split; [exact N|]. rewrite Forall_forall in F. intros d Hd. apply labelChar_45, F, Hd.
      - split; [discriminate|]. intros c [<-|[]]. unfold chQ. lia.
      - split; [destruct a; discriminate|]. rewrite Forall_forall in F, F'. intros c I. apply in_app_or in I. destruct I as [I|[<-|I]].
        + apply labelChar_45, F, I.
        + unfold chColon. lia.
        + apply labelChar_45, F', I. }
    destruct (pll_normal (2 * length (normalText ind (joinSp cs)) + 3) w ind cs W I0 CN) as (out & K & P & EJ & EW).
    { intros x c I J. apply (CC x I), J. }
    { intros x I. apply (CC x I). }
    { unfold len. lia. }
    exists (joinSp cs), out, (10 :: K ++ [32]). split; [exact C|]. split; [exact P|]. split; [apply section_ok, EJ|].
    intros rest fuel max. set (rs := chDollar :: chDot :: rest).
    assert (SR : stops rs). { right. exists chDot, rest. unfold rs, chDot, dollar. split; [reflexivity|]. lia. }
    assert (W10 : LineSpec.words (10 :: K) = cs) by (rewrite <- EW; apply (words_blanks [10] K); repeat constructor).
    destruct (chunk_tokens rs SR ltac:(discriminate) cs tss CK (10 :: K) W10) as (wb & s & E & BL & SI & TK).
    rewrite CT in TK.
    pose proof (tokenised_len _ _ _ _ _ (fun t s0 (H : proofToken t s0) => ltac:(destruct H as [(c & -> & _)|(H & _)]; [discriminate|exact H])) TK) as LL.
    pose proof (proofTokens_complete s _ rs TK (S (length s)) ltac:(lia)) as PT.
    assert (EF : (10 :: K ++ [32]) ++ rs = wb ++ s).
    { rewrite <- E. cbn [app]. f_equal. rewrite <- app_assoc. reflexivity. }
    unfold parseText. rewrite EF. rewrite (whiteSpace_blanks wb s BL SI). cbn [rbind].
    destruct (wb ++ s) eqn:EWS; [destruct rs; discriminate|]. rewrite <- EWS in *.
    assert (OKT : Forall okTok (toks env q nm 0 q)) by (apply (toks_ok env UE n st q RF nm q 0 (fun m H => H))).
    assert (OP : isTok chOpen s = false).
    { inversion TK as [e He E1 E2|t w' s' ts' e Ht HB HI HT' E1 E2]; subst; [reflexivity|].
      rewrite <- E2 in OKT. inversion OKT as [|? ? [[N F]|[X|X]] _]; subst; try reflexivity.
      destruct t as [|c t]; [congruence|]. inversion F; subst. unfold isTok, firstChar. cbn. apply Nat.eqb_neq. intros ->. discriminate. }
    rewrite OP, PT. cbn [rbind].
    pose proof (toks_last env UE n st q RF nm q NE (fun m H => H) 0) as TL.
    lazymatch goal with |- context [isTok chColon ?L] => replace (isTok chColon L) with false by (symmetry; exact TL) end. cbv iota.
    rewrite (explicit_no _ OKT).
    rewrite (parse_ok env WE UE n st HS HT q RF LB LA nm NL NI BAL). reflexivity.
  Qed.
End Saved.

Definition isUnk (x : pstep) : bool := match x with Unk => true | _ => false end.
Lemma unk_flag q p : (In Unk q <-> In Unk p) ->
  let k := if existsb isUnk q then 1 else 0 in k = 1 /\ In Unk p \/ k = 0 /\ ~ In Unk p.
Proof.
  intros U. destruct (existsb isUnk q) eqn:E; cbv zeta.
  - left. split; [reflexivity|]. apply U. apply existsb_exists in E. destruct E as (x & I & E). destruct x; try discriminate. exact I.
  - right. split; [reflexivity|]. intros H. apply U in H. assert (X : existsb isUnk q = true) by (apply existsb_exists; exists Unk; auto). congruence.
Qed.

Lemma saved_normal packed env n st p w back : (5 <= w)%Z ->
  wf_db (e_db env) -> wf_env env -> uniq_env env -> stmtAt (e_db env) n st -> s_type st = S_p ->
  goodProof (e_db env) n st p ->
  exists bound,
  (~ (noNumericLabel env /\ (~ In Unk p \/ shortLabels env)) /\
   forall fuel, bound < fuel -> saveNormal packed fuel env w back (map encStep p) = UB) \/
  exists q sec t,
    (forall fuel, bound < fuel -> saveNormal packed fuel env w back (map encStep p) = Ok sec) /\
    denotes (e_db env) (map encStep p) t /\ denotes (e_db env) (map encStep q) t /\
    (packed = false -> map encStep q = rpn t) /\
    (packed = true -> squishProof (e_db env) (rpn t) = Ok (map encStep q)) /\
    goodProof (e_db env) n st q /\ (validProof (e_db env) st q <-> validProof (e_db env) st p) /\
    forall rest fuel max, exists k,
      parseText fuel env n max sec (chDollar :: chDot :: rest) = Ok (Some (k, map encStep q, 0)) /\
      (k = 1 /\ In Unk p \/ k = 0 /\ ~ In Unk p).
Proof.
  intros W WD WE UE HS HT G.
  destruct (repack_good (e_db env) n st p G) as [t [D [u [q [A1 [A2 [A3 [A4 [A5 [A6 [A7 [A8 [A9 [A10 A11]]]]]]]]]]]]]].
  destruct (denotes_pure (e_db env) _ t D) as [WT N]. assert (DU := rpn_denotes (e_db env) t WT N).
  exists (2 * length (map encStep u)).
  set (r := if packed then q else u).
  assert (GR : goodProof (e_db env) n st r) by (unfold r; destruct packed; assumption).
  assert (LR : forall i, In (Loc i) r -> exists m sm, nth_error r i = Some (Stm m) /\ stmtAt (e_db env) m sm /\ isAssertion sm).
  { unfold r. destruct packed; [exact A8|]. intros i I. exfalso. exact (A7 i I). }
  assert (UR : In Unk r <-> In Unk p) by (unfold r; destruct packed; assumption).
  assert (DR : denotes (e_db env) (map encStep r) t) by (unfold r; destruct packed; [exact A4|rewrite <- A3; exact DU]).
  assert (SV : forall fuel, 2 * length (map encStep u) < fuel -> saveNormal packed fuel env w back (map encStep p) =
     (do s <- cvtR env (map encStep r); let line := normalText (2 + sourceIndentation back) s in
      do out <- printLongLine (2 * length line + 3) w line (repeat 32 (2 + sourceIndentation back)) [32]; section out)).
  { intros fuel F. unfold saveNormal. rewrite (A1 fuel F). cbn [rbind]. unfold r. destruct packed; [rewrite A2|]; reflexivity. }
  destruct (stored env WE UE n st HS HT r GR LR w (2 + sourceIndentation back) W ltac:(lia)) as [[C NC]|(s & out & sec & C & P & S & R)].
  - left. split; [intros [H1 H2]; apply NC; split; [exact H1|]; destruct H2 as [H2|H2]; [left; intros H; apply H2, UR, H|right; exact H2]|].
    intros fuel F. rewrite (SV fuel F), C. reflexivity.
  - right. exists r, sec, t. split; [intros fuel F; rewrite (SV fuel F), C; cbn [rbind]; cbv zeta; rewrite P; cbn [rbind]; exact S|].
    split; [exact D|]. split; [exact DR|]. split; [intros ->; unfold r; symmetry; exact A3|].
    split; [intros ->; unfold r; rewrite A3; exact A2|]. split; [exact GR|].
    split; [eapply same_tree_same_validity; eassumption|].
    intros rest fuel max. eexists. split; [apply R|]. apply (unk_flag r p UR).
Qed.
