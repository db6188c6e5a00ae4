(* ReadWords.v -- the symbols the reader finds in a section are the words of that section. *)
From Verif Require Import Base TokModel LabModel SrcModel StmModel TokSpec SrcSpec StmSpec TokProofs SrcProofs ReadModel ReadOut ReadSpec ReadSec.
Open Scope nat_scope.

(* text at which a section ends: a keyword, or the end of the file *)
Definition stops (l : list nat) : Prop :=
  l = [] \/ exists c r, l = dollar :: c :: r /\ c <> dollar /\ ~ (48 <= c /\ c <= 57) /\ c <> 40 /\ c <> 33.
Lemma stops_ink l : stops l -> startsInk l.
Proof.
  intros [->|(c & r & -> & H1 & H2 & H3 & H4)]; [now left|]. right. exists dollar, (c :: r).
  split; [reflexivity|]. split; [exact graphic_dollar|]. intros _. right. eauto.
Qed.
Lemma stops_end l : stops l -> tokenEnds l.
Proof. intros [->|(c & r & -> & H1 & H2 & H3 & H4)]; cbn; [exact I|]. right. auto. Qed.

Lemma words_dollar xs : ~ words [dollar] xs.
Proof.
  intros H. remember [dollar] as l eqn:E1. destruct H as [|c r xs G W|body r xs C W|t r xs N T TE W]; try discriminate.
  - injection E1 as -> _. apply G. exact graphic_dollar.
  - destruct t as [|c [|d t]]; [congruence| |discriminate E1]. cbn in E1. injection E1 as -> _.
    inversion T; subst. congruence.
Qed.
Lemma ends_app r rest : tokenEnds r -> stops rest -> (exists xs, words r xs) -> tokenEnds (r ++ rest).
Proof.
  intros TE SR (xs & W). destruct r as [|c r]; [now apply stops_end|]. cbn in *. destruct TE as [TE|[-> TE]]; [now left|].
  destruct r as [|d r]; [exfalso; eapply words_dollar; eauto|]. right. auto.
Qed.

Definition splits (l : list nat) (xs : list name) (rest : list nat) : Prop :=
  exists w s, l ++ rest = w ++ s /\ blanks w s /\ startsInk s /\ tokenised mathToken tokenEnds s xs rest.
Lemma token_ink t r : t <> [] -> tokenText t -> startsInk (t ++ r).
Proof.
  intros N T. right. destruct T as [|c t G D T|t T|d t D T]; [congruence| | |]; cbn [app].
  - exists c, (t ++ r). split; [reflexivity|]. split; [exact G|congruence].
  - exists dollar, (dollar :: t ++ r). split; [reflexivity|]. split; [exact graphic_dollar|]. intros _. right. exists dollar, (t ++ r). split; [reflexivity|].
    unfold dollar. lia.
  - exists dollar, (d :: t ++ r). split; [reflexivity|]. split; [exact graphic_dollar|]. intros _. right. exists d, (t ++ r). split; [reflexivity|]. lia.
Qed.
Lemma words_split l xs rest : words l xs -> stops rest -> splits l xs rest.
Proof.
  intros W SR. induction W as [|c r xs G W IH|body r xs C W IH|t r xs N T TE W IH].
  - exists [], rest. split; [reflexivity|]. split; [constructor|]. split; [now apply stops_ink|]. constructor. now apply stops_end.
  - destruct IH as (w & s & E & B & I & K). exists (c :: w), s. split; [cbn; now rewrite E|].
    split; [|auto]. change (c :: w) with ([c] ++ w). constructor; [|exact B]. now constructor.
  - destruct IH as (w & s & E & B & I & K). exists ((dollar :: 40 :: body ++ [dollar; 41]) ++ w), s.
    split; [cbn; rewrite <- !app_assoc; cbn; now rewrite E|].
    split; [|auto]. constructor; [|exact B]. now constructor.
  - destruct IH as (w & s & E & B & I & K). exists [], (t ++ w ++ s). split; [cbn; now rewrite <- app_assoc, E|].
    split; [constructor|]. split; [now apply token_ink|]. constructor; auto. split; [exact N|]. split; [exact T|].
    rewrite <- E. apply ends_app; eauto.
Qed.
Lemma tokenised_len (tok : list nat -> list nat -> Prop) (stop : list nat -> Prop) l xs e : (forall t s, tok t s -> t <> []) -> tokenised tok stop l xs e -> length xs <= length l.
Proof.
  intros N. induction 1 as [e He|t w s ts e Ht HB HI HT IH]; cbn; [lia|]. apply N in Ht. rewrite !app_length.
  destruct t; [congruence|]. cbn. lia.
Qed.
Lemma words_scan l xs rest n : words l xs -> stops rest -> length (l ++ rest) < n -> mathTokens n (l ++ rest) = Ok (xs, rest).
Proof.
  intros W SR L. destruct (words_split l xs rest W SR) as (w & s & E & B & I & K).
  assert (LS : length xs <= length s).
  { eapply tokenised_len; [|exact K]. intros t s0 (H & _). exact H. }
  assert (LL : length s <= length (l ++ rest)) by (rewrite E, app_length; lia).
  pose proof (mathTokens_complete s xs rest K I n ltac:(lia)) as H. rewrite E. destruct n as [|n]; [lia|].
  cbn [mathTokens] in *. rewrite (whiteSpace_blanks w s B I). rewrite (whiteSpace_ink s I) in H. exact H.
Qed.
Lemma words_fun l xs ys : words l xs -> words l ys -> xs = ys.
Proof.
  intros A B. assert (S0 : stops []) by now left.
  pose proof (words_scan l xs [] (S (length (l ++ []))) A S0 ltac:(lia)) as H1.
  pose proof (words_scan l ys [] (S (length (l ++ []))) B S0 ltac:(lia)) as H2.
  rewrite H1 in H2. congruence.
Qed.

(* a section without keywords is made of words *)
Lemma quiet_token l : quiet l -> exists t r, l = t ++ r /\ tokenText t /\ tokenEnds r /\ quiet r /\
  (t = [] -> l = [] \/ (exists c l', l = c :: l' /\ ~ graphic c /\ quiet l') \/
     exists body l', l = dollar :: 40 :: body ++ dollar :: 41 :: l' /\ commentText body /\ quiet l').
Proof.
  induction 1 as [|c r N Q IH|r Q IH|body r C Q IH].
  - exists [], []. split; [reflexivity|]. split; [constructor|]. split; [exact I|]. split; [constructor|]. now left.
  - destruct (isgraph c) eqn:G.
    + apply isgraph_spec in G. destruct IH as (t & s & -> & T & TE & QS & _). exists (c :: t), s. split; [reflexivity|].
      split; [now constructor|]. split; [exact TE|]. split; [exact QS|]. discriminate.
    + apply isgraph_false in G. exists [], (c :: r). split; [reflexivity|]. split; [constructor|]. split; [now left|].
      split; [now apply q_char|]. intros _. right. left. exists c, r. auto.
  - destruct IH as (t & s & -> & T & TE & QS & _). exists (dollar :: dollar :: t), s. split; [reflexivity|].
    split; [now apply tt_dollar|]. split; [exact TE|]. split; [exact QS|]. discriminate.
  - exists [], (dollar :: 40 :: body ++ dollar :: 41 :: r). split; [reflexivity|]. split; [constructor|].
    split; [right; split; [reflexivity|unfold dollar; lia]|]. split; [now apply q_comment|]. intros _. right. right. eauto.
Qed.
Lemma quiet_words : forall n l, length l <= n -> quiet l -> exists xs, words l xs.
Proof.
  induction n as [|n IH]; intros l L Q.
  - destruct l; [exists []; constructor|cbn in L; lia].
  - destruct (quiet_token l Q) as (t & r & E & T & TE & QR & Z). destruct t as [|c t].
    + destruct (Z eq_refl) as [->|[(c & l' & -> & G & Q')|(body & l' & -> & C & Q')]].
      * exists []. constructor.
      * destruct (IH l') as (xs & W); [cbn in L; lia|exact Q'|]. exists xs. now constructor.
      * destruct (IH l') as (xs & W); [cbn in L; rewrite app_length in L; cbn in L; lia|exact Q'|]. exists xs. now constructor.
    + destruct (IH r) as (xs & W); [rewrite E in L; cbn in L; rewrite app_length in L; lia|exact QR|].
      exists ((c :: t) :: xs). rewrite E. apply w_word; auto. discriminate.
Qed.

Lemma skipn_add {A} (l : list A) a b : skipn b (skipn a l) = skipn (a + b) l.
Proof. revert a. induction l as [|x l IH]; intros [|a]; cbn [skipn plus]; try reflexivity; [now destruct b|]. apply IH. Qed.
Section Stmts.
  Variable src : list nat.
  Lemma foll_stops sec c : foll src sec c -> c = chDot \/ c = chEq -> stops (skipn (fst sec + snd sec) src).
  Proof.
    intros F H. destruct (foll_skip _ _ _ F) as (r & ->). right. exists c, r. split; [reflexivity|].
    destruct H as [->| ->]; unfold chDot, chEq, dollar; lia.
  Qed.
  Lemma sec_split sec : secOK src sec -> skipn (fst sec) src = secText src sec ++ skipn (fst sec + snd sec) src.
  Proof.
    intros _. unfold secText. rewrite <- (firstn_skipn (snd sec) (skipn (fst sec) src)) at 1. f_equal.
    apply skipn_add.
  Qed.
  (* what mathOfStmt returns *)
  Lemma math_words k i : folK src k -> okK src k -> quiet (osecText src (k_math k)) -> mathOfStmt src k = Ok i ->
    readsAs (toItem src k) i.
  Proof.
    intros (_ & FK) (_ & OM & _) Q H. unfold mathOfStmt in H. unfold readsAs, toItem. cbn [it_kind it_math].
    assert (W : forall sec c, k_math k = Some sec -> foll src sec c -> c = chDot \/ c = chEq -> forall r,
              mathTokens (S (length (skipn (fst sec) src))) (skipn (fst sec) src) = Ok r ->
              words (osecText src (k_math k)) (fst r)).
    { intros sec c E F HC r HM. rewrite E in *. cbn [osecText osecOK] in *.
      destruct (quiet_words _ _ (le_n _) Q) as (xs & W). rewrite (sec_split sec OM) in HM.
      rewrite (words_scan _ xs _ _ W (foll_stops _ _ F HC)) in HM by lia. apply Ok_inj in HM. subst r. exact W. }
    destruct (k_kind k) eqn:EK;
      try (destruct FK as [FM _]; apply Ok_inj in H; subst i; split; [reflexivity|]; rewrite FM; constructor);
      try (destruct FK as (FP & m & FM & FF); rewrite FM in H; rb H; apply Ok_inj in H; subst i; split; [reflexivity|];
           eapply W; eauto).
    apply FF.
  Qed.
End Stmts.
