(* LetProps.v -- C70: the text typed for LET is understood or refused. *)
From Verif Require Import Base VstrModel LabModel TokModel TokSpec TokProofs StmModel StmSpec StmTab MatchModel BigSpec LetModel LetSpec LetProofs LetMain.
From Coq Require Import Permutation Sorted.
Open Scope nat_scope.

(* the tables are those READ makes of the symbols toks *)
Definition tablesOk (E : lenv) (toks : list mtok) (key : list nat) : Prop :=
  le_T E = mkTenv toks key /\ mqsorted (map mt_name toks) key /\
  (forall k, In k toks -> tokenText (mt_name k)) /\ (forall t, (0 <= le_scope E t)%Z).
Definition answer (ol : list (option nat)) : option (list nat) :=
  if Nat.eqb (errors ol) 0 then Some (understood ol) else None.
Notation readingAt E toks text ol e :=
  (reading toks (le_end E) (le_scope E) (le_at E) (le_cur E) (chNL :: text) ol e).

Lemma letText_ok E toks key nd text : tablesOk E toks key ->
  match letText E nd text with
  | Ok r => exists ol e, readingAt E toks text ol e /\ r = answer ol
  | Bug k => k = 1716 /\ openLine text
  | UB => hugeIn text \/ brokenComment text
  | Fuel => False
  end.
Proof.
  intros (H1 & H2 & H3 & H4). unfold letText.
  destruct (parseMath_ok toks key H2 H3 E H1 H4 nd text) as [F|(st & ol & e & R1 & R2 & R3)].
  - destruct (parseMath E nd text); cbn in *; tauto.
  - rewrite R1. cbn [rbind]. exists ol, e. split; [exact R2|]. destruct R3 as (G1 & G2 & G3 & _). cbn in *.
    specialize (G3 eq_refl). unfold answer. rewrite G3, G2, G1. destruct (errors ol); reflexivity.
Qed.

(* C70, main statement.  The text ends in an answer: it is divided at blanks (comments
   too) into tokens; each token into symbols, every time the longest name of a
   declared symbol, otherwise "$<number>"; a name denotes a symbol in force at the
   statement, the innermost one; anything else is an error.  If there is an error LET
   is refused, otherwise its argument is exactly these symbols.  The text is used up
   to its end or up to a '$' that starts no token.  The exceptions: "$!" without the end
   of the line (internal error), a comment ending in '$' or a number of 2^53 or more. *)
Theorem C70_reads E toks key nd text : tablesOk E toks key ->
  match letText E nd text with
  | Ok r => exists ol e, readingAt E toks text ol e /\ r = answer ol /\ (e = [] \/ exists x, e = dollar :: x)
  | Bug k => k = 1716 /\ openLine text
  | UB => hugeIn text \/ brokenComment text
  | Fuel => False
  end.
Proof.
  intros H. pose proof (letText_ok E toks key nd text H) as L. destruct (letText E nd text); try exact L.
  destruct L as (ol & e & L1 & L2). exists ol, e. split; [exact L1|]. split; [exact L2|]. now destruct (reading_rest _ _ _ _ _ _ _ _ L1).
Qed.
Print Assumptions C70_reads.

Lemma converse E toks key nd text ol e : tablesOk E toks key ->
  (forall x t u, inForce toks (le_end E) (le_at E) x t -> inForce toks (le_end E) (le_at E) x u -> t = u) ->
  readingAt E toks text ol e -> ~ hugeIn text -> ~ brokenComment text -> ~ openLine text ->
  letText E nd text = Ok (answer ol).
Proof.
  intros H HU R N1 N2 N3. pose proof (letText_ok E toks key nd text H) as L. destruct (letText E nd text); try tauto.
  destruct L as (ol' & e' & L1 & ->). now destruct (reading_det _ _ _ _ _ HU _ _ _ _ _ L1 R) as [-> _].
Qed.
(* There is only one such reading if no two symbols in force have the same name, and
   LET then finds it. *)
Theorem C70_complete E toks key nd text ol e : tablesOk E toks key ->
  (forall x t u, inForce toks (le_end E) (le_at E) x t -> inForce toks (le_end E) (le_at E) x u -> t = u) ->
  readingAt E toks text ol e -> ~ hugeIn text -> ~ brokenComment text -> ~ openLine text ->
  letText E nd text = Ok (answer ol) /\ forall ol' e', readingAt E toks text ol' e' -> ol' = ol /\ e' = e.
Proof.
  intros H HU R N1 N2 N3. split; [now apply (converse E toks key nd text ol e)|].
  intros ol' e' R'. exact (reading_det _ _ _ _ _ HU _ _ _ _ _ R' R).
Qed.
Print Assumptions C70_complete.

(* However many errors, one message is printed; the dummies in the answer have been
   declared: no number is beyond the table of symbols. *)
Theorem C70_messages E toks key nd text st : tablesOk E toks key -> parseMath E nd text = Ok st ->
  l_printed st = Nat.min 1 (l_err st) /\
  (le_pip E <= nd -> forall t, In t (l_toks st) -> t <= length toks + l_dummy st).
Proof.
  intros (H1 & H2 & H3 & H4) P.
  destruct (parseMath_ok toks key H2 H3 E H1 H4 nd text) as [F|(st' & ol & e & R1 & R2 & R3)]; [rewrite P in F; contradiction|].
  assert (st' = st) as -> by congruence. destruct R3 as (G1 & G2 & G3 & G4 & G5). cbn in *. split; [now apply G3|].
  intros HP t Ht. apply (G5 HP). rewrite G1 in Ht. clear -Ht. induction ol as [|[u|] r IH]; cbn in *; [destruct Ht| |right; now apply IH].
  destruct Ht as [->|Ht]; [now left|right; now apply IH].
Qed.
Print Assumptions C70_messages.

(* A text without '$' always gets an answer, and if it is accepted the names of its
   symbols, written together, are the text without its blanks: nothing is lost. *)
Theorem C70_nothing_lost E toks key nd text : tablesOk E toks key -> ~ In dollar text ->
  exists r, letText E nd text = Ok r /\
  forall ts, r = Some ts -> concat (map (tkName toks) ts) = filter isgraph text.
Proof.
  intros H N. pose proof (letText_ok E toks key nd text H) as L. destruct (plain_not text N) as (N1 & N2 & N3).
  destruct (letText E nd text) as [r|k| |]; try tauto. exists r. split; [reflexivity|].
  destruct L as (ol & e & L1 & ->). intros ts HT. unfold answer in HT. destruct (Nat.eqb_spec (errors ol) 0) as [Z|]; [|discriminate].
  injection HT as <-. destruct (reading_plain _ _ _ _ _ _ _ _ L1 N) as [_ X]. now apply X.
Qed.
Print Assumptions C70_nothing_lost.

(* What the program prints can be typed: the names of symbols in force, and "$<number>"
   for dummies, with blanks between them, are read as these symbols. *)
Theorem C70_printed_is_read E toks key nd ws ts :
  le_T E = mkTenv toks key -> mqsorted (map mt_name toks) key -> (forall t, (0 <= le_scope E t)%Z) ->
  (forall k, In k toks -> mt_name k <> [] /\ Forall graphic (mt_name k) /\ ~ In dollar (mt_name k)) ->
  (forall x t u, inForce toks (le_end E) (le_at E) x t -> inForce toks (le_end E) (le_at E) x u -> t = u) ->
  Forall2 (spells toks (le_end E) (le_at E)) ws ts ->
  letText E nd (spaced ws) = Ok (Some ts).
Proof.
  intros H1 H2 H3 H4 HU H.
  assert (TO : tablesOk E toks key).
  { split; [exact H1|]. split; [exact H2|]. split; [|exact H3]. intros k HK. destruct (H4 k HK) as (_ & A & B). now apply plain_tokenText. }
  destruct (spaced_fine toks (le_end E) (le_at E) H4 ws ts H) as (N1 & N2 & N3).
  rewrite (converse E toks key nd _ _ _ TO HU (spaced_reading toks (le_end E) (le_scope E) (le_at E) (le_cur E) H4 HU ws ts H) N1 N2 N3).
  unfold answer. assert (X : errors (map Some ts) = 0 /\ understood (map Some ts) = ts).
  { clear. induction ts as [|t r [A B]]; cbn; [auto|]. now rewrite B. }
  destruct X as [-> ->]. reflexivity.
Qed.
Print Assumptions C70_printed_is_read.

(* ---- an example: |- wff ( ) -> ->. ph ph; the second ph in force at statement 9 ---- *)
Definition exToks : list mtok :=
  [mkTok [124;45] false 1; mkTok [40] false 1; mkTok [41] false 1; mkTok [45;62] false 1; mkTok [45;62;46] false 1;
   mkTok [112;104] true 3; mkTok [112;104] true 6].
Definition exKey : list nat := [1; 2; 3; 4; 5; 6; 0].
Definition exE : lenv := mkLE (mkTenv exToks exKey) (fun t => if t =? 5 then 5 else 20) (fun t => if t <? 5 then 0%Z else 1%Z) 9 1%Z 2.
Lemma exOk : tablesOk exE exToks exKey.
Proof.
  split; [reflexivity|]. split.
  - split.
    + change (seq 0 (length (map mt_name exToks))) with [0;1;2;3;4;5;6]. unfold exKey.
      change [1;2;3;4;5;6;0] with ([1;2;3;4;5;6] ++ [0]). symmetry. apply Permutation_cons_append.
    + repeat constructor; intros a b HA HB; injection HA as <-; injection HB as <-; discriminate.
  - split.
    + intros k HK. cbn in HK. intuition; subst k; cbn [mt_name]; repeat (apply tt_nil || (apply tt_char; [unfold graphic; lia|discriminate|])).
    + intros t. unfold exE, le_scope. destruct (t <? 5); lia.
Qed.
Lemma exUniq x t u : inForce exToks (le_end exE) (le_at exE) x t -> inForce exToks (le_end exE) (le_at exE) x u -> t = u.
Proof.
  intros (k & K1 & K2 & K3) (k' & K1' & K2' & K3'). cbn [exE le_end le_at] in *.
  do 7 (destruct t as [|t]; [do 7 (destruct u as [|u]; [cbn in *; injection K1 as <-; injection K1' as <-; cbn in *; first [reflexivity|exfalso; congruence|exfalso; lia]|]); destruct u; discriminate|]).
  destruct t; discriminate.
Qed.
(* "|-($1->ph )": no blanks needed; the longest name and the symbol in force *)
Example C70_ex_read : letText exE 2 [124;45;40;36;49;45;62;112;104;32;41] = Ok (Some [0; 1; 8; 3; 6; 2]).
Proof. vm_compute. reflexivity. Qed.
(* "->.": one symbol; "ps" refused *)
Example C70_ex_longest : letText exE 2 [45;62;46] = Ok (Some [4]).
Proof. vm_compute. reflexivity. Qed.
Example C70_ex_refused : letText exE 2 [112;115] = Ok None.
Proof. vm_compute. reflexivity. Qed.
(* a new dummy "$7" is declared *)
Example C70_ex_new : parseMath exE 2 [36;55] = Ok (mkL [14] 0 0 7).
Proof. vm_compute. reflexivity. Qed.
Example C70_ex_printed : letText exE 2 (spaced [[124;45]; [40]; [36;49]; [45;62]; [112;104]; [41]]) = Ok (Some [0; 1; 8; 3; 6; 2]).
Proof.
  apply (C70_printed_is_read exE exToks exKey).
  - reflexivity.
  - apply exOk.
  - apply exOk.
  - intros k HK. cbn in HK. intuition; subst k; cbn in *; try discriminate; try (unfold dollar in *; intuition discriminate);
      repeat constructor; unfold graphic; lia.
  - exact exUniq.
  - repeat (apply Forall2_cons || apply Forall2_nil).
    1,2,4,5,6: left; eexists; split; [reflexivity|]; split; [reflexivity|]; cbn; lia.
    right. exists [49]. repeat split; try discriminate. repeat constructor.
Qed.

(* ---- false: everything typed is used or refused ---- *)
(* "ph $. xyz": the rest is dropped without a message; LET STEP goes on with "ph" *)
Theorem C70_rest_ignored_refuted :
  ~ (forall E toks key nd text ts, tablesOk E toks key -> letText E nd text = Ok (Some ts) ->
     exists ol, readingAt E toks text ol []).
Proof.
  intros H. destruct (H exE exToks exKey 2 [112;104;32;36;46;32;120;121;122] [6] exOk ltac:(vm_compute; reflexivity)) as (ol & R).
  assert (R' : readingAt exE exToks [112;104;32;36;46;32;120;121;122] [Some 6] [36;46;32;120;121;122]).
  { exists [10], [112;104;32;36;46;32;120;121;122], [[112;104]], [[Some 6]].
    assert (SI : startsInk [36;46;32;120;121;122]).
    { right. exists 36, [46;32;120;121;122]. split; [reflexivity|]. split; [apply graphic_dollar|]. intros _. right.
      exists 46, [32;120;121;122]. split; [reflexivity|]. lia. }
    split; [reflexivity|]. split; [change [10] with ([10] ++ []); constructor; [constructor; unfold graphic; lia|constructor]|].
    split. { right. exists 112, [104;32;36;46;32;120;121;122]. split; [reflexivity|]. split; [unfold graphic; lia|discriminate]. }
    split.
    { change [112;104;32;36;46;32;120;121;122] with ([112;104] ++ [32] ++ [36;46;32;120;121;122]). apply tk_tok; [| |exact SI|].
      - split; [discriminate|]. split; [repeat (apply tt_nil || (apply tt_char; [unfold graphic; lia|discriminate|]))|]. left. unfold graphic. lia.
      - change [32] with ([32] ++ []). constructor; [constructor; unfold graphic; lia|constructor].
      - apply tk_end. right. split; [reflexivity|]. unfold dollar. lia. }
    split; [exact SI|]. split; [|reflexivity]. constructor; [|constructor]. change [112;104] with ([112;104] ++ []) at 1.
    assert (IF : inForce exToks (le_end exE) (le_at exE) [112;104] 6) by (eexists; split; [reflexivity|]; split; [reflexivity|]; cbn; lia).
    apply sp_sym; [| |constructor].
    - split; [discriminate|]. split; [exists (mkTok [112;104] true 6); split; [cbn; tauto|reflexivity]|]. split; [eauto|].
      intros y r EQ _. apply (f_equal (@length nat)) in EQ. rewrite !app_length in EQ. cbn in *. lia.
    - split; [exact IF|]. now left. }
  destruct (reading_det _ _ _ _ _ exUniq _ _ _ _ _ R R') as [_ X]. discriminate.
Qed.
Print Assumptions C70_rest_ignored_refuted.
(* ---- false: only declared symbols and dummies $1, $2, ... are accepted ---- *)
(* "$0" is taken as the boundary token that separates expressions *)
Theorem C70_boundary_refuted :
  ~ (forall E toks key nd text ts, tablesOk E toks key -> letText E nd text = Ok (Some ts) -> ~ In (length toks) ts).
Proof.
  intros H. apply (H exE exToks exKey 2 [36;48] [7] exOk ltac:(vm_compute; reflexivity)). now left.
Qed.
Print Assumptions C70_boundary_refuted.
(* the exceptions happen *)
Example C70_ex_bug : letText exE 2 [36;33] = Bug 1716.
Proof. vm_compute. reflexivity. Qed.
Example C70_ex_ub : letText exE 2 [36;40;36] = UB.
Proof. vm_compute. reflexivity. Qed.
