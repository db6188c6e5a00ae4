(* LetMain.v -- a text has one reading; plain texts; the names of symbols are read back. *)
From Verif Require Import Base VstrModel LabModel TokModel TokSpec TokProofs StmModel StmSpec StmTab MatchModel BigSpec LetModel LetSpec LetProofs.
Open Scope nat_scope.

Lemma app_prefix_eq {A} (x r x' r' : list A) : x ++ r = x' ++ r' -> length x = length x' -> x = x' /\ r = r'.
Proof.
  revert x'. induction x as [|c x IH]; intros [|c' x'] H L; try discriminate; [auto|].
  injection H as <- H. destruct (IH x' H ltac:(now injection L)) as [-> ->]. auto.
Qed.
Lemma digits_eq ds r ds' r' : ds ++ r = ds' ++ r' -> digits ds -> digits ds' -> notDigit r -> notDigit r' -> ds = ds' /\ r = r'.
Proof.
  revert ds'. induction ds as [|c ds IH]; intros [|c' ds'] H D D' N N'; cbn [app] in H.
  - auto.
  - subst r. inversion D'; subst. now elim N.
  - subst r'. inversion D; subst. now elim N'.
  - injection H as <- H. inversion D; inversion D'; subst. destruct (IH ds' H) as [-> ->]; auto.
Qed.
Lemma splits_nil_inv toks en sc n cur l : splits toks en sc n cur [] l -> l = [].
Proof.
  intros H. inversion H as [| x r ? ? L _ _ | x r ? L _ _ | ds r ? _ _ _ _ _ |w0 W _ _]; subst; auto;
    try congruence; match goal with H : x ++ r = [] |- _ => apply app_eq_nil in H; destruct H as [-> ->]; now destruct L end.
Qed.

Section Main.
  Variable toks : list mtok.
  Variable en : nat -> nat.
  Variable sc : nat -> Z.
  Variable n : nat.
  Variable cur : Z.
  Notation declared := (declared toks).
  Notation inForce := (inForce toks en n).
  Notation longest := (longest toks).
  Notation noName := (noName toks).
  Notation splits := (splits toks en sc n cur).
  Notation reading := (reading toks en sc n cur).

  Lemma longest_eq x r x' r' : x ++ r = x' ++ r' -> longest x (x ++ r) -> longest x' (x' ++ r') -> x = x' /\ r = r'.
  Proof.
    intros H (A1 & A2 & _ & A3) (B1 & B2 & _ & B3). apply app_prefix_eq; [exact H|].
    pose proof (A3 x' r' H B2). pose proof (B3 x r (eq_sym H) A2). lia.
  Qed.
  Lemma longest_not x r w : x ++ r = w -> longest x (x ++ r) -> noName w -> False.
  Proof. intros H (A1 & A2 & _) N. apply A1. apply (N x r); auto. Qed.
  Lemma dummy_bad ds r : ds <> [] -> digits ds -> (forall d s, dollar :: ds ++ r = dollar :: d :: s -> ~ isDigit d) -> False.
  Proof. intros N D H. destruct ds as [|d ds]; [congruence|]. inversion D; subst. apply (H d (ds ++ r)); auto. Qed.

  Hypothesis HU : forall x t u, inForce x t -> inForce x u -> t = u.
  Lemma splits_det w ol : splits w ol -> forall ol', splits w ol' -> ol = ol'.
  Proof.
    induction 1 as [|x r t l L M S IH|x r l L M S IH|ds r l NN ND D NR S IH|w NE NN B]; intros ol' H'.
    - symmetry. now apply splits_nil_inv in H'.
    - inversion H' as [EX|x' r' t' l' L' M' S' EX|x' r' l' L' M' S' EX|ds r' l' NN ND D NR S' EX|w' NE NN B EX]; subst.
      + symmetry in EX. apply app_eq_nil in EX. destruct EX as [-> _]. now destruct L.
      + destruct (longest_eq _ _ _ _ EX L' L) as [-> ->]. f_equal; [|now apply IH]. f_equal.
        destruct M as [M _], M' as [M' _]. exact (HU _ _ _ M M').
      + destruct (longest_eq _ _ _ _ EX L' L) as [-> ->]. destruct M as [M _]. now elim (M' t).
      + exfalso. exact (longest_not _ _ _ (eq_sym EX) L NN).
      + exfalso. exact (longest_not _ _ _ eq_refl L NN).
    - inversion H' as [EX|x' r' t' l' L' M' S' EX|x' r' l' L' M' S' EX|ds r' l' NN ND D NR S' EX|w' NE NN B EX]; subst.
      + symmetry in EX. apply app_eq_nil in EX. destruct EX as [-> _]. now destruct L.
      + destruct (longest_eq _ _ _ _ EX L' L) as [-> ->]. destruct M' as [M' _]. now elim (M t').
      + destruct (longest_eq _ _ _ _ EX L' L) as [-> ->]. f_equal. now apply IH.
      + exfalso. exact (longest_not _ _ _ (eq_sym EX) L NN).
      + exfalso. exact (longest_not _ _ _ eq_refl L NN).
    - inversion H' as [EX|x' r' t' l' L' M' S' EX|x' r' l' L' M' S' EX|ds' r' l' NN' ND' D' NR' S' EX|w' NE NN' B EX]; subst.
      + exfalso. exact (longest_not _ _ _ EX L' NN).
      + exfalso. exact (longest_not _ _ _ EX L' NN).
      + destruct (digits_eq _ _ _ _ EX D' D NR' NR) as [-> ->]. f_equal. now apply IH.
      + exfalso. exact (dummy_bad ds r ND D B).
    - inversion H' as [EX|x' r' t' l' L' M' S' EX|x' r' l' L' M' S' EX|ds' r' l' NN' ND' D' NR' S' EX|w' NE' NN' B' EX]; subst.
      + congruence.
      + exfalso. exact (longest_not _ _ _ eq_refl L' NN).
      + exfalso. exact (longest_not _ _ _ eq_refl L' NN).
      + exfalso. exact (dummy_bad ds' r' ND' D' B).
      + reflexivity.
  Qed.
  Lemma reading_det text a e b e' : reading text a e -> reading text b e' -> a = b /\ e = e'.
  Proof.
    intros (w & s & ws & ols & A1 & A2 & A3 & A4 & A5 & A6 & A7) (w' & s' & ws' & ols' & B1 & B2 & B3 & B4 & B5 & B6 & B7).
    assert (s = s').
    { pose proof (whiteSpace_blanks w s A2 A3) as X. pose proof (whiteSpace_blanks w' s' B2 B3) as Y. rewrite <- A1 in X. rewrite <- B1 in Y. congruence. }
    subst s'.
    pose proof (mathTokens_complete s ws e A4 A3 (S (length ws + length ws')) ltac:(lia)) as X.
    pose proof (mathTokens_complete s ws' e' B4 A3 (S (length ws + length ws')) ltac:(lia)) as Y.
    rewrite X in Y. injection Y as <- <-. split; [|reflexivity]. subst a b. f_equal.
    clear -A6 B6 HU. revert ols' B6. induction A6 as [|x y l l' H HH IH]; intros ols' B6; inversion B6; subst; [reflexivity|].
    f_equal; [eapply splits_det; eauto|now apply IH].
  Qed.
End Main.

(* ---- texts without '$' ---- *)
Section Plain.
  Variable toks : list mtok.
  Variable en : nat -> nat.
  Variable sc : nat -> Z.
  Variable n : nat.
  Variable cur : Z.
  Lemma plain_not text : ~ In dollar text -> ~ hugeIn text /\ ~ brokenComment text /\ ~ openLine text.
  Proof.
    intros H. split; [|split].
    - intros (a & ds & b & -> & _). apply H. apply in_or_app. right. now left.
    - intros (a & b & ->). apply H. apply in_or_app. right. now left.
    - intros (a & b & -> & _). apply H. apply in_or_app. right. now left.
  Qed.
  Lemma rest_dollar e : tokenEnds e -> startsInk e -> e = [] \/ exists r, e = dollar :: r.
  Proof.
    intros T [S|(c & r & -> & G & S)]; [now left|]. right. cbn in T. destruct T as [T|[-> _]]; [contradiction|]. eauto.
  Qed.
  Lemma tok_end s ws e : tokenised mathToken tokenEnds s ws e -> tokenEnds e /\ exists p, s = p ++ e.
  Proof.
    induction 1 as [e H|t w s ts e H1 H2 H3 H4 [IH1 [p IH2]]]; [split; [exact H|now exists []]|].
    split; [exact IH1|]. exists (t ++ w ++ p). rewrite IH2. now rewrite <- !app_assoc.
  Qed.
  Lemma reading_rest text ol e : reading toks en sc n cur text ol e -> (e = [] \/ exists r, e = dollar :: r) /\ exists p, text = p ++ e.
  Proof.
    intros (w & s & ws & ols & A1 & A2 & A3 & A4 & A5 & A6 & A7). destruct (tok_end _ _ _ A4) as [B [p ->]].
    split; [now apply rest_dollar|]. exists (w ++ p). rewrite A1. now rewrite app_assoc.
  Qed.
  Lemma filter_blank p s : blank p s -> ~ In dollar p -> filter isgraph p = [].
  Proof.
    intros H N. inversion H; subst.
    - cbn. destruct (isgraph c) eqn:X; [|reflexivity]. apply isgraph_spec in X. contradiction.
    - elim N. now left.
    - elim N. now left.
    - elim N. now left.
  Qed.
  Lemma filter_blanks w s : blanks w s -> ~ In dollar w -> filter isgraph w = [].
  Proof.
    induction 1 as [|p q rest HB HS IH]; intros N; [reflexivity|]. rewrite filter_app.
    rewrite (filter_blank p _ HB) by (intros X; apply N; apply in_or_app; now left).
    apply IH. intros X. apply N. apply in_or_app. now right.
  Qed.
  Lemma filter_graph t : Forall graphic t -> filter isgraph t = t.
  Proof. induction 1 as [|c r H HH IH]; [reflexivity|]. cbn. apply isgraph_spec in H. now rewrite H, IH. Qed.
  Lemma filter_toks s ws e : tokenised mathToken tokenEnds s ws e -> ~ In dollar s -> filter isgraph s = concat ws ++ filter isgraph e.
  Proof.
    induction 1 as [e H|t w s ts e H1 H2 H3 H4 IH]; intros N; [reflexivity|]. rewrite !filter_app. cbn [concat].
    rewrite (filter_blanks w s H2) by (intros X; apply N; apply in_or_app; right; apply in_or_app; now left).
    rewrite IH by (intros X; apply N; apply in_or_app; right; apply in_or_app; now right).
    destruct H1 as (_ & H1 & _). rewrite (filter_graph t) by now apply tokenText_graphic.
    rewrite <- app_assoc. reflexivity.
  Qed.
  Lemma splits_names w ol : splits toks en sc n cur w ol -> ~ In dollar w -> errors ol = 0 ->
    concat (map (tkName toks) (understood ol)) = w.
  Proof.
    induction 1 as [|x r t l L M S IH|x r l L M S IH|ds r l NN ND D NR S IH|w NE NN B]; intros N HE; cbn in *; try discriminate.
    - reflexivity.
    - destruct M as [(k & K1 & K2 & _) _]. unfold tkName at 1. rewrite K1, K2. f_equal. apply IH; [|exact HE].
      intros X. apply N. apply in_or_app. now right.
    - elim N. now left.
  Qed.
  Lemma words_names ws ols : Forall2 (splits toks en sc n cur) ws ols -> ~ In dollar (concat ws) -> errors (concat ols) = 0 ->
    concat (map (tkName toks) (understood (concat ols))) = concat ws.
  Proof.
    induction 1 as [|w o l l' H HH IH]; intros N HE; [reflexivity|]. cbn [concat] in *. rewrite errors_app in HE.
    rewrite understood_app, map_app, concat_app. f_equal.
    - apply splits_names; [exact H| |lia]. intros X. apply N. apply in_or_app. now left.
    - apply IH; [|lia]. intros X. apply N. apply in_or_app. now right.
  Qed.
  Lemma in_filter_dollar s : In dollar (filter isgraph s) -> In dollar s.
  Proof. intros H. now apply filter_In in H. Qed.
  Lemma reading_plain text ol e : reading toks en sc n cur (chNL :: text) ol e -> ~ In dollar text ->
    e = [] /\ (errors ol = 0 -> concat (map (tkName toks) (understood ol)) = filter isgraph text).
  Proof.
    intros H N. destruct (reading_rest _ _ _ H) as [R [p EP]]. assert (e = []) as ->.
    { destruct R as [R|[r ->]]; [exact R|]. exfalso. apply N. destruct p as [|c p]; [discriminate|]. injection EP as _ ->.
      apply in_or_app. right. now left. }
    split; [reflexivity|]. destruct H as (w & s & ws & ols & A1 & A2 & A3 & A4 & A5 & A6 & A7). intros HE.
    assert (N1 : ~ In dollar (w ++ s)) by (rewrite <- A1; intros [X|X]; [discriminate|now apply N]).
    assert (F : filter isgraph text = concat ws).
    { change (filter isgraph text) with (filter isgraph (chNL :: text)). rewrite A1, filter_app.
      rewrite (filter_blanks w s A2) by (intros X; apply N1; apply in_or_app; now left).
      rewrite (filter_toks s ws [] A4) by (intros X; apply N1; apply in_or_app; now right).
      cbn. apply app_nil_r. }
    subst ol. rewrite F. apply words_names; auto. intros X. apply N. apply in_filter_dollar. now rewrite F.
  Qed.
End Plain.

(* ---- names of symbols, separated by blanks ---- *)
Fixpoint spaced (ws : list (list nat)) : list nat :=
  match ws with [] => [] | [x] => x | x :: r => x ++ 32 :: spaced r end.

Lemma infix_split m a b x rest : Forall (fun c => c <> 32) m -> m <> [] -> a ++ m ++ b = x ++ 32 :: rest ->
  (exists b', x = a ++ m ++ b') \/ (exists a', rest = a' ++ m ++ b).
Proof.
  intros HM NM. revert x. induction a as [|c a IH]; intros x H; cbn [app] in H.
  - left. cbn [app]. clear NM. revert x H. induction HM as [|c m Hc Hm IHm]; intros x H.
    + now exists x.
    + destruct x as [|c' x]; cbn [app] in H; injection H as E1 H; [congruence|]. subst c'. destruct (IHm x H) as (b' & ->). now exists b'.
  - destruct x as [|c' x]; cbn [app] in H; injection H as E1 H.
    + right. now exists a.
    + subst c'. destruct (IH x H) as [(b' & ->)|(a' & ->)]; [left; now exists b'|right; now exists a'].
Qed.
(* whatever holds of no word and has no blank is not in the spaced text *)
Lemma spaced_infix m ws a b : Forall (fun c => c <> 32) m -> m <> [] -> spaced ws = a ++ m ++ b ->
  exists x a' b', In x ws /\ x = a' ++ m ++ b'.
Proof.
  intros HM NM. revert a. induction ws as [|x r IH]; intros a H.
  - cbn in H. symmetry in H. apply app_eq_nil in H. destruct H as [_ H]. now apply app_eq_nil in H.
  - destruct r as [|y r].
    + exists x, a, b. split; [now left|exact H].
    + change (spaced (x :: y :: r)) with (x ++ 32 :: spaced (y :: r)) in H.
      destruct (infix_split m a b x (spaced (y :: r)) HM NM (eq_sym H)) as [(b' & E)|(a' & E)].
      * exists x, a, b'. split; [now left|exact E].
      * destruct (IH a' E) as (z & a2 & b2 & H1 & H2). exists z, a2, b2. split; [now right|exact H2].
Qed.
Lemma value_prefix a b : digits (a ++ b) -> (value a <= value (a ++ b))%Z.
Proof.
  intros H. apply Forall_app in H. destruct H as [HA HB]. unfold value. rewrite fold_left_app.
  pose proof (value_nn a HA) as NN. unfold value in NN. set (v := fold_left _ a 0%Z) in *. clearbody v. clear HA a.
  revert v NN. induction HB as [|c r Hc Hr IH]; intros v NN; [cbn; lia|]. cbn [fold_left]. unfold isDigit in Hc.
  specialize (IH (10 * v + (Z.of_nat c - 48))%Z ltac:(lia)). lia.
Qed.

Section Round.
  Variable toks : list mtok.
  Variable en : nat -> nat.
  Variable sc : nat -> Z.
  Variable n : nat.
  Variable cur : Z.
  Hypothesis HN : forall k, In k toks -> mt_name k <> [] /\ Forall graphic (mt_name k) /\ ~ In dollar (mt_name k).
  Hypothesis HU : forall x t u, inForce toks en n x t -> inForce toks en n x u -> t = u.

  (* x is a way to write symbol t *)
  Definition spells (x : list nat) (t : nat) : Prop :=
    inForce toks en n x t \/
    exists ds, x = dollar :: ds /\ ds <> [] /\ digits ds /\ (value ds < 2 ^ 53)%Z /\ t = length toks + Z.to_nat (value ds).

  Lemma plain_tokenText x : Forall graphic x -> ~ In dollar x -> tokenText x.
  Proof.
    induction 1 as [|c r Hc Hr IH]; intros N; constructor; auto; [intros ->; apply N; now left|].
    apply IH. intros X. apply N. now right.
  Qed.
  Lemma force_name x t : inForce toks en n x t -> x <> [] /\ Forall graphic x /\ ~ In dollar x.
  Proof. intros (k & K1 & <- & _). apply HN. now apply nth_error_In in K1. Qed.
  Lemma spells_token x t : spells x t -> x <> [] /\ tokenText x.
  Proof.
    intros [H|(ds & -> & A & B & _)].
    - destruct (force_name x t H) as (A & B & C). split; [exact A|now apply plain_tokenText].
    - split; [discriminate|now apply dummy_plain].
  Qed.
  Lemma spells_splits x t : spells x t -> splits toks en sc n cur x [Some t].
  Proof.
    intros [H|(ds & -> & A & B & _ & ->)].
    - destruct (force_name x t H) as (A & _). rewrite <- (app_nil_r x). apply sp_sym; [| |constructor].
      + split; [exact A|]. split; [|split; [eauto|]].
        * destruct H as (k & K1 & K2 & _). exists k. split; [now apply nth_error_In in K1|exact K2].
        * intros y r E _. apply (f_equal (@length nat)) in E. rewrite !app_length in E. cbn in E. lia.
      + split; [exact H|]. right. intros u Hu. rewrite (HU x t u H Hu). lia.
    - rewrite <- (app_nil_r ds) at 1. apply sp_dummy; auto; [|exact I|constructor].
      intros y r E (k & K1 & <-). destruct (HN k K1) as (N1 & _ & N2). destruct (mt_name k) as [|c z]; [reflexivity|].
      exfalso. injection E as <- _. apply N2. now left.
  Qed.
  Lemma token_ink x : tokenText x -> x <> [] -> forall r, startsInk (x ++ r).
  Proof.
    intros H N r. destruct H as [|c x Hc Hd Hx|x Hx|d x Hd Hx]; [congruence| | |]; right; cbn [app].
    - exists c, (x ++ r). split; [reflexivity|]. split; [exact Hc|]. congruence.
    - exists dollar, (dollar :: x ++ r). split; [reflexivity|]. split; [apply graphic_dollar|]. intros _. right.
      exists dollar, (x ++ r). split; [reflexivity|]. unfold dollar. lia.
    - exists dollar, (d :: x ++ r). split; [reflexivity|]. split; [apply graphic_dollar|]. intros _. right.
      exists d, (x ++ r). split; [reflexivity|]. lia.
  Qed.
  Lemma spaced_ink ws : Forall (fun x => x <> [] /\ tokenText x) ws -> startsInk (spaced ws).
  Proof.
    intros H. destruct H as [|x r [A B] _]; [now left|]. destruct r; [|now apply token_ink].
    cbn [spaced]. rewrite <- (app_nil_r x). now apply token_ink.
  Qed.
  Lemma spaced_tokens ws : Forall (fun x => x <> [] /\ tokenText x) ws -> tokenised mathToken tokenEnds (spaced ws) ws [].
  Proof.
    induction 1 as [|x r [A B] HR IH]; [apply tk_end; exact I|]. destruct r as [|y r].
    - cbn [spaced]. replace x with (x ++ [] ++ []) at 1 by now rewrite app_nil_r. apply tk_tok; [|constructor|now left|apply tk_end; exact I].
      split; [exact A|]. split; [exact B|exact I].
    - change (spaced (x :: y :: r)) with (x ++ [32] ++ spaced (y :: r)). apply tk_tok; [| |now apply spaced_ink|exact IH].
      + split; [exact A|]. split; [exact B|]. cbn. left. unfold graphic. lia.
      + change [32] with ([32] ++ []). constructor; [|constructor]. constructor. unfold graphic. lia.
  Qed.
  Lemma spaced_reading ws ts : Forall2 spells ws ts ->
    reading toks en sc n cur (chNL :: spaced ws) (map Some ts) [].
  Proof.
    intros H. assert (F : Forall (fun x => x <> [] /\ tokenText x) ws).
    { induction H; constructor; auto. now apply spells_token in H. }
    exists [chNL], (spaced ws), ws, (map (fun t => [Some t]) ts). split; [reflexivity|]. split.
    { change [chNL] with ([chNL] ++ []). constructor; [|constructor]. constructor. unfold graphic, chNL. lia. }
    split; [now apply spaced_ink|]. split; [now apply spaced_tokens|]. split; [now left|]. split.
    - clear F. induction H; constructor; auto. now apply spells_splits.
    - clear H F. induction ts as [|t r IH]; [reflexivity|]. cbn. now rewrite IH.
  Qed.
  Lemma spells_dollar x t c a b : spells x t -> x = a ++ dollar :: c :: b -> a = [] /\ isDigit c.
  Proof.
    intros [H|(ds & -> & A & B & _)] E.
    - destruct (force_name x t H) as (_ & _ & N). elim N. rewrite E. apply in_or_app. right. now left.
    - destruct a as [|d a]; cbn [app] in E.
      + injection E as E. subst ds. inversion B; subst. auto.
      + injection E as _ E. exfalso. subst ds. apply Forall_app in B. destruct B as [_ B]. inversion B as [|? ? H _]; subst. unfold isDigit, dollar in H. lia.
  Qed.
  Lemma spaced_fine ws ts : Forall2 spells ws ts -> ~ hugeIn (spaced ws) /\ ~ brokenComment (spaced ws) /\ ~ openLine (spaced ws).
  Proof.
    intros H. assert (SP : forall x, In x ws -> exists t, spells x t).
    { intros x Hx. induction H as [|y t l l' H1 H2 IH]; [destruct Hx|]. destruct Hx as [->|Hx]; eauto. }
    split; [|split].
    - intros (a & ds & b & E & D & V).
      assert (NB : Forall (fun c => c <> 32) (dollar :: ds)).
      { constructor; [unfold dollar; lia|]. eapply Forall_impl; [|exact D]. unfold isDigit. intros; lia. }
      destruct (spaced_infix (dollar :: ds) ws a b NB ltac:(discriminate) E) as (x & a' & b' & I1 & I2).
      destruct (SP x I1) as (t & HT). destruct ds as [|d ds]; [unfold value in V; cbn in V; lia|].
      destruct (spells_dollar x t d a' (ds ++ b') HT I2) as [-> _]. destruct HT as [HT|(ds' & E1 & E2 & E3 & E4 & _)].
      + destruct (force_name x t HT) as (_ & _ & N). apply N. rewrite I2. now left.
      + rewrite E1 in I2. injection I2 as ->. change (d :: ds ++ b') with ((d :: ds) ++ b') in *. pose proof (value_prefix _ _ E3). lia.
    - intros (a & b & E).
      destruct (spaced_infix [dollar; 40] ws a (b ++ [dollar]) ltac:(repeat constructor; unfold dollar; lia) ltac:(discriminate) E) as (x & a' & b' & I1 & I2).
      destruct (SP x I1) as (t & HT). destruct (spells_dollar x t 40 a' b' HT I2) as [_ X]. unfold isDigit in X. lia.
    - intros (a & b & E & _).
      destruct (spaced_infix [dollar; 33] ws a b ltac:(repeat constructor; unfold dollar; lia) ltac:(discriminate) E) as (x & a' & b' & I1 & I2).
      destruct (SP x I1) as (t & HT). destruct (spells_dollar x t 33 a' b' HT I2) as [_ X]. unfold isDigit in X. lia.
  Qed.
End Round.
