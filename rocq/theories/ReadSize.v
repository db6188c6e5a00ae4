(* ReadSize.v -- the tables parseMathDecl and parseStatements allocate are large enough for
   a text whose keywords are in order. *)
From Verif Require Import Base TokModel LabModel SrcModel StmModel TokSpec SrcSpec StmSpec TokProofs SrcProofs SrcFinal
  ReadModel ReadOut ReadSpec ReadSec ReadWords ReadMain.
Open Scope nat_scope.

Definition startsBlank (l : list nat) : Prop :=
  match l with [] => True | c :: r => ~ graphic c \/ c = dollar /\ nth_error r 0 = Some 40 end.
Lemma tok_nostart t r : t <> [] -> tokenText t -> ~ startsBlank (t ++ r).
Proof.
  intros N T. destruct T as [|c t G D T|t T|d t D T]; [congruence| | |]; cbn.
  - intros [H|[-> _]]; [auto|congruence].
  - intros [H|[_ H]]; [apply H, graphic_dollar|unfold dollar in H; congruence].
  - intros [H|[_ H]]; [apply H, graphic_dollar|]. injection H as ->. lia.
Qed.
Lemma words_count l xs : words l xs -> 2 * length xs <= length l + 1 /\ (startsBlank l -> 2 * length xs <= length l) /\
  forall x, In x xs -> length x <= length l.
Proof.
  induction 1 as [|c r xs G W IH|body r xs C W IH|t r xs N T TE W IH].
  - cbn. split; [lia|]. split; [lia|]. intros x [].
  - destruct IH as (A & B & D). cbn [length]. split; [lia|]. split; [intros _; lia|]. intros x Hx. specialize (D x Hx). lia.
  - destruct IH as (A & B & D). cbn [length]. rewrite app_length. cbn [length]. split; [lia|]. split; [intros _; lia|].
    intros x Hx. specialize (D x Hx). lia.
  - destruct IH as (A & B & D). cbn [length]. rewrite app_length. assert (LT : 1 <= length t) by (destruct t; [congruence|cbn; lia]).
    assert (R : startsBlank r).
    { destruct r as [|c r]; [exact I|]. cbn in *. destruct TE as [TE|[-> TE]]; [now left|]. right. split; [reflexivity|].
      destruct r as [|d r]; [exfalso; eapply words_dollar; eauto|]. cbn. f_equal.
      clear -W TE. remember (dollar :: d :: r) as l eqn:E. destruct W as [|c r' xs G W|body r' xs C W|t r' xs N T TE' W]; try discriminate.
      - injection E as -> _. exfalso. apply G, graphic_dollar.
      - injection E as <- _. reflexivity.
      - exfalso. destruct T as [|c t G D T|t T|d' t D T]; [congruence| | |]; cbn [app] in E; injection E as E1 E2; subst; tauto. }
    specialize (B R). split; [lia|]. split; [intros S; exfalso; exact (tok_nostart t r N T S)|].
    intros x [<-|Hx]; [lia|]. specialize (D x Hx). lia.
Qed.

Lemma declTokens_len : forall sts n, length (declTokens n sts) = fold_right (fun i a => (if isDecl (si_kind i) then length (si_toks i) else 0) + a) 0 sts.
Proof.
  induction sts as [|i sts IH]; intros n; cbn [declTokens fold_right]; [reflexivity|]. rewrite app_length, IH. f_equal.
  destruct (isDecl (si_kind i)); [apply map_length|reflexivity].
Qed.

Lemma tables_fit src ks d sts : readSource src = Ok ([], [], ks, d) -> mathOfAll src ks = Ok sts ->
  length (declTokens 1 sts) <= potentialSymbols ks /\ wrkFits 1 ks sts = true.
Proof.
  intros H HM. apply mathOfAll_ok in HM.
  destruct (sections_followed src _ _ _ H) as (FK & OK & _).
  destruct (c48_error_free_source _ _ _ H) as (items & tail & _ & NE & _ & EI & _).
  assert (K : Forall2 (fun k i => si_kind i = k_kind k /\ (k_kind k <> K_lb -> k_kind k <> K_rb ->
                2 * length (si_toks i) <= secLen (k_math k) /\ (forall x, In x (si_toks i) -> length x <= secLen (k_math k)))) ks sts).
  { assert (NE' : Forall (fun k => neat (toItem src k)) ks) by (rewrite <- EI in NE; exact (proj1 (Forall_map _ _ _) NE)).
    clear -HM FK OK NE'. induction HM as [|k i ks sts E F IH]; constructor.
    - split; [exact (mathOf_kind _ _ _ E)|]. intros N1 N2. inversion FK; subst. inversion OK; subst. inversion NE' as [|? ? NI ?]; subst.
      destruct NI as (_ & (_ & Q & _) & _ & SP & _). cbn [toItem it_math it_kind] in *.
      destruct (math_words src k i H1 H3 Q E) as [_ W]. cbn [toItem it_math] in W. destruct (words_count _ _ W) as (_ & B & C).
      destruct H3 as (_ & OM & _). assert (EL : length (osecText src (k_math k)) = secLen (k_math k)).
      { destruct (k_math k); [now apply secText_len|reflexivity]. }
      rewrite EL in *. split; [|exact C]. apply B. destruct (SP N1 N2) as [(c & t & -> & G) _]. now left.
    - inversion FK; subst. inversion OK; subst. inversion NE'; subst. auto. }
  clear -K. split.
  - rewrite declTokens_len. unfold potentialSymbols.
    assert (B : 2 * fold_right (fun i a => (if isDecl (si_kind i) then length (si_toks i) else 0) + a) 0 sts <= declLen ks).
    { induction K as [|k i ks sts (E & C) F IH]; cbn [fold_right declLen]; [lia|]. rewrite E.
      destruct (isDecl (k_kind k)) eqn:D; [|lia]. destruct C as [C _]; try (intros Z; rewrite Z in D; discriminate). lia. }
    apply (Nat.div_le_mono _ _ 2) in B; [|lia]. rewrite Nat.mul_comm, Nat.div_mul in B by lia. lia.
  - generalize 1. induction K as [|k i ks sts (E & C) F IH]; intros w; cbn [wrkFits]; [reflexivity|].
    assert (X : k_kind k <> K_lb -> k_kind k <> K_rb ->
       (let len := secLen (k_math k) in let w' := if w <? len then len + 100 else w in
        (length (si_toks i) <=? w') && forallb (fun t => length t <=? w') (si_toks i) && wrkFits w' ks sts) = true).
    { intros N1 N2. destruct (C N1 N2) as [C1 C2]. cbv zeta.
      assert (LE : secLen (k_math k) <= if w <? secLen (k_math k) then secLen (k_math k) + 100 else w).
      { destruct (w <? secLen (k_math k)) eqn:L; [lia|]. apply Nat.ltb_ge in L. lia. }
      rewrite !andb_true_iff. split; [split; [apply Nat.leb_le; lia|]|apply IH].
      apply forallb_forall. intros x Hx. apply Nat.leb_le. specialize (C2 x Hx). lia. }
    destruct (k_kind k); try apply IH; apply X; discriminate.
Qed.
