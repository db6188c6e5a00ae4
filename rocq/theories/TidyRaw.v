(* TidyRaw.v -- readRawSource reports nothing exactly on tidy texts. *)
From Verif Require Import Base TokModel LabModel SrcModel TokSpec SrcSpec TokProofs SrcProofs TidySpec.
Open Scope nat_scope.

Definition errs (prev : option nat) (inC : bool) (l : list nat) : list rawErr := fst (rawScan prev inC l).
Lemma isspace_spec c : isspace c = true <-> space c.
Proof. unfold isspace, space. rewrite orb_true_iff, andb_true_iff, !Nat.leb_le, Nat.eqb_eq. tauto. Qed.
Lemma space_ng c : space c -> ~ graphic c.
Proof. unfold space, graphic. lia. Qed.
Definition okChar (c : nat) : Prop := graphic c \/ space c.
Lemma okChar_b c : negb (isgraph c) && negb (isspace c) = false <-> okChar c.
Proof.
  unfold okChar. rewrite <- isgraph_spec, <- isspace_spec. destruct (isgraph c), (isspace c); cbn; split; intros H; auto; try discriminate; try tauto.
  destruct H; discriminate.
Qed.
Definition inkOK (prev : option nat) : Prop := match prev with Some p => ~ graphic p | None => True end.
Definition headBlank (l : list nat) : Prop := match l with c :: _ => ~ graphic c | [] => True end.

Lemma errs_char prev inC c r : c <> dollar -> (errs prev inC (c :: r) = [] <-> okChar c /\ errs (Some c) inC r = []).
Proof.
  intros N. unfold errs. cbn [rawScan]. apply Nat.eqb_neq in N. unfold dollar in N. unfold chDollar. rewrite N. cbn [negb].
  destruct (rawScan (Some c) inC r) as [es n]. cbn [fst]. rewrite <- okChar_b.
  destruct (negb (isgraph c) && negb (isspace c)); cbn; split; intros H; try discriminate; try tauto. destruct H; discriminate.
Qed.
Lemma app_nil_iff {A} (a b : list A) : a ++ b = [] <-> a = [] /\ b = [].
Proof. split; [apply app_eq_nil|intros [-> ->]; reflexivity]. Qed.
Lemma if_nil {A} (b : bool) (x : A) : (if b then [x] else []) = [] <-> b = false.
Proof. destruct b; split; congruence. Qed.
Lemma isg c : isgraph c = false <-> ~ graphic c. Proof. apply isgraph_false. Qed.


(* one step of rawScan at a '$' *)
Definition e1 (prev : option nat) (inC : bool) (r : list nat) : list rawErr :=
  match prev with
  | Some p => if isgraph p && (negb inC || (match nth_error r 0 with Some d => Nat.eqb d chClose | None => false end)) then [RBefore] else []
  | None => [] end.
Definition e2 (inC : bool) (r : list nat) : list rawErr :=
  match r with
  | d :: d2 :: _ => if isgraph d2 && (negb inC || Nat.eqb d chClose) then [RAfter] else []
  | _ => [] end.
Definition e3 (inC : bool) (r : list nat) : list rawErr * bool :=
  match nth_error r 0 with
  | None => ([], inC)
  | Some d =>
      if Nat.eqb d chOpen then ((if inC then [RNested] else []), true)
      else if Nat.eqb d chClose then ((if inC then [] else [RUnopened]), false)
      else if inC then ([], inC)
      else if Nat.eqb d chLB then ([RInclude], inC)
      else if Nat.eqb d chRB then ([RIncludeEnd], inC)
      else ([], inC)
  end.
Lemma errs_dollar prev inC r :
  errs prev inC (dollar :: r) = e1 prev inC r ++ e2 inC r ++ fst (e3 inC r) ++ errs (Some dollar) (snd (e3 inC r)) r.
Proof.
  unfold errs, e1, e2, e3. cbn [rawScan]. change (Nat.eqb dollar chDollar) with true. cbn [negb].
  destruct r as [|d r]; cbn [nth_error].
  - destruct inC, prev; reflexivity.
  - set (l := d :: r). 
    destruct (d =? chOpen); cbn [fst snd]; [destruct (rawScan (Some dollar) true l) as [es n]; reflexivity|].
    destruct (d =? chClose); cbn [fst snd]; [destruct (rawScan (Some dollar) false l) as [es n]; reflexivity|].
    destruct inC; cbn [fst snd]; [destruct (rawScan (Some dollar) true l) as [es n]; reflexivity|].
    destruct (d =? chLB); cbn [fst snd]; [destruct (rawScan (Some dollar) false l) as [es n]; reflexivity|].
    destruct (d =? chRB); cbn [fst snd]; [destruct (rawScan (Some dollar) false l) as [es n]; reflexivity|].
    destruct ((d =? chLC) || (d =? chRC) || (d =? chDot)); destruct (rawScan (Some dollar) false l) as [es n]; reflexivity.
Qed.
Lemma e1_out prev d r : e1 prev false (d :: r) = [] <-> inkOK prev.
Proof. unfold e1. destruct prev as [p|]; cbn [inkOK]; [|tauto]. rewrite if_nil. cbn. rewrite andb_true_r, isg. tauto. Qed.
Lemma e2_out d r : e2 false (d :: r) = [] <-> headBlank r.
Proof. unfold e2. destruct r as [|d2 r]; cbn [headBlank]; [tauto|]. rewrite if_nil. cbn. rewrite andb_true_r, isg. tauto. Qed.

(* a keyword outside a comment *)
Lemma errs_key prev d r : d <> 40 -> d <> 41 -> d <> 91 -> d <> 93 -> graphic d -> d <> dollar ->
  (errs prev false (dollar :: d :: r) = [] <-> inkOK prev /\ headBlank r /\ errs (Some d) false r = []).
Proof.
  intros N1 N2 N3 N4 G N5. rewrite errs_dollar, !app_nil_iff, e1_out, e2_out.
  unfold e3. cbn [nth_error]. apply Nat.eqb_neq in N1, N2, N3, N4.
  unfold chOpen, chClose, chLB, chRB. rewrite N1, N2, N3, N4. cbn [fst snd]. rewrite (errs_char _ _ d r N5).
  unfold okChar. tauto.
Qed.
(* the start of a comment *)
Lemma errs_open prev r : errs prev false (dollar :: 40 :: r) = [] <-> inkOK prev /\ headBlank r /\ errs (Some 40) true r = [].
Proof.
  rewrite errs_dollar, !app_nil_iff, e1_out, e2_out. cbn [e3 nth_error fst snd]. change (40 =? chOpen) with true. cbn [fst snd].
  rewrite (errs_char _ _ 40 r) by (unfold dollar; lia). unfold okChar, graphic. intuition lia.
Qed.
Lemma e1_in prev r : e1 prev true r = [] <-> (nth_error r 0 = Some 41 -> inkOK prev).
Proof.
  unfold e1. destruct prev as [p|]; cbn [inkOK negb orb]; [|tauto]. rewrite if_nil. destruct (nth_error r 0) as [d|]; [|rewrite andb_false_r; intuition discriminate].
  rewrite andb_false_iff, isg. unfold chClose. rewrite Nat.eqb_neq. split.
  - intros [H|H] E; [exact H|congruence].
  - intros H. destruct (Nat.eq_dec d 41) as [->|N]; [left; auto|now right].
Qed.
(* the end of a comment *)
Lemma errs_close prev r : errs prev true (dollar :: 41 :: r) = [] <-> inkOK prev /\ headBlank r /\ errs (Some 41) false r = [].
Proof.
  rewrite errs_dollar, !app_nil_iff, e1_in. cbn [nth_error].
  assert (A : e2 true (41 :: r) = [] <-> headBlank r).
  { unfold e2. destruct r as [|d2 r]; cbn [headBlank]; [tauto|]. rewrite if_nil. change (41 =? chClose) with true. cbn. rewrite andb_true_r, isg. tauto. }
  rewrite A. cbn [e3 nth_error]. change (41 =? chOpen) with false. change (41 =? chClose) with true. cbn [fst snd].
  rewrite (errs_char _ _ 41 r) by (unfold dollar; lia). unfold okChar, graphic. intuition lia.
Qed.
(* any other '$' inside a comment *)
Lemma errs_inner prev d r : d <> 41 -> (errs prev true (dollar :: d :: r) = [] <-> d <> 40 /\ errs (Some dollar) true (d :: r) = []).
Proof.
  intros N. rewrite errs_dollar, !app_nil_iff, e1_in. cbn [nth_error].
  assert (A : e2 true (d :: r) = []).
  { unfold e2. destruct r as [|d2 r]; [reflexivity|]. apply Nat.eqb_neq in N. unfold chClose. rewrite N. cbn. now rewrite andb_false_r. }
  rewrite A. cbn [e3 nth_error]. apply Nat.eqb_neq in N as N'. unfold chOpen, chClose. rewrite N'.
  destruct (Nat.eqb_spec d 40) as [->|N4]; cbn [fst snd].
  - split; [intros (_ & _ & Q & _); discriminate|intros [Q _]; congruence].
  - split; [tauto|]. intros [_ Q]. split; [congruence|]. auto.
Qed.

(* ---- comments ---- *)
Definition noMark (l : list nat) : Prop := forall a d b, l = a ++ dollar :: d :: b -> d <> 40 /\ d <> 41.
Lemma noMark_tl c l : noMark (c :: l) -> noMark l.
Proof. intros H a d b E. apply (H (c :: a) d b). now rewrite E. Qed.
Lemma noMark_char c l : c <> dollar -> noMark l -> noMark (c :: l).
Proof. intros N H a d b E. destruct a as [|x a]; cbn in E; [congruence|]. injection E as -> E. exact (H a d b E). Qed.
Lemma noMark_dollar d l : d <> 40 -> d <> 41 -> noMark (d :: l) -> noMark (dollar :: d :: l).
Proof. intros N1 N2 H a d' b E. destruct a as [|x a]; cbn in E; [injection E as -> _; auto|]. injection E as _ E. exact (H a d' b E). Qed.
Fixpoint lastOf (prev : option nat) (l : list nat) : option nat :=
  match l with [] => prev | c :: r => lastOf (Some c) r end.
Lemma lastOf_app l : forall prev c, lastOf prev (l ++ [c]) = Some c.
Proof. induction l as [|x l IH]; intros; cbn; auto. Qed.
Lemma lastOf_app2 l : forall prev l2, lastOf prev (l ++ l2) = lastOf (lastOf prev l) l2.
Proof. induction l as [|x l IH]; intros; cbn; auto. Qed.

Lemma body_sound l : commentText l -> forall prev rest, errs prev true (l ++ dollar :: 41 :: rest) = [] ->
  (forall c, In c l -> okChar c) /\ noMark l /\ inkOK (lastOf prev l) /\ headBlank rest /\ errs (Some 41) false rest = [].
Proof.
  assert (GD : graphic dollar) by exact graphic_dollar.
  induction 1 as [|c r N C IH|d r N C IH]; intros prev rest H; cbn [app] in H.
  - apply errs_close in H. split; [intros c []|]. split; [intros a d b E; destruct a; discriminate|]. exact H.
  - apply (errs_char _ _ c) in H; [|exact N]. destruct H as [HC H]. destruct (IH _ _ H) as (A & B & D & E & F).
    split; [intros x [<-|Hx]; auto|]. split; [now apply noMark_char|]. auto.
  - apply errs_inner in H; [|exact N]. destruct H as [N4 H]. destruct (Nat.eq_dec d dollar) as [->|ND].
    + (* "$$" *)
      destruct r as [|e r]; cbn [app] in H.
      * apply errs_inner in H; [|unfold dollar; lia]. destruct H as [_ H]. apply errs_close in H. destruct H as [H _]. destruct H. exact GD.
      * destruct (Nat.eq_dec e 41) as [->|NE]; [apply errs_close in H; destruct H as [H _]; destruct H; exact GD|].
        apply errs_inner in H; [|exact NE]. destruct H as [NE4 H]. destruct (IH _ _ H) as (A & B & D & E & F).
        split; [intros x [<-|[<-|Hx]]; auto; left; exact GD|]. split; [|auto].
        apply noMark_dollar; auto. now apply noMark_dollar.
    + apply (errs_char _ _ d) in H; [|exact ND]. destruct H as [HC H]. destruct (IH _ _ H) as (A & B & D & E & F).
      split; [intros x [<-|[<-|Hx]]; auto; left; exact GD|]. split; [|auto].
      apply noMark_dollar; auto. now apply noMark_char.
Qed.
Lemma body_complete : forall l prev rest, (forall c, In c l -> okChar c) -> noMark l -> endsSpace l \/ l = [] /\ inkOK prev ->
  headBlank rest -> errs (Some 41) false rest = [] -> errs prev true (l ++ dollar :: 41 :: rest) = [].
Proof.
  induction l as [|c l IH]; intros prev rest HC HM HE HB HR; cbn [app].
  - apply errs_close. destruct HE as [(c & r & E & _)|[_ HE]]; [destruct r; discriminate|]. auto.
  - destruct HE as [HE|[HE _]]; [|discriminate].
    assert (HE' : endsSpace l \/ l = [] /\ inkOK (Some c)).
    { destruct HE as (x & r & E & S). destruct r as [|y r]; cbn in E; injection E as -> ->; [right; split; [reflexivity|now apply space_ng]|].
      left. exists x, r. auto. }
    destruct (Nat.eq_dec c dollar) as [->|N].
    + destruct l as [|d l].
      * destruct HE' as [(x & r & E & S)|[_ HE']]; [destruct r; discriminate|]. destruct HE'. exact graphic_dollar.
      * cbn [app]. destruct (HM [] d l eq_refl) as [M1 M2]. apply errs_inner; [exact M2|]. split; [exact M1|].
        change (d :: l ++ dollar :: 41 :: rest) with ((d :: l) ++ dollar :: 41 :: rest). apply IH; auto.
        -- intros x Hx. apply HC. now right.
        -- now apply noMark_tl in HM.
    + apply errs_char; [exact N|]. split; [apply HC; now left|]. apply IH; auto.
      * intros x Hx. apply HC. now right.
      * now apply noMark_tl in HM.
Qed.
