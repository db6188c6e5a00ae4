(* TokProofs.v -- the scanner meets TokSpec. *)
From Verif Require Import Base TokModel TokSpec.
Open Scope nat_scope.

Lemma isgraph_spec c : isgraph c = true <-> graphic c.
Proof. unfold isgraph, graphic. rewrite andb_true_iff, !Nat.leb_le. tauto. Qed.
Lemma isgraph_false c : isgraph c = false <-> ~ graphic c.
Proof. rewrite <- isgraph_spec. destruct (isgraph c); intuition congruence. Qed.
Lemma graphic_dollar : graphic dollar.
Proof. unfold graphic, dollar. lia. Qed.

Lemma strchr_some c l s : strchr c l = Some s ->
  exists p r, l = p ++ s /\ s = c :: r /\ ~ In c p.
Proof.
  revert s. induction l as [|x l IH]; simpl; intros s H; [discriminate|].
  destruct (Nat.eqb_spec x c) as [E|E].
  - injection H as <-. subst. exists [], l. simpl. tauto.
  - destruct (IH s H) as (p & r & -> & -> & Hn). exists (x :: p), r.
    simpl. split; [reflexivity|split; [reflexivity|]]. intros [Hx|Hx]; [congruence|tauto].
Qed.
Lemma strchr_none c l : strchr c l = None <-> ~ In c l.
Proof.
  induction l as [|x l IH]; simpl; [tauto|].
  destruct (Nat.eqb_spec x c) as [E|E]; [split; [discriminate|intros H; exfalso; apply H; auto]|].
  rewrite IH. tauto.
Qed.
Lemma strchr_app c p r : ~ In c p -> strchr c (p ++ c :: r) = Some (c :: r).
Proof.
  induction p as [|x p IH]; simpl; intros H.
  - now rewrite Nat.eqb_refl.
  - destruct (Nat.eqb_spec x c) as [E|E]; [exfalso; apply H; auto|]. apply IH; tauto.
Qed.

Lemma ct_app_plain p r : ~ In dollar p -> commentText r -> commentText (p ++ r).
Proof.
  induction p as [|c p IH]; simpl; intros H Hr; [exact Hr|].
  apply ct_char; [intros E; apply H; auto|]. apply IH; tauto.
Qed.

(* comment scanning *)
Lemma skipComment_ok n l : length l < n ->
  match skipComment n l with
  | Ok s => (exists body, commentText body /\ l = body ++ dollar :: 41 :: s)
            \/ (s = [] /\ commentText l)
  | UB => exists body, commentText body /\ l = body ++ [dollar]
  | _ => False
  end.
Proof.
  revert l. induction n as [|n IH]; intros l Hl; [lia|].
  cbn [skipComment]. destruct (strchr chDollar l) as [s|] eqn:E.
  - destruct (strchr_some _ _ _ E) as (p & r & -> & -> & Hp).
    destruct r as [|c r2].
    + exists p. split; [|reflexivity].
      rewrite <- (app_nil_r p). apply ct_app_plain; [exact Hp|constructor].
    + destruct (Nat.eqb_spec c chClose) as [Ec|Ec].
      * left. exists p. subst c. split; [|reflexivity].
        rewrite <- (app_nil_r p). apply ct_app_plain; [exact Hp|constructor].
      * assert (Hl2 : length r2 < n) by (rewrite app_length in Hl; simpl in Hl; lia).
        specialize (IH r2 Hl2). destruct (skipComment n r2) as [s'|b| |].
        -- destruct IH as [(body & Hb & ->)|(-> & Hb)].
           ++ left. exists (p ++ dollar :: c :: body). split.
              ** apply ct_app_plain; [exact Hp|]. apply ct_pair; [exact Ec|exact Hb].
              ** rewrite <- app_assoc. reflexivity.
           ++ right. split; [reflexivity|]. apply ct_app_plain; [exact Hp|].
              apply ct_pair; [exact Ec|exact Hb].
        -- exact IH.
        -- destruct IH as (body & Hb & ->). exists (p ++ dollar :: c :: body). split.
           ++ apply ct_app_plain; [exact Hp|]. apply ct_pair; [exact Ec|exact Hb].
           ++ rewrite <- app_assoc. reflexivity.
        -- exact IH.
  - apply strchr_none in E. right. split; [reflexivity|].
    rewrite <- (app_nil_r l). apply ct_app_plain; [exact E|constructor].
Qed.

(* the pair reading of a comment is deterministic *)
Lemma ct_close_unique b1 : commentText b1 -> forall b2 s1 s2, commentText b2 ->
  b1 ++ dollar :: 41 :: s1 = b2 ++ dollar :: 41 :: s2 -> b1 = b2 /\ s1 = s2.
Proof.
  induction 1 as [|c r Hc Hr IH|d r Hd Hr IH]; intros b2 s1 s2 H2 E; inversion H2; subst; simpl in E.
  - injection E as ->. tauto.
  - injection E as <- E. congruence.
  - injection E as <- E. congruence.
  - injection E as -> E. congruence.
  - injection E as <- E. destruct (IH _ _ _ H0 E) as (-> & ->). tauto.
  - injection E as E1 E. congruence.
  - injection E as -> E. congruence.
  - injection E as E1 E. congruence.
  - injection E as <- E. destruct (IH _ _ _ H0 E) as (-> & ->). tauto.
Qed.
Lemma ct_not_close b1 : commentText b1 -> forall b2 s2, commentText b2 ->
  b1 = b2 ++ dollar :: 41 :: s2 -> False.
Proof.
  induction 1 as [|c r Hc Hr IH|d r Hd Hr IH]; intros b2 s2 H2 E; inversion H2; subst; simpl in E.
  all: try discriminate.
  all: injection E; intros; subst; try congruence; eauto.
Qed.
Lemma ct_not_end b1 : commentText b1 -> forall b2, commentText b2 ->
  b1 = b2 ++ [dollar] -> False.
Proof.
  induction 1 as [|c r Hc Hr IH|d r Hd Hr IH]; intros b2 H2 E; inversion H2; subst; simpl in E.
  all: try discriminate.
  all: injection E; intros; subst; try congruence; eauto.
Qed.
Lemma ct_end_close b1 : commentText b1 -> forall b2 s2, commentText b2 ->
  b1 ++ [dollar] = b2 ++ dollar :: 41 :: s2 -> False.
Proof.
  induction 1 as [|c r Hc Hr IH|d r Hd Hr IH]; intros b2 s2 H2 E; inversion H2; subst; simpl in E.
  all: try discriminate.
  all: injection E; intros; subst; try congruence; eauto.
Qed.

Lemma skipComment_len n l s : skipComment n l = Ok s -> length s <= length l.
Proof.
  revert l s. induction n as [|n IH]; intros l s H; [discriminate|].
  cbn [skipComment] in H. destruct (strchr chDollar l) as [t|] eqn:E.
  - destruct (strchr_some _ _ _ E) as (p & r & -> & -> & Hp).
    rewrite app_length. destruct r as [|c r2]; [discriminate|].
    destruct (Nat.eqb c chClose).
    + injection H as <-. simpl. lia.
    + apply IH in H. simpl. lia.
  - injection H as <-. simpl. lia.
Qed.

Lemma blanks_cons p w s l : blank p (w ++ s) -> blanks w s -> l = p ++ w ++ s ->
  exists w', l = w' ++ s /\ blanks w' s.
Proof. intros H1 H2 ->. exists (p ++ w). split; [now rewrite app_assoc|]. now constructor. Qed.

Definition wsOutcome (l : list nat) (r : res (list nat)) : Prop :=
  match r with
  | Ok s => exists w, l = w ++ s /\ blanks w s /\ startsInk s
  | UB => exists w body, l = w ++ dollar :: 40 :: body ++ [dollar] /\
            commentText body /\ blanks w (dollar :: 40 :: body ++ [dollar])
  | Bug k => k = 1716 /\ exists w body, l = w ++ dollar :: 33 :: body /\ ~ In 10 body /\
            blanks w (dollar :: 33 :: body)
  | Fuel => False
  end.

Lemma wsOutcome_cons p l r :
  (forall w s, l = w ++ s -> blank p (w ++ s)) -> wsOutcome l r -> wsOutcome (p ++ l) r.
Proof.
  intros Hb H. destruct r as [s|k| |]; simpl in *.
  - destruct H as (w & -> & H1 & H2). exists (p ++ w).
    split; [now rewrite app_assoc|]. split; [|exact H2]. constructor; auto.
  - destruct H as (-> & w & body & -> & H1 & H2). split; [reflexivity|].
    exists (p ++ w), body. split; [now rewrite app_assoc|]. split; [exact H1|]. constructor; auto.
  - destruct H as (w & body & -> & H1 & H2).
    exists (p ++ w), body. split; [now rewrite app_assoc|]. split; [exact H1|]. constructor; auto.
  - exact H.
Qed.

Lemma skipWs_ok n l : length l < n -> wsOutcome l (skipWs n l).
Proof.
  revert l. induction n as [|n IH]; intros l Hl; [lia|].
  destruct l as [|c r]; cbn [skipWs].
  - simpl. exists []. split; [reflexivity|]. split; [constructor|now left].
  - destruct (Nat.eqb_spec c chDollar) as [->|Hc].
    + destruct r as [|d r'].
      * simpl. exists []. split; [reflexivity|]. split; [constructor|]. right.
        exists dollar, []. split; [reflexivity|]. split; [apply graphic_dollar|auto].
      * destruct (Nat.eqb_spec d chOpen) as [->|Ho].
        -- pose proof (skipComment_ok (S (length r')) r' ltac:(lia)) as HC.
           destruct (skipComment (S (length r')) r') as [s|b| |] eqn:EC; cbn [rbind].
           ++ pose proof (skipComment_len _ _ _ EC) as Hlen. simpl in Hl.
              destruct HC as [(body & Hb & ->)|(-> & Hb)].
              ** replace (chDollar :: chOpen :: body ++ dollar :: 41 :: s)
                   with ((dollar :: 40 :: body ++ [dollar; 41]) ++ s)
                   by (simpl; rewrite <- app_assoc; reflexivity).
                 apply wsOutcome_cons; [intros; now constructor|]. apply IH. lia.
              ** destruct n; [simpl in Hl; lia|]. simpl.
                 exists (chDollar :: chOpen :: r'). split; [now rewrite app_nil_r|].
                 split; [|now left].
                 replace (chDollar :: chOpen :: r') with ((dollar :: 40 :: r') ++ []) by apply app_nil_r.
                 constructor; [now constructor|constructor].
           ++ contradiction.
           ++ destruct HC as (body & Hb & ->). simpl. exists [], body.
              split; [reflexivity|]. split; [exact Hb|constructor].
           ++ contradiction.
        -- destruct (Nat.eqb_spec d chBang) as [->|Hbang].
           ++ destruct (strchr chNL r') as [t|] eqn:E.
              ** destruct (strchr_some _ _ _ E) as (p & s & -> & -> & Hp).
                 replace (chDollar :: chBang :: p ++ chNL :: s)
                   with ((dollar :: 33 :: p ++ [10]) ++ s)
                   by (simpl; rewrite <- app_assoc; reflexivity).
                 apply wsOutcome_cons; [intros; now constructor|]. apply IH.
                 simpl in Hl. rewrite app_length in Hl. simpl in Hl. lia.
              ** apply strchr_none in E. simpl. split; [reflexivity|].
                 exists [], r'. split; [reflexivity|]. split; [exact E|constructor].
           ++ simpl. exists []. split; [reflexivity|]. split; [constructor|]. right.
              exists dollar, (d :: r'). split; [reflexivity|]. split; [apply graphic_dollar|].
              intros _. right. exists d, r'. auto.
    + destruct (isgraph c) eqn:Eg.
      * simpl. exists []. split; [reflexivity|]. split; [constructor|]. right.
        exists c, r. split; [reflexivity|]. split; [now apply isgraph_spec|].
        intros E. now elim Hc.
      * change (c :: r) with ([c] ++ r). apply wsOutcome_cons.
        -- intros. constructor. now apply isgraph_false.
        -- apply IH. simpl in Hl. lia.
Qed.

Lemma whiteSpace_ok l : wsOutcome l (whiteSpace l).
Proof. apply skipWs_ok. lia. Qed.

(* and the decomposition is unique: it determines the result *)
Lemma skipWs_blanks w s : blanks w s -> startsInk s ->
  forall n, length (w ++ s) < n -> skipWs n (w ++ s) = Ok s.
Proof.
  intros HB HS. induction HB as [rest|p q rest Hp HB IH]; intros n Hn.
  - destruct n as [|n]; [lia|]. simpl.
    destruct HS as [->|(c & r & -> & Hg & Hd)]; [reflexivity|].
    destruct (Nat.eqb_spec c chDollar) as [E|E].
    + destruct (Hd E) as [->|(d & r' & -> & H1 & H2)]; [reflexivity|].
      destruct (Nat.eqb_spec d chOpen); [now elim H1|].
      destruct (Nat.eqb_spec d chBang); [now elim H2|]. reflexivity.
    + apply isgraph_spec in Hg. now rewrite Hg.
  - specialize (IH HS). rewrite <- app_assoc in *. inversion Hp; subst.
    + destruct n as [|n]; [simpl in Hn; lia|]. simpl in Hn |- *.
      destruct (Nat.eqb_spec c chDollar) as [E|E].
      * exfalso. apply H. subst c. apply graphic_dollar.
      * apply isgraph_false in H. rewrite H. apply IH. lia.
    + destruct n as [|n]; [simpl in Hn; lia|].
      simpl in Hn. rewrite !app_length in Hn. simpl in Hn.
      change ((dollar :: 40 :: body ++ [dollar; 41]) ++ q ++ rest)
        with (chDollar :: chOpen :: (body ++ [dollar; 41]) ++ q ++ rest).
      rewrite <- app_assoc. cbn [skipWs]. rewrite !Nat.eqb_refl.
      set (l := body ++ [dollar; 41] ++ q ++ rest).
      pose proof (skipComment_ok (S (length l)) l ltac:(lia)) as HC.
      destruct (skipComment (S (length l)) l) as [s|b| |] eqn:EC; cbn [rbind].
      * destruct HC as [(b2 & Hb & E)|(-> & Hb)].
        -- unfold l in E. simpl in E. apply ct_close_unique in E; auto.
           destruct E as (_ & <-). apply IH. rewrite app_length. lia.
        -- exfalso. eapply (ct_not_close _ Hb body (q ++ rest)); [exact H|reflexivity].
      * contradiction.
      * destruct HC as (b2 & Hb & E). exfalso. unfold l in E. simpl in E. symmetry in E.
        exact (ct_end_close b2 Hb body (q ++ rest) H E).
      * contradiction.
    + destruct n as [|n]; [simpl in Hn; lia|].
      simpl in Hn. rewrite !app_length in Hn. simpl in Hn.
      change ((dollar :: 33 :: body ++ [10]) ++ q ++ rest)
        with (chDollar :: chBang :: (body ++ [10]) ++ q ++ rest).
      rewrite <- app_assoc. cbn [skipWs]. rewrite !Nat.eqb_refl.
      change (chBang =? chOpen) with false. cbn iota.
      change (body ++ [10] ++ q ++ rest) with (body ++ chNL :: (q ++ rest)).
      rewrite strchr_app by exact H. apply IH. rewrite app_length. lia.
    + assert (q = [] /\ rest = []) as [-> ->].
      { match goal with E : [] = q ++ rest |- _ => symmetry in E; apply app_eq_nil in E; exact E end. }
      destruct n as [|n]; [simpl in Hn; lia|]. simpl app in *. rewrite app_nil_r in *.
      change (dollar :: 40 :: body) with (chDollar :: chOpen :: body).
      cbn [skipWs]. rewrite !Nat.eqb_refl.
      pose proof (skipComment_ok (S (length body)) body ltac:(lia)) as HC.
      destruct (skipComment (S (length body)) body) as [s|b| |] eqn:EC; cbn [rbind].
      * destruct HC as [(b2 & Hb & E)|(-> & Hb)].
        -- exfalso. eapply (ct_not_close _ H1 b2); eauto.
        -- apply IH. simpl in Hn |- *. lia.
      * contradiction.
      * destruct HC as (b2 & Hb & E). exfalso. eapply (ct_not_end _ H1 b2); eauto.
      * contradiction.
Qed.
Lemma whiteSpace_blanks w s : blanks w s -> startsInk s -> whiteSpace (w ++ s) = Ok s.
Proof. intros H1 H2. unfold whiteSpace. apply skipWs_blanks; auto. Qed.

Lemma whiteSpace_ink s : startsInk s -> whiteSpace s = Ok s.
Proof. intros H. exact (whiteSpace_blanks [] s (bs_nil _) H). Qed.

(* tokens *)
Lemma digit_spec d : ((48 <=? d) && (d <=? 57)) = true <-> 48 <= d /\ d <= 57.
Proof. rewrite andb_true_iff, !Nat.leb_le. tauto. Qed.

Lemma tokenLen_ok : forall m l, length l <= m ->
  tokenLen l <= length l /\ tokenText (firstn (tokenLen l) l) /\ tokenEnds (skipn (tokenLen l) l).
Proof.
  induction m as [|m IH]; intros l Hl.
  - destruct l; [|simpl in Hl; lia]. simpl. repeat split; constructor.
  - destruct l as [|c r]; [simpl; repeat split; constructor|].
    cbn [tokenLen]. simpl in Hl. destruct (Nat.eqb_spec c chDollar) as [->|Hc].
    + destruct r as [|d r'].
      * simpl. split; [lia|]. split; [constructor|]. right. split; [reflexivity|exact I].
      * destruct (Nat.eqb d chDollar || ((48 <=? d) && (d <=? 57))) eqn:E.
        -- simpl in Hl. destruct (IH r' ltac:(lia)) as (H1 & H2 & H3).
           cbn [firstn skipn length]. split; [lia|]. split; [|exact H3].
           apply orb_true_iff in E. destruct E as [E|E].
           ++ apply Nat.eqb_eq in E. subst d. now apply tt_dollar.
           ++ apply tt_digit; [now apply digit_spec|exact H2].
        -- apply orb_false_iff in E. destruct E as [E1 E2]. apply Nat.eqb_neq in E1.
           cbn [firstn skipn length]. split; [lia|]. split; [constructor|].
           right. split; [reflexivity|]. split; [exact E1|].
           rewrite <- digit_spec. congruence.
    + destruct (isgraph c) eqn:Eg.
      * destruct (IH r ltac:(lia)) as (H1 & H2 & H3). cbn [firstn skipn length].
        split; [lia|]. split; [|exact H3]. apply tt_char; auto. now apply isgraph_spec.
      * cbn [firstn skipn length]. split; [lia|]. split; [constructor|]. left. now apply isgraph_false.
Qed.
Lemma tokenLen_unique t s : tokenText t -> tokenEnds s -> tokenLen (t ++ s) = length t.
Proof.
  induction 1 as [|c r Hg Hc Hr IH|r Hr IH|d r Hd Hr IH]; intros HS.
  - simpl. destruct s as [|c r]; [reflexivity|]. cbn [tokenLen].
    destruct HS as [Hn|(-> & Hd)].
    + destruct (Nat.eqb_spec c chDollar) as [E|E]; [exfalso; apply Hn; subst; apply graphic_dollar|].
      apply isgraph_false in Hn. now rewrite Hn.
    + change (dollar =? chDollar) with true. cbn iota. destruct r as [|d r]; [reflexivity|].
      destruct Hd as [H1 H2]. apply Nat.eqb_neq in H1. change chDollar with dollar. rewrite H1.
      destruct ((48 <=? d) && (d <=? 57)) eqn:E; [apply digit_spec in E; tauto|reflexivity].
  - cbn [app tokenLen length]. destruct (Nat.eqb_spec c chDollar); [now elim Hc|].
    apply isgraph_spec in Hg. rewrite Hg. f_equal; auto.
  - cbn [app tokenLen length]. change (dollar =? chDollar) with true. cbn [orb]. f_equal; f_equal; auto.
  - cbn [app tokenLen length]. change (dollar =? chDollar) with true. cbn iota.
    apply digit_spec in Hd. rewrite Hd, orb_true_r. f_equal; f_equal; auto.
Qed.

Lemma tokenText_graphic t : tokenText t -> Forall graphic t.
Proof.
  pose proof graphic_dollar as HD.
  induction 1; repeat (apply Forall_cons || apply Forall_nil); auto; unfold graphic; lia.
Qed.

(* proof tokens *)
Lemma proofSpecial_spec c : proofSpecial c = true <-> oneCharToken c.
Proof.
  unfold proofSpecial, oneCharToken. simpl. rewrite !orb_true_iff, !Nat.eqb_eq.
  unfold chColon, chQ, chOpen, chClose, chEq. intuition congruence.
Qed.
Lemma proofTokenGo_ok : forall m l, length l <= m ->
  proofTokenGo l <= length l /\
  plainText (firstn (proofTokenGo l) l) /\ plainEnds (skipn (proofTokenGo l) l).
Proof.
  induction m as [|m IH]; intros l Hl.
  - destruct l; [|simpl in Hl; lia]. simpl. repeat split; constructor.
  - destruct l as [|c r]; [simpl; repeat split; constructor|].
    cbn [proofTokenGo]. simpl in Hl. destruct (Nat.eqb_spec c chDollar) as [->|Hc].
    + destruct r as [|d r'].
      * simpl. split; [lia|]. split; [constructor|]. right; right. split; [reflexivity|exact I].
      * destruct (Nat.eqb_spec d chDollar) as [->|E].
        -- simpl in Hl. destruct (IH r' ltac:(lia)) as (H1 & H2 & H3).
           cbn [firstn skipn length]. split; [lia|]. split; [|exact H3]. now apply pt_dollar.
        -- cbn [firstn skipn length]. split; [lia|]. split; [constructor|].
           right; right. split; [reflexivity|exact E].
    + destruct (isgraph c) eqn:Eg; cbn [negb].
      * destruct (proofSpecial c) eqn:Es.
        -- cbn [firstn skipn length]. split; [lia|]. split; [constructor|].
           right; left. now apply proofSpecial_spec.
        -- destruct (IH r ltac:(lia)) as (H1 & H2 & H3). cbn [firstn skipn length].
           split; [lia|]. split; [|exact H3]. apply pt_char; auto; [now apply isgraph_spec|].
           rewrite <- proofSpecial_spec. congruence.
      * cbn [firstn skipn length]. split; [lia|]. split; [constructor|]. left. now apply isgraph_false.
Qed.
Lemma special_graphic c : oneCharToken c -> graphic c /\ c <> dollar.
Proof. unfold oneCharToken, graphic, dollar. simpl. lia. Qed.

Lemma proofTokenLen_ok l :
  match proofTokenLen l with
  | 0 => noProofToken l
  | k => k <= length l /\ proofToken (firstn k l) (skipn k l)
  end.
Proof.
  destruct l as [|c r]; [exact I|]. unfold proofTokenLen.
  destruct (proofSpecial c) eqn:Es.
  - apply proofSpecial_spec in Es. split; [simpl; lia|]. left. exists c. auto.
  - destruct (proofTokenGo_ok _ (c :: r) (le_n _)) as (H1 & H2 & H3).
    destruct (proofTokenGo (c :: r)) as [|k] eqn:E.
    + simpl in H3. destruct H3 as [H3|[H3|H3]]; [now left| |now right].
      apply proofSpecial_spec in H3. congruence.
    + split; [exact H1|]. right. split; [simpl; discriminate|]. auto.
Qed.

Lemma proofToken_len l t s : l = t ++ s -> proofToken t s -> proofTokenLen l = length t.
Proof.
  intros -> [(c & -> & Hc)|(Hne & Ht & Hs)].
  - simpl. apply proofSpecial_spec in Hc. now rewrite Hc.
  - assert (HG : proofTokenGo (t ++ s) = length t).
    { clear Hne. induction Ht as [|c r Hg Hd Hsp Hr IH|r Hr IH].
      - simpl. destruct s as [|c r]; [reflexivity|]. cbn [proofTokenGo].
        destruct Hs as [Hn|[Hn|(-> & Hd)]].
        + destruct (Nat.eqb_spec c chDollar) as [E|E]; [exfalso; apply Hn; subst; apply graphic_dollar|].
          apply isgraph_false in Hn. now rewrite Hn.
        + destruct (special_graphic _ Hn) as [Hg Hd]. apply Nat.eqb_neq in Hd.
          change chDollar with dollar. rewrite Hd. apply isgraph_spec in Hg. rewrite Hg.
          apply proofSpecial_spec in Hn. now rewrite Hn.
        + change (dollar =? chDollar) with true. cbn iota. destruct r as [|d r]; [reflexivity|].
          apply Nat.eqb_neq in Hd. change chDollar with dollar. now rewrite Hd.
      - cbn [app proofTokenGo length]. destruct (Nat.eqb_spec c chDollar); [now elim Hd|].
        apply isgraph_spec in Hg. rewrite Hg. cbn [negb].
        destruct (proofSpecial c) eqn:E; [apply proofSpecial_spec in E; tauto|]. f_equal; auto.
      - cbn [app proofTokenGo length]. change (dollar =? chDollar) with true. cbn iota.
        f_equal; f_equal; auto. }
    destruct t as [|c t]; [congruence|]. change ((c :: t) ++ s) with (c :: t ++ s) in *.
    unfold proofTokenLen. destruct (proofSpecial c) eqn:E; [|exact HG].
    apply proofSpecial_spec in E. inversion Ht; subst; [tauto|].
    destruct (special_graphic _ E) as [_ Hd]. now elim Hd.
Qed.

(* the loops *)
Lemma whiteSpace_split l s : whiteSpace l = Ok s ->
  exists w, l = w ++ s /\ blanks w s /\ startsInk s.
Proof. intros H. pose proof (whiteSpace_ok l) as HW. rewrite H in HW. exact HW. Qed.

Lemma proofTokens_ok n l ts e : proofTokens n l = Ok (ts, e) ->
  tokenised proofToken noProofToken l ts e.
Proof.
  revert l ts e. induction n as [|n IH]; intros l ts e H; [discriminate|].
  cbn [proofTokens] in H. pose proof (proofTokenLen_ok l) as HT.
  destruct (proofTokenLen l) as [|k] eqn:E.
  - injection H as <- <-. now constructor.
  - apply rbind_ok in H. destruct H as (s & Hs & H). apply rbind_ok in H.
    destruct H as ([ts' e'] & Hr & H). injection H as <- <-.
    destruct (whiteSpace_split _ _ Hs) as (w & Hw & HB & HI). destruct HT as [Hk HT].
    pattern l at 1. rewrite <- (firstn_skipn (S k) l), Hw. apply tk_tok; auto.
    now rewrite <- Hw.
Qed.
Lemma proofTokens_total n l : length l < n ->
  proofTokens n l <> Fuel.
Proof.
  revert l. induction n as [|n IH]; intros l Hl; [lia|].
  cbn [proofTokens]. pose proof (proofTokenLen_ok l) as HT.
  destruct (proofTokenLen l) as [|k] eqn:E; [discriminate|].
  pose proof (whiteSpace_ok (skipn (S k) l)) as HW.
  destruct (whiteSpace (skipn (S k) l)) as [s|b| |]; cbn [rbind]; try discriminate; try contradiction.
  destruct HW as (w & Hw & _ & _). destruct HT as [Hk _].
  assert (length s < n).
  { apply (f_equal (@length nat)) in Hw. rewrite skipn_length, app_length in Hw. lia. }
  specialize (IH s H). destruct (proofTokens n s) as [[ts e]|b| |]; cbn [rbind]; congruence.
Qed.

Lemma mathTokens_ok n l ts e : mathTokens n l = Ok (ts, e) ->
  exists w s, l = w ++ s /\ blanks w s /\ startsInk s /\
  tokenised mathToken tokenEnds s ts e.
Proof.
  revert l ts e. induction n as [|n IH]; intros l ts e H; [discriminate|].
  cbn [mathTokens] in H. apply rbind_ok in H. destruct H as (s & Hs & H).
  destruct (whiteSpace_split _ _ Hs) as (w & Hw & HB & HI). exists w, s.
  do 3 (split; [assumption|]).
  destruct (tokenLen_ok _ s (le_n _)) as (Hk & Ht & He).
  destruct (tokenLen s) as [|k] eqn:E.
  - injection H as <- <-. now constructor.
  - apply rbind_ok in H. destruct H as ([ts' e'] & Hr & H). injection H as <- <-.
    destruct (IH _ _ _ Hr) as (w' & s' & Hw' & HB' & HI' & HT).
    pattern s at 1. rewrite <- (firstn_skipn (S k) s), Hw'. apply tk_tok; auto.
    rewrite <- Hw'. split; [|auto]. destruct s; [simpl in Hk; lia|simpl; discriminate].
Qed.
Lemma mathTokens_total n l : length l < n -> mathTokens n l <> Fuel.
Proof.
  revert l. induction n as [|n IH]; intros l Hl; [lia|].
  cbn [mathTokens].
  pose proof (whiteSpace_ok l) as HW.
  destruct (whiteSpace l) as [s|b| |]; cbn [rbind]; try discriminate; try contradiction.
  destruct HW as (w & Hw & _ & _). destruct (tokenLen_ok _ s (le_n _)) as (Hk & Ht & He).
  destruct (tokenLen s) as [|k] eqn:E; [discriminate|].
  assert (length (skipn (S k) s) < n).
  { apply (f_equal (@length nat)) in Hw. rewrite app_length in Hw. rewrite skipn_length. lia. }
  specialize (IH _ H). destruct (mathTokens n _) as [[ts e]|b| |]; cbn [rbind]; congruence.
Qed.

(* uniqueness: a tokenised text determines the tokens *)
Lemma mathTokens_complete l ts e : tokenised mathToken tokenEnds l ts e ->
  startsInk l -> forall n, length ts < n -> mathTokens n l = Ok (ts, e).
Proof.
  induction 1 as [e He|t w s ts e Ht HB HI HT IH]; intros HS n Hn.
  - destruct n as [|n]; [lia|]. cbn [mathTokens].
    rewrite (whiteSpace_ink e HS). cbn [rbind].
    change e with ([] ++ e) at 1. rewrite (tokenLen_unique [] e tt_nil He). reflexivity.
  - destruct n as [|n]; [simpl in Hn; lia|]. cbn [mathTokens].
    rewrite (whiteSpace_ink _ HS). cbn [rbind].
    destruct Ht as (Hne & Ht & HE). rewrite (tokenLen_unique _ _ Ht HE).
    destruct (length t) as [|k] eqn:E; [destruct t; [congruence|discriminate]|].
    rewrite <- E, firstn_app, skipn_app, firstn_all, skipn_all, Nat.sub_diag.
    cbn [app firstn skipn]. rewrite app_nil_r.
    simpl in Hn. specialize (IH HI n ltac:(lia)).
    assert (HX : mathTokens n (w ++ s) = mathTokens n s).
    { destruct n; [reflexivity|]. cbn [mathTokens].
      rewrite (whiteSpace_blanks w s HB HI), (whiteSpace_ink s HI). reflexivity. }
    rewrite HX, IH. reflexivity.
Qed.
Lemma proofTokens_complete l ts e : tokenised proofToken noProofToken l ts e ->
  forall n, length ts < n -> proofTokens n l = Ok (ts, e).
Proof.
  induction 1 as [e He|t w s ts e Ht HB HI HT IH]; intros n Hn.
  - destruct n as [|n]; [lia|]. cbn [proofTokens].
    pose proof (proofTokenLen_ok e) as HL. destruct (proofTokenLen e) as [|k] eqn:E; [reflexivity|].
    exfalso. destruct e as [|c r]; [discriminate|]. destruct HL as [_ HP].
    destruct HP as [(c' & E' & Hc)|(Hne & Hp & _)].
    + simpl in E'. injection E' as <- _. destruct (special_graphic _ Hc) as [Hg Hd].
      destruct He as [He|(He & _)]; tauto.
    + simpl in Hp. inversion Hp; subst.
      * destruct He as [He|(He & _)]; tauto.
      * destruct r as [|d r]; [destruct k; discriminate|].
        destruct He as [He|(_ & He)]; [apply He, graphic_dollar|].
        destruct k; [discriminate|]. cbn [firstn] in *.
        match goal with H : dollar :: _ = d :: _ |- _ => injection H as <- _ end. tauto.
  - destruct n as [|n]; [simpl in Hn; lia|]. cbn [proofTokens].
    rewrite (proofToken_len _ _ _ eq_refl Ht).
    destruct (length t) as [|k] eqn:E.
    { destruct t; [|discriminate]. destruct Ht as [(c & Ec & _)|(Hne & _)]; [discriminate|congruence]. }
    rewrite <- E, firstn_app, skipn_app, firstn_all, skipn_all, Nat.sub_diag.
    cbn [app firstn skipn]. rewrite app_nil_r.
    simpl in Hn. rewrite (whiteSpace_blanks w s HB HI). cbn [rbind].
    rewrite (IH n ltac:(lia)). reflexivity.
Qed.
