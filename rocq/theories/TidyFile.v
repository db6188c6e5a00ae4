(* TidyFile.v -- readRawSource and parseKeywords report nothing exactly on tidy files. *)
From Verif Require Import Base TokModel LabModel SrcModel TokSpec SrcSpec TokProofs SrcProofs SrcQuiet SrcRaw SrcFinal TidySpec TidyRaw.
Open Scope nat_scope.

Definition stOf (prev : option nat) : before :=
  match prev with Some p => if isgraph p then Word else White | None => White end.
Lemma stOf_mark prev : stOf prev <> Mark.
Proof. destruct prev as [p|]; cbn; [destruct (isgraph p)|]; discriminate. Qed.
Lemma stOf_ink prev : inkOK prev -> stOf prev = White.
Proof. destruct prev as [p|]; cbn; [|reflexivity]. intros H. apply isgraph_false in H. now rewrite H. Qed.
Lemma stOf_graphic p : graphic p -> stOf (Some p) = Word.
Proof. intros H. cbn. apply isgraph_spec in H. now rewrite H. Qed.
Lemma okNG c : okChar c -> ~ graphic c -> space c.
Proof. intros [H|H] N; tauto. Qed.
Lemma tidy_ok b l : tidy b l -> forall c, In c l -> okChar c.
Proof.
  assert (GD : graphic dollar) by exact graphic_dollar.
  induction 1 as [b|b c r S T IH|b c r NB G N T IH|body r C T IH]; intros x Hx.
  - destruct Hx.
  - destruct Hx as [<-|Hx]; [right; exact S|auto].
  - destruct Hx as [<-|Hx]; [left; exact G|auto].
  - destruct Hx as [<-|[<-|Hx]]; [left; exact GD|left; unfold graphic; lia|]. apply in_app_or in Hx. destruct Hx as [Hx|[<-|[<-|Hx]]]; auto.
    + apply C. exact Hx.
    + left; exact GD.
    + left; unfold graphic; lia.
Qed.
Lemma tidy_mark l : tidy Word l -> headBlank l -> tidy Mark l.
Proof.
  intros T H. remember Word as b eqn:EB. destruct T as [b|b c r S T|b c r NB G N T|body r C T]; try discriminate.
  - constructor.
  - now constructor.
  - cbn in H. tauto.
Qed.
Lemma mark_head l : tidy Mark l -> headBlank l.
Proof. intros T. remember Mark as b eqn:EB. destruct T as [b|b c r S T|b c r NB G N T|body r C T]; cbn; auto; try congruence. now apply space_ng. Qed.
Lemma mark_word l : tidy Mark l -> tidy Word l.
Proof. intros T. remember Mark as b eqn:EB. destruct T as [b|b c r S T|b c r NB G N T|body r C T]; try congruence; now constructor. Qed.

Lemma body_text : forall n l, length l <= n -> noMark l -> l = [] \/ endsSpace l -> commentText l.
Proof.
  induction n as [|n IH]; intros l L M E; [destruct l; [constructor|cbn in L; lia]|]. destruct l as [|c l]; [constructor|].
  cbn in L. destruct E as [E|(x & r & E & S)]; [discriminate|]. destruct (Nat.eq_dec c dollar) as [->|N].
  - destruct l as [|d l].
    + exfalso. destruct r as [|y r]; cbn in E; [|destruct r; discriminate]. assert (x = dollar) by congruence. subst x. revert S. unfold space, dollar. lia.
    + apply ct_pair; [exact (proj2 (M [] d l eq_refl))|]. apply IH; [cbn in L; lia| |].
      * now apply noMark_tl, noMark_tl in M.
      * destruct r as [|y [|z r]]; cbn in E; [discriminate| |].
        -- left. congruence.
        -- right. exists x, r. split; [congruence|exact S].
  - apply ct_char; [exact N|]. apply IH; [lia|now apply noMark_tl in M|].
    destruct r as [|y r]; cbn in E; [left; congruence|]. right. exists x, r. split; [congruence|exact S].
Qed.
Lemma tidy_quiet b l : tidy b l -> quiet l.
Proof.
  induction 1 as [b|b c r S T IH|b c r NB G N T IH|body r C T IH].
  - constructor.
  - apply q_char; [|exact IH]. intros ->. revert S. unfold space, dollar. lia.
  - now apply q_char.
  - apply q_comment; [|exact IH]. destruct C as (C1 & C2 & C3 & C4). apply (body_text (length body)); auto.
Qed.

Lemma lastOf_last l : forall prev, l <> [] -> exists c r, l = r ++ [c] /\ lastOf prev l = Some c.
Proof.
  induction l as [|x l IH]; intros prev N; [congruence|]. destruct l as [|y l].
  - exists x, []. auto.
  - destruct (IH (Some x)) as (c & r & E1 & E2); [discriminate|]. exists c, (x :: r). split; [cbn; now rewrite E1|exact E2].
Qed.

Lemma tidy_sound l : quiet l -> forall prev rest, errs prev false (l ++ rest) = [] ->
  tidy (stOf prev) l /\ errs (lastOf prev l) false rest = [].
Proof.
  assert (GD : graphic dollar) by exact graphic_dollar.
  induction 1 as [|c r N Q IH|r Q IH|body r C Q IH]; intros prev rest H; cbn [app] in H.
  - split; [constructor|exact H].
  - apply errs_char in H; [|exact N]. destruct H as [HC H]. destruct (IH _ _ H) as [T E]. split; [|exact E].
    destruct (isgraph c) eqn:G.
    + apply isgraph_spec in G. rewrite (stOf_graphic c G) in T. apply td_char; auto. apply stOf_mark.
    + apply isgraph_false in G. rewrite (stOf_ink (Some c) G) in T. apply td_space; [now apply okNG|exact T].
  - exfalso. rewrite errs_dollar, !app_nil_iff in H. destruct H as (_ & _ & _ & H).
    cbn [e3 nth_error snd] in H. change (dollar =? chOpen) with false in H. change (dollar =? chClose) with false in H.
    change (dollar =? chLB) with false in H. change (dollar =? chRB) with false in H. cbn [snd] in H.
    rewrite errs_dollar, !app_nil_iff in H. destruct H as (H & _). unfold e1 in H.
    apply isgraph_spec in GD. rewrite GD in H. cbn in H. discriminate.
  - rewrite <- app_assoc in H. cbn [app] in H. apply errs_open in H. destruct H as (H1 & H2 & H3).
    destruct (body_sound body C _ _ H3) as (B1 & B2 & B3 & B4 & B5). destruct (IH _ _ B5) as [T E].
    rewrite (stOf_graphic 41) in T by (unfold graphic; lia). rewrite (stOf_ink prev H1). split.
    + apply td_comment.
      * assert (NE : body <> []).
        { intros ->. cbn in H2. tauto. }
        split; [exact B1|]. split; [exact B2|]. split.
        -- destruct body as [|c body]; [congruence|]. cbn in H2. exists c, body. split; [reflexivity|]. apply okNG; [apply B1; now left|exact H2].
        -- destruct (lastOf_last body (Some 40) NE) as (c & r' & E1 & E2). rewrite E2 in B3. exists c, r'. split; [exact E1|].
           apply okNG; [apply B1; rewrite E1; apply in_or_app; right; now left|exact B3].
      * apply tidy_mark; [exact T|]. destruct r; [exact I|exact B4].
    + cbn [lastOf]. rewrite lastOf_app2. exact E.
Qed.
Lemma ends_tl c r : endsSpace (c :: r) -> r = [] \/ endsSpace r.
Proof. intros (x & l & E & S). destruct l as [|y l]; cbn in E; injection E as -> ->; [now left|]. right. exists x, l. auto. Qed.
Lemma tidy_complete b l : tidy b l -> forall prev rest, (b = White -> inkOK prev) -> l = [] \/ endsSpace l \/ rest = [] ->
  errs (lastOf prev l) false rest = [] -> errs prev false (l ++ rest) = [].
Proof.
  induction 1 as [b|b c r S T IH|b c r NB G N T IH|body r C T IH]; intros prev rest HB HE H; cbn [app].
  - exact H.
  - apply errs_char; [intros ->; revert S; unfold space, dollar; lia|]. split; [now right|]. apply IH; auto.
    + intros _. now apply space_ng.
    + destruct HE as [HE|[HE|HE]]; [discriminate| |auto]. apply ends_tl in HE. tauto.
  - apply errs_char; [exact N|]. split; [now left|]. apply IH; auto; [discriminate|].
    destruct HE as [HE|[HE|HE]]; [discriminate| |auto]. apply ends_tl in HE. tauto.
  - rewrite <- app_assoc. cbn [app]. destruct C as (C1 & C2 & (c & b' & C3 & C3') & C4). apply errs_open. split; [auto|].
    split; [rewrite C3; cbn; now apply space_ng|].
    assert (HE' : r = [] /\ rest = [] \/ r <> [] /\ (endsSpace r \/ rest = [])).
    { destruct r as [|y r].
      - left. split; [reflexivity|]. destruct HE as [HE|[(x & q & HE & HS)|HE]]; [discriminate| |exact HE]. exfalso.
        change (dollar :: 40 :: body ++ [dollar; 41]) with ((dollar :: 40 :: body) ++ [dollar; 41]) in HE.
        replace ((dollar :: 40 :: body) ++ [dollar; 41]) with (((dollar :: 40 :: body) ++ [dollar]) ++ [41]) in HE by (now rewrite <- app_assoc).
        apply app_inj_tail in HE. destruct HE as [_ <-]. revert HS. unfold space. lia.
      - right. split; [discriminate|]. destruct HE as [HE|[(x & q & HE & HS)|HE]]; [discriminate| |now right]. left.
        assert (NE : y :: r <> []) by discriminate. destruct (lastOf_last _ None NE) as (z & q' & E1 & _). exists z, q'. split; [exact E1|].
        rewrite E1 in HE.
        replace (dollar :: 40 :: body ++ dollar :: 41 :: q' ++ [z]) with ((dollar :: 40 :: body ++ dollar :: 41 :: q') ++ [z]) in HE
          by (cbn; now rewrite <- app_assoc).
        apply app_inj_tail in HE. destruct HE as [_ ->]. exact HS. }
    apply body_complete; auto.
    + destruct HE' as [[-> ->]|[NR _]]; [exact I|]. destruct r as [|y r]; [congruence|]. exact (mark_head _ T).
    + apply IH; [discriminate| |].
      * destruct HE' as [[-> _]|[_ [Q|Q]]]; auto.
      * cbn [lastOf] in H. rewrite lastOf_app2 in H. exact H.
Qed.

(* ---- keywords ---- *)
Definition key (d : nat) : Prop := d <> 40 /\ d <> 41 /\ d <> 91 /\ d <> 93 /\ graphic d /\ d <> dollar.
Lemma key_letter k : key (letter k).
Proof. unfold key, graphic, dollar. destruct k; cbn; lia. Qed.
Lemma key_eq : key 61. Proof. unfold key, graphic, dollar; lia. Qed.
Lemma key_dot : key 46. Proof. unfold key, graphic, dollar; lia. Qed.
Lemma ends_ink prev l : endsSpace l -> inkOK (lastOf prev l).
Proof. intros (c & r & -> & S). rewrite lastOf_app. now apply space_ng. Qed.
Lemma tidy_ends b l prev : tidy b l -> l <> [] -> inkOK (lastOf prev l) -> endsSpace l.
Proof.
  intros T N I. destruct (lastOf_last l prev N) as (c & r & E1 & E2). rewrite E2 in I. exists c, r. split; [exact E1|].
  apply okNG; [|exact I]. apply (tidy_ok b l T). rewrite E1. apply in_or_app. right. now left.
Qed.
Definition clean (k : nat) (l : list nat) : Prop := errs (Some k) false l = [] /\ headBlank l.
Lemma seg_iff l d rest k : quiet l -> key d -> graphic k ->
  (clean k (l ++ dollar :: d :: rest) <-> inner l /\ clean d rest).
Proof.
  intros Q (K1 & K2 & K3 & K4 & K5 & K6) G. unfold clean, inner. split.
  - intros [H HB]. destruct (tidy_sound l Q _ _ H) as [T E]. rewrite (stOf_graphic k G) in T. apply errs_key in E; auto. destruct E as (E1 & E2 & E3).
    assert (NL : l <> []) by (intros ->; cbn in HB; apply HB; exact graphic_dollar).
    split; [|auto]. split; [apply tidy_mark; [exact T|destruct l; [exact I|exact HB]]|]. eapply tidy_ends; eauto.
  - intros [[T E] [E3 E2]]. split.
    + apply (tidy_complete Mark l T); [discriminate|auto|]. apply errs_key; auto. split; [now apply ends_ink|]. auto.
    + destruct E as (c & r & -> & S). destruct (r ++ [c]) eqn:EE; [destruct r; discriminate|]. exact (mark_head _ T).
Qed.
Lemma item_iff i rest k : itemOK i -> quietItem i -> graphic k ->
  (clean k (itemText i ++ rest) <-> (inner (it_lab i) /\ tidyItem i) /\
     clean (match it_kind i with K_lb | K_rb => letter (it_kind i) | _ => 46 end) rest).
Proof.
  intros IO (QL & QM & QP) G. unfold itemText, itemOK, tidyItem in *. rewrite <- app_assoc. cbn [app].
  assert (KG : forall kk, graphic (letter kk)) by (intros kk; apply key_letter). pose proof key_dot. pose proof key_eq.
  destruct (it_kind i) eqn:EK; repeat (cbn [app]; rewrite <- ?app_assoc); cbn [app].
  all: rewrite seg_iff by (auto; apply key_letter).
  all: rewrite ?seg_iff by (auto; try apply KG; unfold graphic; lia).
  all: tauto.
Qed.
Lemma tail_iff tail k : quiet tail -> graphic k -> (clean k tail <-> tidy Mark tail).
Proof.
  intros Q G. unfold clean. split.
  - intros [H HB]. rewrite <- (app_nil_r tail) in H. destruct (tidy_sound tail Q _ _ H) as [T _]. rewrite (stOf_graphic k G) in T. now apply tidy_mark.
  - intros T. split; [|now apply mark_head]. rewrite <- (app_nil_r tail). apply (tidy_complete Mark tail T); [discriminate|auto|reflexivity].
Qed.
Lemma items_iff tail : quiet tail -> forall items k, Forall itemOK items -> Forall quietItem items -> graphic k ->
  (clean k (flat_map itemText items ++ tail) <-> Forall (fun j => inner (it_lab j) /\ tidyItem j) items /\ tidy Mark tail).
Proof.
  intros QT. induction items as [|i items IH]; intros k IO QI G; cbn [flat_map app].
  - rewrite (tail_iff tail k QT G). split; [intros T; split; [constructor|exact T]|tauto].
  - inversion IO; subst. inversion QI; subst. rewrite <- app_assoc, (item_iff i _ k) by auto. rewrite IH; auto.
    + rewrite Forall_cons_iff. tauto.
    + destruct (it_kind i); unfold graphic; cbn; lia.
Qed.
Lemma first_iff l d rest : quiet l -> key d ->
  (errs None false (l ++ dollar :: d :: rest) = [] <-> (l = [] \/ tidy White l /\ endsSpace l) /\ clean d rest).
Proof.
  intros Q (K1 & K2 & K3 & K4 & K5 & K6). unfold clean. split.
  - intros H. destruct (tidy_sound l Q _ _ H) as [T E]. apply errs_key in E; auto. destruct E as (E1 & E2 & E3).
    split; [|auto]. destruct l as [|c l]; [now left|]. right. split; [exact T|]. eapply tidy_ends; eauto. discriminate.
  - intros [[->|[T E]] [E3 E2]].
    + cbn [app]. apply errs_key; auto. split; [exact I|auto].
    + apply (tidy_complete White l T); [intros _; exact I|auto|]. apply errs_key; auto. split; [now apply ends_ink|auto].
Qed.
Lemma raw_iff items tail : Forall itemOK items -> Forall quietItem items -> quiet tail ->
  (fst (readRaw (sourceText items tail)) = [] <-> tidyFile items tail).
Proof.
  intros IO QI QT. unfold readRaw, sourceText, tidyFile. fold (errs None false (flat_map itemText items ++ tail)).
  destruct items as [|i items]; cbn [flat_map app].
  - split.
    + intros H. rewrite <- (app_nil_r tail) in H. exact (proj1 (tidy_sound tail QT None [] H)).
    + intros T. rewrite <- (app_nil_r tail). apply (tidy_complete White tail T); [intros _; exact I|auto|reflexivity].
  - inversion IO; subst. inversion QI as [|? ? (QL & QM & QP) QI']; subst.
    assert (KG : forall kk, graphic (letter kk)) by (intros kk; apply key_letter). pose proof key_dot. pose proof key_eq.
    unfold itemText at 1. unfold itemOK, tidyItem in *. rewrite <- !app_assoc. cbn [app]. rewrite first_iff by (auto; apply key_letter).
    destruct (it_kind i) eqn:EK; repeat (cbn [app]; rewrite <- ?app_assoc); cbn [app].
    all: rewrite ?seg_iff by (auto; try apply KG; unfold graphic; lia).
    all: rewrite (items_iff tail QT) by (auto; try apply KG; unfold graphic; lia).
    all: tauto.
Qed.

Lemma inner_quiet l : inner l -> quiet l. Proof. intros [T _]. eapply tidy_quiet; eauto. Qed.
Lemma tidyItem_ok i : tidyItem i -> itemOK i /\ quiet (it_math i) /\ quiet (it_proof i).
Proof.
  unfold tidyItem, itemOK. intros H. destruct (it_kind i); destruct H as [A B]; try (rewrite A); try (rewrite B);
    repeat split; try (now apply inner_quiet); constructor.
Qed.
Lemma tidyFile_ok items tail : tidyFile items tail -> Forall itemOK items /\ Forall quietItem items /\ quiet tail.
Proof.
  unfold tidyFile. destruct items as [|i items].
  - intros T. split; [constructor|]. split; [constructor|]. eapply tidy_quiet; eauto.
  - intros (L & TI & F & T). assert (QT : quiet tail) by (eapply tidy_quiet; eauto). destruct (tidyItem_ok i TI) as (A & B & C).
    assert (QL : quiet (it_lab i)) by (destruct L as [->|[L _]]; [constructor|eapply tidy_quiet; eauto]).
    split; [|split; [|exact QT]]; constructor; auto; try (split; auto); rewrite Forall_forall in *; intros j Hj; destruct (F j Hj) as [I J];
      destruct (tidyItem_ok j J) as (A' & B' & C'); auto. split; [now apply inner_quiet|auto].
Qed.
Lemma source_complete items tail : tidyFile items tail ->
  exists st dummy, readSource (sourceText items tail) = Ok ([], [], st, dummy) /\
    map (toItem (sourceText items tail)) st = items /\ secText (sourceText items tail) dummy = tail.
Proof.
  intros TF. destruct (tidyFile_ok _ _ TF) as (H1 & H2 & H3). pose proof (proj2 (raw_iff items tail H1 H2 H3) TF) as ER.
  set (src := sourceText items tail) in *.
  destruct (parse_room src (or_introl ER)) as (st & dummy & ks & HP).
  pose (room := snd (readRaw src) + 3).
  destruct (parse_complete (S (S (length items)) + room) items tail H1 H2 H3 ltac:(lia)) as (st' & d' & HC & HM & HT).
  fold src in HC, HM, HT.
  assert (E : parseKeywords (snd (readRaw src) + 3) src = Ok (st', d', [])).
  { pose proof (mono_room _ _ _ _ HP (S (S (length items)) + room) ltac:(unfold room; lia)) as E2.
    rewrite E2 in HC. rewrite HP. exact HC. }
  unfold readSource. destruct (readRaw src) as [es n]. cbn [fst snd] in *. subst es.
  exists st', d'. rewrite E. cbn [rbind]. auto.
Qed.
Lemma source_sound src st dummy : readSource src = Ok ([], [], st, dummy) ->
  exists items tail, src = sourceText items tail /\ tidyFile items tail /\ map (toItem src) st = items /\ secText src dummy = tail.
Proof.
  intros H. destruct (c48_error_free_source _ _ _ H) as (items & tail & E & NE & QT & E1 & E2). exists items, tail.
  split; [exact E|]. split; [|auto]. apply raw_iff; auto.
  - eapply Forall_impl; [|exact NE]. now intros a (A & _).
  - eapply Forall_impl; [|exact NE]. now intros a (_ & A & _).
  - rewrite <- E. unfold readSource in H. destruct (readRaw src) as [es n]. cbn. apply rbind_ok in H. destruct H as ([[a b] c] & _ & H).
    apply Ok_inj in H. congruence.
Qed.
