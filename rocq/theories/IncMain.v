(* IncMain.v -- the text produced: its words, and reading it again. *)
From Verif Require Import Base TokSpec TokModel TokProofs SrcModel CmdModel IncModel IncSpec IncProofs IncLoop IncRun.
Open Scope nat_scope.

(* ---------------- comments written by the program ---------------- *)
Lemma noClose_cons c x : noClose x -> (c = dollar -> nth 0 x 0 <> 41) -> noClose (c :: x).
Proof.
  intros N D a b E. destruct a as [|y a]; cbn [app tClose] in E.
  - injection E as -> ->. now apply D.
  - injection E as _ ->. exact (N a b eq_refl).
Qed.
Lemma noClose_app a b : noClose a -> noClose b -> (forall x, a <> x ++ [dollar]) -> noClose (a ++ b).
Proof.
  intros A B D. induction a as [|c a IH]; [exact B|]. cbn [app]. apply noClose_cons.
  - apply IH; [exact (noClose_tl _ _ A)|]. intros x ->. apply (D (c :: x)). reflexivity.
  - intros ->. destruct a as [|d a].
    + exfalso. now apply (D []).
    + cbn [app nth]. intros ->. exact (A [] a eq_refl).
Qed.
Lemma noClose_nodollar x : ~ In dollar x -> noClose x.
Proof. intros N a b ->. apply N. apply in_app_iff. right. now left. Qed.
Lemma last_neq x (y : nat) a d : y <> d -> a ++ [y] <> x ++ [d].
Proof. intros N E. apply app_inj_tail in E. destruct E; contradiction. Qed.
Lemma written_mark key n : In key keys -> fileName n ->
  exists b, written key n = comment b /\ mark key n b /\ body b.
Proof.
  intros Ky Fn. exists (sp ++ key ++ sp ++ tLB ++ sp ++ n ++ sp ++ tRB ++ sp). split; [reflexivity|].
  assert (Sp : whites sp) by (split; [discriminate|repeat constructor; cbv; lia]).
  split; [exists sp, sp, sp, sp, sp; repeat (split; [assumption|]); reflexivity|].
  split; [exists 32; eexists; split; [reflexivity|cbv; lia]|].
  split; [exists 32, (sp ++ key ++ sp ++ tLB ++ sp ++ n ++ sp ++ tRB); split; [now rewrite <- !app_assoc|cbv; lia]|].
  change (noClose (sp ++ key ++ sp ++ tLB ++ sp ++ n ++ sp ++ tRB ++ sp)).
  assert (Nk : ~ In dollar key).
  { destruct Ky as [<-|[<-|[<-|[]]]]; intros X; repeat (destruct X as [X|X]; [discriminate|]); destruct X. }
  assert (Nf : ~ In dollar n) by apply Fn.
  assert (E : forall x, ~ In dollar x -> forall y, x <> y ++ [dollar]).
  { intros x Nx y ->. apply Nx, in_app_iff. right. now left. }
  assert (Ns : ~ In dollar sp) by (intros [X|[]]; discriminate).
  repeat (apply noClose_app; [| |now apply E]; [now apply noClose_nodollar|]). 
  apply (noClose_app tLB).
  { apply noClose_cons; [apply noClose_nodollar; intros [X|[]]; discriminate|discriminate]. }
  2: { intros x. exact (last_neq x 91 [dollar] dollar ltac:(discriminate)). }
  repeat (apply noClose_app; [| |now apply E]; [now apply noClose_nodollar|]).
  apply (noClose_app tRB).
  { apply noClose_cons; [apply noClose_nodollar; intros [X|[]]; discriminate|discriminate]. }
  2: { intros x. exact (last_neq x 93 [dollar] dollar ltac:(discriminate)). }
  now apply noClose_nodollar.
Qed.

(* ---------------- joining texts ---------------- *)
Lemma Flat_app a wa b wb : Flat a wa -> joinOK a b -> Flat b wb -> Flat (a ++ b) (wa ++ wb).
Proof.
  intros A J B. induction A as [|c r ws G A IH|w r ws W No Nl En A IH|bd r ws Bd En A IH]; cbn [app].
  - exact B.
  - apply fl_white; [exact G|]. apply IH. exact (join_white _ _ _ J).
  - destruct (join_step w r b J (lastG_word w W) En) as [J1 J2]. rewrite <- app_assoc. apply fl_word; auto.
  - destruct (join_step _ r b J (lastG_comment bd) En) as [J1 J2]. rewrite <- app_assoc. apply fl_comment; auto.
Qed.
Lemma Ends_app a ea b eb : Ends a ea -> joinOK a b -> Ends b eb -> Ends (a ++ b) (ea ++ eb).
Proof.
  intros A J B. induction A as [|c r ws G A IH|w r ws W No En A IH|bd r ws P En A IH|key nm bd r es Ky M Bd En A IH|nm bd r es M Bd En A IH]; cbn [app].
  - exact B.
  - apply en_white; [exact G|]. apply IH. exact (join_white _ _ _ J).
  - destruct (join_step w r b J (lastG_word w W) En) as [J1 J2]. rewrite <- app_assoc. apply en_word; auto.
  - destruct (join_step _ r b J (lastG_comment bd) En) as [J1 J2]. rewrite <- app_assoc. apply en_plain; auto.
  - destruct (join_step _ r b J (lastG_comment bd) En) as [J1 J2]. rewrite <- app_assoc. apply (en_mark key nm); auto.
  - destruct (join_step _ r b J (lastG_comment bd) En) as [J1 J2]. rewrite <- app_assoc. apply en_end; auto.
Qed.

Section M.
Variable main : list nat.
Variable file : list nat -> list nat -> Prop.
Notation Expands := (Expands main file).

Definition endsW (t : list nat) : Prop := exists x d, t = x ++ [d] /\ ~ graphic d.
Lemma endsW_app w r : lastG w -> endsW (w ++ r) -> endsW r.
Proof.
  intros (x & d & -> & G) (y & e & E & Ge). destruct r as [|a r] using rev_ind.
  - rewrite app_nil_r in E. apply app_inj_tail in E. destruct E as [_ <-]. contradiction.
  - clear IHr. rewrite app_assoc in E. apply app_inj_tail in E. destruct E as [_ <-]. now exists r, a.
Qed.
Lemma endsW_pre a b : endsW b -> endsW (a ++ b).
Proof. intros (x & d & -> & G). exists (a ++ x), d. now rewrite app_assoc. Qed.
Lemma lastG_command n cmd : command n cmd -> lastG cmd.
Proof. intros (s1 & s2 & _ & _ & _ & ->). exists (tLB ++ s1 ++ n ++ s2 ++ [dollar]), 93. split; [now rewrite <- !app_assoc|split; lia]. Qed.
Lemma lastG_region n reg inner : region n reg inner -> lastG reg.
Proof.
  intros (b1 & c & b2 & es & _ & _ & _ & _ & _ & _ & _ & _ & ->).
  destruct (lastG_comment b2) as (x & d & E & G). exists (comment b1 ++ c :: inner ++ x), d. split; [|exact G].
  rewrite E, <- !app_assoc. cbn [app]. now rewrite <- app_assoc.
Qed.
Lemma headG_nil {A} (w r : list A) : w <> [] -> w ++ r <> [].
Proof. intros N E. apply app_eq_nil in E. now destruct E. Qed.
Lemma lastG_ne w : lastG w -> w <> [].
Proof. intros (x & d & -> & _) E. destruct x; discriminate. Qed.
Lemma first_lastG n cmd : command n cmd \/ (exists b, mark tSkip n b /\ body b /\ cmd = comment b) -> lastG cmd.
Proof. intros [C|(b & _ & _ & ->)]; [exact (lastG_command n cmd C)|apply lastG_comment]. Qed.
(* a text starting with a graphic character *)
Definition headG (w : list nat) : Prop := exists d x, w = d :: x /\ graphic d.
Lemma headG_ended w r : headG w -> ~ ended (w ++ r).
Proof. intros (d & x & -> & G) [E|(c & y & E & N)]; [discriminate|]. injection E as -> _. contradiction. Qed.
Lemma headG_comment b : headG (comment b).
Proof. exists dollar, (40 :: b ++ tClose). split; [reflexivity|exact graphic_dollar]. Qed.
Lemma headG_first n cmd : command n cmd \/ (exists b, mark tSkip n b /\ body b /\ cmd = comment b) -> headG cmd.
Proof.
  intros [(s1 & s2 & _ & _ & _ & ->)|(b & _ & _ & ->)]; [|apply headG_comment].
  exists dollar, (91 :: s1 ++ n ++ s2 ++ tRB). split; [reflexivity|exact graphic_dollar].
Qed.
Lemma headG_region n reg inner : region n reg inner -> headG reg.
Proof.
  intros (b1 & c & b2 & es & _ & _ & _ & _ & _ & _ & _ & _ & ->).
  destruct (headG_comment b1) as (d & x & -> & G). eexists d, _. split; [reflexivity|exact G].
Qed.
Lemma headG_word w : word w -> headG w.
Proof. intros [N F]. destruct w as [|d w]; [easy|]. inversion F; subst. now exists d, w. Qed.

Lemma expands_ended open seen t out ws seen' : Expands open seen t out ws seen' -> ended t -> ended out.
Proof.
  intros X En. destruct X.
  - now left.
  - now apply ended_cons.
  - exfalso. now apply (headG_ended w r (headG_word w H)).
  - exfalso. now apply (headG_ended _ r (headG_comment b)).
  - exfalso. now apply (headG_ended _ r (headG_first n cmd H)).
  - exfalso. now apply (headG_ended _ r (headG_first n cmd (or_introl H))).
  - exfalso. now apply (headG_ended _ r (headG_comment b)).
  - exfalso. now apply (headG_ended _ r (headG_region n reg inner H)).
  - exfalso. now apply (headG_ended _ r (headG_region n reg inner H)).
Qed.
Lemma expands_nil open seen out ws seen' : Expands open seen [] out ws seen' -> out = [] /\ ws = [] /\ seen' = seen.
Proof.
  intros X. remember [] as t eqn:Et.
  assert (NG : forall w r : list nat, w <> [] -> w ++ r = [] -> False) by (intros w r N E; apply app_eq_nil in E; tauto).
  destruct X; auto; exfalso.
  - discriminate.
  - destruct H as [N _]. exact (NG _ _ N Et).
  - exact (NG (comment b) r ltac:(discriminate) Et).
  - exact (NG _ _ (lastG_ne _ (first_lastG _ _ H)) Et).
  - exact (NG _ _ (lastG_ne _ (lastG_command _ _ H)) Et).
  - exact (NG (comment b) r ltac:(discriminate) Et).
  - exact (NG _ _ (lastG_ne _ (lastG_region _ _ _ H)) Et).
  - exact (NG _ _ (lastG_ne _ (lastG_region _ _ _ H)) Et).
Qed.
Lemma expands_endsW open seen t out ws seen' : Expands open seen t out ws seen' -> endsW t -> endsW out.
Proof.
  intros X. induction X as [open seen|open seen c r o ws seen' G X IH|open seen w r o ws seen' W No Nl En X IH|open seen b r o ws seen' P En X IH
    |open seen n cmd t o1 ws1 seen1 r o2 ws2 seen2 C Nm Ns Fl Wt En X1 IH1 X2 IH2|open seen n cmd r o ws seen' C Nm Ns En X IH
    |open seen n b r o ws seen' M B Nm Ns En X IH|open seen n reg inner ws1 seen1 r o2 ws2 seen2 Rg Nm Ns En X1 IH1 X2 IH2
    |open seen n reg inner r o ws seen' Rg Nm Ns No En X IH]; intros E.
  - exact E.
  - destruct r as [|d r].
    + destruct (expands_nil _ _ _ _ _ X) as (-> & _).
      now exists [], c.
    + apply (endsW_pre [c]), IH. destruct E as (x & e & E & Ge). destruct x as [|y x]; [discriminate|]. injection E as -> E. now exists x, e.
  - apply endsW_pre, IH. exact (endsW_app w r (lastG_word w W) E).
  - apply endsW_pre, IH. exact (endsW_app _ r (lastG_comment b) E).
  - apply endsW_pre. apply (endsW_pre [10]), endsW_pre, endsW_pre, IH2. exact (endsW_app cmd r (first_lastG n cmd C) E).
  - apply endsW_pre, IH. exact (endsW_app cmd r (lastG_command n cmd C) E).
  - apply endsW_pre, IH. exact (endsW_app _ r (lastG_comment b) E).
  - apply endsW_pre, IH2. exact (endsW_app reg r (lastG_region n reg inner Rg) E).
  - apply endsW_pre, IH. exact (endsW_app reg r (lastG_region n reg inner Rg) E).
Qed.
Lemma expands_join open seen t out ws seen' r : Expands open seen t out ws seen' ->
  (t = [] \/ exists d x, t = x ++ [d] /\ ~ graphic d) -> joinOK out r.
Proof.
  intros X [->|(d & x & E & G)].
  - left. now destruct (expands_nil _ _ _ _ _ X).
  - right; left. destruct (expands_endsW _ _ _ _ _ _ X) as (y & e & -> & Ge); [now exists x, d|]. now exists e, y.
Qed.
Lemma expands_incl open seen t out ws seen' : Expands open seen t out ws seen' -> forall n, In n seen -> In n seen'.
Proof. intros X. induction X; intros m H'; auto. - apply IHX2, IHX1. now right. - apply IHX2, IHX1. now right. Qed.
Lemma command_name n cmd : command n cmd \/ (exists b, mark tSkip n b /\ body b /\ cmd = comment b) -> fileName n.
Proof. intros [(s1 & s2 & _ & _ & F & _)|(b & (s1 & s2 & s3 & s4 & s5 & _ & _ & _ & _ & _ & F & _) & _)]; exact F. Qed.
Lemma mark_name key n b : mark key n b -> fileName n.
Proof. intros (s1 & s2 & s3 & s4 & s5 & _ & _ & _ & _ & _ & F & _). exact F. Qed.
Lemma region_name n reg inner : region n reg inner -> fileName n.
Proof. intros (b1 & c & b2 & es & M & _). exact (mark_name _ _ _ M). Qed.

Lemma expands_flat open seen t out ws seen' : Expands open seen t out ws seen' -> Flat out ws.
Proof.
  intros X. induction X as [open seen|open seen c r o ws seen' G X IH|open seen w r o ws seen' W No Nl En X IH|open seen b r o ws seen' P En X IH
    |open seen n cmd t o1 ws1 seen1 r o2 ws2 seen2 C Nm Ns Fl Wt En X1 IH1 X2 IH2|open seen n cmd r o ws seen' C Nm Ns En X IH
    |open seen n b r o ws seen' M B Nm Ns En X IH|open seen n reg inner ws1 seen1 r o2 ws2 seen2 Rg Nm Ns En X1 IH1 X2 IH2
    |open seen n reg inner r o ws seen' Rg Nm Ns No En X IH].
  - constructor.
  - now apply fl_white.
  - apply fl_word; auto. exact (expands_ended _ _ _ _ _ _ X En).
  - apply fl_comment; [apply P| |exact IH]. exact (expands_ended _ _ _ _ _ _ X En).
  - pose proof (expands_ended _ _ _ _ _ _ X2 En) as En2. pose proof (command_name n cmd C) as Fn.
    destruct (written_mark tBegin n) as (b1 & -> & M1 & B1); [cbn; tauto|exact Fn|].
    destruct (written_mark tEnd n) as (b2 & -> & M2 & B2); [cbn; tauto|exact Fn|].
    apply fl_comment; [exact B1|apply ended_cons; cbv; lia|]. apply fl_white; [cbv; lia|]. apply Flat_app; [exact IH1|exact (expands_join _ _ _ _ _ _ _ X1 Wt)|].
    apply fl_comment; assumption.
  - destruct (written_mark tSkip n) as (b1 & -> & M1 & B1); [cbn; tauto|exact (command_name n cmd (or_introl C))|].
    apply fl_comment; [exact B1| |exact IH]. exact (expands_ended _ _ _ _ _ _ X En).
  - apply fl_comment; [exact B| |exact IH]. exact (expands_ended _ _ _ _ _ _ X En).
  - pose proof (expands_ended _ _ _ _ _ _ X2 En) as En2.
    destruct Rg as (b1 & c & b2 & es & M1 & B1 & G & M2 & B2 & E & Nb & T & ->).
    rewrite <- app_assoc. cbn [app]. rewrite <- app_assoc. apply fl_comment; [exact B1|now apply ended_cons|]. apply fl_white; [exact G|].
    apply Flat_app; [exact IH1|destruct T as [T|T]; [now left|right; left; exact T]|]. apply fl_comment; assumption.
  - destruct (written_mark tSkip n) as (b1 & -> & M1 & B1); [cbn; tauto|exact (region_name n reg inner Rg)|].
    apply fl_comment; [exact B1| |exact IH]. exact (expands_ended _ _ _ _ _ _ X En).
Qed.
End M.

(* ---------------- reading the result again ---------------- *)
Lemma expands_again main file open seen t out ws seen' : Expands main file open seen t out ws seen' ->
  (forall m n, In m seen' -> In n seen' -> begins m n -> m = n) ->
  (forall file' open', Expands main file' open' seen out out ws seen') /\
  exists es, Ends out es /\ forall m, In m es -> In m seen' /\ ~ In m seen.
Proof.
  intros X. induction X as [open seen|open seen c r o ws seen' G X IH|open seen w r o ws seen' W No Nl En X IH|open seen b r o ws seen' P En X IH
    |open seen n cmd t o1 ws1 seen1 r o2 ws2 seen2 C Nm Ns Fl Wt En X1 IH1 X2 IH2|open seen n cmd r o ws seen' C Nm Ns En X IH
    |open seen n b r o ws seen' M B Nm Ns En X IH|open seen n reg inner ws1 seen1 r o2 ws2 seen2 Rg Nm Ns En X1 IH1 X2 IH2
    |open seen n reg inner r o ws seen' Rg Nm Ns No En X IH]; intros PF.
  - split; [constructor|]. exists []. split; [constructor|]. intros m [].
  - destruct (IH PF) as (A & es & E & F). split; [intros; now apply ex_white|]. exists es. split; [now apply en_white|exact F].
  - pose proof (expands_ended _ _ _ _ _ _ _ _ X En) as En'. destruct (IH PF) as (A & es & E & F).
    split; [intros; now apply ex_word|]. exists es. split; [now apply en_word|exact F].
  - pose proof (expands_ended _ _ _ _ _ _ _ _ X En) as En'. destruct (IH PF) as (A & es & E & F).
    split; [intros; now apply ex_comment|]. exists es. split; [now apply en_plain|exact F].
  - pose proof (expands_ended _ _ _ _ _ _ _ _ X2 En) as En2. pose proof (command_name n cmd C) as Fn.
    pose proof (expands_incl _ _ _ _ _ _ _ _ X1) as I1. pose proof (expands_incl _ _ _ _ _ _ _ _ X2) as I2.
    destruct IH1 as (A1 & es1 & E1 & F1). { intros m k Hm Hk. apply PF; now apply I2. }
    destruct (IH2 PF) as (A2 & es2 & E2 & F2).
    destruct (written_mark tBegin n) as (b1 & -> & M1 & B1); [cbn; tauto|exact Fn|].
    destruct (written_mark tEnd n) as (b2 & -> & M2 & B2); [cbn; tauto|exact Fn|].
    assert (Eq : comment b1 ++ 10 :: o1 ++ comment b2 ++ o2 = (comment b1 ++ 10 :: o1 ++ comment b2) ++ o2).
    { rewrite <- app_assoc. cbn [app]. now rewrite <- app_assoc. }
    assert (Ed : o1 = [] \/ exists d x, o1 = x ++ [d] /\ ~ graphic d).
    { destruct Wt as [->|(d & x & Et & Gd)].
      - left. now destruct (expands_nil _ _ _ _ _ _ _ X1).
      - right. destruct (expands_endsW _ _ _ _ _ _ _ _ X1) as (y & e & -> & Ge); [now exists x, d|]. now exists e, y. }
    split.
    + intros file' open'. rewrite Eq. apply (ex_region main file' open' seen n _ o1 ws1 seen1); auto.
      exists b1, 10, b2, es1. split; [exact M1|]. split; [exact B1|]. split; [cbv; lia|]. split; [exact M2|]. split; [exact B2|]. split; [exact E1|].
      split; [|split; [exact Ed|reflexivity]].
      intros m Hm Bm. destruct (F1 m Hm) as [F3 F4]. apply F4. left. symmetry. apply PF; [now apply I2|apply I2, I1; now left|exact Bm].
    + exists (es1 ++ n :: es2). split.
      * apply (en_mark tBegin n b1); [now left|exact M1|exact B1|apply ended_cons; cbv; lia|]. apply en_white; [cbv; lia|].
        apply Ends_app; [exact E1|exact (expands_join _ _ _ _ _ _ _ _ _ X1 Wt)|]. now apply en_end.
      * intros m Hm. apply in_app_iff in Hm. destruct Hm as [Hm|[<-|Hm]].
        -- destruct (F1 m Hm) as [F3 F4]. split; [now apply I2|]. intros Z. apply F4. now right.
        -- split; [apply I2, I1; now left|exact Ns].
        -- destruct (F2 m Hm) as [F3 F4]. split; [exact F3|]. intros Z. apply F4, I1. now right.
  - pose proof (expands_ended _ _ _ _ _ _ _ _ X En) as En'. destruct (IH PF) as (A & es & E & F).
    destruct (written_mark tSkip n) as (b1 & -> & M1 & B1); [cbn; tauto|exact (command_name n cmd (or_introl C))|].
    split; [intros; now apply (ex_skip main file' open' seen n)|]. exists es. split; [apply (en_mark tSkip n b1); auto|exact F].
  - pose proof (expands_ended _ _ _ _ _ _ _ _ X En) as En'. destruct (IH PF) as (A & es & E & F).
    split; [intros; now apply (ex_skip main file' open' seen n)|]. exists es. split; [apply (en_mark tSkip n b); auto|exact F].
  - pose proof (expands_ended _ _ _ _ _ _ _ _ X2 En) as En2.
    pose proof (expands_incl _ _ _ _ _ _ _ _ X1) as I1. pose proof (expands_incl _ _ _ _ _ _ _ _ X2) as I2.
    destruct IH1 as (A1 & es1 & E1 & F1). { intros m k Hm Hk. apply PF; now apply I2. }
    destruct (IH2 PF) as (A2 & es2 & E2 & F2). split.
    + intros file' open'. apply (ex_region main file' open' seen n reg inner ws1 seen1); auto.
    + destruct Rg as (b1 & c & b2 & es & M1 & B1 & G & M2 & B2 & E & Nb & T & ->).
      exists (es1 ++ n :: es2). split.
      * rewrite <- app_assoc. cbn [app]. rewrite <- app_assoc.
        apply (en_mark tBegin n b1); [now left|exact M1|exact B1|now apply ended_cons|]. apply en_white; [exact G|].
        apply Ends_app; [exact E1|destruct T as [T|T]; [now left|right; left; exact T]|]. now apply en_end.
      * intros m Hm. apply in_app_iff in Hm. destruct Hm as [Hm|[<-|Hm]].
        -- destruct (F1 m Hm) as [F3 F4]. split; [now apply I2|]. intros Z. apply F4. now right.
        -- split; [apply I2, I1; now left|exact Ns].
        -- destruct (F2 m Hm) as [F3 F4]. split; [exact F3|]. intros Z. apply F4, I1. now right.
  - pose proof (expands_ended _ _ _ _ _ _ _ _ X En) as En'. destruct (IH PF) as (A & es & E & F).
    destruct (written_mark tSkip n) as (b1 & -> & M1 & B1); [cbn; tauto|exact (region_name n reg inner Rg)|].
    split; [intros; now apply (ex_skip main file' open' seen n)|]. exists es. split; [apply (en_mark tSkip n b1); auto|exact F].
Qed.
