(* IncProofs.v -- scanning for inclusion commands (IncModel.nextInc). *)
From Verif Require Import Base TokSpec TokModel TokProofs SrcModel CmdModel IncModel IncSpec.
Open Scope nat_scope.

Lemma seqb_eq a b : seqb a b = true <-> a = b.
Proof. unfold seqb. destruct list_eq_dec; split; congruence. Qed.
Lemma seqb_refl a : seqb a a = true. Proof. now apply seqb_eq. Qed.
Lemma seqb_neq a b : a <> b -> seqb a b = false.
Proof. intros H. unfold seqb. destruct list_eq_dec; congruence. Qed.

Lemma rawTok_word w r : Forall graphic w -> ended r -> rawTokenLen (w ++ r) = length w.
Proof.
  intros F E. induction w as [|c w IH]; cbn [app].
  - destruct E as [->|(c & r' & -> & G)]; [reflexivity|]. cbn [rawTokenLen]. now rewrite (proj2 (isgraph_false c) G).
  - inversion F; subst. cbn [rawTokenLen length]. rewrite (proj2 (isgraph_spec c)) by assumption. now rewrite IH.
Qed.
Lemma skipRaw_white s r : white s -> skipRaw (s ++ r) = skipRaw r.
Proof.
  induction s as [|c s IH]; intros W; [reflexivity|]. inversion W; subst. unfold skipRaw in *. cbn [app rawWhiteSpaceLen].
  rewrite (proj2 (isgraph_false c)) by assumption. cbn [skipn]. now apply IH.
Qed.
Lemma skipRaw_graph c r : graphic c -> skipRaw (c :: r) = c :: r.
Proof. intros G. unfold skipRaw. cbn [rawWhiteSpaceLen]. now rewrite (proj2 (isgraph_spec c) G). Qed.
Lemma skipRaw_word w r : word w -> skipRaw (w ++ r) = w ++ r.
Proof. intros [N F]. destruct w as [|c w]; [easy|]. inversion F; subst. cbn [app]. now apply skipRaw_graph. Qed.
Lemma skipRaw_ww s w r : white s -> word w -> skipRaw (s ++ w ++ r) = w ++ r.
Proof. intros S W. rewrite skipRaw_white by exact S. now apply skipRaw_word. Qed.
Lemma firstn_app_len {A} (a b : list A) : firstn (length a) (a ++ b) = a.
Proof. rewrite firstn_app, Nat.sub_diag, firstn_all. cbn. now rewrite app_nil_r. Qed.
Lemma skipn_app_len {A} (a b : list A) : skipn (length a) (a ++ b) = b.
Proof. rewrite skipn_app, Nat.sub_diag, skipn_all. reflexivity. Qed.

Lemma tokIs_word w v r : word v -> ended r -> tokIs w (v ++ r) = seqb v w.
Proof.
  intros [N F] E. unfold tokIs. rewrite rawTok_word by assumption.
  destruct (Nat.eqb_spec (length v) (length w)) as [L|L]; cbn [andb].
  - rewrite <- L, firstn_app_len. reflexivity.
  - symmetry. apply seqb_neq. congruence.
Qed.
Lemma w_close : word tClose. Proof. split; [easy|]. repeat constructor; cbv; lia. Qed.
Lemma w_open : word tOpen. Proof. split; [easy|]. repeat constructor; cbv; lia. Qed.
Lemma w_lb : word tLB. Proof. split; [easy|]. repeat constructor; cbv; lia. Qed.
Lemma w_rb : word tRB. Proof. split; [easy|]. repeat constructor; cbv; lia. Qed.
Lemma w_key key : In key keys -> word key.
Proof. intros [<-|[<-|[<-|[]]]]; (split; [easy|]); repeat constructor; cbv; lia. Qed.
Lemma ended_app s r : whites s -> ended (s ++ r).
Proof. intros [N W]. destruct s as [|c s]; [easy|]. inversion W; subst. right. exists c, (s ++ r). auto. Qed.
Lemma ended_cons c r : ~ graphic c -> ended (c :: r).
Proof. intros G. right. exists c, r. auto. Qed.

(* behind "$)" *)
Definition noClose (x : list nat) : Prop := forall a b, x <> a ++ tClose ++ b.
Lemma noClose_tl c x : noClose (c :: x) -> noClose x.
Proof. intros N a b E. apply (N (c :: a) b). cbn [app]. now rewrite E. Qed.
Lemma noClose_suffix a x : noClose (a ++ x) -> noClose x.
Proof. induction a as [|c a IH]; intros N; [exact N|]. apply IH. exact (noClose_tl _ _ N). Qed.
Lemma pastClose_app x r : noClose x -> pastClose (x ++ tClose ++ r) = r.
Proof.
  induction x as [|c x IH]; intros N; [reflexivity|]. cbn [app pastClose].
  destruct (Nat.eqb_spec c chDollar) as [->|D]; [|apply IH, (noClose_tl _ _ N)].
  destruct x as [|d x].
  - reflexivity.
  - cbn [app]. destruct (Nat.eqb_spec d chClose) as [->|D2].
    + exfalso. now apply (N [] x).
    + apply IH. exact (noClose_tl _ _ N).
Qed.

(* ---------------- tokens inside a comment ---------------- *)
Definition inside (x : list nat) : Prop := noClose x /\ (x = [] \/ exists c y, x = y ++ [c] /\ ~ graphic c).
Lemma inside_suffix a x : inside (a ++ x) -> inside x.
Proof.
  intros [N E]. split; [exact (noClose_suffix a x N)|]. destruct x as [|c x] using rev_ind; [now left|]. clear IHx. right.
  exists c, x. split; [reflexivity|]. destruct E as [E|(d & y & E & G)].
  - apply app_eq_nil in E. destruct E as [_ E]. destruct x; discriminate.
  - rewrite app_assoc in E. apply app_inj_tail in E. destruct E as [_ ->]. exact G.
Qed.
Lemma body_inside b : body b -> inside b.
Proof. intros (_ & (c & r & E & G) & N). split; [exact N|]. right. eauto. Qed.

Lemma split_white x : exists s y, x = s ++ y /\ white s /\ (y = [] \/ exists c z, y = c :: z /\ graphic c).
Proof.
  induction x as [|c x (s & y & E & W & Y)].
  - exists [], []. repeat split; [constructor|now left].
  - destruct (isgraph c) eqn:G.
    + apply isgraph_spec in G. exists [], (c :: x). repeat split; [constructor|]. right. eauto.
    + apply isgraph_false in G. exists (c :: s), y. subst. repeat split; [now constructor|exact Y].
Qed.
Lemma split_word y : exists w z, y = w ++ z /\ Forall graphic w /\ ended z.
Proof.
  induction y as [|c y (w & z & E & F & N)].
  - exists [], []. repeat split; [constructor|now left].
  - destruct (isgraph c) eqn:G.
    + apply isgraph_spec in G. exists (c :: w), z. subst. repeat split; [now constructor|exact N].
    + apply isgraph_false in G. exists [], (c :: y). repeat split; [constructor|]. now apply ended_cons.
Qed.

Lemma tok_inside x r : inside x -> ended r ->
  exists s y, x = s ++ y /\ white s /\ skipRaw (x ++ tClose ++ r) = y ++ tClose ++ r /\ inside y /\
  ((y = [] /\ forall v, tokIs v (y ++ tClose ++ r) = seqb tClose v) \/
   exists w z, y = w ++ z /\ word w /\ ended z /\ z <> [] /\ inside z /\ w <> tClose /\
     rawTokenLen (y ++ tClose ++ r) = length w /\ forall v, tokIs v (y ++ tClose ++ r) = seqb w v).
Proof.
  intros I E. destruct (split_white x) as (s & y & -> & W & Y). exists s, y. split; [reflexivity|]. split; [exact W|].
  pose proof (inside_suffix s y I) as Iy.
  rewrite <- app_assoc, skipRaw_white by exact W.
  destruct Y as [->|(c & z & -> & G)].
  - split; [exact (skipRaw_word tClose r w_close)|]. split; [exact Iy|]. left. split; [reflexivity|]. intros v. cbn [app].
    apply (tokIs_word v tClose r w_close E).
  - split; [now apply skipRaw_graph|]. split; [exact Iy|]. right.
    destruct (split_word (c :: z)) as (w & u & Eq & F & En). 
    assert (Wn : w <> []). { intros ->. cbn in Eq. subst u. destruct En as [En|(d & t & En & Gd)]; [discriminate|]. injection En as <- _. contradiction. }
    assert (Un : u <> []).
    { intros ->. rewrite app_nil_r in Eq. destruct Iy as [_ [Z|(d & y & Z & Gd)]]; [discriminate|]. rewrite Eq in Z. subst w.
      apply Forall_app in F. destruct F as [_ F]. inversion F; subst. contradiction. }
    assert (En' : ended (u ++ tClose ++ r)). { destruct En as [En|(d & t & -> & Gd)]; [contradiction|]. now apply ended_cons. }
    exists w, u. split; [exact Eq|]. split; [split; assumption|]. split; [exact En|]. split; [exact Un|].
    rewrite Eq in Iy |- *. split; [exact (inside_suffix w u Iy)|].
    split; [intros ->; destruct Iy as [N _]; exact (N [] u eq_refl)|].
    rewrite <- app_assoc. split; [now apply rawTok_word|]. intros v. apply tokIs_word; [split; assumption|exact En'].
Qed.

Lemma ended_white_ne z s y : ended z -> z <> [] -> z = s ++ y -> white s -> (y = [] \/ exists w u, y = w ++ u /\ word w) -> whites s.
Proof.
  intros En Ne -> W Y. split; [|exact W]. intros ->. cbn in *. destruct Y as [->|(w & u & -> & [N F])]; [easy|].
  destruct w as [|c w]; [easy|]. inversion F; subst.
  destruct En as [En|(d & t & En & Gd)]; [discriminate|]. injection En as <- _. contradiction.
Qed.

(* ---------------- one step of the scan ---------------- *)
Lemma next_white n len look c r : ~ graphic c -> nextInc n len look (c :: r) = nextInc n len look r.
Proof.
  intros G. destruct n as [|n]; [reflexivity|]. cbn [nextInc].
  replace (skipRaw (c :: r)) with (skipRaw r) by (symmetry; apply (skipRaw_white [c] r); repeat constructor; exact G). reflexivity.
Qed.
Lemma next_whites n len look s r : white s -> nextInc n len look (s ++ r) = nextInc n len look r.
Proof. induction s as [|c s IH]; intros W; [reflexivity|]. inversion W; subst. cbn [app]. rewrite next_white by assumption. now apply IH. Qed.

Lemma begins_two a b w : word w -> nth 0 w 0 = a -> nth 1 w 0 = b -> 0 < b -> begins [a; b] w.
Proof.
  intros _ A B P. destruct w as [|x [|y w]]; cbn in *; subst; try lia. exists w. reflexivity.
Qed.
Lemma nth_app_word k w r : word w -> ended r -> nth k w 0 <> nth k (w ++ r) 0 -> length w <= k.
Proof. intros _ _ N. destruct (Nat.le_gt_cases (length w) k) as [L|L]; [exact L|]. now rewrite app_nth1 in N. Qed.

Lemma next_word n len look w r : word w -> ~ begins tOpen w -> (look = None -> ~ begins tLB w) -> ended r ->
  nextInc (S n) len look (w ++ r) = nextInc n len look r.
Proof.
  intros W No Nl En. cbn [nextInc]. rewrite skipRaw_word by exact W. destruct W as [Ne F].
  rewrite rawTok_word by assumption. rewrite skipn_app_len.
  destruct (Nat.eqb_spec (length w) 0) as [Z|_]; [now destruct w|].
  destruct (Nat.eqb_spec (nth 0 (w ++ r) 0) chDollar) as [D|D]; [|reflexivity]. cbn [negb].
  assert (D0 : nth 0 w 0 = chDollar). { destruct w; [easy|exact D]. }
  assert (D1 : forall x, graphic x -> nth 1 (w ++ r) 0 = x -> nth 1 w 0 = x).
  { intros x Gx E. destruct w as [|a [|b w]]; [easy| |exact E]. cbn [app nth] in E. destruct En as [->|(c & r' & -> & G)].
    - cbn in E. subst x. destruct Gx. lia.
    - cbn [nth] in E. subst c. contradiction. }
  destruct (Nat.eqb_spec (nth 1 (w ++ r) 0) chLB) as [L|L].
  - destruct look as [q|]; [reflexivity|]. exfalso. apply (Nl eq_refl). apply (begins_two dollar 91); [split; assumption|exact D0| |lia].
    apply D1; [split; cbv; lia|exact L].
  - destruct (Nat.eqb_spec (nth 1 (w ++ r) 0) chOpen) as [O|O]; [|reflexivity].
    exfalso. apply No. apply (begins_two dollar 40); [split; assumption|exact D0| |lia]. apply D1; [split; cbv; lia|exact O].
Qed.

(* the rest of the function after "$(" *)
Definition afterOpen (n len : nat) (look : option (nat * nat * list nat)) (p : nat) (a : list nat) : res nextRes :=
  let pos := fun x : list nat => len - length x + 1 in
        let ty := match look with
                  | None => if tokIs wBegin a then Some TBegin else if tokIs wSkip a then Some TSkip else None
                  | Some _ => if tokIs wEnd a then Some TIncl else None
                  end in
        match ty with
        | None => nextInc n len look (pastClose a)
        | Some t =>
            let b := skipRaw (skipn (rawTokenLen a) a) in
            if negb (tokIs wLB b) then nextInc n len look (pastClose b)
            else
              let c := skipRaw (skipn 2 b) in
              let jc := rawTokenLen c in
              let other := match look with
                           | Some (_, _, fn) => negb (seqb (firstn jc fn) (firstn jc c))
                           | None => false end in
              if other then nextInc n len look (pastClose c)
              else
                let d := skipRaw (skipn jc c) in
                if negb (tokIs wRB d) then nextInc n len look (pastClose d)
                else
                  let e := skipRaw (skipn 2 d) in
                  if negb (tokIs wClose e) then nextInc n len look (pastClose e)
                  else
                    let f := skipn 2 e in
                    match look with
                    | Some (b1, b2, fn) => Ok (NFound TBegin b1 b2 p (pos f) fn)
                    | None =>
                        match t with
                        | TBegin => nextInc n len (Some (p, pos f + 1, firstn jc c)) f
                        | _ => Ok (NFound TSkip p (pos f) 0 0 (firstn jc c))
                        end
                    end
        end.
Lemma next_open n len look b r : ended (b ++ r) ->
  nextInc (S n) len look (tOpen ++ b ++ r) = afterOpen n len look (len - length (tOpen ++ b ++ r) + 1) (skipRaw (b ++ r)).
Proof.
  intros En. cbn [nextInc]. rewrite (skipRaw_word tOpen (b ++ r)) by exact w_open.
  rewrite (rawTok_word tOpen (b ++ r)) by (exact En || apply w_open). cbn [length tOpen app nth Nat.eqb negb chDollar chLB chOpen dollar skipn].
  reflexivity.
Qed.

Lemma after_plain n len look p b r : plain b -> ended r -> afterOpen n len look p (skipRaw (b ++ tClose ++ r)) = nextInc n len look r.
Proof.
  intros [B P] En.
  assert (past : forall x, inside x -> pastClose (x ++ tClose ++ r) = r) by (intros x [N _]; now apply pastClose_app).
  destruct (tok_inside b r (body_inside b B) En) as (s1 & y1 & E1 & W1 & K1 & I1 & T1).
  unfold afterOpen. rewrite K1. clear K1.
  set (ty := match look with None => _ | Some _ => _ end).
  assert (TY : ty = None \/ exists key, In key keys /\ tokIs key (y1 ++ tClose ++ r) = true).
  { unfold ty. destruct look as [q|].
    - destruct (tokIs wEnd _) eqn:E; [|now left]. right. exists tEnd. split; [cbn; tauto|exact E].
    - destruct (tokIs wBegin _) eqn:E; [right; exists tBegin; split; [cbn; tauto|exact E]|].
      destruct (tokIs wSkip _) eqn:E2; [right; exists tSkip; split; [cbn; tauto|exact E2]|]. now left. }
  destruct ty as [t|]; [|now rewrite past]. destruct TY as [TY|(key & Ky & TK)]; [discriminate|].
  assert (S1 : whites s1).
  { destruct B as [(c & u & Eb & G) _]. apply (ended_white_ne b s1 y1); [rewrite Eb; now apply ended_cons|now rewrite Eb|exact E1|exact W1|].
    destruct T1 as [[-> _]|(w & z & -> & Ww & _)]; [now left|right; eauto]. }
  destruct T1 as [[-> T1]|(w1 & z1 & -> & Ww1 & En1 & Ne1 & Iz1 & Nc1 & L1 & T1)].
  { rewrite T1 in TK. apply seqb_eq in TK. subst key. cbn in Ky. repeat (destruct Ky as [Ky|Ky]; [discriminate|]). destruct Ky. }
  rewrite T1 in TK. apply seqb_eq in TK. subst w1. rewrite L1, <- app_assoc, skipn_app_len.
  destruct (tok_inside z1 r Iz1 En) as (s2 & y2 & E2 & W2 & K2 & I2 & T2). rewrite K2.
  assert (S2 : whites s2).
  { apply (ended_white_ne z1 s2 y2); auto. destruct T2 as [[-> _]|(w & z & -> & Ww & _)]; [now left|right; eauto]. }
  destruct T2 as [[-> T2]|(w2 & z2 & -> & Ww2 & En2 & Ne2 & Iz2 & Nc2 & L2 & T2)].
  { rewrite T2. change (seqb tClose wLB) with false. cbn [negb]. now rewrite past. }
  rewrite T2. destruct (seqb w2 wLB) eqn:Q2; cbn [negb]; [|now rewrite past]. apply seqb_eq in Q2. subst w2.
  replace (skipn 2 ((wLB ++ z2) ++ tClose ++ r)) with (z2 ++ tClose ++ r) by reflexivity.
  destruct (tok_inside z2 r Iz2 En) as (s3 & y3 & E3 & W3 & K3 & I3 & T3). rewrite K3.
  assert (S3 : whites s3).
  { apply (ended_white_ne z2 s3 y3); auto. destruct T3 as [[-> _]|(w & z & -> & Ww & _)]; [now left|right; eauto]. }
  destruct T3 as [[-> T3]|(w3 & z3 & -> & Ww3 & En3 & Ne3 & Iz3 & Nc3 & L3 & T3)].
  { exfalso. destruct (P key Ky) as [_ P2]. apply (P2 s1 s2 s3); auto. rewrite E1, E2, E3, app_nil_r. reflexivity. }
  rewrite L3.
  destruct (match look with Some (_, fn) => _ | None => false end); [now rewrite past|].
  rewrite <- (app_assoc w3 z3), skipn_app_len.
  destruct (tok_inside z3 r Iz3 En) as (s4 & y4 & E4 & W4 & K4 & I4 & T4). rewrite K4.
  assert (S4 : whites s4).
  { apply (ended_white_ne z3 s4 y4); auto. destruct T4 as [[-> _]|(w & z & -> & Ww & _)]; [now left|right; eauto]. }
  destruct T4 as [[-> T4]|(w4 & z4 & -> & Ww4 & En4 & Ne4 & Iz4 & Nc4 & L4 & T4)].
  { rewrite T4. change (seqb tClose wRB) with false. cbn [negb]. now rewrite past. }
  rewrite T4. destruct (seqb w4 wRB) eqn:Q4; cbn [negb]; [|now rewrite past]. apply seqb_eq in Q4. subst w4.
  replace (skipn 2 ((wRB ++ z4) ++ tClose ++ r)) with (z4 ++ tClose ++ r) by reflexivity.
  destruct (tok_inside z4 r Iz4 En) as (s5 & y5 & E5 & W5 & K5 & I5 & T5). rewrite K5.
  assert (S5 : whites s5).
  { apply (ended_white_ne z4 s5 y5); auto. destruct T5 as [[-> _]|(w & z & -> & Ww & _)]; [now left|right; eauto]. }
  destruct T5 as [[-> T5]|(w5 & z5 & -> & Ww5 & En5 & Ne5 & Iz5 & Nc5 & L5 & T5)].
  { exfalso. destruct (P key Ky) as [P1 _]. apply (P1 s1 s2 s3 w3 s4 s5); auto. rewrite E1, E2, E3, E4, E5, app_nil_r.
    rewrite <- ?app_assoc. reflexivity. }
  rewrite T5, seqb_neq by exact Nc5. cbn [negb]. now rewrite past.
Qed.
Lemma body_ended b r : body b -> ended (b ++ r).
Proof. intros [(c & u & -> & G) _]. now apply ended_cons. Qed.
Lemma next_plain n len look b r : plain b -> ended r ->
  nextInc (S n) len look (comment b ++ r) = nextInc n len look r.
Proof.
  intros P En. unfold comment. rewrite <- !app_assoc. rewrite next_open by (apply body_ended; apply P). now apply after_plain.
Qed.

(* ---------------- marks ---------------- *)
Lemma mark_tokens key n b r : In key keys -> mark key n b -> ended r ->
  exists s2 s3 s4 s5, whites s2 /\ whites s3 /\ whites s4 /\ whites s5 /\ fileName n /\
    skipRaw (b ++ tClose ++ r) = key ++ s2 ++ tLB ++ s3 ++ n ++ s4 ++ tRB ++ s5 ++ tClose ++ r.
Proof.
  intros Ky (s1 & s2 & s3 & s4 & s5 & S1 & S2 & S3 & S4 & S5 & Fn & ->) En.
  exists s2, s3, s4, s5. do 5 (split; [assumption|]). rewrite <- !app_assoc. rewrite skipRaw_ww; [reflexivity|apply S1|now apply w_key].
Qed.

Ltac wrd := first [apply w_lb | apply w_rb | apply w_close | apply w_key; cbn; tauto | match goal with H : fileName ?n |- word ?n => apply H end].
Ltac tk := first [rewrite tokIs_word by (try wrd; try (apply ended_app; assumption); try assumption)
                 | rewrite rawTok_word by (try wrd; try (apply ended_app; assumption); try assumption)].
Definition pre (m n : list nat) : bool := seqb (firstn (length m) n) m.
Lemma pre_begins m n : pre m n = true <-> begins m n.
Proof.
  unfold pre. rewrite seqb_eq. split.
  - intros E. exists (skipn (length m) n). now rewrite <- E at 1; rewrite firstn_skipn.
  - intros [r ->]. apply firstn_app_len.
Qed.

Lemma after_mark n len look p key nm b r : In key keys -> mark key nm b -> body b -> ended r ->
  afterOpen n len look p (skipRaw (b ++ tClose ++ r)) =
  match look with
  | None => if seqb key tBegin then nextInc n len (Some (p, len - length r + 1 + 1, nm)) r
            else if seqb key tSkip then Ok (NFound TSkip p (len - length r + 1) 0 0 nm)
            else nextInc n len None r
  | Some (b1, b2, fn) => if seqb key tEnd && pre nm fn then Ok (NFound TBegin b1 b2 p (len - length r + 1) fn)
            else nextInc n len look r
  end.
Proof.
  intros Ky M B En.
  destruct (mark_tokens key nm b r Ky M En) as (s2 & s3 & s4 & s5 & S2 & S3 & S4 & S5 & Fn & Eq).
  assert (Sfx : exists s1, b = s1 ++ key ++ s2 ++ tLB ++ s3 ++ nm ++ s4 ++ tRB ++ s5 /\ True).
  { destruct (split_white b) as (s1 & y & Eb & W & Y). exists s1. split; [|exact I]. subst b. f_equal.
    rewrite <- app_assoc, skipRaw_white in Eq by exact W.
    assert (Z : skipRaw (y ++ tClose ++ r) = y ++ tClose ++ r).
    { destruct Y as [->|(c & z & -> & G)]; [exact (skipRaw_word tClose r w_close)|]. now apply skipRaw_graph. }
    rewrite Z in Eq. apply (f_equal (@rev nat)) in Eq.
    apply (app_inv_tail (tClose ++ r)). rewrite <- !app_assoc. apply (f_equal (@rev nat)) in Eq. rewrite !rev_involutive in Eq. exact Eq. }
  destruct Sfx as (s1 & Eb & _).
  assert (past : forall x y, b = x ++ y -> pastClose (y ++ tClose ++ r) = r).
  { intros x y E. apply pastClose_app. destruct B as (_ & _ & N). rewrite E in N. exact (noClose_suffix x y N). }
  unfold afterOpen. rewrite Eq.
  assert (TK : forall v, tokIs v (key ++ s2 ++ tLB ++ s3 ++ nm ++ s4 ++ tRB ++ s5 ++ tClose ++ r) = seqb key v).
  { intros v. apply tokIs_word; [now apply w_key|]. now apply ended_app. }
  assert (PA : pastClose (key ++ s2 ++ tLB ++ s3 ++ nm ++ s4 ++ tRB ++ s5 ++ tClose ++ r) = r).
  { specialize (past s1 _ Eb). rewrite <- !app_assoc in past. exact past. }
  rewrite !TK.
  rewrite rawTok_word by (try (apply w_key; exact Ky); now apply ended_app). rewrite skipn_app_len.
  rewrite skipRaw_ww by (apply S2 || apply w_lb).
  rewrite (tokIs_word wLB tLB) by (apply w_lb || now apply ended_app). change (seqb tLB wLB) with true. cbn [negb].
  replace (skipn 2 (tLB ++ s3 ++ nm ++ s4 ++ tRB ++ s5 ++ tClose ++ r)) with (s3 ++ nm ++ s4 ++ tRB ++ s5 ++ tClose ++ r) by reflexivity.
  rewrite skipRaw_ww by (apply S3 || apply Fn).
  rewrite rawTok_word by (apply Fn || now apply ended_app). rewrite firstn_app_len, skipn_app_len.
  rewrite skipRaw_ww by (apply S4 || apply w_rb).
  rewrite (tokIs_word wRB tRB) by (apply w_rb || now apply ended_app). change (seqb tRB wRB) with true. cbn [negb].
  replace (skipn 2 (tRB ++ s5 ++ tClose ++ r)) with (s5 ++ tClose ++ r) by reflexivity.
  rewrite skipRaw_ww by (apply S5 || apply w_close).
  rewrite (tokIs_word wClose tClose) by (apply w_close || exact En). change (seqb tClose wClose) with true. cbn [negb].
  replace (skipn 2 (tClose ++ r)) with r by reflexivity.
  assert (PN : pastClose (nm ++ s4 ++ tRB ++ s5 ++ tClose ++ r) = r).
  { specialize (past (s1 ++ key ++ s2 ++ tLB ++ s3) (nm ++ s4 ++ tRB ++ s5)). rewrite <- !app_assoc in past. apply past. rewrite Eb, <- ?app_assoc. reflexivity. }
  destruct look as [[[b1 b2] fn]|].
  - unfold pre. change wEnd with tEnd. destruct (seqb key tEnd); cbn [andb negb]; [|now rewrite PA].
    destruct (seqb (firstn (length nm) fn) nm); cbn [negb]; [reflexivity|]. now rewrite PN.
  - change wBegin with tBegin. change wSkip with tSkip. destruct (seqb key tBegin); [reflexivity|].
    destruct (seqb key tSkip); [reflexivity|]. now rewrite PA.
Qed.
Lemma next_mark n len look key nm b r : In key keys -> mark key nm b -> body b -> ended r ->
  nextInc (S n) len look (comment b ++ r) =
  match look with
  | None => if seqb key tBegin then nextInc n len (Some (len - length (comment b ++ r) + 1, len - length r + 1 + 1, nm)) r
            else if seqb key tSkip then Ok (NFound TSkip (len - length (comment b ++ r) + 1) (len - length r + 1) 0 0 nm)
            else nextInc n len None r
  | Some (b1, b2, fn) => if seqb key tEnd && pre nm fn then Ok (NFound TBegin b1 b2 (len - length (comment b ++ r) + 1) (len - length r + 1) fn)
            else nextInc n len look r
  end.
Proof.
  intros Ky M B En. unfold comment. rewrite <- !app_assoc. rewrite next_open by now apply body_ended. now apply (after_mark n len look _ key).
Qed.

(* "$[ n $]" *)
Lemma ws_word s w r : whites s -> word w -> ~ In dollar w -> whiteSpace (s ++ w ++ r) = Ok (w ++ r).
Proof.
  intros S W N. apply whiteSpace_blanks.
  - destruct S as [_ S]. induction s as [|c s IH]; [constructor|]. inversion S; subst. apply (bs_cons [c] s); [now constructor|now apply IH].
  - destruct W as [Ne F]. destruct w as [|c w]; [easy|]. inversion F; subst. right. exists c, (w ++ r). split; [reflexivity|]. split; [assumption|].
    intros ->. exfalso. apply N. now left.
Qed.
Lemma ws_rb s r : whites s -> whiteSpace (s ++ tRB ++ r) = Ok (tRB ++ r).
Proof.
  intros S. apply whiteSpace_blanks.
  - destruct S as [_ S]. induction s as [|c s IH]; [constructor|]. inversion S; subst. apply (bs_cons [c] s); [now constructor|now apply IH].
  - right. exists dollar, (93 :: r). split; [reflexivity|]. split; [exact graphic_dollar|]. intros _. right. exists 93, r. split; [reflexivity|]. split; discriminate.
Qed.
Lemma next_command n len nm cmd r : command nm cmd -> ended r ->
  nextInc (S n) len None (cmd ++ r) = Ok (NFound TIncl (len - length (cmd ++ r) + 1) (len - length (tRB ++ r) + 1 + 2) 0 0 nm).
Proof.
  intros (s1 & s2 & S1 & S2 & Fn & ->) En. rewrite <- !app_assoc. cbn [nextInc].
  rewrite (skipRaw_word tLB) by exact w_lb.
  rewrite (rawTok_word tLB) by (apply w_lb || now apply ended_app).
  cbn [length tLB app nth Nat.eqb negb chDollar chLB chOpen dollar skipn].
  rewrite ws_word by (apply Fn || assumption). cbn [rbind].
  rewrite rawTok_word by (apply Fn || now apply ended_app). rewrite skipn_app_len, firstn_app_len.
  rewrite ws_rb by assumption. cbn [rbind]. rewrite (tokIs_word wRB tRB) by (apply w_rb || exact En). change (seqb tRB wRB) with true. reflexivity.
Qed.
