(* IncLoop.v -- the scan does not depend on its fuel; regions; the table of inclusions. *)
From Verif Require Import Base TokSpec TokModel TokProofs SrcModel CmdModel IncModel IncSpec IncProofs.
Open Scope nat_scope.

Lemma skipRaw_len l : length (skipRaw l) <= length l.
Proof. unfold skipRaw. rewrite skipn_length. lia. Qed.
Lemma pastClose_len l : length (pastClose l) <= length l.
Proof.
  enough (H : length (pastClose l) <= length l /\ forall c, length (pastClose (c :: l)) <= S (length l)) by tauto.
  induction l as [|d l [IH1 IH2]].
  - split; [reflexivity|]. intros c. cbn. destruct (Nat.eqb c chDollar); cbn; lia.
  - split; [cbn [length]; apply IH2|]. intros c. cbn [length]. specialize (IH2 d). change (pastClose (c :: d :: l)) with
      (if Nat.eqb c chDollar then (if Nat.eqb d chClose then l else pastClose (d :: l)) else pastClose (d :: l)).
    destruct (Nat.eqb c chDollar), (Nat.eqb d chClose); lia.
Qed.
Lemma whiteSpace_len l s : whiteSpace l = Ok s -> length s <= length l.
Proof. intros H. apply whiteSpace_split in H. destruct H as (w & -> & _). rewrite app_length. lia. Qed.

Lemma afterOpen_fuel n m len look p a
  (IH : forall look l, length l < n -> length l < m -> nextInc n len look l = nextInc m len look l) :
  length a < n -> length a < m -> afterOpen n len look p a = afterOpen m len look p a.
Proof.
  intros A B. unfold afterOpen.
  pose proof (pastClose_len a) as La.
  destruct (match look with None => _ | Some _ => _ end) as [t|]; [|apply IH; lia].
  pose proof (skipRaw_len (skipn (rawTokenLen a) a)) as Lb. rewrite skipn_length in Lb.
  set (b := skipRaw (skipn (rawTokenLen a) a)) in *. pose proof (pastClose_len b) as Pb.
  destruct (negb (tokIs wLB b)); [apply IH; lia|].
  pose proof (skipRaw_len (skipn 2 b)) as Lc. rewrite skipn_length in Lc.
  set (c := skipRaw (skipn 2 b)) in *. pose proof (pastClose_len c) as Pc.
  destruct (match look with Some (_, fn) => _ | None => false end); [apply IH; lia|].
  pose proof (skipRaw_len (skipn (rawTokenLen c) c)) as Ld. rewrite skipn_length in Ld.
  set (d := skipRaw (skipn (rawTokenLen c) c)) in *. pose proof (pastClose_len d) as Pd.
  destruct (negb (tokIs wRB d)); [apply IH; lia|].
  pose proof (skipRaw_len (skipn 2 d)) as Le. rewrite skipn_length in Le.
  set (e := skipRaw (skipn 2 d)) in *. pose proof (pastClose_len e) as Pe.
  destruct (negb (tokIs wClose e)); [apply IH; lia|].
  destruct look as [[[b1 b2] fn]|]; [reflexivity|]. destruct t; try reflexivity. apply IH; rewrite skipn_length; lia.
Qed.
Lemma nextInc_fuel len : forall n m look l, length l < n -> length l < m -> nextInc n len look l = nextInc m len look l.
Proof.
  induction n as [|n IH]; intros m look l0 A B; [lia|]. destruct m as [|m]; [lia|].
  cbn [nextInc]. pose proof (skipRaw_len l0) as L0. set (l := skipRaw l0) in *.
  destruct (Nat.eqb_spec (rawTokenLen l) 0) as [Z|Z]; [reflexivity|].
  assert (L1 : length (skipn (rawTokenLen l) l) < n /\ length (skipn (rawTokenLen l) l) < m).
  { rewrite skipn_length. assert (length l <> 0) by (destruct l; [now cbn in Z|discriminate]). lia. }
  destruct (negb (Nat.eqb (nth 0 l 0) chDollar)); [now apply IH|].
  destruct (Nat.eqb (nth 1 l 0) chLB).
  - destruct look as [q|]; [now apply IH|]. destruct (whiteSpace (skipn (rawTokenLen l) l)) as [a| | |] eqn:Wa; cbn [rbind]; try reflexivity.
    apply whiteSpace_len in Wa. destruct (whiteSpace (skipn (rawTokenLen a) a)) as [b| | |] eqn:Wb; cbn [rbind]; try reflexivity.
    apply whiteSpace_len in Wb. rewrite skipn_length in Wb. destruct (tokIs wRB b); [reflexivity|]. apply IH; rewrite skipn_length; lia.
  - destruct (Nat.eqb (nth 1 l 0) chOpen); [|now apply IH].
    pose proof (skipRaw_len (skipn (rawTokenLen l) l)).
    apply (afterOpen_fuel n m len look (len - length l + 1) (skipRaw (skipn (rawTokenLen l) l))); [|lia|lia].
    intros lk x X Y. apply IH; lia.
Qed.

(* the scan with enough fuel *)
Definition scan (len : nat) (look : option (nat * nat * list nat)) (l : list nat) : res nextRes := nextInc (S (length l)) len look l.
Lemma scan_fuel n len look l : length l < n -> nextInc n len look l = scan len look l.
Proof. intros H. apply nextInc_fuel; lia. Qed.
Lemma getNext_scan a b : getNextInclusion (a ++ b) (length a) = scan (length (a ++ b)) None b.
Proof.
  unfold getNextInclusion. rewrite app_length at 1. destruct (Nat.ltb_spec (length a + length b) (length a)); [lia|].
  rewrite skipn_app_len. apply scan_fuel. rewrite app_length. lia.
Qed.
Lemma scan_white len look c r : ~ graphic c -> scan len look (c :: r) = scan len look r.
Proof. intros G. unfold scan at 1. rewrite next_white by exact G. apply scan_fuel. cbn. lia. Qed.
Lemma scan_word len look w r : word w -> ~ begins tOpen w -> (look = None -> ~ begins tLB w) -> ended r ->
  scan len look (w ++ r) = scan len look r.
Proof.
  intros W A B E. unfold scan at 1. rewrite next_word by assumption. apply scan_fuel. rewrite app_length.
  destruct W as [N _]. destruct w; [easy|]. cbn. lia.
Qed.
Lemma comment_len b : 0 < length (comment b).
Proof. unfold comment. cbn. lia. Qed.
Lemma scan_plain len look b r : plain b -> ended r -> scan len look (comment b ++ r) = scan len look r.
Proof. intros P E. unfold scan at 1. rewrite next_plain by assumption. apply scan_fuel. rewrite app_length. pose proof (comment_len b). lia. Qed.

(* texts put one after the other: no word crosses the border *)
Definition joinOK (t r : list nat) : Prop := t = [] \/ (exists d x, t = x ++ [d] /\ ~ graphic d) \/ ended r.
Definition lastG (w : list nat) : Prop := exists x d, w = x ++ [d] /\ graphic d.
Lemma join_step w y r : joinOK (w ++ y) r -> lastG w -> ended y -> ended (y ++ r) /\ joinOK y r.
Proof.
  intros J (x & d & -> & G) En.
  assert (Jy : joinOK y r).
  { destruct y as [|a y] using rev_ind; [now left|]. clear IHy. destruct J as [J|[(e & z & J & Ge)|J]].
    - destruct x; discriminate.
    - rewrite app_assoc in J. apply app_inj_tail in J. destruct J as [_ <-]. right; left. eauto.
    - right; right. exact J. }
  split; [|exact Jy]. destruct y as [|a y].
  - destruct J as [J|[(e & z & J & Ge)|J]]; [destruct x; discriminate| |exact J]. rewrite app_nil_r in J. apply app_inj_tail in J.
    destruct J as [_ <-]. contradiction.
  - destruct En as [En|(b & z & En & Gb)]; [discriminate|]. injection En as <- ->. now apply ended_cons.
Qed.
Lemma join_white c y r : joinOK (c :: y) r -> joinOK y r.
Proof.
  intros [J|[(d & x & J & Gd)|J]]; [discriminate| |right; right; exact J].
  destruct x as [|z x]; injection J as <- ->; [now left|]. right; left. eauto.
Qed.
Lemma lastG_word w : word w -> lastG w.
Proof.
  intros [N F]. destruct (exists_last N) as (x & d & ->). exists x, d. split; [reflexivity|]. apply Forall_app in F. destruct F as [_ F]. now inversion F.
Qed.
Lemma lastG_comment b : lastG (comment b).
Proof. exists (tOpen ++ b ++ [dollar]), 41. split; [unfold comment; now rewrite <- !app_assoc|]. split; lia. Qed.

(* looking for End *)
Lemma key_in key : key = tBegin \/ key = tSkip -> In key keys.
Proof. intros [-> | ->]; cbn; tauto. Qed.
Lemma scan_mark len look key nm b r : In key keys -> mark key nm b -> body b -> ended r ->
  scan len look (comment b ++ r) =
  match look with
  | None => if seqb key tBegin then scan len (Some (len - length (comment b ++ r) + 1, len - length r + 1 + 1, nm)) r
            else if seqb key tSkip then Ok (NFound TSkip (len - length (comment b ++ r) + 1) (len - length r + 1) 0 0 nm)
            else scan len None r
  | Some (b1, b2, fn) => if seqb key tEnd && pre nm fn then Ok (NFound TBegin b1 b2 (len - length (comment b ++ r) + 1) (len - length r + 1) fn)
            else scan len look r
  end.
Proof.
  intros Ky M B En. unfold scan at 1. rewrite (next_mark _ len look key nm b r Ky M B En).
  assert (L : length r < length (comment b ++ r)) by (rewrite app_length; pose proof (comment_len b); lia).
  rewrite !(scan_fuel _ _ _ r L). reflexivity.
Qed.
Lemma scan_ends len b1 b2 fn t es : Ends t es -> (forall m, In m es -> ~ begins m fn) ->
  forall r, joinOK t r -> scan len (Some (b1, b2, fn)) (t ++ r) = scan len (Some (b1, b2, fn)) r.
Proof.
  intros E. induction E as [|c r es G E IH|w r es W No En E IH|b r es P En E IH|key nm b r es Ky M B En E IH|nm b r es M B En E IH];
    intros Nb r0 J.
  - reflexivity.
  - cbn [app]. rewrite scan_white by exact G. apply IH; [exact Nb|]. exact (join_white _ _ _ J).
  - destruct (join_step w r r0 J (lastG_word w W) En) as [J1 J2]. rewrite <- app_assoc, scan_word by (assumption || discriminate). now apply IH.
  - destruct (join_step _ r r0 J (lastG_comment b) En) as [J1 J2]. rewrite <- app_assoc, scan_plain by assumption. now apply IH.
  - destruct (join_step _ r r0 J (lastG_comment b) En) as [J1 J2]. rewrite <- app_assoc, (scan_mark _ _ key nm) by (assumption || now apply key_in).
    replace (seqb key tEnd) with false by (destruct Ky as [-> | ->]; reflexivity). cbn [andb]. now apply IH.
  - destruct (join_step _ r r0 J (lastG_comment b) En) as [J1 J2]. rewrite <- app_assoc, (scan_mark _ _ tEnd nm) by (assumption || (cbn; tauto)).
    destruct (pre nm fn) eqn:P.
    + exfalso. apply pre_begins in P. apply (Nb nm); [now left|exact P].
    + cbn [andb]. rewrite Bool.andb_false_r. apply IH; [|exact J2]. intros m Hm. apply Nb. now right.
Qed.
Lemma pre_refl n : pre n n = true. Proof. apply pre_begins. exists []. now rewrite app_nil_r. Qed.

(* a command, a Skip comment, a region: what is found.  The text is x ++ r of a buffer of
   length len; positions count from 1. *)
Lemma scan_command len nm cmd r : command nm cmd -> ended r -> length (cmd ++ r) <= len ->
  scan len None (cmd ++ r) = Ok (NFound TIncl (len - length (cmd ++ r) + 1) (len - length r + 1) 0 0 nm).
Proof.
  intros C En L. unfold scan. rewrite (next_command _ _ nm) by assumption.
  replace (len - length (tRB ++ r) + 1 + 2) with (len - length r + 1); [reflexivity|].
  destruct C as (s1 & s2 & _ & _ & _ & ->). rewrite !app_length in *. cbn [length tRB tLB] in *. lia.
Qed.
Lemma scan_skip len nm b r : mark tSkip nm b -> body b -> ended r ->
  scan len None (comment b ++ r) = Ok (NFound TSkip (len - length (comment b ++ r) + 1) (len - length r + 1) 0 0 nm).
Proof. intros M B En. now rewrite (scan_mark _ _ tSkip nm) by (assumption || (cbn; tauto)). Qed.
Lemma scan_region len nm b1 c inner b2 es r : mark tBegin nm b1 -> body b1 -> ~ graphic c -> mark tEnd nm b2 -> body b2 ->
  Ends inner es -> (forall m, In m es -> ~ begins m nm) -> (inner = [] \/ exists d x, inner = x ++ [d] /\ ~ graphic d) -> ended r ->
  let x := comment b1 ++ [c] in let z := comment b2 in
  length (x ++ inner ++ z ++ r) <= len -> scan len None (x ++ inner ++ z ++ r) =
     Ok (NFound TBegin (len - length (x ++ inner ++ z ++ r) + 1) (len - length (inner ++ z ++ r) + 1) (len - length (z ++ r) + 1) (len - length r + 1) nm).
Proof.
  intros M1 B1 G M2 B2 E Nb T En x z L. unfold x, z in *. rewrite <- !app_assoc in *. cbn [app] in *.
  rewrite (scan_mark _ _ tBegin nm); [|cbn; tauto|exact M1|exact B1|now apply ended_cons].
  change (seqb tBegin tBegin) with true. cbn iota. rewrite scan_white by exact G.
  rewrite (scan_ends _ _ _ _ inner es E Nb) by (destruct T as [T|T]; [now left|right; left; exact T]).
  rewrite (scan_mark _ _ tEnd nm) by (assumption || (cbn; tauto)). change (seqb tEnd tEnd) with true. rewrite pre_refl. cbn [andb].
  replace (len - length (c :: inner ++ comment b2 ++ r) + 1 + 1) with (len - length (inner ++ comment b2 ++ r) + 1); [reflexivity|].
  rewrite app_length in L. cbn [length] in *. lia.
Qed.
