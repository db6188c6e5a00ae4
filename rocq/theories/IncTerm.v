(* IncTerm.v -- inclusion ends, whatever the files contain. *)
From Verif Require Import Base TokSpec TokModel TokProofs SrcModel CmdModel IncModel IncSpec IncProofs IncLoop IncRun IncMain.
Open Scope nat_scope.

Definition suf (x l : list nat) : Prop := exists a, l = a ++ x.
Definition sub (x l : list nat) : Prop := exists a b, l = a ++ x ++ b.
Lemma suf_refl l : suf l l. Proof. now exists []. Qed.
Lemma suf_trans x y z : suf x y -> suf y z -> suf x z.
Proof. intros [a ->] [b ->]. exists (b ++ a). now rewrite app_assoc. Qed.
Lemma suf_skipn k l : suf (skipn k l) l.
Proof. exists (firstn k l). symmetry. apply firstn_skipn. Qed.
Lemma suf_skipRaw l : suf (skipRaw l) l. Proof. apply suf_skipn. Qed.
Lemma suf_cons c x l : suf x l -> suf x (c :: l).
Proof. intros [a ->]. now exists (c :: a). Qed.
Lemma suf_pastClose l : suf (pastClose l) l.
Proof.
  enough (H : suf (pastClose l) l /\ forall c, suf (pastClose (c :: l)) (c :: l)) by tauto.
  induction l as [|d l [IH1 IH2]].
  - split; [apply suf_refl|]. intros c. cbn. destruct (Nat.eqb c chDollar); exists [c]; reflexivity.
  - split; [apply IH2|]. intros c. change (pastClose (c :: d :: l)) with
      (if Nat.eqb c chDollar then (if Nat.eqb d chClose then l else pastClose (d :: l)) else pastClose (d :: l)).
    destruct (Nat.eqb c chDollar); [destruct (Nat.eqb d chClose)|].
    + now exists [c; d].
    + apply suf_cons, IH2.
    + apply suf_cons, IH2.
Qed.
Lemma suf_ws l s : whiteSpace l = Ok s -> suf s l.
Proof. intros H. apply whiteSpace_split in H. destruct H as (w & -> & _). now exists w. Qed.
Lemma suf_len x l : suf x l -> length x <= length l.
Proof. intros [a ->]. rewrite app_length. lia. Qed.
Lemma sub_firstn k x l : suf x l -> sub (firstn k x) l.
Proof. intros [a ->]. exists a, (skipn k x). now rewrite firstn_skipn. Qed.
Lemma suf_sub x l : suf x l -> sub x l.
Proof. intros [a ->]. exists a, []. now rewrite app_nil_r. Qed.
Lemma sub_trans x y z : sub x y -> sub y z -> sub x z.
Proof. intros (a & b & ->) (c & d & ->). exists (c ++ a), (b ++ d). now rewrite <- !app_assoc. Qed.
Lemma sub_len x l : sub x l -> length x <= length l.
Proof. intros (a & b & ->). rewrite !app_length. lia. Qed.

(* what the scan returns *)
Definition lookOk (len : nat) (look : option (nat * nat * list nat)) (l : list nat) : Prop :=
  match look with None => True | Some (_, b2, _) => skipRaw l = [] \/ b2 <= len - length (skipRaw l) + 1 end.
Definition outOk (len : nat) (look : option (nat * nat * list nat)) (l : list nat) (o : res nextRes) : Prop :=
  match o with
  | Ok NNone => look = None
  | Ok (NNoEnd c2) => match look with None => len - length l + 1 < c2 | Some (_, b2, _) => c2 = b2 end
  | Ok (NFound ty c1 c2 e1 e2 fn) =>
      match look with
      | None => len - length l < c1 /\ c1 < c2 /\ c2 <= len + 1 /\ sub fn l /\ (ty = TBegin -> c2 <= e1 /\ e1 < e2 /\ e2 <= len + 1)
      | Some (b1, b2, f) => ty = TBegin /\ c1 = b1 /\ c2 = b2 /\ fn = f /\ b2 <= e1 /\ e1 < e2 /\ e2 <= len + 1
      end
  | Fuel => False
  | _ => True
  end.
Lemma lookOk_suf len look x l : length x <= length (skipRaw l) -> lookOk len look l -> lookOk len look x.
Proof.
  intros S H. destruct look as [[[b1 b2] fn]|]; [|exact I]. cbn in *. pose proof (skipRaw_len x).
  destruct H as [H|H].
  - rewrite H in S. destruct (skipRaw x); [now left|]. cbn in *. lia.
  - right. lia.
Qed.
Lemma outOk_suf len look x l o : suf x l -> length l <= len -> outOk len look x o -> outOk len look l o.
Proof.
  intros S L H. pose proof (suf_len _ _ S). destruct o as [[| |]| | |]; auto; destruct look as [[[b1 b2] f]|]; cbn in *; auto; try lia.
  destruct H as (A & B & C & D & E). split; [lia|]. split; [exact B|]. split; [exact C|]. split; [|exact E]. exact (sub_trans _ _ _ D (suf_sub _ _ S)).
Qed.
Lemma tokIs_len w l : tokIs w l = true -> rawTokenLen l = length w /\ l = w ++ skipn (length w) l.
Proof.
  unfold tokIs. intros H. apply Bool.andb_true_iff in H. destruct H as [A B]. apply Nat.eqb_eq in A. apply seqb_eq in B.
  split; [exact A|]. rewrite <- B at 1. symmetry. apply firstn_skipn.
Qed.
Lemma tok_after l : ended (skipn (rawTokenLen l) l).
Proof.
  induction l as [|c l IH]; [now left|]. cbn [rawTokenLen]. destruct (isgraph c) eqn:G; [exact IH|].
  cbn [skipn]. apply ended_cons. now apply isgraph_false.
Qed.
Lemma ended_skipRaw l : ended l -> l <> [] -> length (skipRaw l) < length l.
Proof.
  intros [->|(c & r & -> & G)] N; [easy|]. change (c :: r) with ([c] ++ r). rewrite skipRaw_white by (repeat constructor; exact G).
  pose proof (skipRaw_len r). cbn. lia.
Qed.

Lemma nextInc_out len : forall n look l, length l < n -> length l <= len -> lookOk len look l -> outOk len look l (nextInc n len look l).
Proof.
  induction n as [|n IH]; intros look l0 A L LO; [lia|].
  pose proof (suf_skipRaw l0) as S0. pose proof (suf_len _ _ S0) as L0.
  apply (outOk_suf len look (skipRaw l0) l0); [exact S0|exact L|]. cbn [nextInc].
  assert (REC : forall x, suf x (skipRaw l0) -> length x < n -> outOk len look (skipRaw l0) (nextInc n len look x)).
  { intros x Sx Lx. pose proof (suf_len _ _ Sx). apply (outOk_suf len look x); [exact Sx|lia|]. apply IH; [exact Lx|lia|].
    apply (lookOk_suf len look x l0); assumption. }
  set (l := skipRaw l0) in *.
  destruct (Nat.eqb_spec (rawTokenLen l) 0) as [Z|Z].
  { destruct look as [[[b1 b2] f]|]; reflexivity. }
  assert (Ll : length l <> 0) by (destruct l; [now cbn in Z|discriminate]).
  pose proof (suf_skipn (rawTokenLen l) l) as S1.
  assert (L1 : length (skipn (rawTokenLen l) l) < length l) by (rewrite skipn_length; lia).
  destruct (negb (Nat.eqb (nth 0 l 0) chDollar)); [apply REC; [exact S1|lia]|].
  destruct (Nat.eqb (nth 1 l 0) chLB).
  { destruct look as [q|]; [apply REC; [exact S1|lia]|].
    pose proof (whiteSpace_ok (skipn (rawTokenLen l) l)) as OA.
    destruct (whiteSpace (skipn (rawTokenLen l) l)) as [a| | |] eqn:Wa; cbn [rbind]; try exact I; [|exact OA].
    pose proof (suf_trans _ _ _ (suf_ws _ _ Wa) S1) as Sa. pose proof (suf_len _ _ (suf_ws _ _ Wa)) as La.
    pose proof (whiteSpace_ok (skipn (rawTokenLen a) a)) as OB.
    destruct (whiteSpace (skipn (rawTokenLen a) a)) as [b| | |] eqn:Wb; cbn [rbind]; try exact I; [|exact OB].
    pose proof (suf_trans _ _ _ (suf_ws _ _ Wb) (suf_trans _ _ _ (suf_skipn _ a) Sa)) as Sb. pose proof (suf_len _ _ (suf_ws _ _ Wb)) as Lb.
    rewrite skipn_length in Lb.
    destruct (tokIs wRB b) eqn:TB.
    - apply tokIs_len in TB. destruct TB as [_ TB]. assert (2 <= length b) by (rewrite TB, app_length; cbn; lia).
      cbn [outOk]. split; [lia|]. split; [lia|]. split; [lia|]. split; [now apply sub_firstn|discriminate].
    - apply REC; [exact (suf_trans _ _ _ (suf_skipn _ b) Sb)|rewrite skipn_length; lia]. }
  destruct (Nat.eqb (nth 1 l 0) chOpen); [|apply REC; [exact S1|lia]].
  pose proof (suf_trans _ _ _ (suf_skipRaw (skipn (rawTokenLen l) l)) S1) as Sa. pose proof (skipRaw_len (skipn (rawTokenLen l) l)) as La.
  set (a := skipRaw (skipn (rawTokenLen l) l)) in *.
  assert (PC : forall x, suf x a -> outOk len look l (nextInc n len look (pastClose x))).
  { intros x Sx. apply REC; [exact (suf_trans _ _ _ (suf_pastClose x) (suf_trans _ _ _ Sx Sa))|].
    pose proof (pastClose_len x). pose proof (suf_len _ _ Sx). lia. }
  set (ty := match look with None => _ | Some _ => _ end).
  destruct ty as [t|] eqn:ETy; [|apply PC, suf_refl].
  pose proof (suf_trans _ _ _ (suf_skipRaw (skipn (rawTokenLen a) a)) (suf_skipn _ a)) as Sb. set (b := skipRaw (skipn (rawTokenLen a) a)) in *.
  destruct (tokIs wLB b) eqn:TB; cbn [negb]; [|now apply PC].
  pose proof (suf_trans _ _ _ (suf_trans _ _ _ (suf_skipRaw (skipn 2 b)) (suf_skipn _ b)) Sb) as Sc. set (c := skipRaw (skipn 2 b)) in *.
  destruct (match look with Some (_, fn) => _ | None => false end); [now apply PC|].
  pose proof (suf_trans _ _ _ (suf_trans _ _ _ (suf_skipRaw (skipn (rawTokenLen c) c)) (suf_skipn _ c)) Sc) as Sd. set (d := skipRaw (skipn (rawTokenLen c) c)) in *.
  destruct (tokIs wRB d) eqn:TD; cbn [negb]; [|now apply PC].
  pose proof (suf_trans _ _ _ (suf_trans _ _ _ (suf_skipRaw (skipn 2 d)) (suf_skipn _ d)) Sd) as Se. set (e := skipRaw (skipn 2 d)) in *.
  destruct (tokIs wClose e) eqn:TE; cbn [negb]; [|now apply PC].
  pose proof (tok_after e) as AE. apply tokIs_len in TE. destruct TE as [TE1 TE2]. cbn [length wClose] in TE1, TE2. rewrite TE1 in AE.
  assert (Le : 2 <= length e) by (rewrite TE2, app_length; cbn; lia).
  pose proof (suf_len _ _ Se) as LeA.
  assert (Lf : length (skipn 2 e) = length e - 2) by apply skipn_length.
  set (f := skipn 2 e) in *.
  destruct look as [[[b1 b2] fn]|].
  - cbn [outOk]. repeat (split; [reflexivity|]). cbn [lookOk] in LO. fold l in LO. destruct LO as [LO|LO]; [rewrite LO in Ll; now cbn in Ll|].
    split; [exact LO|]. split; lia.
  - assert (Sf : suf f l) by exact (suf_trans _ _ _ (suf_skipn 2 e) (suf_trans _ _ _ Se Sa)).
    destruct t.
    + assert (LOf : lookOk len (Some (len - length l + 1, len - length f + 1 + 1, firstn (rawTokenLen c) c)) f).
      { cbn [lookOk]. destruct f as [|g f'] eqn:Ef; [now left|]. right. pose proof (ended_skipRaw (g :: f') AE ltac:(discriminate)). cbn [length] in *. lia. }
      pose proof (IH (Some (len - length l + 1, len - length f + 1 + 1, firstn (rawTokenLen c) c)) f ltac:(lia) ltac:(lia) LOf) as O.
      destruct (nextInc n len (Some (len - length l + 1, len - length f + 1 + 1, firstn (rawTokenLen c) c)) f) as [[|c2|ty' c1 c2 e1 e2 fn]| | |]; cbn [outOk] in *; try exact I; try contradiction.
      * discriminate.
      * subst c2. lia.
      * destruct O as (-> & -> & -> & -> & O1 & O2 & O3). split; [lia|]. split; [lia|]. split; [lia|].
        split; [|intros _; auto]. exact (sub_firstn _ _ _ (suf_trans _ _ _ Sc Sa)).
    + cbn [outOk]. split; [lia|]. split; [lia|]. split; [lia|]. split; [|discriminate]. exact (sub_firstn _ _ _ (suf_trans _ _ _ Sc Sa)).
    + cbn [outOk]. split; [lia|]. split; [lia|]. split; [lia|]. split; [|discriminate]. exact (sub_firstn _ _ _ (suf_trans _ _ _ Sc Sa)).
Qed.
Lemma getNext_out buf start : match getNextInclusion buf start with
  | UB => True
  | o => start <= length buf /\ outOk (length buf) None (skipn start buf) o
  end.
Proof.
  unfold getNextInclusion. destruct (Nat.ltb_spec (length buf) start) as [H|H]; [exact I|].
  assert (O := nextInc_out (length buf) (S (length buf)) None (skipn start buf)). rewrite skipn_length in O.
  specialize (O ltac:(lia) ltac:(lia) I). destruct (nextInc _ _ _ _); auto.
Qed.

(* ---------------- the names seen ---------------- *)
Definition keyOf (e : incCall) : nat * list nat := (ic_push e, ic_incl e).
Definition key_dec (a b : nat * list nat) : {a = b} + {a <> b}.
Proof. decide equality; [apply list_eq_dec, Nat.eq_dec|apply Nat.eq_dec]. Defined.
Definition more (tab tab' : list incCall) : Prop := exists m, map keyOf tab' = map keyOf tab ++ m.
Lemma more_refl tab : more tab tab. Proof. exists []. now rewrite app_nil_r. Qed.
Lemma more_trans a b c : more a b -> more b c -> more a c.
Proof. intros [m A] [m' B]. exists (m ++ m'). rewrite B, A. now rewrite app_assoc. Qed.
Lemma more_app tab x : more tab (tab ++ x). Proof. exists (map keyOf x). apply map_app. Qed.
Lemma findIncl_none n tab : findIncl n tab = None -> ~ In (0, n) (map keyOf tab).
Proof.
  induction tab as [|e tab IH]; cbn [findIncl map]; [easy|].
  destruct (Nat.eqb (ic_push e) 0 && seqb (ic_incl e) n) eqn:E; [discriminate|].
  destruct (findIncl n tab) as [i|]; [discriminate|]. intros _ [H|H]; [|now apply IH].
  unfold keyOf in H. injection H as A B. rewrite (hit_self e n A B) in E. discriminate.
Qed.
Definition unseen (U : list (list nat)) (tab : list incCall) : nat :=
  length (filter (fun n => if in_dec key_dec (0, n) (map keyOf tab) then false else true) U).
Lemma filter_mono {A} (p q : A -> bool) l : (forall x, p x = true -> q x = true) -> length (filter p l) <= length (filter q l).
Proof.
  intros H. induction l as [|a l IH]; cbn; [lia|]. destruct (p a) eqn:P; [rewrite (H a P); cbn; lia|]. destruct (q a); cbn; lia.
Qed.
Lemma filter_less {A} (p q : A -> bool) l x : (forall x, p x = true -> q x = true) -> In x l -> p x = false -> q x = true ->
  length (filter p l) < length (filter q l).
Proof.
  intros H I P Q. induction l as [|a l IH]; [easy|]. cbn. destruct I as [->|I].
  - rewrite P, Q. pose proof (filter_mono p q l H). cbn. lia.
  - specialize (IH I). destruct (p a) eqn:Pa; [rewrite (H a Pa); cbn; lia|]. destruct (q a); cbn; lia.
Qed.
Lemma unseen_more U tab tab' : more tab tab' -> unseen U tab' <= unseen U tab.
Proof.
  intros [m M]. apply filter_mono. intros x. destruct (in_dec key_dec (0, x) (map keyOf tab')) as [I|N]; [discriminate|]. intros _.
  destruct (in_dec key_dec (0, x) (map keyOf tab)) as [I|_]; [|reflexivity]. exfalso. apply N. rewrite M. apply in_or_app. now left.
Qed.
Lemma unseen_new U n tab tab' : In n U -> findIncl n tab = None -> more tab tab' -> In (0, n) (map keyOf tab') -> unseen U tab' < unseen U tab.
Proof.
  intros I F [m M] I'. apply findIncl_none in F. apply (filter_less _ _ U n); [|exact I| |].
  - intros x. destruct (in_dec key_dec (0, x) (map keyOf tab')) as [J|N]; [discriminate|]. intros _.
    destruct (in_dec key_dec (0, x) (map keyOf tab)) as [J|_]; [|reflexivity]. exfalso. apply N. rewrite M. apply in_or_app. now left.
  - destruct (in_dec key_dec (0, n) (map keyOf tab')) as [J|N]; [reflexivity|contradiction].
  - destruct (in_dec key_dec (0, n) (map keyOf tab)) as [J|N]; [contradiction|reflexivity].
Qed.
Lemma more_two tab a b tab' : more (tab ++ [a; b]) tab' -> exists a' b' m, tab' = firstn (length tab) tab' ++ a' :: b' :: m /\
  keyOf a' = keyOf a /\ keyOf b' = keyOf b /\ map keyOf (firstn (length tab) tab') = map keyOf tab /\ length (firstn (length tab) tab') = length tab.
Proof.
  intros [m M]. rewrite map_app, <- app_assoc in M. cbn [map app] in M.
  assert (L : length (firstn (length tab) tab') = length tab).
  { rewrite firstn_length. apply (f_equal (@length _)) in M. rewrite app_length, !map_length in M. lia. }
  rewrite <- (firstn_skipn (length tab) tab') in M at 1. rewrite map_app in M.
  apply app_eq_app in M. destruct M as (l & [[A B]|[A B]]).
  - assert (l = []) as ->. { apply length_zero_iff_nil. apply (f_equal (@length _)) in A. rewrite app_length, !map_length in A. lia. }
    rewrite app_nil_r in A. cbn [app] in B. destruct (skipn (length tab) tab') as [|a' [|b' r]] eqn:E; try discriminate.
    cbn [map] in B. injection B as B1 B2 B3 B4 _. exists a', b', r. split; [rewrite <- E; symmetry; apply firstn_skipn|].
    unfold keyOf. rewrite B1, B2, B3, B4. auto.
  - assert (l = []) as ->. { apply length_zero_iff_nil. apply (f_equal (@length _)) in A. rewrite app_length, !map_length in A. lia. }
    rewrite app_nil_r in A. cbn [app] in B. destruct (skipn (length tab) tab') as [|a' [|b' r]] eqn:E; try discriminate.
    cbn [map] in B. injection B as B1 B2 B3 B4 _. exists a', b', r. split; [rewrite <- E; symmetry; apply firstn_skipn|].
    unfold keyOf. rewrite B1, B2, B3, B4. auto.
Qed.
Lemma more_close tab fn src a b off c1 pl ext isz new l1 l2 s : keyOf a = (0, fn) -> keyOf b = (1, src) -> more (tab ++ [a; b]) (is_tab s) ->
  map keyOf (is_tab (closeCalls (length tab + 1) fn src off c1 pl ext isz new l1 l2 s)) = map keyOf (is_tab s).
Proof.
  intros Ka Kb M. destruct (more_two _ _ _ _ M) as (a' & b' & m & E & A & B & C & D).
  unfold closeCalls. cbn [is_tab]. set (f := firstn (length tab) (is_tab s)) in *. rewrite E, <- D, close_tab.
  rewrite !map_app. f_equal. cbn [map]. rewrite A, B, Ka, Kb. reflexivity.
Qed.
Lemma close_more tab fn src m1 m2 off c1 pl ext isz new l1 l2 s :
  more (tab ++ [mkIC 0 fn [] 0 m1 None 0; mkIC 1 src [] 0 m2 None 0]) (is_tab s) ->
  let s3 := closeCalls (length tab + 1) fn src off c1 pl ext isz new l1 l2 s in more tab (is_tab s3) /\ In (0, fn) (map keyOf (is_tab s3)).
Proof.
  intros H s3. pose proof (more_close tab fn src (mkIC 0 fn [] 0 m1 None 0) (mkIC 1 src [] 0 m2 None 0) off c1 pl ext isz new l1 l2 s eq_refl eq_refl H) as E. fold s3 in E.
  destruct H as [m H]. rewrite map_app, <- app_assoc in H. split.
  - exists (map keyOf [mkIC 0 fn [] 0 m1 None 0; mkIC 1 src [] 0 m2 None 0] ++ m). now rewrite E.
  - rewrite E, H. apply in_or_app. right. cbn. now left.
Qed.

(* ---------------- the loop ---------------- *)
Section Term.
Variable rd : list nat -> res (option (list nat)).
Variable L U : list (list nat).
Variable M : nat.
Hypothesis rd_ok : forall n, rd n <> Fuel.
Hypothesis rd_in : forall n t, rd n = Ok (Some t) -> In t L.
Hypothesis U_sub : forall t x, In t L -> sub x t -> In x U.
Hypothesis U_nil : In [] L.
Hypothesis M_len : forall t, In t L -> length t <= M.

Definition part (x : list nat) : Prop := exists t, In t L /\ sub x t.
Lemma part_sub x y : part y -> sub x y -> part x.
Proof. intros (t & I & S) S'. exists t. split; [exact I|]. exact (sub_trans _ _ _ S' S). Qed.
Lemma part_len x : part x -> length x <= M.
Proof. intros (t & I & S). pose proof (sub_len _ _ S). specialize (M_len t I). lia. Qed.

Definition good (r : res (list nat * Z * incSt)) (tab : list incCall) : Prop :=
  match r with Fuel => False | Ok (out, sz, s') => sz = Z.of_nat (length out) /\ more tab (is_tab s') | _ => True end.
Lemma good_more r tab tab' : more tab tab' -> good r tab' -> good r tab.
Proof. intros A. destruct r as [[[o z] s]| | |]; cbn; auto. intros [-> B]. split; [reflexivity|exact (more_trans _ _ _ A B)]. Qed.

Lemma skipn_part buf (k k' : nat) : k <= k' -> sub (skipn k' buf) (skipn k buf).
Proof.
  intros H. apply suf_sub. exists (firstn (k' - k) (skipn k buf)). rewrite <- (firstn_skipn (k' - k) (skipn k buf)) at 1. f_equal.
  clear -H. revert k' buf H. induction k as [|k IH]; intros k' buf H; [now rewrite Nat.sub_0_r|].
  destruct k' as [|k']; [lia|]. destruct buf as [|c buf]; [now rewrite !skipn_nil|]. cbn [skipn Nat.sub]. apply IH. lia.
Qed.

Lemma incl_good : forall f buf off src size pline start s,
  size = Z.of_nat (length buf) -> part (skipn start buf) ->
  unseen U (is_tab s) * (M + 3) + length (skipn start buf) + 2 <= f ->
  good (readInclude f rd buf off src size pline start s) (is_tab s).
Proof.
  induction f as [|f IH]; intros buf off src size pline start s Hs Hp Hf; [lia|].
  cbn [readInclude]. pose proof (getNext_out buf start) as O.
  destruct (getNextInclusion buf start) as [o|b| |] eqn:G; cbn [rbind]; try exact I; [|destruct O as [_ O]; exact O].
  destruct O as [Ls O]. rewrite skipn_length in Hf.
  set (tab := is_tab s) in *.
  assert (AFT : forall k, start < k -> part (skipn k buf) /\ length (skipn k buf) < length buf - start \/ length buf < k).
  { intros k K. destruct (Nat.lt_ge_cases (length buf) k) as [H|H]; [now right|left].
    split; [apply (part_sub _ (skipn start buf)); [exact Hp|apply skipn_part; lia]|rewrite skipn_length; lia]. }
  assert (ST : forall sz off' pl k s', start < k -> sz = Z.of_nat (length buf) -> unseen U (is_tab s') <= unseen U tab ->
             good (readInclude f rd buf off' src sz pl k s') (is_tab s')).
  { intros sz off' pl k s' K Sz Us. destruct (AFT k K) as [[P1 P2]|P1].
    - apply IH; [exact Sz|exact P1|]. apply (Nat.mul_le_mono_r _ _ (M + 3)) in Us. lia.
    - destruct f as [|f']; [lia|]. cbn [readInclude]. unfold getNextInclusion. destruct (Nat.ltb_spec (length buf) k); [exact I|lia]. }
  destruct o as [|c2|ty c1 c2 e1 e2 fn].
  { cbn. split; [exact Hs|apply more_refl]. }
  { cbn [outOk] in O. rewrite skipn_length in O. change tab with (is_tab (incErr MNoEnd s)). apply ST; [lia|exact Hs|reflexivity]. }
  cbn [outOk] in O. rewrite skipn_length in O. destruct O as (O1 & O2 & O3 & O4 & O5).
  replace (length buf - (length buf - start)) with start in O1 by lia.
  assert (FU : In fn U). { destruct Hp as (t & It & St). apply (U_sub t); [exact It|]. exact (sub_trans _ _ _ O4 St). }
  destruct (negb (Nat.eqb (ic_push (last tab (mkIC 0 [] [] 0 0 None 0))) 1)); [exact I|].
  assert (RB : forall k, start <= k -> k <= length buf -> length (rightT buf (k + 1)) = length buf - k /\ part (rightT buf (k + 1))).
  { intros k K1 K2. unfold rightT. rewrite Nat.add_sub. split; [apply skipn_length|]. apply (part_sub _ (skipn start buf)); [exact Hp|now apply skipn_part]. }
  assert (NEW : forall sz off' pl mid k s', k = c1 - 1 + length mid -> start < c1 -> forall c, c1 < c -> c <= length buf + 1 ->
             sz = Z.of_nat (length (leftT buf c1 ++ mid ++ rightT buf c)) -> unseen U (is_tab s') <= unseen U tab ->
             good (readInclude f rd (leftT buf c1 ++ mid ++ rightT buf c) off' src sz pl k s') (is_tab s')).
  { intros sz off' pl mid k s' K C1 c C2 C3 Sz Us.
    assert (E : skipn k (leftT buf c1 ++ mid ++ rightT buf c) = rightT buf c).
    { rewrite app_assoc. replace k with (length (leftT buf c1 ++ mid)); [apply skipn_app_len|]. unfold leftT. rewrite app_length, firstn_length. lia. }
    destruct (RB (c - 1)) as [R1 R2]; [lia|lia|]. replace (c - 1 + 1) with c in R1, R2 by lia.
    apply IH; [exact Sz|rewrite E; exact R2|]. rewrite E, R1. apply (Nat.mul_le_mono_r _ _ (M + 3)) in Us. lia. }
  destruct (findIncl fn tab) as [i|] eqn:F.
  - destruct (Nat.eqb i 0); [exact I|].
    assert (CL : forall m1 m2 off' c' pl ext isz new l1 l2 s2 r, is_tab s2 = tab ++ [mkIC 0 fn [] 0 m1 None 0; mkIC 1 src [] 0 m2 None 0] ->
      (forall s3, unseen U (is_tab s3) <= unseen U tab -> good (r s3) (is_tab s3)) ->
      good (r (closeCalls (length tab + 1) fn src off' c' pl ext isz new l1 l2 s2)) tab).
    { intros m1 m2 off' c' pl ext isz new l1 l2 s2 r T R.
      destruct (close_more tab fn src m1 m2 off' c' pl ext isz new l1 l2 s2) as [A _]; [rewrite T; apply more_refl|].
      apply (good_more _ _ _ A). apply R. now apply unseen_more. }
    destruct ty.
    + destruct (O5 eq_refl) as (E1 & E2 & E3).
      destruct (rget (nth_error tab i)) as [e|b| |] eqn:Ge; cbn [rbind]; try exact I; [|unfold rget in Ge; destruct (nth_error tab i); discriminate].
      destruct (rget (ic_isrc e)) as [old|b| |] eqn:Go; cbn [rbind]; try exact I; [|unfold rget in Go; destruct (ic_isrc e); discriminate].
      match goal with |- good (readInclude f rd ?x ?o' src ?z ?p' ?k' _) _ => set (rr := fun s3 => readInclude f rd x o' src z p' k' s3) end.
      eapply (CL _ _ _ _ _ _ _ _ _ _ _ rr); [destruct (seqb _ old); reflexivity|]. intros s3 U3. unfold rr.
      apply NEW; [lia|lia|lia|lia| |exact U3]. unfold leftT, rightT. rewrite !app_length, firstn_length, skipn_length. lia.
    + match goal with |- good (readInclude f rd ?x ?o' src ?z ?p' ?k' _) _ => set (rr := fun s3 => readInclude f rd x o' src z p' k' s3) end.
      eapply (CL _ _ _ _ _ _ _ _ _ _ _ rr); [reflexivity|]. intros s3 U3. unfold rr.
      apply NEW; [lia|lia|lia|lia| |exact U3]. unfold leftT, rightT. rewrite !app_length, firstn_length, skipn_length. lia.
    + match goal with |- good (readInclude f rd ?x ?o' src ?z ?p' ?k' _) _ => set (rr := fun s3 => readInclude f rd x o' src z p' k' s3) end.
      eapply (CL _ _ _ _ _ _ _ _ _ _ _ rr); [reflexivity|]. intros s3 U3. unfold rr.
      apply ST; [lia|exact Hs|exact U3].
  - assert (HM : forall (x y z : nat), x < y -> x * (M + 3) + z <= y * (M + 3) + z - (M + 3)).
    { intros x y z H. apply (Nat.mul_le_mono_r (S x) y (M + 3)) in H. cbn in H. lia. }
    assert (UN : forall tab', more tab tab' -> In (0, fn) (map keyOf tab') -> unseen U tab' < unseen U tab).
    { intros tab' A B. now apply (unseen_new U fn). }
    assert (CL : forall m1 m2 off' c' pl ext isz new l1 l2 s2 r, more (tab ++ [mkIC 0 fn [] 0 m1 None 0; mkIC 1 src [] 0 m2 None 0]) (is_tab s2) ->
      (forall s3, unseen U (is_tab s3) <= unseen U tab -> good (r s3) (is_tab s3)) ->
      good (r (closeCalls (length tab + 1) fn src off' c' pl ext isz new l1 l2 s2)) tab).
    { intros m1 m2 off' c' pl ext isz new l1 l2 s2 r T R.
      destruct (close_more tab fn src m1 m2 off' c' pl ext isz new l1 l2 s2) as [A _]; [exact T|].
      apply (good_more _ _ _ A). apply R. now apply unseen_more. }
    assert (LP : length (skipn start buf) <= M) by now apply part_len. rewrite skipn_length in LP.
    assert (IN : forall t off' src' pl s1 m1 m2, part t -> is_tab s1 = tab ++ [mkIC 0 fn [] 0 m1 None 0; mkIC 1 src [] 0 m2 None 0] ->
      good (readInclude f rd t off' src' (Z.of_nat (length t)) pl 0 s1) (is_tab s1)).
    { intros t off' src' pl s1 m1 m2 Pt T. apply IH; [reflexivity|exact Pt|]. pose proof (part_len t Pt) as Lt. cbn [skipn].
      assert (Us : unseen U (is_tab s1) < unseen U tab). { apply UN; rewrite T; [apply more_app|]. rewrite map_app. apply in_or_app. right. now left. }
      pose proof (HM _ _ (length t + 1) Us). apply (Nat.mul_le_mono_r (S _) _ (M + 3)) in Us. cbn in Us. lia. }
    assert (CASE : good (do t <- rd fn;
       let '(tmp, s') := match t with Some x => (x, fun l1 l2 : Z => mkIS (tab ++ [mkIC 0 fn [] 0 l1 None 0; mkIC 1 src [] 0 l2 None 0]) (is_err s) (is_msgs s))
          | None => ([], fun a b => incErr (MNotFound fn) (mkIS (tab ++ [mkIC 0 fn [] 0 a None 0; mkIC 1 src [] 0 b None 0]) (is_err s) (is_msgs s))) end in
       let bef := (pline + countLines buf (start + 1) (Z.of_nat c1 - 1 - Z.of_nat start))%Z in
       let aft := (bef + countLines buf c1 (Z.of_nat c2 - Z.of_nat c1 - 1))%Z in
       let prefix := beginMark fn in
       let suffix := endMark fn in
       do x <- readInclude f rd tmp (off + Z.of_nat c1 - 1 + Z.of_nat (length prefix)) fn (Z.of_nat (length tmp)) 1 0 (s' 0 aft)%Z;
       let '(isrc, isz, s2) := x in
       let new := (Z.of_nat (length prefix) + isz + Z.of_nat (length suffix))%Z in
       readInclude f rd (leftT buf c1 ++ prefix ++ isrc ++ suffix ++ rightT buf c2) off src
         (size - (Z.of_nat c2 - Z.of_nat c1) + new)%Z aft (Z.to_nat (Z.of_nat c1 + new - 1))
         (closeCalls (length tab + 1) fn src off c1 (length prefix) true isz new 0 aft s2)) tab).
    { destruct (rd fn) as [t|b| |] eqn:R; cbn [rbind]; try exact I; [|now apply (rd_ok fn)].
      set (P := match t with Some _ => _ | None => _ end). destruct P as [tmp s'] eqn:EP. cbv zeta.
      set (aft := (_ + countLines buf c1 (Z.of_nat c2 - Z.of_nat c1 - 1))%Z).
      assert (Pt : part tmp /\ is_tab (s' 0%Z aft) = tab ++ [mkIC 0 fn [] 0 0 None 0; mkIC 1 src [] 0 aft None 0]).
      { unfold P in EP. destruct t as [x|]; injection EP as <- <-; (split; [|reflexivity]).
        - exists x. split; [now apply (rd_in fn)|apply suf_sub, suf_refl].
        - exists []. split; [exact U_nil|apply suf_sub, suf_refl]. }
      destruct Pt as [Pt T]. pose proof (IN tmp (off + Z.of_nat c1 - 1 + Z.of_nat (length (beginMark fn)))%Z fn 1%Z _ _ _ Pt T) as G1.
      destruct (readInclude f rd tmp _ fn _ 1 0 (s' 0%Z aft)) as [[[isrc isz] s2]|b| |]; cbn [rbind]; try exact I; [|exact G1].
      cbn [good] in G1. destruct G1 as [Sz Mo]. rewrite T in Mo. subst isz.
      match goal with |- good (readInclude f rd ?x ?o' src ?z ?p' ?k' _) _ => set (rr := fun s3 => readInclude f rd x o' src z p' k' s3) end.
      eapply (CL _ _ _ _ _ _ _ _ _ _ _ rr); [exact Mo|]. intros s3 U3. unfold rr.
      replace (leftT buf c1 ++ beginMark fn ++ isrc ++ endMark fn ++ rightT buf c2) with (leftT buf c1 ++ (beginMark fn ++ isrc ++ endMark fn) ++ rightT buf c2) by now rewrite <- !app_assoc.
      apply NEW; [rewrite !app_length; lia|lia|lia|lia| |exact U3]. unfold leftT, rightT. rewrite !app_length, firstn_length, skipn_length. lia. }
    destruct ty; [|exact CASE|exact CASE]. clear CASE.
    destruct (O5 eq_refl) as (E1 & E2 & E3). cbv zeta.
    assert (LS : Z.of_nat (length (segT buf c2 (e1 - 1))) = (Z.of_nat e1 - Z.of_nat c2)%Z).
    { unfold segT. rewrite firstn_length, skipn_length. lia. }
    assert (Pi : part (segT buf c2 (e1 - 1))).
    { apply (part_sub _ (skipn (c2 - 1) buf)); [|apply sub_firstn, suf_refl]. apply (part_sub _ (skipn start buf)); [exact Hp|apply skipn_part; lia]. }
    rewrite <- LS.
    match goal with |- good (rbind (readInclude f rd ?t ?o' ?s' ?z ?p' 0 ?s1) _) _ => pose proof (IN t o' s' p' s1 _ _ Pi eq_refl) as G1; destruct (readInclude f rd t o' s' z p' 0 s1) as [[[isrc isz] s2]|b| |] eqn:RI end; cbn [rbind]; try exact I; [|exact G1].
    cbn [good] in G1. destruct G1 as [Sz Mo]. cbn [is_tab] in Mo.
    match goal with |- good (readInclude f rd ?x ?o' src ?z ?p' ?k' _) _ => set (rr := fun s3 => readInclude f rd x o' src z p' k' s3) end.
    eapply (CL _ _ _ _ _ _ _ _ _ _ _ rr); [exact Mo|]. intros s3 U3. unfold rr.
    assert (LP1 : 0 < length (segT buf c1 (c2 - 1))) by (unfold segT; rewrite firstn_length, skipn_length; lia).
    apply ST; [lia|exact Hs|exact U3].
Qed.
End Term.

Lemma filter_length {A} (p : A -> bool) l : length (filter p l) <= length l.
Proof. induction l as [|a l IH]; cbn; [lia|]. destruct (p a); cbn; lia. Qed.
(* all parts of a text *)
Definition parts (t : list nat) : list (list nat) :=
  flat_map (fun i => map (fun j => firstn j (skipn i t)) (seq 0 (S (length t)))) (seq 0 (S (length t))).
Lemma parts_sub x t : sub x t -> In x (parts t).
Proof.
  intros (a & b & ->). unfold parts. apply in_flat_map. exists (length a). split; [apply in_seq; rewrite !app_length; lia|].
  apply in_map_iff. exists (length x). split; [rewrite skipn_app_len; apply firstn_app_len|apply in_seq; rewrite !app_length; lia].
Qed.
Lemma max_len (L : list (list nat)) : exists M, forall t, In t L -> length t <= M.
Proof.
  induction L as [|x L [M H]]; [now exists 0|]. exists (Nat.max (length x) M). intros t [<-|I]; [lia|]. specialize (H t I). lia.
Qed.
Lemma source_ends rd L main : (forall n, rd n <> Fuel) -> (forall n t, rd n = Ok (Some t) -> In t L) ->
  exists b, forall fuel, b <= fuel -> readSourceAndIncludes fuel rd main <> Fuel.
Proof.
  intros A B. set (L' := [] :: L). destruct (max_len L') as [M HM]. set (U := flat_map parts L').
  exists (length U * (M + 3) + M + 2). intros fuel Hf E. unfold readSourceAndIncludes in E.
  destruct (rd main) as [t|b| |] eqn:R; cbn [rbind] in E; try discriminate; [|now apply (A main)].
  set (P := match t with Some _ => _ | None => _ end) in E. destruct P as [[txt err] msgs] eqn:EP. cbv zeta in E.
  assert (It : In txt L'). { unfold P in EP. destruct t as [x|]; injection EP as <- _ _; [right; now apply (B main)|now left]. }
  set (s0 := mkIS _ err msgs) in E.
  assert (G : good (readInclude fuel rd txt 0 main (Z.of_nat (length txt)) 1 0 s0) (is_tab s0)).
  { apply (incl_good rd L' U M A).
    - intros n x H. right. now apply (B n).
    - intros x y I S. apply in_flat_map. exists x. split; [exact I|now apply parts_sub].
    - now left.
    - exact HM.
    - reflexivity.
    - exists txt. split; [exact It|apply suf_sub, suf_refl].
    - cbn [skipn]. specialize (HM txt It).
      assert (Us : unseen U (is_tab s0) <= length U) by apply filter_length.
      apply (Nat.mul_le_mono_r _ _ (M + 3)) in Us. lia. }
  destruct (readInclude fuel rd txt 0 main _ 1 0 s0) as [[[o z] s]|b| |]; cbn [rbind] in E; try discriminate. exact G.
Qed.
Lemma readFile_fuel b : readFile b <> Fuel.
Proof.
  unfold readFile. assert (F : forall u, rbind (addNL (fixCR u)) (fun v => Ok (Some v)) <> Fuel).
  { intros u. unfold addNL. destruct (rev (fixCR u)); discriminate. }
  destruct b as [|c [|d r]]; cbn [rbind]; try apply F.
  destruct (Nat.eqb c 255 && Nat.eqb d 254); [|cbn [rbind]; apply F]. destruct (Nat.even _); cbn [rbind]; [|discriminate].
  destruct (utf16 r); [apply F|discriminate].
Qed.
Lemma named_ends fs dom main : (forall n, fs n <> None -> In n dom) ->
  exists b, forall fuel, b <= fuel -> readSourceAndIncludes fuel (readNamed fs) main <> Fuel.
Proof.
  intros D. apply (source_ends _ (flat_map (fun n => match readNamed fs n with Ok (Some t) => [t] | _ => [] end) dom)).
  - intros n. unfold readNamed. destruct (fs n); [apply readFile_fuel|discriminate].
  - intros n t H. apply in_flat_map. exists n. split; [apply D|rewrite H; now left]. unfold readNamed in H. destruct (fs n); discriminate.
Qed.

(* ---------------- the whole reading ---------------- *)
Lemma expands_source rd main t out ws seen : rd main = Ok (Some t) -> Expands main (fun n x => rd n = Ok (Some x)) [] [] t out ws seen ->
  exists bound tab msgs, forall fuel, bound < fuel ->
    readSourceAndIncludes fuel rd main = Ok (Some (out, Z.of_nat (length out)), tab, msgs).
Proof.
  intros R X. pose proof (expands_run main rd _ _ _ _ _ _ X) as Rn.
  set (tab0 := [mkIC 0 main main 0 1 (Some []) (Z.of_nat (length t)); mkIC 1 [] [] 0 (-1) (Some []) 0]).
  destruct (Rn [] [] 0%Z main (Z.of_nat (length t)) 1%Z (mkIS tab0 false [])) as (bd & s' & m & H & E & Mo & _).
  - intros len. reflexivity.
  - constructor.
    + eexists _, _. split; [reflexivity|]. split; reflexivity.
    + reflexivity.
    + intros n N _. unfold tab0. cbn [is_tab findIncl ic_push ic_incl Nat.eqb andb]. rewrite seqb_neq by congruence. reflexivity.
    + intros n _ [].
  - cbn [app length] in H. cbn [is_err] in E. eexists bd, _, (is_msgs s'). intros fuel Hf. unfold readSourceAndIncludes. rewrite R. cbn [rbind]. cbv zeta. fold tab0.
    rewrite (H fuel Hf). cbn [rbind]. rewrite E.
    replace (Z.of_nat (length t) + Z.of_nat (length out) - Z.of_nat (length t))%Z with (Z.of_nat (length out)) by lia. reflexivity.
Qed.
Lemma again_source rd main t out ws seen rd' : Expands main (fun n x => rd n = Ok (Some x)) [] [] t out ws seen ->
  (forall m n, In m seen -> In n seen -> begins m n -> m = n) -> rd' main = Ok (Some out) ->
  exists bound tab msgs, forall fuel, bound < fuel ->
    readSourceAndIncludes fuel rd' main = Ok (Some (out, Z.of_nat (length out)), tab, msgs).
Proof.
  intros X P R. destruct (expands_again _ _ _ _ _ _ _ _ X P) as [A _]. exact (expands_source rd' main out out ws seen R (A _ [])).
Qed.
