(* LineProofs.v *)
From Coq Require Import ZifyBool ZifyNat.
From Verif Require Import Base VstrModel VstrSpec VstrProofs LineModel LineSpec.
Open Scope nat_scope.

Lemma left_Z s n : isStr s -> left_ s n = Ok (firstn (Z.to_nat n) s).
Proof.
  intros H. unfold left_. rewrite mid_ok by (try assumption; lia). reflexivity.
Qed.
Lemma right_Z s n : isStr s -> (1 <= n <= len s + 1)%Z -> right_ s n = Ok (skipn (Z.to_nat (n - 1)) s).
Proof.
  intros H L. unfold len in L. unfold right_, seg. cbv zeta.
  replace (n <? 1)%Z with false by lia. rewrite mid_ok by (try assumption; lia).
  rewrite firstn_all2; [reflexivity|]. rewrite skipn_length. lia.
Qed.
Lemma charAt_ok s k : (0 <= k <= len s)%Z -> charAt s k = Ok (nth (Z.to_nat k) s 0).
Proof. intros H. unfold charAt. replace ((k <? 0) || (len s <? k))%Z with false by lia. reflexivity. Qed.

Definition brkSet (brk : list nat) : list nat := if hdIs 92 brk then [chSpace] else brk.
Lemma brkSet_spec brk c : In c (brkSet brk) <-> breakChar brk c.
Proof.
  unfold brkSet, breakChar. destruct (hdIs 92 brk); [|tauto]. simpl. unfold chSpace. intuition.
Qed.
Lemma strchr_spec brk c : 0 < c -> (strchr (brkSet brk) c = true <-> breakChar brk c).
Proof.
  intros H. rewrite <- brkSet_spec. unfold strchr. rewrite orb_true_iff, existsb_exists, Nat.eqb_eq. split.
  - intros [[x [I E]]|E]; [|lia]. apply Nat.eqb_eq in E. subst. exact I.
  - intros I. left. exists c. split; [exact I|apply Nat.eqb_refl].
Qed.

Lemma isStr_nth s k : isStr s -> k < length s -> 0 < nth k s 0.
Proof.
  intros H L. apply (proj1 (Forall_forall _ _) H (nth k s 0)). apply nth_In. exact L.
Qed.
Lemma findBreak_spec brk long p : isStr long -> p <= length long ->
  exists q, findBreak (brkSet brk) long p = Ok q /\ q <= p /\
    (0 < q -> breakChar brk (nth (q - 1) long 0)) /\
    (forall k, q <= k < p -> ~ breakChar brk (nth k long 0)).
Proof.
  intros H. induction p as [|p IH]; intros L.
  - exists 0. cbn [findBreak]. repeat split; lia.
  - cbn [findBreak]. rewrite charAt_ok by (unfold len; lia). cbn [rbind]. rewrite Nat2Z.id.
    pose proof (isStr_nth long p H ltac:(lia)) as P.
    destruct (strchr (brkSet brk) (nth p long 0)) eqn:E.
    + exists (S p). repeat split; try lia.
      intros _. replace (S p - 1) with p by lia. apply strchr_spec; assumption.
    + destruct (IH ltac:(lia)) as [q [A [B [C D]]]]. exists q. rewrite A. repeat split; try lia; auto.
      intros k K. destruct (Nat.eq_dec k p) as [->|N]; [|apply D; lia].
      rewrite <- strchr_spec by exact P. congruence.
Qed.

Lemma instr_space_0 p s : instr p s [chSpace] = 0 <-> ~ In 32 (skipn (Z.to_nat (p - 1)) s).
Proof.
  unfold instr. cbv zeta.
  set (i := Z.to_nat _).
  assert (G : forall l j, instrFrom l j [chSpace] = 0 <-> ~ In 32 l).
  { induction l as [|c l IH]; intros j; cbn [instrFrom]; [simpl; tauto|].
    cbn [strnEq]. unfold chSpace in *. rewrite andb_true_r. destruct (Nat.eqb_spec c 32) as [->|N].
    - simpl. split; [lia|intros X; exfalso; apply X; auto].
    - cbn [andb]. rewrite IH. simpl. intuition. }
  rewrite G.
  assert (E : skipn i s = skipn (Z.to_nat (p - 1)) s); [|rewrite E; tauto].
  unfold i. destruct (p <? 1)%Z eqn:E1.
  - replace (Z.to_nat (p - 1)) with 0 by lia.
    destruct (Z.of_nat (length s) <? 1)%Z eqn:E2; [|reflexivity].
    destruct s; [reflexivity|simpl in E2; lia].
  - destruct (Z.of_nat (length s) <? p)%Z eqn:E2; [|reflexivity].
    rewrite !skipn_all2 by lia. reflexivity.
Qed.

(* what breakPos finds *)
Lemma skipn_cons_nth (l : list nat) k : k < length l -> skipn k l = nth k l 0 :: skipn (S k) l.
Proof.
  revert k. induction l as [|x l IH]; intros [|k] L; simpl in *; try lia; [reflexivity|].
  apply IH. lia.
Qed.
Lemma firstn_two (l : list nat) k : 2 <= k <= length l ->
  firstn k l = firstn (k - 2) l ++ [nth (k - 2) l 0; nth (k - 1) l 0].
Proof.
  intros L. rewrite <- (firstn_skipn (k - 2) (firstn k l)) at 1.
  rewrite firstn_firstn, Nat.min_l by lia. f_equal.
  rewrite skipn_firstn_comm. replace (k - (k - 2)) with 2 by lia.
  rewrite (skipn_cons_nth l (k - 2)) by lia. rewrite (skipn_cons_nth l (S (k - 2))) by lia.
  replace (S (k - 2)) with (k - 1) by lia. reflexivity.
Qed.
Lemma firstn_three (l : list nat) k : 3 <= k <= length l ->
  firstn k l = firstn (k - 3) l ++ [nth (k - 3) l 0; nth (k - 2) l 0; nth (k - 1) l 0].
Proof.
  intros L. rewrite firstn_two by lia.
  rewrite <- (firstn_skipn (k - 3) (firstn (k - 2) l)) at 1.
  rewrite firstn_firstn, Nat.min_l by lia. rewrite <- app_assoc. f_equal.
  rewrite skipn_firstn_comm. replace (k - 2 - (k - 3)) with 1 by lia.
  rewrite (skipn_cons_nth l (k - 3)) by lia. reflexivity.
Qed.

(* p: where the line is broken (counting from 1), with reason *)
Inductive found (brk long : list nat) (p0 p : nat) : Prop :=
| fd_none : p = 0 -> (forall k, k < p0 -> ~ breakChar brk (nth k long 0)) -> found brk long p0 p
| fd_any : p = p0 -> brk = [] -> found brk long p0 p
| fd_char : 0 < p <= p0 -> brk <> [] -> breakChar brk (nth (p - 1) long 0) -> found brk long p0 p
| fd_space : p = p0 - 1 \/ p = p0 -> hdIs 38 brk = true -> nth (p - 1) long 0 = 32 -> found brk long p0 p
| fd_compr : p = p0 -> hdIs 38 brk = true -> nth (p - 1) long 0 <> 32 -> nth (p - 2) long 0 <> 32 -> nth (p - 3) long 0 <> 32 ->
    ~ In 32 (skipn (p - 1) (firstn (length long - 3) long)) -> found brk long p0 p
| fd_paren : p = p0 -> hdIs 38 brk = true -> nth (p - 1) long 0 <> 32 -> nth (p - 2) long 0 <> 32 -> nth (p - 4) long 0 = 41 -> found brk long p0 p.

Lemma breakPos_spec y long (p0 : nat) : isStr long -> 4 <= p0 <= length long ->
  exists p, breakPos y long (Z.of_nat p0) = Ok (Z.of_nat p) /\ found (y_brk y) long p0 p.
Proof.
  intros H L. unfold breakPos.
  assert (W : exists p, (match y_brk y with
       | [] => Ok (Z.of_nat p0)
       | _ => do q <- findBreak (brkSet (y_brk y)) long (Z.to_nat (Z.of_nat p0)); Ok (Z.of_nat q)
       end) = Ok (Z.of_nat p) /\ found (y_brk y) long p0 p).
  { rewrite Nat2Z.id. destruct (y_brk y) as [|b r] eqn:E.
    - exists p0. split; [reflexivity|]. apply fd_any; reflexivity.
    - destruct (findBreak_spec (b :: r) long p0 H ltac:(lia)) as [q [A [B [C D]]]].
      exists q. rewrite A. split; [reflexivity|]. destruct (Nat.eq_dec q 0) as [->|N].
      + apply fd_none; [reflexivity|]. intros k K. apply D. lia.
      + apply fd_char; [lia|discriminate|apply C; lia]. }
  destruct (hdIs 38 (y_brk y)) eqn:A.
  - rewrite left_Z by exact H. cbn [rbind].
    rewrite !charAt_ok by (unfold len; lia). cbn [rbind].
    replace (Z.to_nat (Z.of_nat p0 - 2)) with (p0 - 2) by lia.
    replace (Z.to_nat (Z.of_nat p0 - 3)) with (p0 - 3) by lia.
    replace (Z.to_nat (Z.of_nat p0 - 4)) with (p0 - 4) by lia.
    destruct (_ || _) eqn:E; [|exact W].
    unfold chSpace in *. destruct (Nat.eqb_spec (nth (p0 - 2) long 0) 32) as [E2|E2].
    + exists (p0 - 1). split; [f_equal; lia|]. apply fd_space; auto. replace (p0 - 1 - 1) with (p0 - 2) by lia. exact E2.
    + exists p0. split; [reflexivity|].
      destruct (Nat.eq_dec (nth (p0 - 1) long 0) 32) as [E1|E1]; [apply fd_space; auto|].
      apply orb_prop in E. destruct E as [E|E].
      * apply andb_prop in E. destruct E as [Ea Eb].
        apply Nat.eqb_eq, (proj1 (instr_space_0 _ _)) in Ea.
        apply fd_compr; auto.
        -- apply negb_true_iff, Nat.eqb_neq in Eb. exact Eb.
        -- replace (Z.to_nat (Z.of_nat p0 - 1)) with (p0 - 1) in Ea by lia.
           replace (Z.to_nat (len long - 3)) with (length long - 3) in Ea by (unfold len; lia). exact Ea.
      * apply Nat.eqb_eq in E. apply fd_paren; auto.
  - cbn [rbind]. exact W.
Qed.

(* the gap and the rest after a break at p *)
Definition gapAt (brk long : list nat) (p : nat) : nat :=
  if (nth (p - 1) long 0 =? 32) && negb (match brk with [] => true | _ => false end)
  then if nth p long 0 =? 32 then 2 else 1 else 0.
Lemma found_break brk long p0 p : isStr long -> 4 <= p0 <= length long -> found brk long p0 p -> 0 < p ->
  (p =? 1) && negb (nth 0 long 0 =? 32) = false ->
  let n := gapAt brk long p in
  breakAt brk (firstn (p - 1) long) (firstn n (skipn (p - 1) long)) (skipn (p - 1 + n) long) /\
  p - 1 + n <= length long /\ 0 < p - 1 + n.
Proof.
  intros H L F P B1. cbv zeta.
  assert (Lp : p <= p0) by (destruct F; lia).
  assert (SK : skipn (p - 1) long = nth (p - 1) long 0 :: skipn p long).
  { rewrite (skipn_cons_nth long (p - 1)) by lia. f_equal. f_equal. lia. }
  assert (Nz : 0 < nth (p - 1) long 0) by (apply isStr_nth; [exact H|lia]).
  assert (SP : brk <> [] -> (breakChar brk 32 \/ hdIs 38 brk = true) -> nth (p - 1) long 0 = 32 ->
     breakAt brk (firstn (p - 1) long) (firstn (gapAt brk long p) (skipn (p - 1) long)) (skipn (p - 1 + gapAt brk long p) long) /\
     p - 1 + gapAt brk long p <= length long /\ 0 < p - 1 + gapAt brk long p).
  { intros Nb Bc E. unfold gapAt. rewrite E, Nat.eqb_refl. destruct brk as [|b r]; [congruence|]. cbn [negb andb].
    destruct (Nat.eqb_spec (nth p long 0) 32) as [E2|E2].
    - assert (p < length long). { destruct (Nat.lt_ge_cases p (length long)) as [|G]; [assumption|]. rewrite nth_overflow in E2 by lia. lia. }
      split; [|lia]. apply br_two; auto. rewrite SK, E. rewrite (skipn_cons_nth long p) by lia. rewrite E2. reflexivity.
    - split; [|lia]. apply br_one; auto.
      + rewrite SK, E. reflexivity.
      + replace (p - 1 + 1) with p by lia. destruct (Nat.lt_ge_cases p (length long)) as [Q|Q].
        * rewrite (skipn_cons_nth long p) by lia. exact E2.
        * rewrite skipn_all2 by lia. simpl. lia. }
  assert (Z0 : nth (p - 1) long 0 <> 32 -> gapAt brk long p = 0).
  { intros N. unfold gapAt. replace (nth (p - 1) long 0 =? 32) with false by (symmetry; apply Nat.eqb_neq; exact N). reflexivity. }
  assert (NE : 1 < p -> firstn (p - 1) long <> []).
  { intros Q C. apply (f_equal (@length nat)) in C. rewrite firstn_length in C. simpl in C. lia. }
  destruct F as [E|E1 E2|E1 E2 E3|E1 E2 E3|E1 E2 E3 E4 E5 E6|E1 E2 E3 E4 E5].
  - lia.
  - subst brk. assert (G : gapAt [] long p = 0) by (unfold gapAt; rewrite andb_false_r; reflexivity). rewrite G.
    split; [|lia]. apply br_any; auto. apply NE. lia.
  - destruct (Nat.eq_dec (nth (p - 1) long 0) 32) as [Q|Q].
    + apply SP; auto. left. rewrite Q in E3. exact E3.
    + rewrite (Z0 Q). assert (1 < p).
      { destruct (Nat.eq_dec p 1) as [->|]; [|lia]. cbn [Nat.eqb Nat.sub andb] in *.
        apply negb_false_iff, Nat.eqb_eq in B1. congruence. }
      split; [|lia]. rewrite Nat.add_0_r. rewrite SK.
      apply br_char with (nth (p - 1) long 0) (skipn p long); auto.
  - apply SP; auto. intros ->; discriminate.
  - rewrite (Z0 E3). split; [|lia]. rewrite Nat.add_0_r.
    assert (NB : skipn (p - 1) long <> []) by (rewrite SK; discriminate).
    apply br_compr with (firstn (p - 3) long) (nth (p - 3) long 0) (nth (p - 2) long 0); auto.
    + rewrite firstn_two by lia. repeat (f_equal; try lia).
    + rewrite skipn_firstn_comm in E6. rewrite skipn_length.
      replace (length long - (p - 1) - 3) with (length long - 3 - (p - 1)) by lia. exact E6.
  - rewrite (Z0 E3). split; [|lia]. rewrite Nat.add_0_r.
    assert (NB : skipn (p - 1) long <> []) by (rewrite SK; discriminate).
    apply br_paren with (firstn (p - 4) long) (nth (p - 3) long 0) (nth (p - 2) long 0); auto.
    rewrite firstn_three by lia. rewrite <- E5. repeat (f_equal; try lia).
Qed.

(* ---------- one line of the caller ---------- *)
Definition otherBreak (brk long : list nat) : Prop := exists c, In c long /\ breakChar brk c /\ c <> 32.
Definition post_ (y : style) : list nat := if y_tilde y then [126] else [].
Definition cost (y : style) : Z := (bz (y_tilde y) + bz (hdIs 92 (y_brk y)))%Z.

Lemma skipn_plus (l : list nat) a b : skipn (a + b) l = skipn b (skipn a l).
Proof. revert l. induction a as [|a IH]; intros [|x l]; simpl; auto. destruct b; reflexivity. Qed.
Lemma isStr_skipn' s n : isStr s -> isStr (skipn n s).
Proof. intros H. unfold isStr in *. rewrite Forall_forall in *. intros x I. apply H.
  rewrite <- (firstn_skipn n s). apply in_or_app. right. exact I. Qed.
Lemma len_space n : len (space n) = Z.max 0 n.
Proof. unfold len, space. rewrite repeat_length. lia. Qed.
Lemma len_app a b : len (a ++ b) = (len a + len b)%Z.
Proof. unfold len. rewrite app_length. lia. Qed.
Lemma print2_ok w l : (len l <= w)%Z -> print2 w l = Ok (map unquote l).
Proof. intros H. unfold print2. replace (w + 1 <? len l + 1)%Z with false by lia. reflexivity. Qed.
Lemma prefix_weaken brk tree start m m' f t pre : m' <= m -> prefixOk brk tree start m f t pre -> prefixOk brk tree start m' f t pre.
Proof.
  intros M [[E [F|[r [v [R1 [R2 R3]]]]]]|X]; [left; auto|left|right; exact X].
  split; [exact E|right]. exists r, v. repeat split; auto. lia.
Qed.
Lemma wrapped_m brk tree start post m m' f t ls : m' <= m ->
  wrapped brk tree start post m f t ls -> wrapped brk tree start post m' f t ls.
Proof.
  intros M W. induction W as [f t pre P|f a gap b pre ls P B W IH].
  - apply wr_last. apply prefix_weaken with m; assumption.
  - apply wr_more; [apply prefix_weaken with m; assumption|exact B|exact IH].
Qed.
Lemma wrapped_weaken brk tree start post m t ls r v : t = r ++ v -> m <= length r -> (forall c, In c r -> ~ breakChar brk c) ->
  wrapped brk tree start post m true t ls -> wrapped brk tree start post m false t ls.
Proof.
  intros R1 R2 R3.
  assert (P : forall pre, prefixOk brk tree start m true t pre -> prefixOk brk tree start m false t pre).
  { intros pre [[-> _]|[X _]]; [left; split; [reflexivity|right]|discriminate]. exists r, v. auto. }
  intros W. clear R1 R2 R3. remember true as f eqn:Ef. destruct W as [f t pre P0|f a gap b pre ls P0 B W]; subst f.
  - apply wr_last, P, P0.
  - apply wr_more; [apply P, P0|exact B|exact W].
Qed.
Lemma unbreakable_tail brk a b r : unbreakable brk b r -> unbreakable brk (a ++ b) r.
Proof. intros [[u [v E]] N]. split; [|exact N]. exists (a ++ u), v. subst b. rewrite !app_assoc. reflexivity. Qed.

Lemma wrap_ok : forall fuel y w start long first L0, isStr long -> y_tilde y && y_tree y = false ->
  (len start + 3 <= w - cost y)%Z -> (len start <= w - 4)%Z -> (len long <= L0)%Z ->
  (len long + Z.max 0 (L0 + len start + 2 - w) < Z.of_nat fuel)%Z ->
  (wrap fuel y w (len start) start long first = Bug 1516 /\ otherBreak (y_brk y) long) \/
  exists ls, wrap fuel y w (len start) start long first = Ok (map (map unquote) ls, start) /\
    wrapped (y_brk y) (y_tree y) start (post_ y) (Z.to_nat (w - cost y + 1 - len start)) first long ls /\
    forall l, In l ls -> (len l <= w)%Z \/
      exists r, unbreakable (y_brk y) long r /\ (w < len r + len start + cost y /\ len l <= len r + len start + cost y)%Z.
Proof.
  induction fuel as [|f IH]; intros y w start long first L0 H NT R1 R2 LL FU.
  { unfold len in FU. lia. }
  cbn [wrap]. cbv zeta.
  assert (C : (0 <= cost y)%Z). { unfold cost, bz. destruct (y_tilde y), (hdIs 92 (y_brk y)); lia. }
  set (used := if first then 0%Z else len start).
  assert (U : (0 <= used <= len start)%Z). { unfold used, len. destruct first; lia. }
  replace (w - bz (y_tilde y) - bz (hdIs 92 (y_brk y)))%Z with (w - cost y)%Z by (unfold cost; lia).
  destruct (Z.leb_spec (len long + used) (w - cost y)) as [FIT|LONG].
  - right.
    set (ln := if first then long else if y_tree y then start ++ space (w - len start - len long) ++ long else start ++ long).
    assert (Hl : (len ln <= w)%Z).
    { unfold ln, used in *. destruct first; [lia|]. destruct (y_tree y); rewrite !len_app, ?len_space; lia. }
    rewrite print2_ok by exact Hl. cbn [rbind]. exists [ln]. split; [reflexivity|]. split.
    + unfold ln. destruct first; [apply (wr_last _ _ _ _ _ true long []); left; split; [reflexivity|left; reflexivity]|].
      destruct (y_tree y) eqn:T.
      * rewrite app_assoc. apply wr_last. right. split; [reflexivity|]. unfold space, chSpace.
        eexists. split; [reflexivity|discriminate].
      * apply wr_last. right. split; [reflexivity|]. exists 0. split; [simpl; rewrite app_nil_r; reflexivity|reflexivity].
    + intros l [<-|[]]. left. exact Hl.
  - set (p0 := Z.to_nat (w - cost y + 1 - used)).
    replace (w - cost y + 1 - used)%Z with (Z.of_nat p0) by (unfold p0; lia).
    assert (P4 : 4 <= p0) by (unfold p0; lia).
    assert (PL : p0 <= length long) by (unfold p0, len in *; lia).
    replace (Z.of_nat p0 <? 4)%Z with false by lia.
    destruct (breakPos_spec y long p0 H ltac:(lia)) as [p [EP F]]. rewrite EP. cbn [rbind].
    destruct (Z.leb_spec (Z.of_nat p) 0) as [Z0|PP].
    + (* the screen is made wider *)
      assert (p = 0) by lia. subst p.
      assert (NB : forall k, k < p0 -> ~ breakChar (y_brk y) (nth k long 0)).
      { destruct F as [_ N|E _|E _ _|E _ E3|E _ _ _ _ _|E _ _ _ _]; try exact N; try lia. }
      assert (SS : setStart (w + 1) start = Ok (len start, start)).
      { unfold setStart. replace (w + 1 - 4 <? len start)%Z with false by lia. reflexivity. }
      rewrite SS. cbn [rbind fst snd].
      destruct (IH y (w + 1)%Z start long true L0 H NT ltac:(lia) ltac:(lia) LL) as [[E O]|[ls [E [W G]]]].
      { assert (cost y <= 2)%Z by (unfold cost, bz; destruct (y_tilde y), (hdIs 92 (y_brk y)); lia). lia. }
      * left. split; assumption.
      * right. exists ls. split; [exact E|].
        assert (UB0 : unbreakable (y_brk y) long (firstn p0 long)).
        { split; [exists [], (skipn p0 long); simpl; symmetry; apply firstn_skipn|].
          intros c I. apply In_nth with (d := 0) in I. destruct I as [k [K1 K2]]. rewrite firstn_length in K1.
          rewrite <- K2. rewrite <- (firstn_skipn p0 long) in NB.
          specialize (NB k ltac:(lia)). rewrite app_nth1 in NB by (rewrite firstn_length; lia). exact NB. }
        split.
        { apply wrapped_m with (m' := Z.to_nat (w - cost y + 1 - len start)) in W; [|lia].
          destruct first; [exact W|]. apply wrapped_weaken with (firstn p0 long) (skipn p0 long).
          - symmetry. apply firstn_skipn.
          - rewrite firstn_length. unfold p0, used. lia.
          - apply (proj2 UB0).
          - exact W. }
        assert (LP : len (firstn p0 long) = Z.of_nat p0) by (unfold len; rewrite firstn_length; lia).
        intros l I. destruct (G l I) as [G1|[r [G1 [G2 G3]]]].
        -- right. exists (firstn p0 long). split; [exact UB0|]. rewrite LP. unfold p0. lia.
        -- right. exists r. split; [exact G1|]. lia.
    + rewrite charAt_ok by (unfold len; lia). cbn [rbind]. rewrite Z2Nat.inj_0.
      replace (Z.of_nat p =? 1)%Z with (p =? 1) by lia.
      change chSpace with 32.
      destruct ((p =? 1) && negb (nth 0 long 0 =? 32)) eqn:B1.
      * left. split; [reflexivity|]. apply andb_prop in B1. destruct B1 as [B1 B2].
        apply Nat.eqb_eq in B1. subst p. apply negb_true_iff, Nat.eqb_neq in B2.
        destruct F as [E _|E _|E1 E2 E3|E1 E2 E3|E _ _ _ _ _|E _ _ _ _]; try lia.
        exists (nth 0 long 0). split; [apply nth_In; lia|split; assumption].
      * assert (Lp : p <= p0) by (destruct F; lia).
        destruct (found_break _ _ _ _ H (conj P4 PL) F ltac:(lia) B1) as [BA [N1 N2]].
        set (n := gapAt (y_brk y) long p) in *.
        rewrite left_Z by exact H. cbn [rbind].
        replace (Z.to_nat (Z.of_nat p - 1)) with (p - 1) by lia.
        set (pre := if first then [] else if y_tree y && (len start + Z.of_nat p - 1 <? w)%Z
                      then start ++ space (w - len start - Z.of_nat p + 1) else start).
        change (if y_tilde y then [126] else []) with (post_ y).
        assert (L1 : len (firstn (p - 1) long) = (Z.of_nat p - 1)%Z) by (unfold len in *; rewrite firstn_length; lia).
        assert (Hl : (len (pre ++ firstn (p - 1) long ++ post_ y) <= w)%Z).
        { rewrite !len_app, L1. assert (len (post_ y) = bz (y_tilde y)) as -> by (unfold post_; destruct (y_tilde y); reflexivity).
          assert (bz (y_tilde y) <= cost y)%Z by (unfold cost, bz; destruct (hdIs 92 (y_brk y)); lia).
          unfold pre, used in *. destruct first.
          - unfold p0 in Lp. change (len []) with 0%Z. lia.
          - destruct (y_tree y && (len start + Z.of_nat p - 1 <? w)%Z) eqn:T.
            + apply andb_prop in T. destruct T as [T1 T2]. rewrite len_app, len_space.
              (* tree style is used without tilde *)
              assert (y_tilde y = false) as TF by (rewrite T1, andb_true_r in NT; exact NT).
              rewrite TF. unfold bz. lia.
            + unfold p0 in Lp. lia. }
        rewrite print2_ok by exact Hl. cbn [rbind].
        rewrite (charAt_ok long (Z.of_nat p - 1)) by (unfold len; lia). cbn [rbind].
        replace (Z.to_nat (Z.of_nat p - 1)) with (p - 1) by lia.
        match goal with |- context [rbind (if ?b then _ else right_ long (Z.of_nat p)) _] =>
          assert (ER : (if b then do d <- charAt long (Z.of_nat p); if d =? 32 then right_ long (Z.of_nat p + 2) else right_ long (Z.of_nat p + 1)
                        else right_ long (Z.of_nat p)) = Ok (skipn (p - 1 + n) long)) end.
        { unfold n, gapAt in *. destruct ((nth (p - 1) long 0 =? 32) && negb match y_brk y with [] => true | _ => false end).
          - rewrite charAt_ok by (unfold len; lia). cbn [rbind]. rewrite Nat2Z.id.
            destruct (nth p long 0 =? 32); rewrite right_Z by (try exact H; unfold len in *; lia); f_equal; f_equal; lia.
          - rewrite right_Z by (try exact H; unfold len in *; lia). f_equal; f_equal; lia. }
        rewrite ER. cbn [rbind]. clear ER.
        assert (LS : length (skipn (p - 1 + n) long) < length long) by (rewrite skipn_length; lia).
        destruct (IH y w start (skipn (p - 1 + n) long) false L0 (isStr_skipn' _ _ H) NT R1 R2 ltac:(unfold len in *; lia)
                    ltac:(unfold len in *; lia)) as [[E O]|[ls [E [W G]]]].
        { left. rewrite E. split; [reflexivity|]. destruct O as [c [O1 O2]]. exists c. split; [|exact O2].
          rewrite <- (firstn_skipn (p - 1 + n) long). apply in_or_app. right. exact O1. }
        right. exists ((pre ++ firstn (p - 1) long ++ post_ y) :: ls). rewrite E. cbn [rbind fst snd].
        assert (SPL : long = firstn (p - 1) long ++ firstn n (skipn (p - 1) long) ++ skipn (p - 1 + n) long).
        { rewrite skipn_plus. rewrite firstn_skipn. symmetry. apply firstn_skipn. }
        split; [reflexivity|]. split.
        { rewrite SPL at 1. apply wr_more; [|exact BA|exact W].
          rewrite <- SPL. unfold pre. destruct first; [left; split; [reflexivity|left; reflexivity]|]. right. split; [reflexivity|].
          destruct (y_tree y && _) eqn:T.
          - eexists. split; [reflexivity|]. intros X. rewrite X in T. discriminate.
          - exists 0. split; [simpl; rewrite app_nil_r; reflexivity|reflexivity]. }
        intros l [<-|I]; [left; exact Hl|].
        destruct (G l I) as [G1|[r [G1 G2]]]; [left; exact G1|].
        right. exists r. split; [|exact G2]. rewrite SPL, app_assoc. apply unbreakable_tail, G1.
Qed.

(* ---------- the caller's lines ---------- *)
Lemma callerLines_nil s : callerLines s = [] <-> s = [].
Proof.
  split; [|intros ->; reflexivity]. destruct s as [|c r]; [reflexivity|]. cbn [callerLines].
  destruct (c =? 10); [discriminate|]. destruct (callerLines r); discriminate.
Qed.
Lemma callerLines_spec s : s <> [] -> linesOf s (callerLines s).
Proof.
  induction s as [|c r IH]; [congruence|]. intros _. cbn [callerLines].
  destruct r as [|d r'].
  - cbn [callerLines]. destruct (Nat.eqb_spec c 10) as [->|N].
    + split; [repeat constructor; simpl; tauto|]. split; [discriminate|]. right. reflexivity.
    + split; [repeat constructor; simpl; intuition|]. split; [discriminate|]. left. reflexivity.
  - destruct (IH ltac:(discriminate)) as [F [NE J]]. set (r := d :: r') in *. clearbody r.
    destruct (callerLines r) as [|x xs] eqn:E; [congruence|].
    assert (J2 : forall a, joinNl ((a :: x) :: xs) = a :: joinNl (x :: xs)) by (intros a; destruct xs; reflexivity).
    destruct (Nat.eqb_spec c 10) as [->|N].
    + split; [constructor; [simpl; tauto|exact F]|]. split; [discriminate|].
      change (joinNl ([] :: x :: xs)) with (10 :: joinNl (x :: xs)).
      destruct J as [->| ->]; [left|right]; reflexivity.
    + split; [inversion F; subst; constructor; [simpl; intuition|assumption]|]. split; [discriminate|].
      rewrite J2. destruct J as [->| ->]; [left|right]; reflexivity.
Qed.
Lemma callerLines_in s l : In l (callerLines s) -> length l <= length s /\ forall c, In c l -> In c s.
Proof.
  revert l. induction s as [|c r IH]; intros l I; [destruct I|]. cbn [callerLines] in I.
  destruct (c =? 10).
  - destruct I as [<-|I]; [simpl; split; [lia|tauto]|]. destruct (IH l I) as [A B]. simpl. split; [lia|auto].
  - destruct (callerLines r) as [|x xs] eqn:E.
    + destruct I as [<-|[]]. simpl. split; [lia|tauto].
    + destruct I as [<-|I].
      * destruct (IH x (or_introl eq_refl)) as [A B]. simpl. split; [lia|]. intros d [<-|D]; auto.
      * destruct (IH l (or_intror I)) as [A B]. simpl. split; [lia|auto].
Qed.

Lemma isStr_firstn' s n : isStr s -> isStr (firstn n s).
Proof. intros H. unfold isStr in *. rewrite Forall_forall in *. intros x I. apply H.
  rewrite <- (firstn_skipn n s). apply in_or_app. left. exact I. Qed.
Lemma setStart_ok w start : isStr start -> (4 <= w)%Z ->
  setStart w start = Ok (len (firstn (Z.to_nat (w - 4)) start), firstn (Z.to_nat (w - 4)) start).
Proof.
  intros H W. unfold setStart. destruct (Z.ltb_spec (w - 4) (len start)) as [L|L].
  - rewrite left_Z by exact H. cbn [rbind]. f_equal. f_equal. unfold len in *. rewrite firstn_length. lia.
  - rewrite firstn_all2 by (unfold len in L; lia). reflexivity.
Qed.
Lemma firstn_idem (l : list nat) n : firstn n (firstn n l) = firstn n l.
Proof. rewrite firstn_firstn, Nat.min_id. reflexivity. Qed.

Lemma wrapAll_ok fuel y w start L0 ls : isStr start -> (4 <= w)%Z -> y_tilde y && y_tree y = false -> (cost y <= 1)%Z ->
  (forall l, In l ls -> isStr l /\ (len l <= L0)%Z) -> (2 * L0 + 2 < Z.of_nat fuel)%Z ->
  let st := firstn (Z.to_nat (w - 4)) start in
  (wrapAll fuel y w start ls = Bug 1516 /\ exists l, In l ls /\ otherBreak (y_brk y) l) \/
  exists lss, wrapAll fuel y w start ls = Ok (map (map unquote) (concat lss)) /\
    Forall2 (fun l r => wrapped (y_brk y) (y_tree y) st (post_ y) (Z.to_nat (w - cost y + 1 - len st)) true l r /\
      forall x, In x r -> (len x <= w)%Z \/
        exists u, unbreakable (y_brk y) l u /\ (w < len u + len st + cost y /\ len x <= len u + len st + cost y)%Z) ls lss.
Proof.
  intros HS W NT C1 HL FU. cbv zeta. revert start HS. induction ls as [|l ls IH]; intros start HS.
  { right. exists []. split; [reflexivity|constructor]. }
  cbn [wrapAll]. rewrite setStart_ok by assumption. cbn [rbind fst snd].
  set (st := firstn (Z.to_nat (w - 4)) start).
  assert (Lst : (len st <= w - 4)%Z) by (unfold st, len; rewrite firstn_length; lia).
  destruct (HL l (or_introl eq_refl)) as [Hl Ll].
  destruct (wrap_ok fuel y w st l true L0 Hl NT ltac:(lia) Lst Ll) as [[E O]|[r [E [Wr G]]]].
  { lia. }
  - left. rewrite E. split; [reflexivity|]. exists l. split; [left; reflexivity|exact O].
  - rewrite E. cbn [rbind fst snd].
    assert (HS' : isStr st) by (apply isStr_firstn', HS).
    assert (I' : forall x, In x ls -> isStr x /\ (len x <= L0)%Z) by (intros x I; apply HL; right; exact I).
    destruct (IH I' st HS') as [[E2 [x [O1 O2]]]|[lss [E2 F]]].
    + left. rewrite E2. split; [reflexivity|]. exists x. split; [right; exact O1|exact O2].
    + right. exists (r :: lss). rewrite E2. cbn [rbind concat]. rewrite map_app. split; [reflexivity|].
      constructor; [split; [exact Wr|exact G]|].
      assert (ID : firstn (Z.to_nat (w - 4)) st = st) by apply firstn_idem. rewrite ID in F. exact F.
Qed.
