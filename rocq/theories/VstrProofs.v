From Verif Require Import Base VstrModel VstrSpec.
Open Scope nat_scope.

(* ---------- substrings ---------- *)
Lemma cstr_strncpy n s : isStr s -> cstr (strncpy n s ++ [0]) = Ok (firstn n s).
Proof.
  revert s. induction n as [|n IH]; intros s H; [reflexivity|].
  destruct s as [|c s]; [reflexivity|]. inversion H as [|? ? Hc Hs]; subst. simpl.
  destruct c; [lia|]. rewrite IH by assumption. reflexivity.
Qed.
Lemma isStr_skipn n s : isStr s -> isStr (skipn n s).
Proof. unfold isStr. revert s. induction n; intros s H; [exact H|]. destruct s; [exact H|]. inversion H; subst. apply IHn; assumption. Qed.
Lemma isStr_firstn n s : isStr s -> isStr (firstn n s).
Proof. unfold isStr. revert s. induction n; intros s H; [constructor|]. destruct s; [constructor|]. inversion H; subst. constructor; auto. Qed.

Lemma mid_ok s start len : isStr s -> (start <= Z.of_nat (length s) + 1)%Z ->
  mid s start len = Ok (firstn (Z.to_nat len) (skipn (Z.to_nat (start - 1)) s)).
Proof.
  intros H L. unfold mid. cbv zeta.
  replace (Z.of_nat (length s) <? (if (start <? 1)%Z then 1 else start) - 1)%Z with false.
  2:{ symmetry. destruct (start <? 1)%Z eqn:E; apply Z.ltb_ge; lia. }
  rewrite cstr_strncpy by (apply isStr_skipn, H). f_equal. f_equal.
  - destruct (len <? 0)%Z eqn:E; [|reflexivity]. apply Z.ltb_lt in E.
    replace (Z.to_nat len) with 0 by lia. reflexivity.
  - destruct (start <? 1)%Z eqn:E; [|reflexivity]. apply Z.ltb_lt in E.
    replace (Z.to_nat (start - 1)) with 0 by lia. reflexivity.
Qed.

Lemma seg_ok s a b : isStr s -> 1 <= a <= length s + 1 ->
  seg s (Z.of_nat a) (Z.of_nat b) = Ok (substr s a b).
Proof.
  intros H L. unfold seg. replace (Z.of_nat a <? 1)%Z with false by (symmetry; apply Z.ltb_ge; lia).
  rewrite mid_ok by (try assumption; lia). unfold substr. f_equal. f_equal; [lia|f_equal; lia].
Qed.
Lemma left_ok s n : isStr s -> left_ s (Z.of_nat n) = Ok (substr s 1 n).
Proof.
  intros H. unfold left_. rewrite mid_ok by (try assumption; lia). unfold substr. simpl.
  f_equal. f_equal. lia.
Qed.
Lemma right_ok s n : isStr s -> 1 <= n <= length s + 1 ->
  right_ s (Z.of_nat n) = Ok (substr s n (length s)).
Proof. intros H L. apply seg_ok; assumption. Qed.

Lemma substring_spec s a b i : 1 <= a -> nth_error (substr s a b) i =
  if a + i <=? b then nth_error s (a + i - 1) else None.
Proof.
  intros La. unfold substr.
  destruct (a + i <=? b) eqn:E.
  - apply Nat.leb_le in E.
    replace (nth_error s (a + i - 1)) with (nth_error (skipn (a - 1) s) i).
    + generalize (skipn (a - 1) s). assert (i < b + 1 - a) by lia. revert H. generalize (b + 1 - a).
      clear. intros n H l. revert n H l. induction i; intros [|n] H l; try lia; destruct l; try reflexivity.
      simpl. apply IHi. lia.
    + replace (a + i - 1) with ((a - 1) + i) by lia. generalize (a - 1). clear. intros n. revert s.
      induction n; intros s; [reflexivity|]. destruct s; [destruct i; reflexivity|apply IHn].
  - apply Nat.leb_gt in E. apply nth_error_None. rewrite firstn_length. lia.
Qed.

Lemma left_right s n l r : isStr s -> n <= length s ->
  left_ s (Z.of_nat n) = Ok l -> right_ s (Z.of_nat (n + 1)) = Ok r -> l ++ r = s.
Proof.
  intros H L El Er. rewrite left_ok in El by assumption. rewrite right_ok in Er by (try assumption; lia).
  inversion El. inversion Er. unfold substr. rewrite !Nat.add_sub. cbn [Nat.sub skipn].
  rewrite (firstn_all2 (n := length s + 1 - (n + 1)) (skipn n s)) by (rewrite skipn_length; lia).
  apply firstn_skipn.
Qed.
Lemma mid_beyond s start len : (Z.of_nat (length s) + 1 < start)%Z ->
  (0 < len \/ Z.of_nat (length s) + 2 < start)%Z -> mid s start len = UB.
Proof.
  intros H H2. unfold mid. replace (start <? 1)%Z with false by (symmetry; apply Z.ltb_ge; lia).
  cbv zeta. replace (Z.of_nat (length s) <? start - 1)%Z with true by (symmetry; apply Z.ltb_lt; lia).
  destruct (Z.eqb_spec (start - 1) (Z.of_nat (length s) + 1)); [|reflexivity].
  destruct (Z.ltb_spec len 0); [lia|]. destruct (Z.eqb_spec len 0); [lia|reflexivity].
Qed.
Lemma clamp_ok s start len : isStr s ->
  ((start < 1)%Z -> mid s start len = mid s 1 len /\ forall stop, seg s start stop = seg s 1 stop) /\
  ((len < 0)%Z -> (start <= Z.of_nat (length s) + 1)%Z -> mid s start len = Ok []).
Proof.
  intros H. split.
  - intros L. apply Z.ltb_lt in L. unfold seg, mid. rewrite L. split; reflexivity.
  - intros L L2. rewrite mid_ok by assumption. replace (Z.to_nat len) with 0 by lia. reflexivity.
Qed.

(* ---------- searching ---------- *)
Lemma strnEq_spec m : forall p, strnEq m p = true <-> exists b, p = m ++ b.
Proof.
  induction m as [|x m IH]; intros p; simpl.
  - split; [intros _; exists p; reflexivity|reflexivity].
  - destruct p as [|y p]; [split; [discriminate|intros [b Hb]; discriminate]|].
    rewrite andb_true_iff, Nat.eqb_eq, IH. split.
    + intros [-> [b ->]]. exists b. reflexivity.
    + intros [b Hb]. inversion Hb. split; [reflexivity|eauto].
Qed.

Lemma instrFrom_spec m : m <> [] -> forall p i,
  (instrFrom p i m = 0 /\ forall q, ~ occurs m p q) \/
  (exists q, instrFrom p i m = i + q /\ occurs m p q /\ forall q', occurs m p q' -> q <= q').
Proof.
  intros Hm. destruct m as [|x m]; [congruence|]. set (M := x :: m) in *.
  induction p as [|c p IH]; intros i.
  - left. split; [reflexivity|]. intros q [a [b [E _]]]. destruct a; discriminate.
  - assert (UE : instrFrom (c :: p) i M = if (c =? x) && strnEq M (c :: p) then i + 1 else instrFrom p (S i) M) by reflexivity.
    rewrite UE. clear UE.
    destruct ((c =? x) && strnEq M (c :: p)) eqn:E.
    + right. exists 1. split; [reflexivity|]. apply andb_prop in E. destruct E as [_ E].
      apply strnEq_spec in E. destruct E as [b E]. split.
      * exists [], b. split; [exact E|reflexivity].
      * intros q' [a [b' [_ ->]]]. lia.
    + assert (N1 : ~ occurs M (c :: p) 1).
      { intros [a [b [Ea L]]]. destruct a; [|simpl in L; lia]. simpl in Ea.
        assert (strnEq M (c :: p) = true) as E1 by (apply strnEq_spec; exists b; exact Ea).
        rewrite E1 in E. unfold M in Ea. inversion Ea; subst. rewrite Nat.eqb_refl in E. discriminate. }
      assert (SH : forall q, occurs M (c :: p) q -> q <> 1 -> occurs M p (q - 1)).
      { intros q [a [b [Ea L]]] Hq. destruct a as [|y a]; [simpl in L; lia|]. inversion Ea; subst.
        exists a, b. split; [reflexivity|]. simpl. lia. }
      destruct (IH (S i)) as [[I1 I2]|[q [I1 [I2 I3]]]].
      * left. split; [exact I1|]. intros q Hq. destruct (Nat.eq_dec q 1) as [->|Q]; [apply N1, Hq|].
        apply (I2 (q - 1)). apply SH; assumption.
      * right. exists (S q). split; [rewrite I1; lia|]. split.
        -- destruct I2 as [a [b [-> ->]]]. exists (c :: a), b. split; [reflexivity|simpl; lia].
        -- intros q' Hq'. destruct (Nat.eq_dec q' 1) as [->|Q]; [exfalso; apply N1, Hq'|].
           specialize (I3 _ (SH _ Hq' Q)). assert (1 <= q') by (destruct Hq' as [? [? [_ ->]]]; lia). lia.
Qed.

Lemma occurs_skipn m s i q : i <= length s -> occurs m (skipn i s) q -> occurs m s (i + q).
Proof.
  intros L [a [b [E ->]]]. exists (firstn i s ++ a), b. rewrite <- app_assoc, <- E, firstn_skipn.
  split; [reflexivity|]. rewrite app_length, firstn_length. lia.
Qed.
Lemma occurs_skipn' m s i q : i < q -> occurs m s q -> occurs m (skipn i s) (q - i).
Proof.
  intros L [a [b [-> ->]]]. exists (skipn i a), b. rewrite skipn_app.
  replace (i - length a) with 0 by lia. split; [reflexivity|]. rewrite skipn_length. lia.
Qed.
Lemma occurs_bound m s q : occurs m s q -> 1 <= q /\ q + length m <= length s + 1.
Proof. intros [a [b [-> ->]]]. rewrite !app_length. lia. Qed.

Lemma instr_ok start s m : m <> [] ->
  (instr start s m = 0 /\ forall q, (start <= Z.of_nat q)%Z -> ~ occurs m s q) \/
  (exists q, instr start s m = q /\ occurs m s q /\ (start <= Z.of_nat q)%Z /\
     forall q', (start <= Z.of_nat q')%Z -> occurs m s q' -> q <= q').
Proof.
  intros Hm. unfold instr. cbv zeta.
  set (st := if (start <? 1)%Z then 1%Z else start).
  assert (Hst : (1 <= st)%Z /\ forall q, 1 <= q -> ((start <= Z.of_nat q)%Z <-> (st <= Z.of_nat q)%Z)).
  { unfold st. destruct (start <? 1)%Z eqn:E; [apply Z.ltb_lt in E|apply Z.ltb_ge in E]; split; try lia; intros; lia. }
  destruct Hst as [S1 S2]. clearbody st.
  set (st' := if (Z.of_nat (length s) <? st)%Z then _ else _).
  set (i := Z.to_nat (st' - 1)).
  assert (Hi : i <= length s /\ forall q, q <= length s -> ((st <= Z.of_nat q)%Z <-> i < q)).
  { unfold i, st'. destruct (Z.of_nat (length s) <? st)%Z eqn:E; [apply Z.ltb_lt in E|apply Z.ltb_ge in E]; split; try lia; intros; lia. }
  destruct Hi as [I1 I2]. clearbody i.
  destruct (instrFrom_spec m Hm (skipn i s) i) as [[E N]|[q [E [O M]]]].
  - left. split; [exact E|]. intros q Hq Ho. pose proof (occurs_bound _ _ _ Ho).
    assert (i < q) by (apply I2; [destruct m; [congruence|simpl in *; lia]|apply S2; lia]).
    apply (N (q - i)). apply occurs_skipn'; assumption.
  - right. exists (i + q). split; [exact E|]. apply occurs_skipn in O as O'; [|exact I1].
    split; [exact O'|]. pose proof (occurs_bound _ _ _ O') as B. pose proof (occurs_bound _ _ _ O) as B'.
    split; [apply S2; [lia|]; apply I2; [destruct m; [congruence|simpl in *; lia]|lia]|].
    intros q' Hq' Ho. pose proof (occurs_bound _ _ _ Ho).
    assert (i < q') by (apply I2; [destruct m; [congruence|simpl in *; lia]|apply S2; lia]).
    specialize (M (q' - i) (occurs_skipn' _ _ _ _ H0 Ho)). lia.
Qed.

Lemma rinstr_ok s m fuel : m <> [] -> length s + 1 < fuel ->
  exists r, rinstr fuel s m = Ok r /\
    ((r = 0 /\ forall q, ~ occurs m s q) \/ (occurs m s r /\ forall q, occurs m s q -> q <= r)).
Proof.
  intros Hm HF. unfold rinstr.
  assert (G : forall f pos save, length s + 1 < f + pos -> pos = save ->
    (pos = 0 \/ occurs m s pos) ->
    exists r, rinstrLoop f s m pos save = Ok r /\
      ((r = 0 /\ forall q, ~ occurs m s q) \/ (occurs m s r /\ forall q, occurs m s q -> q <= r))).
  { induction f as [|f IH]; intros pos save Hf Hs Hp.
    - exfalso. destruct Hp as [->|Hp]; [lia|]. apply occurs_bound in Hp. lia.
    - cbn [rinstrLoop]. destruct (instr_ok (Z.of_nat pos + 1) s m Hm) as [[E N]|[q [E [O [L M]]]]].
      + rewrite E. cbn [Nat.eqb]. exists save. split; [reflexivity|]. subst save.
        destruct Hp as [->|Hp].
        * left. split; [reflexivity|]. intros q Ho. apply (N q); [apply occurs_bound in Ho; lia|exact Ho].
        * right. split; [exact Hp|]. intros q Ho. destruct (le_lt_dec q pos); [assumption|].
          exfalso. apply (N q); [lia|exact Ho].
      + rewrite E. pose proof (occurs_bound _ _ _ O). destruct (q =? 0) eqn:Q; [apply Nat.eqb_eq in Q; lia|].
        apply IH; [lia|reflexivity|right; exact O]. }
  apply G; [lia|reflexivity|left; reflexivity].
Qed.

Lemma instr_empty start s : instr start s [] = length s + 1.
Proof.
  unfold instr. cbv zeta. set (st := if (start <? 1)%Z then 1%Z else start).
  assert (1 <= st)%Z by (unfold st; destruct (start <? 1)%Z eqn:E; [|apply Z.ltb_ge in E]; lia).
  set (i := Z.to_nat _).
  assert (i <= length s). { unfold i. destruct (Z.of_nat (length s) <? st)%Z eqn:E; [|apply Z.ltb_ge in E]; lia. }
  assert (G : forall p j, instrFrom p j [] = j + length p + 1).
  { induction p; intros j; simpl; [lia|]. rewrite IHp. lia. }
  rewrite G, skipn_length. lia.
Qed.
Lemma rinstr_empty fuel s : rinstr fuel s [] = Fuel.
Proof.
  unfold rinstr. generalize 0 at 1 as pos. generalize 0 as save.
  induction fuel as [|f IH]; intros save pos; [reflexivity|]. cbn [rinstrLoop].
  rewrite instr_empty. destruct (length s + 1 =? 0) eqn:E; [apply Nat.eqb_eq in E; lia|]. apply IH.
Qed.

(* ---------- comma-separated lists ---------- *)
Lemma firstn_S_snoc {A} (l : list A) k g : nth_error l k = Some g -> firstn (S k) l = firstn k l ++ [g].
Proof. revert l. induction k; intros l H; destruct l; try discriminate; simpl in *; [inversion H; reflexivity|]. f_equal. apply IHk, H. Qed.
Lemma nth_error_firstn' {A} (l : list A) n i : i < n -> nth_error (firstn n l) i = nth_error l i.
Proof. revert l n. induction i; intros l [|n] H; try lia; destruct l; try reflexivity. simpl. apply IHi. lia. Qed.
Lemma nth_error_skipn' {A} (l : list A) n i : nth_error (skipn n l) i = nth_error l (n + i).
Proof. revert l. induction n; intros l; [reflexivity|]. destruct l; [destruct i; reflexivity|apply IHn]. Qed.

Lemma fields_cons s : exists f fs, fields s = f :: fs.
Proof.
  destruct s as [|c s]; [simpl; eauto|]. simpl. destruct (c =? 44); [eauto|].
  destruct (fields s); eauto.
Qed.
Lemma numEntries_ok s : s <> [] -> numEntries s = length (fields s).
Proof.
  intros H. assert (G : length (filter (Nat.eqb comma) s) + 1 = length (fields s)).
  { clear H. induction s as [|c s IH]; [reflexivity|]. cbn [filter fields]. unfold comma. rewrite (Nat.eqb_sym 44 c).
    unfold comma in IH. destruct (c =? 44); cbn [length]; [lia|].
    destruct (fields_cons s) as [f [fs E]]. rewrite E in *. cbn [length] in *. lia. }
  destruct s; [congruence|]. exact G.
Qed.

(* what the common loop computes: where field number element - 1 - cc is *)
Lemma fieldStart_cons_comma l n : fieldStart (44 :: l) (S n) = S (fieldStart l n).
Proof. unfold fieldStart. simpl. reflexivity. Qed.
Lemma concat_fields s : concat (map (fun f => f ++ [44]) (fields s)) = s ++ [44].
Proof.
  induction s as [|c s IH]; [reflexivity|]. cbn [fields]. destruct (c =? 44) eqn:E.
  - apply Nat.eqb_eq in E. subst. cbn [map concat]. rewrite IH. reflexivity.
  - destruct (fields_cons s) as [f [fs E2]]. rewrite E2 in *. cbn [map concat] in *. simpl. f_equal. exact IH.
Qed.

Lemma entryLoop_spec : forall l element i cc lc1,
  (Z.of_nat cc < element)%Z -> lc1 <= i ->
  let n := Z.to_nat element - 1 - cc in
  match nth_error (fields l) n with
  | Some f =>
      exists i' cc' lc1' rest, entryLoop l element i cc lc1 = (i', cc', lc1', rest) /\
        (if n =? 0 then lc1' = lc1 else lc1' = i + fieldStart l n - 1) /\
        i' = i + fieldStart l n - 1 + length f /\
        (rest = [] /\ n + 1 = length (fields l) /\ S cc' = Z.to_nat element /\ i' = i + length l \/
         rest <> [] /\ cc' = Z.to_nat element)
  | None => exists i' cc' lc1' , entryLoop l element i cc lc1 = (i', cc', lc1', []) /\
        cc' = cc + length (fields l) - 1 /\ i' = i + length l
  end.
Proof.
  induction l as [|c l IH]; intros element i cc lc1 Hc Hl n.
  - subst n. destruct (Z.to_nat element - 1 - cc) as [|n'] eqn:N; cbn [fields nth_error].
    + exists i, cc, lc1, []. split; [reflexivity|]. split; [reflexivity|]. cbn. split; [lia|]. left. repeat split; lia.
    + destruct n'; simpl; exists i, cc, lc1; repeat split; cbn; lia.
  - cbn [entryLoop fields]. unfold comma. destruct (c =? 44) eqn:EC.
    + apply Nat.eqb_eq in EC. subst c.
      destruct (Z.of_nat (S cc) =? element)%Z eqn:EE.
      * apply Z.eqb_eq in EE. assert (N0 : n = 0) by (unfold n; lia). rewrite N0. cbn [nth_error].
        exists i, (S cc), lc1, (44 :: l). split; [reflexivity|]. split; [reflexivity|]. cbn. split; [lia|].
        right. split; [discriminate|lia].
      * apply Z.eqb_neq in EE. assert (Hn : n = S (n - 1)) by (unfold n; lia).
        specialize (IH element (S i) (S cc) (S i) ltac:(lia) (le_n _)). cbv zeta in IH.
        replace (Z.to_nat element - 1 - S cc) with (n - 1) in IH by (unfold n; lia).
        rewrite Hn. cbn [nth_error]. destruct (nth_error (fields l) (n - 1)) as [f|] eqn:NE.
        -- destruct IH as [i' [cc' [lc1' [rest [E1 [E2 [E3 E4]]]]]]]. exists i', cc', lc1', rest.
           split; [exact E1|]. rewrite fieldStart_cons_comma. cbn [Nat.eqb].
           split.
           { destruct (n - 1 =? 0) eqn:Z0.
             - apply Nat.eqb_eq in Z0. rewrite Z0. rewrite E2. cbn. lia.
             - rewrite E2. lia. }
           split; [rewrite E3; unfold fieldStart; lia|].
           destruct E4 as [[A [B [C D]]]|[A B]]; [left|right; auto]. split; [exact A|]. simpl length. lia.
        -- destruct IH as [i' [cc' [lc1' [E1 [E2 E3]]]]]. exists i', cc', lc1'. split; [exact E1|].
           simpl length. split; [|lia]. destruct (fields_cons l) as [f0 [fs0 EF]]. rewrite EF in *. simpl in *. lia.
    + specialize (IH element (S i) cc lc1 Hc ltac:(lia)). cbv zeta in IH. fold n in IH.
      destruct (fields_cons l) as [f0 [fs0 EF]]. rewrite EF in IH. 
      unfold fieldStart in *. cbn [fields] in *. rewrite EC in *. rewrite EF in *.
      destruct n as [|n'] eqn:N.
      * cbn [nth_error] in *. destruct IH as [i' [cc' [lc1' [rest [E1 [E2 [E3 E4]]]]]]].
        exists i', cc', lc1', rest. split; [exact E1|]. split; [exact E2|]. simpl length in *.
        split; [simpl in *; lia|]. destruct E4 as [[A [B [C D]]]|[A B]]; [left|right; auto]. simpl in *. repeat split; auto; lia.
      * cbn [nth_error] in *. destruct (nth_error fs0 n') as [f|] eqn:NE.
        -- destruct IH as [i' [cc' [lc1' [rest [E1 [E2 [E3 E4]]]]]]].
           exists i', cc', lc1', rest. split; [exact E1|]. cbn [Nat.eqb] in *. cbn [firstn map concat] in *.
           simpl length in *. split; [simpl in *; lia|]. split; [simpl in *; lia|].
           destruct E4 as [[A [B [C D]]]|[A B]]; [left|right; auto]. simpl in *. repeat split; auto; lia.
        -- destruct IH as [i' [cc' [lc1' [E1 [E2 E3]]]]]. exists i', cc', lc1'. simpl in *. repeat split; auto; lia.
Qed.

Lemma field_at l : forall k f, nth_error (fields l) k = Some f ->
  firstn (length f) (skipn (fieldStart l k - 1) l) = f /\
  fieldStart l k - 1 + length f <= length l /\
  (fieldStart l k - 1 + length f < length l -> nth_error l (fieldStart l k - 1 + length f) = Some 44) /\
  ~ In 44 f.
Proof.
  induction l as [|c l IH]; intros k f H.
  - destruct k as [|[|k]]; simpl in H; try discriminate. inversion H; subst. cbn. repeat split; auto; lia.
  - cbn [fields] in H. destruct (c =? 44) eqn:EC.
    + apply Nat.eqb_eq in EC. subst c. destruct k as [|k]; simpl in H.
      * inversion H; subst. cbn. repeat split; auto; lia.
      * rewrite fieldStart_cons_comma. destruct (IH k f H) as [A [B [C D]]].
        assert (1 <= fieldStart l k) by (unfold fieldStart; lia).
        replace (S (fieldStart l k) - 1) with (S (fieldStart l k - 1)) by lia. cbn [skipn length].
        split; [exact A|]. split; [lia|]. split; [intros; apply C; lia|exact D].
    + destruct (fields_cons l) as [f0 [fs0 EF]]. rewrite EF in H.
      assert (FS : forall n, fieldStart (c :: l) (S n) = S (fieldStart l (S n))).
      { intros n. unfold fieldStart. cbn [fields]. rewrite EC, EF. cbn [firstn map concat]. simpl. reflexivity. }
      destruct k as [|k]; simpl in H.
      * inversion H; subst. destruct (IH 0 f0 ltac:(rewrite EF; reflexivity)) as [A [B [C D]]].
        unfold fieldStart in *. simpl in *. split; [f_equal; exact A|]. split; [lia|].
        split; [intros; apply C; lia|]. intros [E|E]; [subst; discriminate|tauto].
      * rewrite FS. destruct (IH (S k) f ltac:(rewrite EF; exact H)) as [A [B [C D]]].
        assert (1 <= fieldStart l (S k)) by (unfold fieldStart; lia).
        replace (S (fieldStart l (S k)) - 1) with (S (fieldStart l (S k) - 1)) by lia. cbn [skipn length].
        split; [exact A|]. split; [lia|]. split; [intros; apply C; lia|exact D].
Qed.

Lemma entry_ok s k : isStr s -> entry (Z.of_nat k + 1) s = Ok (nth k (fields s) []).
Proof.
  intros H. unfold entry. replace (Z.of_nat k + 1 <? 1)%Z with false by (symmetry; apply Z.ltb_ge; lia).
  pose proof (entryLoop_spec s (Z.of_nat k + 1) 0 0 0 ltac:(lia) (le_n 0)) as E. cbv zeta in E.
  replace (Z.to_nat (Z.of_nat k + 1) - 1 - 0) with k in E by lia.
  destruct (nth_error (fields s) k) as [f|] eqn:N.
  - destruct E as [i' [cc' [lc1' [rest [E1 [E2 [E3 E4]]]]]]]. rewrite E1.
    assert (L : lc1' = fieldStart s k - 1).
    { destruct k; simpl in E2; [rewrite E2; reflexivity|rewrite E2; lia]. }
    assert (1 <= fieldStart s k) by (unfold fieldStart; lia).
    replace (Z.of_nat (match rest with [] => S cc' | _ => cc' end) <? Z.of_nat k + 1)%Z with false.
    2:{ symmetry. apply Z.ltb_ge. destruct E4 as [[-> [B [C D]]]|[A B]]; [lia|destruct rest; [congruence|lia]]. }
    rewrite (nth_error_nth _ _ _ N).
    replace (i' - lc1') with (length f) by lia.
    destruct (length f <? 1) eqn:LF.
    + apply Nat.ltb_lt in LF. destruct f; [reflexivity|simpl in LF; lia].
    + rewrite cstr_strncpy by (apply isStr_skipn, H). f_equal. rewrite L. apply (field_at s k f N).
  - destruct E as [i' [cc' [lc1' [E1 [E2 E3]]]]]. rewrite E1. apply nth_error_None in N.
    destruct (fields_cons s) as [f0 [fs0 EF]].
    replace (Z.of_nat (S cc') <? Z.of_nat k + 1)%Z with true by (symmetry; apply Z.ltb_lt; rewrite EF in *; simpl in *; lia).
    rewrite nth_overflow by exact N. reflexivity.
Qed.
Lemma entry_low s e : (e < 1)%Z -> entry e s = Ok [].
Proof. intros H. unfold entry. apply Z.ltb_lt in H. rewrite H. reflexivity. Qed.

Lemma entryPosition_ok s k : 
  entryPosition (Z.of_nat k + 1) s =
    match nth_error (fields s) k with Some (_ :: _) => fieldStart s k | _ => 0 end.
Proof.
  unfold entryPosition. replace (Z.of_nat k + 1 <? 1)%Z with false by (symmetry; apply Z.ltb_ge; lia).
  pose proof (entryLoop_spec s (Z.of_nat k + 1) 0 0 0 ltac:(lia) (le_n 0)) as E. cbv zeta in E.
  replace (Z.to_nat (Z.of_nat k + 1) - 1 - 0) with k in E by lia.
  assert (NN : forall p, nth p s 0 = match nth_error s p with Some x => x | None => 0 end).
  { intros p. destruct (nth_error s p) eqn:Q; [apply nth_error_nth, Q|]. apply nth_overflow. apply nth_error_None. exact Q. }
  destruct (nth_error (fields s) k) as [f|] eqn:N.
  - destruct E as [i' [cc' [lc1' [rest [E1 [E2 [E3 E4]]]]]]]. rewrite E1.
    assert (L : lc1' = fieldStart s k - 1).
    { destruct k; simpl in E2; [rewrite E2; reflexivity|rewrite E2; lia]. }
    assert (F1 : 1 <= fieldStart s k) by (unfold fieldStart; lia).
    destruct (field_at s k f N) as [A [B [C D]]].
    assert (FIN : forall c, (if (Z.of_nat c <? Z.of_nat k + 1)%Z then 0
              else if nth lc1' s 0 =? comma then 0 else lc1' + 1) =
              if (Z.of_nat c <? Z.of_nat k + 1)%Z then 0 else
              match f with [] => if fieldStart s k - 1 <? length s then 0 else fieldStart s k
                         | _ => fieldStart s k end).
    { intros c. destruct (Z.of_nat c <? Z.of_nat k + 1)%Z; [reflexivity|]. rewrite NN, L. destruct f as [|x f].
      - simpl length in *. rewrite Nat.add_0_r in *. destruct (fieldStart s k - 1 <? length s) eqn:LL.
        + apply Nat.ltb_lt in LL. rewrite (C LL). reflexivity.
        + apply Nat.ltb_ge in LL. apply nth_error_None in LL. rewrite LL. simpl. lia.
      - assert (NE : nth_error s (fieldStart s k - 1) = Some x).
        { assert (nth_error (firstn (length (x :: f)) (skipn (fieldStart s k - 1) s)) 0 = Some x) as Q by (rewrite A; reflexivity).
          revert Q. generalize (fieldStart s k - 1). clear. intros q. revert s. induction q; intros s Q; destruct s; simpl in *; try discriminate; auto. }
        rewrite NE. destruct (x =? comma) eqn:XC; [|lia]. apply Nat.eqb_eq in XC. subst x. exfalso. apply D. left. reflexivity. }
    rewrite !FIN. clear FIN.
    destruct E4 as [[-> [B1 [C1 D1]]]|[A1 B1]].
    + replace (Z.of_nat (S cc') <? Z.of_nat k + 1)%Z with false by (symmetry; apply Z.ltb_ge; lia).
      destruct f as [|x f]; simpl length in *.
      * (* last field empty: nothing, or the list ends with a comma *)
        assert (EQL : fieldStart s k - 1 = length s) by lia.
        destruct (i' =? 0) eqn:I0; [reflexivity|]. apply Nat.eqb_neq in I0.
        replace (nth (i' - 1) s 0 =? comma) with true; [reflexivity|]. symmetry. apply Nat.eqb_eq.
        assert (KK : k <> 0). { intros ->. unfold fieldStart in EQL. simpl in EQL. lia. }
        destruct k as [|k]; [congruence|].
        destruct (nth_error (fields s) k) as [g|] eqn:NG.
        2:{ apply nth_error_None in NG. assert (S k < length (fields s)) by (apply nth_error_Some; congruence). lia. }
        destruct (field_at s k g NG) as [A' [B' [C' D']]].
        assert (FS : fieldStart s (S k) = fieldStart s k + length g + 1).
        { unfold fieldStart. rewrite (firstn_S_snoc (fields s) k g NG), map_app, concat_app, app_length. simpl.
          rewrite app_nil_r, app_length. simpl. lia. }
        replace (i' - 1) with (fieldStart s k - 1 + length g) by (unfold fieldStart in *; lia).
        rewrite NN, C'; [reflexivity|]. unfold fieldStart in *. lia.
      * destruct (i' =? 0) eqn:I0; [apply Nat.eqb_eq in I0; lia|].
        replace (nth (i' - 1) s 0 =? comma) with false; [reflexivity|]. symmetry. apply Nat.eqb_neq. intros Q.
        apply D. assert (nth_error (x :: f) (length f) = Some 44) as Q'.
        { rewrite <- A. rewrite NN in Q. destruct (nth_error s (i' - 1)) as [y|] eqn:NY; [|discriminate].
          unfold comma in Q. subst y.
          rewrite nth_error_firstn'. 2:simpl; lia. rewrite nth_error_skipn'. rewrite <- NY. f_equal. lia. }
        eapply nth_error_In. exact Q'.
    + replace (Z.of_nat cc' <? Z.of_nat k + 1)%Z with false by (symmetry; apply Z.ltb_ge; lia).
      destruct rest as [|r0 rest]; [congruence|]. destruct f as [|x f]; [|reflexivity].
      simpl length in *.
      assert (LT : i' < length s).
      { destruct (le_lt_dec (length s) i') as [G|G]; [|exact G]. exfalso.
        assert (GG : forall l element i cc lc i' cc' lc' r0 rest, entryLoop l element i cc lc = (i', cc', lc', r0 :: rest) -> i' < i + length l).
        { clear. induction l as [|c l IH]; intros element i cc lc i' cc' lc' r0 rest E; cbn [entryLoop] in E; [inversion E|].
          destruct (c =? comma).
          - destruct (Z.of_nat (S cc) =? element)%Z; [inversion E; subst; simpl; lia|]. apply IH in E. simpl. lia.
          - apply IH in E. simpl. lia. }
        apply GG in E1. lia. }
      replace (fieldStart s k - 1 <? length s) with true by (symmetry; apply Nat.ltb_lt; lia). reflexivity.
  - destruct E as [i' [cc' [lc1' [E1 [E2 E3]]]]]. rewrite E1. apply nth_error_None in N.
    destruct (fields_cons s) as [f0 [fs0 EF]].
    destruct (i' =? 0); [reflexivity|]. destruct (nth (i' - 1) s 0 =? comma); [reflexivity|].
    replace (Z.of_nat (S cc') <? Z.of_nat k + 1)%Z with true by (symmetry; apply Z.ltb_lt; rewrite EF in *; simpl in *; lia).
    reflexivity.
Qed.

(* lookup *)
Fixpoint findField (expr : list nat) (fs : list (list nat)) (n : nat) : nat :=
  match fs with
  | [] => 0
  | f :: r => if list_eq_dec Nat.eq_dec f expr then S n else findField expr r (S n)
  end.
Lemma lookupLoop_spec expr : forall l ex ok n f fs, fields l = f :: fs ->
  lookupLoop expr l ex ok n =
    if ok then (if list_eq_dec Nat.eq_dec f ex then S n else findField expr fs (S n)) else findField expr fs (S n).
Proof.
  induction l as [|c l IH]; intros ex ok n f fs E.
  - inversion E; subst. simpl. destruct ok; destruct ex; reflexivity.
  - cbn [fields lookupLoop] in *. unfold comma. destruct (c =? 44) eqn:EC.
    + inversion E; subst. destruct (fields_cons l) as [g [gs EG]]. rewrite (IH expr true (S n) g gs EG).
      rewrite EG. cbn [findField]. destruct ok; destruct ex; simpl; try reflexivity.
    + destruct (fields_cons l) as [g [gs EG]]. rewrite EG in E. inversion E; subst. rewrite (IH _ _ _ g fs EG).
      destruct ok; [|reflexivity]. destruct ex as [|x ex]; [reflexivity|]. cbn [andb tl].
      destruct (x =? c) eqn:XC.
      * apply Nat.eqb_eq in XC. subst x. destruct (list_eq_dec Nat.eq_dec g ex) as [D|D];
        destruct (list_eq_dec Nat.eq_dec (c :: g) (c :: ex)) as [D'|D']; try reflexivity; [subst; congruence|inversion D'; congruence].
      * destruct (list_eq_dec Nat.eq_dec (c :: g) (x :: ex)) as [D'|D']; [|reflexivity].
        inversion D'; subst. rewrite Nat.eqb_refl in XC. discriminate.
Qed.
Lemma findField_spec expr : forall fs n,
  (findField expr fs n = 0 /\ ~ In expr fs) \/
  (exists k, findField expr fs n = n + S k /\ nth_error fs k = Some expr /\ forall j, j < k -> nth_error fs j <> Some expr).
Proof.
  induction fs as [|f fs IH]; intros n; [left; split; [reflexivity|intros []]|].
  cbn [findField]. destruct (list_eq_dec Nat.eq_dec f expr) as [->|D].
  - right. exists 0. split; [lia|]. split; [reflexivity|]. intros; lia.
  - destruct (IH (S n)) as [[A B]|[k [A [B C]]]].
    + left. split; [exact A|]. intros [E|E]; [congruence|tauto].
    + right. exists (S k). split; [lia|]. split; [exact B|]. intros [|j] L; simpl; [congruence|apply C; lia].
Qed.
Lemma lookup_ok expr s :
  (lookup expr s = 0 /\ ~ In expr (fields s)) \/
  (exists k, lookup expr s = k + 1 /\ nth_error (fields s) k = Some expr /\
     forall j, j < k -> nth_error (fields s) j <> Some expr).
Proof.
  assert (E : lookup expr s = findField expr (fields s) 0).
  { unfold lookup. destruct (fields_cons s) as [f [fs E]]. rewrite (lookupLoop_spec expr s expr true 0 f fs E), E. reflexivity. }
  rewrite E. destruct (findField_spec expr (fields s) 0) as [A|[k [A B]]]; [left; exact A|].
  right. exists k. split; [lia|exact B].
Qed.
Lemma mid_seg s a n : isStr s -> 1 <= a <= length s + 1 -> mid s (Z.of_nat a) (Z.of_nat n) = Ok (substr s a (a + n - 1)).
Proof.
  intros H L. rewrite mid_ok by (try assumption; lia). unfold substr. f_equal. f_equal; [lia|f_equal; lia].
Qed.
Lemma occurs_nil s : occurs [] s 1.
Proof. exists [], s. split; reflexivity. Qed.
Lemma fields_ok s : concat (map (fun f => f ++ [44]) (fields s)) = s ++ [44] /\ (forall f, In f (fields s) -> ~ In 44 f).
Proof.
  split; [apply concat_fields|]. intros f Hf. apply In_nth_error in Hf. destruct Hf as [k Hk].
  apply (field_at s k f Hk).
Qed.
Lemma fieldStart_sub s k f : nth_error (fields s) k = Some f ->
  substr s (fieldStart s k) (fieldStart s k + length f - 1) = f.
Proof.
  intros H. destruct (field_at s k f H) as [A _]. unfold substr.
  assert (1 <= fieldStart s k) by (unfold fieldStart; lia).
  replace (fieldStart s k + length f - 1 + 1 - fieldStart s k) with (length f) by lia. exact A.
Qed.
