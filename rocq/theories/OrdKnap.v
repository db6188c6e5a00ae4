(* OrdKnap.v -- knapsack01 is optimal. *)
From Coq Require Import Permutation.
From Verif Require Import Base VerModel TokModel ParModel CmpModel SrcProofs StmScope OrdModel OrdSpec.
Open Scope nat_scope.

Lemma zget_nat {A} (l : list A) i : zget l (Z.of_nat i) = rget (nth_error l i).
Proof. unfold zget. destruct (Z.ltb_spec (Z.of_nat i) 0); [lia|]. rewrite Nat2Z.id. reflexivity. Qed.

Lemma total_snoc b x : forall c l, length c = length l -> total (c ++ [b]) (l ++ [x]) = (total c l + (if b then x else 0))%Z.
Proof.
  induction c as [|b' c IH]; intros [|y l] H; try discriminate; cbn [app total].
  - lia.
  - rewrite IH by (cbn [length] in H; lia). lia.
Qed.
Lemma total_false l : forall k, total (repeat false k) l = 0%Z.
Proof. induction l as [|x l IH]; intros [|k]; cbn [repeat total]; auto. rewrite IH. reflexivity. Qed.

Section K.
  Variable size worth : list Z.
  Hypothesis HL : length worth = length size.
  Hypothesis HS : forall s, In s size -> (1 <= s)%Z.
  Variable cap : nat.

  Definition nz (l : list Z) k := nth k l 0%Z.
  (* the best worth using the first k items in a knapsack of size ws *)
  Fixpoint M (k : nat) (ws : Z) : Z :=
    match k with
    | 0 => 0%Z
    | S k' => if (nz size k' <=? ws)%Z then Z.max (M k' ws) (M k' (ws - nz size k') + nz worth k') else M k' ws
    end.

  Lemma nth_nz (l : list Z) k : k < length l -> nth_error l k = Some (nz l k).
  Proof. intros. unfold nz. apply nth_error_nth'. auto. Qed.
  Lemma nz_pos k : k < length size -> (1 <= nz size k)%Z.
  Proof. intros. apply HS. unfold nz. apply nth_In. auto. Qed.

  Definition rowIs (row : list Z) (k : nat) : Prop :=
    length row = S cap /\ forall ws, ws <= cap -> nth_error row ws = Some (M k (Z.of_nat ws)).

  Lemma ksRow_ok prev k : rowIs prev k -> k < length size -> forall c ws, ws + c = S cap ->
    exists row, ksRow prev (nz size k) (nz worth k) ws c = Ok row /\ length row = c /\
      forall i, i < c -> nth_error row i = Some (M (S k) (Z.of_nat (ws + i))).
  Proof.
    intros [P1 P2] Hk. pose proof (nz_pos k Hk) as Hp. induction c as [|c IH]; intros ws E.
    - exists []. cbn. split; auto. split; auto. lia.
    - destruct (IH (S ws)) as [row [R1 [R2 R3]]]; [lia|].
      assert (X : (if (nz size k <=? Z.of_nat ws)%Z then
                 do a <- zget prev (Z.of_nat ws);
                 do b0 <- zget prev (Z.of_nat ws - nz size k);
                 let b := (b0 + nz worth k)%Z in
                 Ok (if (b <? a)%Z then a else b)
               else zget prev (Z.of_nat ws)) = Ok (M (S k) (Z.of_nat ws))).
      { cbn [M]. destruct (Z.leb_spec (nz size k) (Z.of_nat ws)) as [C|C].
        - rewrite zget_nat, P2 by lia. cbn [rget rbind].
          replace (Z.of_nat ws - nz size k)%Z with (Z.of_nat (ws - Z.to_nat (nz size k))) by lia.
          rewrite zget_nat, P2 by lia. cbn [rget rbind]. cbv zeta.
          replace (Z.of_nat (ws - Z.to_nat (nz size k))) with (Z.of_nat ws - nz size k)%Z by lia.
          f_equal. destruct (Z.ltb_spec (M k (Z.of_nat ws - nz size k) + nz worth k) (M k (Z.of_nat ws))); lia.
        - rewrite zget_nat, P2 by lia. reflexivity. }
      cbn [ksRow]. cbv zeta in X. cbv zeta. rewrite X. cbn [rbind]. rewrite R1. cbn [rbind].
      eexists. split; [reflexivity|]. split; [cbn [length]; lia|].
      intros [|i] Hi; cbn [nth_error].
      + rewrite Nat.add_0_r. reflexivity.
      + rewrite R3 by lia. replace (S ws + i) with (ws + S i) by lia. reflexivity.
  Qed.

  Lemma ksRows_ok : forall m k prev, rowIs prev k -> k + m = length size ->
    exists rs, ksRows prev (S cap) (skipn k size) (skipn k worth) = Ok rs /\ length rs = m /\
      forall i row, nth_error rs i = Some row -> rowIs row (k + S i).
  Proof.
    induction m as [|m IH]; intros k prev P E.
    - rewrite !skipn_all2 by lia. exists []. split; auto. split; auto. intros [|i] row; discriminate.
    - assert (A : forall l : list Z, k < length l -> skipn k l = nz l k :: skipn (S k) l).
      { intros l Hl. apply skipn_at. apply nth_nz. exact Hl. }
      rewrite !A by lia. cbn [ksRows].
      destruct (ksRow_ok prev k P ltac:(lia) (S cap) 0 eq_refl) as [row [R1 [R2 R3]]].
      rewrite R1. cbn [rbind].
      assert (PR : rowIs row (S k)). { split; auto. intros ws Hw. rewrite R3 by lia. reflexivity. }
      destruct (IH (S k) row PR ltac:(lia)) as [rs [S1 [S2 S3]]]. rewrite S1. cbn [rbind].
      eexists. split; [reflexivity|]. split; [cbn [length]; lia|].
      intros [|i] r H; cbn [nth_error] in H.
      + injection H as <-. rewrite Nat.add_1_r. exact PR.
      + replace (k + S (S i)) with (S k + S i) by lia. eauto.
  Qed.

  Lemma M_bound : forall k ws c, k <= length size -> length c = k ->
    (total c (firstn k size) <= ws)%Z -> (total c (firstn k worth) <= M k ws)%Z.
  Proof.
    induction k as [|k IH]; intros ws c Hk Hc Ht.
    - destruct c; [cbn; lia|discriminate].
    - destruct (exists_last (l := c)) as [c' [b ->]]; [intros ->; discriminate|].
      rewrite app_length in Hc. cbn [length] in Hc.
      rewrite (firstn_S _ _ _ (nth_nz size k ltac:(lia))) in Ht.
      rewrite (firstn_S _ _ _ (nth_nz worth k ltac:(lia))).
      rewrite total_snoc in Ht by (rewrite firstn_length; lia).
      rewrite total_snoc by (rewrite firstn_length; lia). cbn [M].
      assert (T0 : (0 <= total c' (firstn k size))%Z).
      { assert (A : forall l, (forall s, In s l -> (1 <= s)%Z) -> forall c, (0 <= total c l)%Z).
        { induction l as [|x l IHl]; intros Hl [|b' d]; cbn [total]; try lia.
          specialize (IHl (fun s H => Hl s (or_intror H)) d). pose proof (Hl x (or_introl eq_refl)). destruct b'; lia. }
        apply A. intros s Hs. apply HS. rewrite <- (firstn_skipn k size). apply in_or_app. auto. }
      destruct b.
      + destruct (Z.leb_spec (nz size k) ws) as [C|C]; [|lia].
        specialize (IH (ws - nz size k)%Z c' ltac:(lia) ltac:(lia) ltac:(lia)). lia.
      + specialize (IH ws c' ltac:(lia) ltac:(lia) ltac:(lia)).
        destruct (Z.leb_spec (nz size k) ws); lia.
  Qed.

  Lemma ksBack_ok rows : (forall k, k <= length size -> exists row, nth_error rows k = Some row /\ rowIs row k) ->
    forall k ws, k <= length size -> (0 <= ws <= Z.of_nat cap)%Z ->
    exists c, ksBack rows size k ws = Ok c /\ length c = k /\
      (total c (firstn k size) <= ws)%Z /\ total c (firstn k worth) = M k ws.
  Proof.
    intros HR. induction k as [|k IH]; intros ws Hk Hw.
    - exists []. cbn. repeat split; lia.
    - assert (G : forall j, j <= length size -> exists row, nth_error rows j = Some row /\ zget row ws = Ok (M j ws)).
      { intros j Hj. destruct (HR j Hj) as [row [E [_ R]]]. exists row. split; auto.
        replace ws with (Z.of_nat (Z.to_nat ws)) by lia. rewrite zget_nat, R by lia. reflexivity. }
      destruct (G (S k) Hk) as [r1 [E1 V1]]. destruct (G k ltac:(lia)) as [r0 [E0 V0]].
      pose proof (nz_pos k ltac:(lia)) as Hp.
      cbn [ksBack]. rewrite E1, E0. cbn [rget rbind]. rewrite V1, V0. cbn [rbind].
      assert (X : exists b, (if (0 <? ws)%Z then Ok (negb (M (S k) ws =? M k ws)%Z) else Ok false) = Ok b /\
                  ((b = true /\ (nz size k <= ws)%Z /\ M (S k) ws = (M k (ws - nz size k) + nz worth k)%Z) \/
                   (b = false /\ M (S k) ws = M k ws))).
      { destruct (Z.ltb_spec 0 ws) as [C|C].
        - destruct (Z.eqb_spec (M (S k) ws) (M k ws)) as [D|D].
          + eexists. split; [reflexivity|]. right. auto.
          + eexists. split; [reflexivity|]. left. split; auto. cbn [M] in *.
            destruct (Z.leb_spec (nz size k) ws); [|congruence]. split; [auto|lia].
        - eexists. split; [reflexivity|]. right. split; auto. cbn [M].
          destruct (Z.leb_spec (nz size k) ws); [lia|reflexivity]. }
      destruct X as [b [-> X]]. cbn [rbind].
      destruct X as [[-> [X1 X2]]|[-> X2]].
      + rewrite (nth_nz size k) by lia. cbn [rget rbind].
        destruct (IH (ws - nz size k)%Z ltac:(lia) ltac:(lia)) as [c [C1 [C2 [C3 C4]]]]. rewrite C1. cbn [rbind].
        eexists. split; [reflexivity|]. rewrite app_length. cbn [length]. split; [lia|].
        rewrite (firstn_S _ _ _ (nth_nz size k ltac:(lia))), (firstn_S _ _ _ (nth_nz worth k ltac:(lia))).
        rewrite !total_snoc by (rewrite firstn_length; lia). lia.
      + destruct (IH ws ltac:(lia) Hw) as [c [C1 [C2 [C3 C4]]]]. cbn [rbind]. rewrite C1. cbn [rbind].
        eexists. split; [reflexivity|]. rewrite app_length. cbn [length]. split; [lia|].
        rewrite (firstn_S _ _ _ (nth_nz size k ltac:(lia))), (firstn_S _ _ _ (nth_nz worth k ltac:(lia))).
        rewrite !total_snoc by (rewrite firstn_length; lia). lia.
  Qed.
End K.

Theorem knapsack_optimal size worth cap :
  length worth = length size -> (forall s, In s size -> (1 <= s)%Z) -> (0 <= cap)%Z ->
  exists best chosen, knapsack01 size worth cap = Ok (best, chosen) /\
    fits size cap chosen /\ total chosen worth = best /\
    forall other, fits size cap other -> (total other worth <= best)%Z.
Proof.
  intros HL HS HC. unfold knapsack01. destruct (Z.ltb_spec cap 0); [lia|].
  set (c := Z.to_nat cap). cbv zeta.
  assert (P0 : rowIs size worth c (repeat 0%Z (S c)) 0).
  { split; [apply repeat_length|]. intros ws Hw. cbn [M]. apply nth_error_repeat. lia. }
  destruct (ksRows_ok size worth HL HS c (length size) 0 _ P0 eq_refl) as [rs [R1 [R2 R3]]].
  cbn [skipn] in R1. rewrite R1. cbn [rbind].
  assert (HR : forall k, k <= length size -> exists row, nth_error (repeat 0%Z (S c) :: rs) k = Some row /\ rowIs size worth c row k).
  { intros [|k] Hk; cbn [nth_error]; [eauto|].
    destruct (nth_error rs k) eqn:E; [|apply nth_error_None in E; lia].
    exists l. split; auto. apply (R3 _ _ E). }
  destruct (ksBack_ok size worth HL HS c _ HR (length size) cap (Nat.le_refl _) ltac:(lia)) as [ch [B1 [B2 [B3 B4]]]].
  rewrite B1. cbn [rbind]. destruct (HR (length size) (Nat.le_refl _)) as [row [E [_ V]]]. rewrite E. cbn [rget rbind].
  replace cap with (Z.of_nat c) by lia. rewrite zget_nat, V by lia. cbn [rget rbind].
  exists (M size worth (length size) (Z.of_nat c)), ch. split; [reflexivity|].
  rewrite firstn_all in B3. replace (firstn (length size) worth) with worth in B4 by (rewrite <- HL; symmetry; apply firstn_all).
  replace (Z.of_nat c) with cap by lia. split; [split; auto|]. split; [auto|].
  intros o [O1 O2]. pose proof (M_bound size worth HL HS (length size) cap o (Nat.le_refl _) O1) as K.
  rewrite firstn_all in K. replace (firstn (length size) worth) with worth in K by (rewrite <- HL; symmetry; apply firstn_all). apply K. auto.
Qed.
