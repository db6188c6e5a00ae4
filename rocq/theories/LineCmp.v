(* LineCmp.v -- the layout printLongLine gives a compressed proof *)
From Coq Require Import ZifyBool ZifyNat.
From Verif Require Import Base TokModel ParModel VstrModel VstrSpec CmpSpec LineModel LineSpec LineProofs LineText SavModel.
Open Scope nat_scope.

(* tokens separated by white space, then letters with white space anywhere, then "$." *)
Inductive laid : list (list nat) -> list nat -> list nat -> Prop :=
| ld_blank c toks L t : isspace c = true -> laid toks L t -> laid toks L (c :: t)
| ld_tok T c toks L t : isspace c = true -> laid toks L t -> laid (T :: toks) L (T ++ c :: t)
| ld_let x L t : laid [] L t -> laid [] (x :: L) (x :: t)
| ld_end : laid [] [] [36; 46].

Definition solid (t : list nat) : Prop := Forall (fun c => isspace c = false) t.
Definition onlySp (t : list nat) : Prop := forall c, In c t -> isspace c = true -> c = 32.
Definition noSp (b : list nat) : Prop := ~ In 32 (firstn (length b - 3) b).

Lemma laid_len toks L t : laid toks L t -> length L + 2 <= length t.
Proof.
  induction 1 as [c toks L t H Q IH|T c toks L t H Q IH|x L t Q IH|]; rewrite ?app_length; cbn [length] in *; lia.
Qed.
Lemma laid_blanks w toks L t : blanks w -> laid toks L t -> laid toks L (w ++ t).
Proof. induction 1 as [|c w H F IH]; intros Q; [exact Q|]. cbn [app]. apply ld_blank; auto. Qed.
Lemma laid_strip toks L t : Forall (fun T => T <> [] /\ solid T) toks -> solid L -> laid toks L (32 :: t) -> laid toks L t.
Proof.
  intros HT HL Q. inversion Q as [c toks' L' t' H Q' E1 E2 E3|T c toks' L' t' H Q' E1 E2 E3|x L' t' Q' E1 E2 E3|]; subst.
  - exact Q'.
  - inversion HT as [|? ? [N S] _]; subst. destruct T as [|d T]; [congruence|]. cbn [app] in E3. injection E3 as -> _.
    inversion S; subst. discriminate.
  - inversion HL; subst. discriminate.
Qed.

Lemma noSp_early x y : 3 <= length y -> noSp (x ++ 32 :: y) -> False.
Proof.
  intros L N. apply N. rewrite app_length. cbn [length]. rewrite firstn_app.
  apply in_or_app. right. replace (length x + S (length y) - 3 - length x) with (S (length y - 3)) by lia.
  left. reflexivity.
Qed.

Lemma app_same_len (a b c d : list nat) : a ++ b = c ++ d -> length a = length c -> a = c /\ b = d.
Proof.
  revert c. induction a as [|x a IH]; intros [|y c] E L; simpl in *; try lia; [auto|].
  injection E as -> E. destruct (IH c E ltac:(lia)) as [-> ->]. auto.
Qed.
Lemma laid_break : forall toks L t, laid toks L t ->
  Forall (fun T => T <> [] /\ solid T) toks -> solid L -> onlySp t -> (toks <> [] -> L <> []) ->
  forall a gap b, t = a ++ gap ++ b ->
  gap = [32] \/ gap = [32; 32] \/ (gap = [] /\ 2 <= length b /\ noSp b) ->
  exists toks' L', laid toks' L' b /\ Forall (fun T => T <> [] /\ solid T) toks' /\ solid L' /\ (toks' <> [] -> L' <> []) /\
    forall J, laid toks' L' J -> laid toks L (a ++ 10 :: J).
Proof.
  induction 1 as [c toks L t H Q IH|T c toks L t H Q IH|x L t Q IH|]; intros HT HL HO HN a gap b E G.
  - (* blank *)
    assert (HO' : onlySp t) by (intros d I; apply HO; right; exact I).
    destruct a as [|d a]; cbn [app] in E.
    + exists toks, L.
      assert (LB : laid toks L b).
      { destruct G as [->|[->|[-> _]]]; cbn [app] in E.
        - injection E as -> <-. exact Q.
        - injection E as -> ->. apply laid_strip; assumption.
        - subst b. apply ld_blank; assumption. }
      split; [exact LB|]. split; [exact HT|]. split; [exact HL|]. split; [exact HN|].
      intros J QJ. cbn [app]. apply ld_blank; [reflexivity|exact QJ].
    + injection E as -> E. destruct (IH HT HL HO' HN a gap b E G) as [toks' [L' [A1 [A2 [A3 [A4 A5]]]]]].
      exists toks', L'. split; [exact A1|]. split; [exact A2|]. split; [exact A3|]. split; [exact A4|].
      intros J QJ. cbn [app]. apply ld_blank; auto.
  - (* token *)
    inversion HT as [|T0 toks0 [TN TS] HT']; subst T0 toks0.
    assert (HO' : onlySp t) by (intros d I; apply HO; apply in_or_app; right; right; exact I).
    assert (c32 : c = 32) by (apply HO; [apply in_or_app; right; left; reflexivity|exact H]). subst c.
    assert (LN : L <> []) by (apply HN; discriminate).
    assert (Lt : 3 <= length t). { pose proof (laid_len _ _ _ Q). destruct L; [congruence|simpl in *; lia]. }
    assert (HN' : toks <> [] -> L <> []) by (intros _; exact LN).
    (* compare a with T *)
    destruct (Nat.lt_trichotomy (length a) (length T)) as [LT|[EQ|GT]].
    + (* inside the token *)
      assert (SPL : exists T2, T = a ++ T2 /\ gap ++ b = T2 ++ 32 :: t /\ T2 <> []).
      { exists (skipn (length a) T).
        assert (EA : a = firstn (length a) T).
        { apply (f_equal (firstn (length a))) in E. rewrite firstn_app in E.
          replace (length a - length T) with 0 in E by lia. cbn [firstn] in E. rewrite app_nil_r in E.
          rewrite firstn_app, Nat.sub_diag, firstn_all in E. cbn [firstn] in E. rewrite app_nil_r in E. symmetry. exact E. }
        split; [rewrite EA at 1; symmetry; apply firstn_skipn|]. split.
        - apply (f_equal (skipn (length a))) in E. rewrite skipn_app in E.
          replace (length a - length T) with 0 in E by lia. cbn [skipn] in E.
          rewrite skipn_app, Nat.sub_diag, skipn_all in E. cbn [skipn app] in E. symmetry. exact E.
        - intros X. apply (f_equal (@length nat)) in X. rewrite skipn_length in X. simpl in X. lia. }
      destruct SPL as [T2 [ET [EG NT2]]].
      assert (S2 : solid T2). { unfold solid in *. rewrite ET in TS. apply Forall_app in TS. apply TS. }
      assert (GE : gap = []).
      { destruct T2 as [|d T2]; [congruence|]. inversion S2; subst. destruct G as [->|[->|[-> _]]]; [| |reflexivity];
          cbn [app] in EG; injection EG as <- _; discriminate. }
      subst gap. cbn [app] in EG. destruct G as [G|[G|[_ [G1 G2]]]]; try discriminate.
      exfalso. rewrite EG in G2. apply noSp_early in G2; [exact G2|exact Lt].
    + assert (ET : a = T /\ gap ++ b = 32 :: t).
      { destruct (app_same_len _ _ _ _ E (eq_sym EQ)) as [-> EG]. split; [reflexivity|symmetry; exact EG]. }
      destruct ET as [-> EG].
      exists toks, L.
      assert (LB : laid toks L b).
      { destruct G as [->|[->|[-> [G1 G2]]]]; cbn [app] in EG.
        - injection EG as ->. exact Q.
        - injection EG as EG. apply laid_strip; [assumption..|]. rewrite EG. exact Q.
        - exfalso. rewrite EG in G2. apply (noSp_early [] t Lt G2). }
      split; [exact LB|]. split; [exact HT'|]. split; [exact HL|]. split; [exact HN'|].
      intros J QJ. apply ld_tok; [reflexivity|exact QJ].
    + assert (SPL : exists a2, a = T ++ 32 :: a2 /\ t = a2 ++ gap ++ b).
      { exists (skipn (S (length T)) a).
        assert (EA : a = T ++ 32 :: skipn (S (length T)) a).
        { assert (X : firstn (S (length T)) a = T ++ [32]).
          { apply (f_equal (firstn (S (length T)))) in E. rewrite (firstn_app _ a) in E.
            replace (S (length T) - length a) with 0 in E by lia. rewrite firstn_O, app_nil_r in E.
            rewrite <- E. rewrite firstn_app. rewrite firstn_all2 by lia. replace (S (length T) - length T) with 1 by lia. reflexivity. }
          rewrite <- (firstn_skipn (S (length T)) a) at 1. rewrite X, <- app_assoc. reflexivity. }
        split; [exact EA|]. rewrite EA in E. rewrite <- app_assoc in E. apply app_inv_head in E. cbn [app] in E. injection E as E. exact E. }
      destruct SPL as [a2 [-> E2]].
      destruct (IH HT' HL HO' HN' a2 gap b E2 G) as [toks' [L' [A1 [A2 [A3 [A4 A5]]]]]].
      exists toks', L'. split; [exact A1|]. split; [exact A2|]. split; [exact A3|]. split; [exact A4|].
      intros J QJ. rewrite <- app_assoc. cbn [app]. apply ld_tok; [reflexivity|]. apply A5, QJ.
  - (* letter *)
    assert (HO' : onlySp t) by (intros d I; apply HO; right; exact I).
    inversion HL as [|x0 L0 Sx SL]; subst x0 L0.
    destruct a as [|d a]; cbn [app] in E.
    + destruct G as [->|[->|[-> _]]]; cbn [app] in E; try (injection E as -> _; discriminate). subst b.
      exists [], (x :: L). split; [apply ld_let, Q|]. split; [constructor|]. split; [exact HL|]. split; [congruence|].
      intros J QJ. apply ld_blank; [reflexivity|exact QJ].
    + injection E as <- E. destruct (IH HT SL HO' ltac:(congruence) a gap b E G) as [toks' [L' [A1 [A2 [A3 [A4 A5]]]]]].
      exists toks', L'. split; [exact A1|]. split; [exact A2|]. split; [exact A3|]. split; [exact A4|].
      intros J QJ. cbn [app]. apply ld_let, A5, QJ.
  - destruct a as [|d a]; cbn [app] in E.
    + destruct G as [->|[->|[-> _]]]; cbn [app] in E; try discriminate. subst b.
      exists [], []. split; [apply ld_end|]. split; [constructor|]. split; [constructor|]. split; [congruence|].
      intros J QJ. apply ld_blank; [reflexivity|exact QJ].
    + exfalso. assert (LB : length b <= 1). { apply (f_equal (@length nat)) in E. cbn [length] in E. rewrite !app_length in E. lia. }
      destruct G as [->|[->|[-> [G1 _]]]]; [| |lia]; injection E as _ E; destruct a as [|d' a]; cbn [app] in E; try discriminate;
        injection E as _ E; destruct a; discriminate.
Qed.

Definition Tail (t : list nat) : Prop := t = [36; 46] \/
  exists u L, t = u ++ L ++ [32; 36; 46] /\ ~ In 41 L /\ ~ In 32 L /\
    (~ In 41 u \/ exists u', u = u' ++ [41; 32] /\ ~ In 41 u').
Lemma Tail_suffix p : forall s, 2 <= length s -> Tail (p ++ s) -> Tail s.
Proof.
  induction p as [|c p IH]; intros s Ls T; [exact T|]. apply IH; [exact Ls|]. cbn [app] in T.
  assert (Lq : 2 <= length (p ++ s)) by (rewrite app_length; lia).
  remember (p ++ s) as q. clear - T Lq. destruct T as [E|[u [L [E [A [B C]]]]]].
  - injection E as _ E. subst q. simpl in Lq. lia.
  - destruct u as [|d u]; cbn [app] in E.
    + destruct L as [|d L]; cbn [app] in E.
      * injection E as _ ->. left. reflexivity.
      * injection E as _ ->. right. exists [], L. split; [reflexivity|]. split; [simpl in A; tauto|]. split; [simpl in B; tauto|]. left. simpl. tauto.
    + injection E as _ ->. right. exists u, L. split; [reflexivity|]. split; [exact A|]. split; [exact B|].
      destruct C as [C|[u' [C1 C2]]]; [left; simpl in C; tauto|].
      destruct u' as [|e u']; cbn [app] in C1.
      * injection C1 as _ ->. left. simpl. lia.
      * injection C1 as _ ->. right. exists u'. split; [reflexivity|simpl in C2; tauto].
Qed.
Lemma split_uniq (c : nat) a x b y : a ++ c :: x = b ++ c :: y -> ~ In c a -> ~ In c b -> a = b /\ x = y.
Proof.
  revert b. induction a as [|d a IH]; intros [|e b] E N1 N2; cbn [app] in E.
  - injection E as ->. auto.
  - injection E as -> _. exfalso. apply N2. left. reflexivity.
  - injection E as -> _. exfalso. apply N1. left. reflexivity.
  - injection E as -> E. destruct (IH b E) as [-> ->]; [simpl in N1; tauto|simpl in N2; tauto|]. auto.
Qed.
Lemma split_in (c : nat) a x u : u = a ++ c :: x -> In c u.
Proof. intros ->. apply in_or_app. right. left. reflexivity. Qed.
Lemma in_split_first (c : nat) l : In c l -> exists a b, l = a ++ c :: b /\ ~ In c a.
Proof.
  induction l as [|d l IH]; [intros []|]. intros I. destruct (Nat.eq_dec d c) as [->|N].
  - exists [], l. split; [reflexivity|simpl; tauto].
  - destruct I as [I|I]; [congruence|]. destruct (IH I) as [a [b [-> H]]]. exists (d :: a), b. split; [reflexivity|]. simpl. tauto.
Qed.

Lemma compr_break t a gap b : Tail t -> ~ In 38 t -> t = a ++ gap ++ b -> breakAt [38; 32] a gap b ->
  gap = [32] \/ gap = [32; 32] \/ (gap = [] /\ 2 <= length b /\ noSp b).
Proof.
  intros HT N38 E [X _ _|_ _ -> _|_ _ ->|c b' X1 X2 -> X4 _|a' x y _ -> X3 X4 X5 X6 X7|a' x y _ -> X3 X4 X5]; auto; try discriminate.
  - exfalso. apply N38. unfold breakChar in X1. cbn [hdIs Nat.eqb In] in X1. destruct X1 as [X1|[X1|[]]]; [|congruence].
    rewrite E, X4, X1. apply in_or_app. right. left. reflexivity.
  - right. right. split; [reflexivity|]. split; [|exact X6].
    destruct b as [|z [|z2 b]]; [congruence| |simpl; lia]. exfalso. rewrite X3 in E. cbn [app] in E. rewrite <- app_assoc in E. cbn [app] in E.
    destruct HT as [HT|[u [L [HT _]]]].
    + rewrite HT in E. apply (f_equal (@length nat)) in E. rewrite app_length in E. simpl in E. lia.
    + rewrite HT, app_assoc in E.
      destruct (app_same_len _ _ _ _ E) as [_ E2].
      { apply (f_equal (@length nat)) in E. rewrite !app_length in E. simpl in E. rewrite app_length in *. lia. }
      injection E2 as E2 _ _. congruence.
  - right. right. split; [reflexivity|]. rewrite X3 in E. rewrite <- app_assoc in E. cbn [app] in E.
    destruct HT as [HT|[u [L [HT [A [B C]]]]]].
    + exfalso. assert (I : In 41 t) by (rewrite E; apply in_or_app; right; left; reflexivity).
      rewrite HT in I. simpl in I. lia.
    + assert (NT : ~ In 41 (L ++ [32; 36; 46])). { rewrite in_app_iff. simpl. intuition congruence. }
      destruct C as [C|[u' [C1 C2]]].
      * exfalso. assert (I : In 41 t) by (rewrite E; apply in_or_app; right; left; reflexivity).
        rewrite HT in I. apply in_app_iff in I. tauto.
      * rewrite HT, C1, <- app_assoc in E. cbn [app] in E.
        assert (NA : ~ In 41 a').
        { intros I. destruct (in_split_first _ _ I) as [p [q [-> Np]]]. rewrite <- app_assoc in E. cbn [app] in E.
          destruct (split_uniq _ _ _ _ _ E C2 Np) as [_ E2].
          assert (I2 : In 41 (32 :: L ++ [32; 36; 46])) by (rewrite E2; apply in_or_app; right; left; reflexivity).
          destruct I2 as [I2|I2]; [discriminate|tauto]. }
        destruct (split_uniq _ _ _ _ _ E C2 NA) as [_ E2]. injection E2 as _ E2.
        destruct L as [|l L]; cbn [app] in E2.
        { injection E2 as E2 _. congruence. }
        injection E2 as _ <-. split; [rewrite app_length; simpl; lia|].
        unfold noSp. rewrite app_length. cbn [length]. replace (length L + 3 - 3) with (length L) by lia.
        rewrite firstn_app, Nat.sub_diag, firstn_all. cbn [firstn]. rewrite app_nil_r. simpl in B. tauto.
Qed.

Lemma joinNl_cons l ls : ls <> [] -> joinNl (l :: ls) = l ++ 10 :: joinNl ls.
Proof. destruct ls; [congruence|reflexivity]. Qed.
Lemma wrapped_ne brk tree start post m f t ls : wrapped brk tree start post m f t ls -> ls <> [].
Proof. intros []; discriminate. Qed.
Lemma wrapped_laid start m f t ls : Forall (fun c => c = 32) start ->
  wrapped [38; 32] false start [] m f t ls -> forall toks L, laid toks L t ->
  Forall (fun T => T <> [] /\ solid T) toks -> solid L -> onlySp t -> (toks <> [] -> L <> []) ->
  Tail t -> ~ In 38 t -> laid toks L (joinNl ls).
Proof.
  intros HS W. induction W as [f t pre P|f a gap b pre ls P B W IH]; intros toks L Q HT HL HO HN TT N38.
  - cbn [joinNl]. apply laid_blanks; [|exact Q]. pose proof (prefix_blank _ _ _ _ _ _ _ HS P) as X.
    unfold blanks. rewrite Forall_forall in *. intros c I. rewrite (X c I). reflexivity.
  - rewrite app_nil_r. rewrite joinNl_cons by (eapply wrapped_ne; exact W).
    pose proof (compr_break _ _ _ _ TT N38 eq_refl B) as G.
    destruct (laid_break _ _ _ Q HT HL HO HN a gap b eq_refl G) as [toks' [L' [A1 [A2 [A3 [A4 A5]]]]]].
    rewrite <- app_assoc. apply laid_blanks.
    { pose proof (prefix_blank _ _ _ _ _ _ _ HS P) as X. unfold blanks. rewrite Forall_forall in *. intros c I. rewrite (X c I). reflexivity. }
    apply A5. apply IH; auto.
    + intros c I. apply HO. rewrite !in_app_iff. auto.
    + pose proof (laid_len _ _ _ A1). rewrite app_assoc in TT. eapply Tail_suffix; [lia|exact TT].
    + intros I. apply N38. rewrite !in_app_iff. auto.
Qed.
Lemma wrapped_end start m f t ls toks L : Forall (fun c => c = 32) start -> start <> [] -> 3 <= m ->
  wrapped [38; 32] false start [] m f t ls -> laid toks L t ->
  Forall (fun T => T <> [] /\ solid T) toks -> solid L -> onlySp t -> (toks <> [] -> L <> []) ->
  Tail t -> ~ In 38 t -> (f = true -> t <> [36; 46]) -> exists K, joinNl ls = K ++ [32; 36; 46].
Proof.
  intros HS NS M W. revert toks L. induction W as [f t pre P|f a gap b pre ls P B W IH]; intros toks L Q HT HL HO HN TT N38 NF.
  - cbn [joinNl]. destruct TT as [->|[u [K [-> _]]]].
    + destruct P as [[_ [->|[r [v [E [Lr _]]]]]]|[_ [n [-> Hn]]]].
      * exfalso. apply NF; reflexivity.
      * exfalso. apply (f_equal (@length nat)) in E. rewrite app_length in E. simpl in E. lia.
      * rewrite (Hn eq_refl). simpl. rewrite app_nil_r. destruct (exists_last NS) as [s0 [x E]].
        assert (x = 32). { rewrite E in HS. apply Forall_app in HS. destruct HS as [_ X]. inversion X; assumption. } subst x.
        exists s0. rewrite E, <- app_assoc. reflexivity.
    + exists (pre ++ u ++ K). rewrite <- !app_assoc. reflexivity.
  - rewrite app_nil_r. rewrite joinNl_cons by (eapply wrapped_ne; exact W).
    pose proof (compr_break _ _ _ _ TT N38 eq_refl B) as G.
    destruct (laid_break _ _ _ Q HT HL HO HN a gap b eq_refl G) as [toks' [L' [A1 [A2 [A3 [A4 A5]]]]]].
    destruct (IH toks' L' A1 A2 A3) as [K E]; auto; try discriminate.
    + intros c I. apply HO. rewrite !in_app_iff. auto.
    + pose proof (laid_len _ _ _ A1). rewrite app_assoc in TT. eapply Tail_suffix; [lia|exact TT].
    + intros I. apply N38. rewrite !in_app_iff. auto.
    + exists ((pre ++ a) ++ 10 :: K). rewrite E, <- !app_assoc. reflexivity.
Qed.

(* ---------- reading the result as a laid-out proof ---------- *)
Lemma laid_letters L t : laid [] L t -> exists tx, t = tx ++ [36; 46] /\ spaced L tx.
Proof.
  intros Q. remember [] as toks eqn:E. induction Q as [c toks L t H Q IH|T c toks L t H Q IH|x L t Q IH|]; subst.
  - destruct (IH eq_refl) as [tx [-> S]]. exists (c :: tx). split; [reflexivity|apply spd_blank; assumption].
  - discriminate.
  - destruct (IH eq_refl) as [tx [-> S]]. exists (x :: tx). split; [reflexivity|apply spd_char; assumption].
  - exists []. split; [reflexivity|constructor].
Qed.
Lemma labelsLaid_blank c names lt : isspace c = true -> labelsLaid names lt -> labelsLaid names (c :: lt).
Proof.
  intros H Q. destruct Q as [w B|w l d ls t B D Q].
  - apply (ll_nil (c :: w)). constructor; assumption.
  - apply (ll_cons (c :: w)); [constructor; assumption|exact D|exact Q].
Qed.
Lemma laid_names L t : forall names, laid (names ++ [[41]]) L t ->
  exists lt tx, t = lt ++ tx ++ [36; 46] /\ labelsLaid names lt /\ spaced L tx.
Proof.
  intros names Q. remember (names ++ [[41]]) as toks eqn:E. revert names E.
  induction Q as [c toks L t H Q IH|T c toks L t H Q IH|x L t Q IH|]; intros names E.
  - destruct (IH names E) as [lt [tx [-> [S1 S2]]]]. exists (c :: lt), tx. split; [reflexivity|].
    split; [apply labelsLaid_blank; assumption|exact S2].
  - destruct names as [|n names]; cbn [app] in E.
    + injection E as -> ->. destruct (laid_letters _ _ Q) as [tx [-> S]].
      exists [41], (c :: tx). split; [reflexivity|]. split; [apply (ll_nil []); constructor|apply spd_blank; assumption].
    + injection E as -> E. destruct (IH names E) as [lt [tx [-> [S1 S2]]]].
      exists (n ++ c :: lt), tx. split; [rewrite <- app_assoc; reflexivity|]. split; [|exact S2].
      apply (ll_cons []); [constructor|exact H|exact S1].
  - destruct names; discriminate.
  - destruct names; discriminate.
Qed.
Lemma laid_proof L t : forall names, laid ([40] :: names ++ [[41]]) L t ->
  exists sec tx, t = sec ++ [36; 46] /\ laidOut names L sec tx.
Proof.
  intros names Q. remember ([40] :: names ++ [[41]]) as toks eqn:E.
  induction Q as [c toks L t H Q IH|T c toks L t H Q IH|x L t Q IH|]; try discriminate.
  - destruct (IH E) as [sec [tx [-> [w [lt [B1 [B2 [B3 ->]]]]]]]]. exists (c :: w ++ chOpen :: lt ++ tx), tx.
    split; [reflexivity|]. exists (c :: w), lt. split; [constructor; assumption|]. split; [exact B2|]. split; [exact B3|reflexivity].
  - injection E as -> ->. destruct (laid_names _ _ _ Q) as [lt [tx [-> [S1 S2]]]].
    exists (40 :: (c :: lt) ++ tx), tx. split; [cbn [app]; rewrite <- app_assoc; reflexivity|].
    exists [], (c :: lt). split; [constructor|]. split; [apply labelsLaid_blank; assumption|]. split; [exact S2|reflexivity].
Qed.

(* ---------- the text that SAVE PROOF / COMPRESSED prints ---------- *)

Lemma joinSp_laid names r L : laid ([[41]]) L r -> laid (names ++ [[41]]) L (joinSp names ++ 32 :: r).
Proof.
  intros Q. induction names as [|n names IH].
  - apply ld_blank; [reflexivity|exact Q].
  - destruct names as [|k names].
    + cbn [joinSp app]. apply ld_tok; [reflexivity|exact Q].
    + change (joinSp (n :: k :: names)) with (n ++ 32 :: joinSp (k :: names)). rewrite <- app_assoc. cbn [app].
      apply ld_tok; [reflexivity|exact IH].
Qed.
Lemma letters_laid L : laid [] L (L ++ [32; 36; 46]).
Proof. induction L as [|x L IH]; cbn [app]; [apply ld_blank; [reflexivity|apply ld_end]|apply ld_let, IH]. Qed.
Lemma proofText_laid ind names L : laid ([40] :: names ++ [[41]]) L (proofText ind names L).
Proof.
  unfold proofText. apply laid_blanks.
  { unfold blanks. apply Forall_forall. intros c I. apply repeat_spec in I. subst c. reflexivity. }
  change ([40; 32] ++ joinSp names ++ [32; 41; 32] ++ L ++ [32; 36; 46]) with ([40] ++ 32 :: (joinSp names ++ 32 :: ([41] ++ 32 :: (L ++ [32; 36; 46])))).
  apply ld_tok; [reflexivity|]. apply joinSp_laid. apply ld_tok; [reflexivity|]. apply letters_laid.
Qed.
Lemma joinSp_in names c : In c (joinSp names) -> c = 32 \/ exists n, In n names /\ In c n.
Proof.
  induction names as [|n names IH]; [intros []|]. destruct names as [|k names].
  - intros I. right. exists n. split; [left; reflexivity|exact I].
  - change (joinSp (n :: k :: names)) with (n ++ 32 :: joinSp (k :: names)). rewrite in_app_iff. cbn [In]. intros [I|[I|I]].
    + right. exists n. split; [left; reflexivity|exact I].
    + left. congruence.
    + destruct (IH I) as [->|[m [M1 M2]]]; [left; reflexivity|right]. exists m. split; [right; exact M1|exact M2].
Qed.
Lemma joinSp_len names : length (joinSp names) <= length (concat names) + length names.
Proof.
  induction names as [|n names IH]; [simpl; lia|]. destruct names as [|k names].
  - simpl. rewrite app_nil_r. lia.
  - change (joinSp (n :: k :: names)) with (n ++ 32 :: joinSp (k :: names)). cbn [concat length] in *. rewrite !app_length in *. simpl in *. lia.
Qed.

Lemma labelChar_range c : labelChar c = true -> 45 <= c <= 122 /\ c <> 47.
Proof. unfold labelChar. lia. Qed.
Lemma isspace_range c : isspace c = true -> c <= 32 .
Proof. unfold isspace. lia. Qed.

Lemma pll_compressed fuel w ind names L :
  (4 <= w)%Z -> Forall okName names -> okLetters L ->
  (2 * len (proofText ind names L) + 2 < Z.of_nat fuel)%Z ->
  exists out sec tx, printLongLine fuel w (proofText ind names L) (repeat 32 ind) [38; 32] = Ok out /\
    joinNl out = sec ++ [36; 46] /\ laidOut names L sec tx /\
    ((5 <= w)%Z -> 0 < ind -> exists K, sec = K ++ [32]).
Proof.
  intros W HN [NL HL] FU. set (line := proofText ind names L) in *. set (start := repeat 32 ind).
  assert (HS : Forall (fun c => c = 32) start) by (apply Forall_forall; intros c I; apply repeat_spec in I; exact I).
  assert (HN' : forall n c, In n names -> In c n -> 45 <= c <= 122 /\ c <> 47).
  { intros n c I1 I2. rewrite Forall_forall in HN. destruct (HN n I1) as [_ X]. rewrite Forall_forall in X. apply labelChar_range, X, I2. }
  rewrite Forall_forall in HL.
  assert (CH : forall c, In c line -> c = 32 \/ c = 36 \/ c = 40 \/ c = 41 \/ (45 <= c <= 122)).
  { intros c. unfold line, proofText. rewrite !in_app_iff. cbn [In].
    intros [I|[[I|[I|[]]]|[I|[[I|[I|[I|[]]]]|[I|[I|[I|[I|[]]]]]]]]]; try lia.
    - apply repeat_spec in I. lia.
    - apply joinSp_in in I. destruct I as [->|[n [I1 I2]]]; [auto|]. destruct (HN' n c I1 I2). lia.
    - destruct (HL c I); lia. }
  assert (IS : isStr line). { unfold isStr. apply Forall_forall. intros c I. specialize (CH c I). lia. }
  assert (IS2 : isStr start) by (unfold isStr; rewrite Forall_forall in *; intros c I; rewrite (HS c I); lia).
  assert (N3 : ~ In 3 line) by (intros I; specialize (CH 3 I); lia).
  assert (N38 : ~ In 38 line) by (intros I; specialize (CH 38 I); lia).
  assert (NTs : hdIs 126 start = false) by (apply start_notilde, HS).
  destruct (pll_ok fuel w line start [38; 32] W IS IS2) as [[_ [c [I [O1 O2]]]]|[text [ls [lss [T [Ln [F [B _]]]]]]]]; auto.
  { intros X. congruence. }
  { simpl. lia. }
  { exfalso. unfold breakChar, breaksOf in O1. cbn [hdIs Nat.eqb In] in O1. destruct O1 as [<-|[<-|[]]]; [|congruence]. contradiction. }
  cbn [hdIs Nat.eqb] in T. subst text.
  (* a single line *)
  assert (LS : ls = [line]).
  { destruct Ln as [_ [NE J]].
    assert (N10 : ~ In 10 line) by (intros I; specialize (CH 10 I); lia).
    destruct ls as [|x [|y ls]]; [congruence| |].
    - cbn [joinNl] in J. destruct J as [->|J]; [reflexivity|]. exfalso. apply N10. rewrite J. apply in_or_app. right. left. reflexivity.
    - exfalso. apply N10. change (joinNl (x :: y :: ls)) with (x ++ 10 :: joinNl (y :: ls)) in J.
      destruct J as [->| ->]; rewrite ?in_app_iff; cbn [In]; auto. }
  subst ls. inversion F as [|? r ? lss' Wr F']; subst. inversion F'; subst. cbn [concat] in B. rewrite app_nil_r in B.
  assert (TT : Tail line).
  { right. exists (repeat 32 ind ++ [40; 32] ++ joinSp names ++ [32; 41; 32]), L.
    split; [unfold line, proofText; rewrite <- !app_assoc; reflexivity|].
    split; [intros I; destruct (HL _ I); lia|]. split; [intros I; destruct (HL _ I); lia|]. right.
    exists (repeat 32 ind ++ [40; 32] ++ joinSp names ++ [32]). split; [rewrite <- !app_assoc; reflexivity|].
    rewrite !in_app_iff. cbn [In]. intros [I|[I|[I|I]]]; try lia; [apply repeat_spec in I; discriminate|].
    apply joinSp_in in I. destruct I as [I|[n [I1 I2]]]; [discriminate|]. destruct (HN' n 41 I1 I2). lia. }
  assert (OS : onlySp line). { intros c I S. pose proof (CH c I). apply isspace_range in S. lia. }
  assert (HTk : Forall (fun T => T <> [] /\ solid T) ([40] :: names ++ [[41]])).
  { constructor; [split; [discriminate|repeat constructor]|]. apply Forall_app. split; [|repeat constructor; discriminate].
    apply Forall_forall. intros n I. rewrite Forall_forall in HN. split; [apply (HN n I)|].
    apply Forall_forall. intros c Ic. destruct (HN' n c I Ic) as [X _].
    destruct (isspace c) eqn:E; [apply isspace_range in E; lia|reflexivity]. }
  assert (HLs : solid L).
  { apply Forall_forall. intros c I. destruct (isspace c) eqn:E; [|reflexivity]. apply isspace_range in E. destruct (HL c I); lia. }
  pose proof (start_blank w start HS) as HSw.
  cbn [hdIs Nat.eqb] in Wr. unfold breaksOf, postOf in Wr. rewrite NTs in Wr.
  pose proof (proofText_laid ind names L) as LD. fold line in LD.
  pose proof (wrapped_laid _ _ _ _ _ HSw Wr _ _ LD HTk HLs OS (fun _ => NL) TT N38) as LJ.
  destruct (laid_proof _ _ _ LJ) as [sec [tx [EJ LO]]].
  assert (UQ : map (map unquote) r = r).
  { assert (X : map unquote (joinNl r) = joinNl r).
    { apply unquote_id. rewrite EJ. intros I. apply in_app_iff in I. destruct I as [I|I]; [|simpl in I; lia].
      destruct LO as [w0 [lt [B1 [B2 [B3 ->]]]]]. unfold blanks in B1. rewrite Forall_forall in B1.
      apply in_app_iff in I. destruct I as [I|[I|I]]; [specialize (B1 _ I); discriminate|discriminate|].
      apply in_app_iff in I. destruct I as [I|I].
      - clear - B2 I HN'. induction B2 as [w1 B|w1 l c ls t B C Q IH].
        + unfold blanks in B. rewrite Forall_forall in B. apply in_app_iff in I. destruct I as [I|[I|[]]]; [specialize (B _ I); discriminate|discriminate].
        + unfold blanks in B. rewrite Forall_forall in B. apply in_app_iff in I. destruct I as [I|I]; [specialize (B _ I); discriminate|].
          apply in_app_iff in I. destruct I as [I|[I|I]].
          * destruct (HN' l 3 (or_introl eq_refl) I). lia.
          * subst c. discriminate.
          * apply IH; [intros n d I1; apply HN'; right; exact I1|exact I].
      - clear - B3 I HL. induction B3 as [|c s t H S IH|c s t S IH]; [destruct I| |].
        + destruct I as [->|I]; [discriminate|apply IH; assumption].
        + destruct I as [->|I]; [destruct (HL 3 (or_introl eq_refl)); lia|]. apply IH; [intros d Id; apply HL; right; exact Id|exact I]. }
    rewrite map_join in X. clear - X Wr.
    (* joinNl determines the characters *)
    assert (G : forall a b : list (list nat), length a = length b -> Forall2 (fun x y => length x = length y) a b -> joinNl a = joinNl b -> a = b).
    { induction a as [|x a IH]; intros [|y b] L1 F E; try discriminate; [reflexivity|].
      inversion F; subst. destruct a as [|x2 a], b as [|y2 b]; try discriminate.
      - cbn [joinNl] in E. congruence.
      - change (joinNl (x :: x2 :: a)) with (x ++ 10 :: joinNl (x2 :: a)) in E.
        change (joinNl (y :: y2 :: b)) with (y ++ 10 :: joinNl (y2 :: b)) in E.
        destruct (app_same_len _ _ _ _ E H2) as [-> E2]. injection E2 as E2. f_equal. apply IH; auto. }
    apply G; [apply map_length| |exact X]. clear. induction r as [|x r IH]; constructor; [apply map_length|exact IH]. }
  exists r, sec, tx. rewrite B, UQ. split; [reflexivity|]. split; [exact EJ|]. split; [exact LO|].
  intros W5 I0.
  assert (SW : startOf w start <> []).
  { unfold startOf. rewrite NTs. unfold start. destruct ind; [lia|]. cbn [repeat]. destruct (Z.to_nat (w - 4)) eqn:Q; [lia|]. discriminate. }
  assert (MR : 3 <= minRun w start [38; 32]).
  { unfold minRun, reserved. rewrite NTs. cbn [hdIs Nat.eqb].
    assert (length (startOf w start) <= Z.to_nat (w - 4)) by (unfold startOf; rewrite firstn_length; lia). lia. }
  destruct (wrapped_end _ _ _ _ _ _ _ HSw SW MR Wr LD HTk HLs OS (fun _ => NL) TT N38) as [K EK].
  { intros _ X. unfold line, proofText in X. apply (f_equal (@length nat)) in X. rewrite !app_length in X. simpl in X. lia. }
  exists K. rewrite EK in EJ. change [32; 36; 46] with ([32] ++ [36; 46]) in EJ. rewrite app_assoc in EJ.
  apply app_inv_tail in EJ. symmetry. exact EJ.
Qed.
