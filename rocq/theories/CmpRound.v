(* CmpRound.v -- compressing a proof and parsing the result gives it back. *)
From Verif Require Import Base MMSpec VerModel VerSpec TokModel ParModel ParSpec
  ParProofs ParCompr CmpModel CmpCodec CmpSpec CmpProofs.
From Coq Require Import Permutation.
Open Scope nat_scope.

Definition numLoc (proof : list pstep) : nat := length (filter (isLocIn proof) (seq 0 (length proof))).

Lemma mapAt_len st proof expl fl : labelsOk st proof expl fl ->
  length (mapAt st expl fl (length proof)) = length (s_reqHyps st) + length expl + numLoc proof.
Proof.
  intros LO. unfold mapAt. rewrite !app_length, !map_length. unfold numLoc.
  rewrite (filter_ext (flagged fl) (isLocIn proof)) by (apply (lo_fl _ _ _ _ LO)). lia.
Qed.

Lemma flCount_numLoc st proof expl fl : labelsOk st proof expl fl ->
  flCount fl 0 (length proof) = numLoc proof.
Proof.
  intros LO. unfold flCount, numLoc.
  rewrite (filter_ext (flagged fl) (isLocIn proof)) by (apply (lo_fl _ _ _ _ LO)). reflexivity.
Qed.

Theorem roundtrip_gen env n st proof order :
  wf_env env -> uniq_env env -> stmtAt (e_db env) n st -> s_type st = S_p ->
  goodProof (e_db env) n st proof ->
  (forall i, In (Loc i) proof -> exists m sm, nth_error proof i = Some (Stm m) /\
     stmtAt (e_db env) m sm /\ isAssertion sm) ->
  orderOn order st proof ->
  exists expl fl text, compressProof order (e_db env) n (map encStep proof) = Ok (expl, text) /\
    labelsOk st proof expl fl /\
    emitSteps (mapAt st expl fl (length proof)) fl 0 (map encStep proof) = Ok text /\
    forall sec tx rest max fuel,
      laidOut (map (fun z => e_name env (Z.to_nat z)) expl) text sec tx ->
      length sec + length (s_reqHyps st) <= max ->
      (Z.of_nat max <= maxLong)%Z ->
      length (sec ++ chDollar :: chDot :: rest) < fuel ->
      (length (s_reqHyps st) + length expl + numLoc proof <= 120 \/
       hasPair2 85 85 tx = true \/ hasPair2 85 86 sec = false) ->
      parseText fuel env n max sec (chDollar :: chDot :: rest) =
        Ok (Some ((if hasUnk proof then 1 else 0), map encStep proof, 0)).
Proof.
  intros WE UE Hn Hp HG HLoc HO.
  destruct (compress_char env WE n st Hn Hp proof HG HLoc order HO) as [expl [fl [LO HC]]].
  rewrite map_length in HC. change (map Z.of_nat (s_reqHyps st) ++ expl ++ localList fl (length proof))
    with (mapAt st expl fl (length proof)) in HC.
  destruct (emit_total env n st proof HG HLoc expl fl LO 0 (mapAt st expl fl (length proof))
    (ex_intro _ [] (eq_sym (app_nil_r _))) proof [] eq_refl) as [text [Ht Hlen]].
  cbn [length] in Ht, Hlen. rewrite Ht in HC. cbn [rbind] in HC.
  rewrite (flCount_numLoc _ _ _ _ LO) in Hlen.
  exists expl, fl, text. split; [exact HC|]. split; [exact LO|]. split; [exact Ht|].
  intros sec tx rest max fuel [w [lt [Hw [Hlt [Hsp Esec]]]]] Hmax HmL Hfuel HB.
  set (names := map (fun z => e_name env (Z.to_nat z)) expl) in *.
  assert (HN : forall l, In l names -> l <> [] /\ Forall (fun c => labelChar c = true) l).
  { intros l Hl. apply in_map_iff in Hl. destruct Hl as [z [<- Hz]].
    apply (names_chars env UE n st proof HG expl fl LO z Hz). }
  pose proof (labelsLaid_len _ _ Hlt (fun l Hl => proj1 (HN l Hl))) as L1.
  pose proof (spaced_len _ _ Hsp) as L2.
  assert (L3 : length names = length expl) by (apply map_length).
  assert (L4 : length sec = length w + S (length lt + length tx)).
  { rewrite Esec, app_length. cbn [length]. rewrite app_length. lia. }
  set (rest' := chDollar :: chDot :: rest) in *.
  unfold parseText.
  assert (Ef : sec ++ rest' = w ++ chOpen :: (lt ++ (tx ++ rest'))).
  { rewrite Esec. rewrite <- app_assoc. cbn [app]. rewrite <- app_assoc. reflexivity. }
  rewrite Ef. clear Ef. destruct (w ++ chOpen :: lt ++ tx ++ rest') as [|f0 fr] eqn:Efull.
  { destruct w; discriminate. }
  rewrite <- Efull. clear f0 fr Efull.
  rewrite whiteSpace_blanks by (auto; discriminate). cbn [rbind].
  change (isTok chOpen (chOpen :: lt ++ tx ++ rest')) with true. cbn iota. cbn [tl].
  destruct (labelList_laid names lt (tx ++ rest') Hlt HN (S (length (chOpen :: lt ++ tx ++ rest')))) as
    [ls [E1 [E2 [Y [Z0 [E3 E4]]]]]].
  { cbn [length]. lia. }
  rewrite E1. cbn [rbind]. rewrite E3, E2.
  replace (firstn (length (Y ++ tx ++ rest') - length rest') (Y ++ tx ++ rest')) with (Y ++ tx).
  2:{ rewrite app_assoc. rewrite app_length.
      replace (length (Y ++ tx) + length rest' - length rest') with (length (Y ++ tx)) by lia.
      rewrite firstn_app, firstn_all, Nat.sub_diag. simpl. rewrite app_nil_r. reflexivity. }
  unfold parseCompressed. pose proof Hn as Hn'. unfold stmtAt in Hn'. rewrite Hn'. cbn [rget rbind].
  rewrite (labelCodes_expl env WE UE n st Hn Hp proof HG expl fl LO 0 _ expl (fun z H => H)). cbn [rbind].
  assert (Em0 : map Z.of_nat (s_reqHyps st) ++ expl = mapAt st expl fl 0).
  { unfold mapAt. cbn. rewrite app_nil_r. reflexivity. }
  destruct (Nat.ltb_spec max (length (map Z.of_nat (s_reqHyps st) ++ expl))) as [C|_].
  { exfalso. rewrite app_length, map_length in C. lia. }
  rewrite Em0.
  pose proof (mapAt_len _ _ _ _ LO) as ML.
  assert (HBG : bggy (Y ++ tx) = false \/ length (mapAt st expl fl (length proof)) <= 120).
  { destruct HB as [HB|[HB|HB]]; [right; lia|left|left]; unfold bggy.
    - rewrite (hasPair_app 85 85 Y tx HB). apply andb_false_r.
    - destruct (hasPair2 85 86 (Y ++ tx)) eqn:E; auto.
      rewrite Esec, E4 in HB. 
      assert (X : hasPair2 85 86 (w ++ chOpen :: (Z0 ++ Y) ++ tx) = true).
      { apply hasPair_app. change (chOpen :: (Z0 ++ Y) ++ tx) with ([chOpen] ++ (Z0 ++ Y) ++ tx).
        apply hasPair_app. rewrite <- app_assoc. apply hasPair_app. exact E. }
      rewrite X in HB. discriminate. }
  destruct (emit_run env n st proof HG HLoc expl fl LO max (bggy (Y ++ tx)) HmL rest'
    (mapAt st expl fl (length proof)) (ex_intro _ [] (eq_sym (app_nil_r _)))) with
    (rest := proof) (pre := @nil pstep) (cnt := 0) (e := mkErr 0 0) (t := text) (tx := tx)
    as [cnt' [Hb Hr]]; auto; try lia.
  cbn [length map] in Hr. destruct HG as [[Hbal Hl0] _ _].
  rewrite Hbal in Hb. injection Hb as <-.
  destruct Hr as [Hr1 Hr2].
  assert (EF : fuel = length (tx ++ rest') - length rest' + S (fuel - S (length (tx ++ rest') - length rest'))).
  { rewrite !app_length in *. lia. }
  rewrite EF, Hr2. unfold rest'. cbn [comprLoop]. cbn. 
  unfold markUnk in *. cbn [c_proof c_cnt c_idx c_err].
  destruct proof as [|x pr]; [simpl in Hbal; discriminate|].
  cbn [map]. destruct (Nat.leb_spec max (length (encStep x :: map encStep pr))) as [C|_].
  { exfalso. cbn [length] in *. rewrite map_length in C. lia. }
  unfold finish. cbn [Nat.eqb]. destruct (hasUnk (x :: pr)); reflexivity.
Qed.

(* ---------- when the reader's "old compression" guess cannot go wrong ---------- *)
Lemma emit_infix labels fl z lab : z <> zUnk -> zindex z labels = Some lab ->
  forall l k t, emitSteps labels fl k l = Ok t -> In z l ->
  exists a b, t = a ++ encodeLabel lab ++ b.
Proof.
  intros Hz Hi. induction l as [|y l IH]; intros k t Ht Hin; [contradiction|].
  cbn [emitSteps] in Ht. destruct (Z.eqb_spec y zUnk) as [->|Hy].
  - apply rbind_ok in Ht. destruct Ht as [t1 [E1 E2]]. apply Ok_inj in E2. subst t.
    destruct Hin as [Hin|Hin]; [congruence|]. destruct (IH _ _ E1 Hin) as [a [b ->]]. exists (chQ :: a), b. reflexivity.
  - destruct (zindex y labels) as [ly|] eqn:Ey; [|discriminate].
    apply rbind_ok in Ht. destruct Ht as [t1 [E1 E2]]. apply Ok_inj in E2. subst t.
    destruct Hin as [->|Hin].
    + rewrite Hi in Ey. injection Ey as <-. exists [], ((if flagged fl k then [90] else []) ++ t1). reflexivity.
    + destruct (IH _ _ E1 Hin) as [a [b ->]].
      exists (encodeLabel ly ++ (if flagged fl k then [90] else []) ++ a), b. rewrite <- !app_assoc. reflexivity.
Qed.

Lemma zindex_skip z : forall l1 l2, ~ In z l1 -> zindex z (l1 ++ l2) =
  match zindex z l2 with Some i => Some (length l1 + i) | None => None end.
Proof.
  induction l1 as [|x l1 IH]; intros l2 H; cbn [app zindex length]; [destruct (zindex z l2); auto|].
  destruct (Z.eqb_spec x z) as [->|Hx]; [exfalso; apply H; left; auto|].
  rewrite IH by (intros C; apply H; right; auto). destruct (zindex z l2); auto.
Qed.
Lemma zindex_nodup z : forall l i, NoDup l -> nth_error l i = Some z -> zindex z l = Some i.
Proof.
  induction l as [|x l IH]; intros i ND H; [destruct i; discriminate|].
  inversion ND; subst. destruct i as [|i]; cbn [nth_error] in H; cbn [zindex].
  - injection H as ->. rewrite Z.eqb_refl. reflexivity.
  - destruct (Z.eqb_spec x z) as [->|Hx]; [exfalso; apply nth_error_In in H; contradiction|].
    rewrite (IH i) by auto. reflexivity.
Qed.

Lemma uu_occurs st proof expl fl text :
  labelsOk st proof expl fl ->
  (forall k i, nth_error proof k = Some (Loc i) -> i < k) ->
  emitSteps (mapAt st expl fl (length proof)) fl 0 (map encStep proof) = Ok text ->
  length (s_reqHyps st) <= 120 ->
  120 < length (s_reqHyps st) + length expl + numLoc proof ->
  hasPair2 85 85 text = true.
Proof.
  intros LO Hlt Ht Hreq Hnum. pose proof (mapAt_len _ _ _ _ LO) as ML.
  set (locs := map (fun i => zLoc (Z.of_nat i)) (filter (flagged fl) (seq 0 (length proof)))).
  assert (Em : mapAt st expl fl (length proof) = map Z.of_nat (s_reqHyps st) ++ (expl ++ locs)) by reflexivity.
  assert (ND : NoDup (expl ++ locs)).
  { apply NoDup_app_intro.
    - apply (lo_nodup _ _ _ _ LO).
    - unfold locs. apply FinFun.Injective_map_NoDup; [intros a b; unfold zLoc; lia|]. apply NoDup_filter, seq_NoDup.
    - intros z Z1 Z2. apply (lo_expl _ _ _ _ LO) in Z1. destruct Z1 as [m [-> _]].
      unfold locs in Z2. apply in_map_iff in Z2. destruct Z2 as [i [E _]]. unfold zLoc in E. lia. }
  assert (Hlen : length (s_reqHyps st) + length (expl ++ locs) = length (s_reqHyps st) + length expl + numLoc proof).
  { rewrite <- ML, Em, !app_length, map_length. lia. }
  destruct (nth_error (expl ++ locs) (120 - length (s_reqHyps st))) as [z|] eqn:Ez.
  2:{ apply nth_error_None in Ez. lia. }
  pose proof (nth_error_In _ _ Ez) as Hz.
  assert (Hkind : In z (map encStep proof) /\ z <> zUnk /\ ~ In z (map Z.of_nat (s_reqHyps st))).
  { apply in_app_or in Hz. destruct Hz as [Hz|Hz].
    - apply (lo_expl _ _ _ _ LO) in Hz. destruct Hz as [m [-> [H1 H2]]]. split; [|split].
      + apply in_map_iff. exists (Stm m). auto.
      + unfold zUnk. lia.
      + intros C. apply in_map_iff in C. destruct C as [h [E Hh]]. assert (h = m) by lia. subst. auto.
    - unfold locs in Hz. apply in_map_iff in Hz. destruct Hz as [i [<- Hi]]. apply filter_In in Hi.
      destruct Hi as [_ Hi]. rewrite (lo_fl _ _ _ _ LO) in Hi. apply isLocIn_spec in Hi. split; [|split].
      + apply in_map_iff. exists (Loc i). auto.
      + unfold zUnk, zLoc. lia.
      + intros C. apply in_map_iff in C. destruct C as [h [E Hh]]. unfold zLoc in E. lia. }
  destruct Hkind as [K1 [K2 K3]].
  assert (Hi : zindex z (mapAt st expl fl (length proof)) = Some 120).
  { rewrite Em, zindex_skip by exact K3. rewrite (zindex_nodup _ _ _ ND Ez). f_equal. rewrite map_length. lia. }
  destruct (emit_infix _ _ z 120 K2 Hi _ _ _ Ht K1) as [a [b ->]].
  apply hasPair_app. change (encodeLabel 120) with [85; 85; 65]. reflexivity.
Qed.

(* the letters written for label number lab are read back as that label *)
Lemma parser_reads env max lab l s z cnt' :
  c_idx s = 0%Z -> (Z.of_nat lab <= maxLong)%Z -> nth_error (c_map s) lab = Some z ->
  length (c_proof s) < max -> c_cnt s < max ->
  (isLeaf env z = Ok None /\ cnt' = S (c_cnt s) \/
   exists sm, isLeaf env z = Ok (Some sm) /\ length (s_reqHyps sm) <= c_cnt s /\
     cnt' = S (c_cnt s - length (s_reqHyps sm))) ->
  forall f, comprLoop (length (encodeLabel lab) + f) env max false (encodeLabel lab ++ l) s =
            comprLoop f env max false l (mkCst 0 (c_map s) (c_proof s ++ [z]) cnt' (c_err s)).
Proof.
  intros Hi Hl Hz Hp Hc HK f.
  assert (SP : forall t, spaced t t) by (induction t; constructor; auto).
  destruct (label_run env max false l lab [] (encodeLabel lab ++ []) s z (SP _) Hi Hl (or_introl eq_refl) Hz Hp Hc)
    as [[c1 [K1 [tx' [S1 R1]]]]|C].
  - assert (c1 = cnt').
    { destruct K1 as [[A ->]|[sm [A [B ->]]]], HK as [[A' ->]|[sm' [A' [B' ->]]]]; congruence. }
    subst c1. pose proof (runs_trans _ _ _ _ _ _ _ _ _ R1 (spaced_end env max false l tx' _ S1)) as [R2 R3].
    rewrite app_nil_r in *. specialize (R3 f). rewrite app_length in R3.
    replace (length (encodeLabel lab) + length l - length l) with (length (encodeLabel lab)) in R3 by lia. exact R3.
  - exfalso. apply C. destruct HK as [[A _]|[sm [A [B _]]]]; eauto.
Qed.
