(* OrdCmp.v -- compressProof with the new label order. *)
From Coq Require Import Permutation.
From Verif Require Import Base MMSpec VerModel VerSpec TokModel ParModel ParSpec SqModel CmpModel CmpSpec CmpCodec CmpProofs CmpRound
  ParWit SqGood OrdModel OrdSpec OrdKnap OrdLens OrdFill OrdProofs OrdBest.
Open Scope nat_scope.

Definition nameLen (env : penv) (z : Z) : nat := length (e_name env (Z.to_nat z)).

Lemma new_orderOn env n st proof fuel width ind :
  wf_env env -> uniq_env env -> stmtAt (e_db env) n st -> s_type st = S_p ->
  goodProof (e_db env) n st proof ->
  (forall h, In h (s_reqHyps st) \/ In h (s_optHyps st) -> h < n) ->
  (forall m, In (Stm m) proof -> ~ In m (s_reqHyps st) ->
     (Z.of_nat (length (e_name env m)) <= width - Z.of_nat ind - 2)%Z) ->
  length proof + 1 < fuel ->
  orderOn (orderLabels fuel n (length (s_reqHyps st)) (nameLen env) width ind (map encStep proof)) st proof.
Proof.
  intros WE UE Hn Hp HG HH HF HFu l [ND HL].
  assert (REF : forall m, In (Stm m) proof -> 0 < m < n /\ e_name env m <> []).
  { intros m Hm. destruct (gp_ref _ _ _ _ HG m Hm) as [sm [Hs Hk]].
    assert (LB : labelled sm) by (destruct Hk as [[A _]|[A _]]; [left|right]; auto).
    split; [|apply (ue_chars env UE m sm Hs LB)].
    destruct Hk as [[A B]|[A B]].
    - split; auto. pose proof (ue_keys env UE m sm Hs A) as K. apply (we_keys env WE) in K.
      destruct K as [m' [_ [K1 [K2 _]]]]. lia.
    - split; [|apply HH; auto]. apply (we_hyps env WE n st m Hn Hp B). }
  destruct (order_ok fuel n (length (s_reqHyps st)) (nameLen env) width ind (map encStep proof) l) as [e [A [B _]]].
  - constructor; auto.
    + intros z Hz. apply HL in Hz. destruct Hz as [m [-> [Hm _]]]. destruct (REF m Hm) as [R1 R2].
      split; [lia|]. split; [apply in_map_iff; exists (Stm m); auto|].
      unfold nameLen. rewrite Nat2Z.id. destruct (e_name env m); [congruence|cbn [length]; lia].
    + intros z Hz. apply in_map_iff in Hz. destruct Hz as [x [<- Hx]]. destruct x as [|i|m]; cbn [encStep]; unfold zUnk, zLoc; try lia.
      destruct (REF m Hx). lia.
    + intros z Hz. apply HL in Hz. destruct Hz as [m [-> [Hm Hr]]]. unfold nameLen. rewrite Nat2Z.id. apply HF; auto.
  - assert (length l <= length (map encStep proof)).
    { apply NoDup_incl_length; auto. intros z Hz. apply HL in Hz. destruct Hz as [m [-> [Hm _]]].
      apply in_map_iff. exists (Stm m). auto. }
    rewrite map_length in *. lia.
  - exists e. auto.
Qed.

Lemma compressNew_eq fuel env n st width back proof : stmtAt (e_db env) n st ->
  compressProofNew fuel env n width back proof =
    compressProof (orderLabels fuel n (length (s_reqHyps st)) (nameLen env) width (sourceIndentation back) proof) (e_db env) n proof.
Proof. intros H. unfold compressProofNew. unfold stmtAt in H. rewrite H. reflexivity. Qed.

Lemma compress_new env n st proof fuel width back :
  wf_env env -> uniq_env env -> stmtAt (e_db env) n st -> s_type st = S_p ->
  goodProof (e_db env) n st proof ->
  (forall i, In (Loc i) proof -> exists m sm, nth_error proof i = Some (Stm m) /\
     stmtAt (e_db env) m sm /\ isAssertion sm) ->
  (forall h, In h (s_reqHyps st) \/ In h (s_optHyps st) -> h < n) ->
  (forall m, In (Stm m) proof -> ~ In m (s_reqHyps st) ->
     (Z.of_nat (length (e_name env m)) <= width - Z.of_nat (sourceIndentation back) - 2)%Z) ->
  length proof + 1 < fuel ->
  exists expl text, compressProofNew fuel env n width back (map encStep proof) = Ok (expl, text) /\
    explicitLabels st proof expl /\
    forall section tx rest prev fuel,
      laidOut (map (fun z => e_name env (Z.to_nat z)) expl) text section tx ->
      (Z.of_nat (wrkMax prev st section) <= maxLong)%Z ->
      length (section ++ chDollar :: chDot :: rest) < fuel ->
      (length (s_reqHyps st) + length expl + numLoc proof <= 120 \/
       hasPair2 85 85 tx = true \/ hasPair2 85 86 section = false) ->
      parseText fuel env n (wrkMax prev st section) section (chDollar :: chDot :: rest) =
        Ok (Some ((if hasUnk proof then 1 else 0), map encStep proof, 0)).
Proof.
  intros WE UE Hn Hp HG HLoc HH HF HFu. rewrite (compressNew_eq _ _ _ st) by auto.
  pose proof (new_orderOn env n st proof fuel width (sourceIndentation back) WE UE Hn Hp HG HH HF HFu) as O.
  destruct (roundtrip_gen env n st proof _ WE UE Hn Hp HG HLoc O) as [expl [fl [text [A [B [_ C]]]]]].
  exists expl, text. split; [exact A|]. split.
  - split; [apply (lo_nodup _ _ _ _ B)|apply (lo_expl _ _ _ _ B)].
  - intros section tx rest prev f L1 L2 L3 L4. apply (C section tx); auto.
    pose proof (wrkMax_ge prev st section). lia.
Qed.

Lemma save_new env n st p width back :
  wf_db (e_db env) -> wf_env env -> uniq_env env -> stmtAt (e_db env) n st -> s_type st = S_p ->
  goodProof (e_db env) n st p ->
  (forall h, In h (s_reqHyps st) \/ In h (s_optHyps st) -> h < n) ->
  (forall m sm, stmtAt (e_db env) m sm -> labelled sm ->
     (Z.of_nat (length (e_name env m)) <= width - Z.of_nat (sourceIndentation back) - 2)%Z) ->
  exists u q expl text,
    (forall fuel, 2 * length u < fuel -> unsquishProof fuel (e_db env) (map encStep p) = Ok (map encStep u)) /\
    squishProof (e_db env) (map encStep u) = Ok (map encStep q) /\
    compressProofNew (length q + 2) env n width back (map encStep q) = Ok (expl, text) /\
    (validProof (e_db env) st q <-> validProof (e_db env) st p) /\ goodProof (e_db env) n st q /\
    forall section tx rest prev fuel,
      laidOut (map (fun z => e_name env (Z.to_nat z)) expl) text section tx ->
      (Z.of_nat (wrkMax prev st section) <= maxLong)%Z ->
      length (section ++ chDollar :: chDot :: rest) < fuel ->
      (length (s_reqHyps st) + length expl + numLoc q <= 120 \/
       hasPair2 85 85 tx = true \/ hasPair2 85 86 section = false) ->
      exists k, parseText fuel env n (wrkMax prev st section) section (chDollar :: chDot :: rest) =
        Ok (Some (k, map encStep q, 0)) /\ (k = 1 /\ In Unk p \/ k = 0 /\ ~ In Unk p).
Proof.
  intros WD WE UE Hn Hp HG HH HF.
  destruct (save_compressed env n st p (fun zs => orderLabels (length zs + 2) n (length (s_reqHyps st)) (nameLen env) width
    (sourceIndentation back) zs) WD WE UE Hn Hp HG) as [u [q [expl [text [A [B [C D]]]]]]].
  - intros q Gq. rewrite map_length. apply new_orderOn; auto; [|lia].
    intros m Hm _. destruct (gp_ref _ _ _ _ Gq m Hm) as [sm [Hs Hk]].
    apply (HF m sm Hs). destruct Hk as [[K _]|[K _]]; [left|right]; auto.
  - exists u, q, expl, text. split; [exact A|]. split; [exact B|]. split; [|exact D].
    rewrite (compressNew_eq _ _ _ st) by auto. rewrite map_length in C. exact C.
Qed.
