(* ParWit.v -- the witnesses and last steps used by ParProps.v. *)
From Verif Require Import Base MMSpec VerModel VerSpec VerProofs VerExample TokModel ParModel ParSpec
  ParProofs ParCompr ParTotal CmpModel CmpCodec CmpSpec CmpProofs CmpRound ParText ParSafe ParExample.
From Coq Require Import String.
Open Scope nat_scope.

Lemma unknown_not_verified fuel fuel' env n st max section rest k zs ec proof status ds err :
  wf_env env -> stmtAt (e_db env) n st -> s_type st = S_p ->
  parseText fuel env n max section rest = Ok (Some (k, zs, ec)) -> k <= 1 ->
  decodes zs proof -> In zUnk zs ->
  verifyProof fuel' (e_db env) n proof k ec = Ok (status, ds, err) -> k = 1 /\ status <> 0.
Proof.
  intros WE Hn Hp H Hk HD HI HV.
  destruct (parseText_good _ _ _ _ _ _ _ _ _ _ WE Hn Hp H Hk) as [pr [-> [HG [HU _]]]].
  apply decodes_enc in HD. subst proof.
  assert (HX : In Unk pr).
  { apply in_map_iff in HI. destruct HI as [x [E Hx]]. destruct x as [|i|m]; auto; cbn [encStep] in E; unfold zUnk, zLoc in E; lia. }
  split; [auto|]. eapply verify_incomplete; eauto.
Qed.

Lemma wrkMax_ge prev st sec : List.length sec + List.length (s_reqHyps st) + List.length (s_optHyps st) <= wrkMax prev st sec.
Proof. unfold wrkMax. destruct (Nat.ltb_spec prev (List.length sec + List.length (s_reqHyps st) + List.length (s_optHyps st))); lia. Qed.

Lemma roundtrip_wrk env n st proof order :
  wf_env env -> uniq_env env -> stmtAt (e_db env) n st -> s_type st = S_p ->
  goodProof (e_db env) n st proof ->
  (forall i, In (Loc i) proof -> exists m sm, nth_error proof i = Some (Stm m) /\
     stmtAt (e_db env) m sm /\ isAssertion sm) ->
  orderOn order st proof ->
  exists expl text, compressProof order (e_db env) n (map encStep proof) = Ok (expl, text) /\
    forall section tx rest prev fuel,
      laidOut (map (fun z => e_name env (Z.to_nat z)) expl) text section tx ->
      (Z.of_nat (wrkMax prev st section) <= maxLong)%Z ->
      List.length (section ++ chDollar :: chDot :: rest) < fuel ->
      (List.length (s_reqHyps st) + List.length expl + numLoc proof <= 120 \/
       hasPair2 85 85 tx = true \/ hasPair2 85 86 section = false) ->
      parseText fuel env n (wrkMax prev st section) section (chDollar :: chDot :: rest) =
        Ok (Some ((if hasUnk proof then 1 else 0), map encStep proof, 0)).
Proof.
  intros WE UE Hn Hp HG HL HO.
  destruct (roundtrip_gen env n st proof order WE UE Hn Hp HG HL HO) as [expl [fl [text [H1 [_ [_ H2]]]]]].
  exists expl, text. split; auto. intros section tx rest prev fuel A B C D. apply (H2 _ tx); auto.
  pose proof (wrkMax_ge prev st section). lia.
Qed.

Lemma roundtrip_unbroken env n st proof order :
  wf_env env -> uniq_env env -> stmtAt (e_db env) n st -> s_type st = S_p ->
  goodProof (e_db env) n st proof ->
  (forall i, In (Loc i) proof -> exists m sm, nth_error proof i = Some (Stm m) /\
     stmtAt (e_db env) m sm /\ isAssertion sm) ->
  orderOn order st proof ->
  List.length (s_reqHyps st) <= 120 ->
  exists expl text, compressProof order (e_db env) n (map encStep proof) = Ok (expl, text) /\
    forall section w1 w2 rest prev fuel,
      blanks w1 -> blanks w2 ->
      laidOut (map (fun z => e_name env (Z.to_nat z)) expl) text section (w1 ++ text ++ w2) ->
      (Z.of_nat (wrkMax prev st section) <= maxLong)%Z ->
      List.length (section ++ chDollar :: chDot :: rest) < fuel ->
      parseText fuel env n (wrkMax prev st section) section (chDollar :: chDot :: rest) =
        Ok (Some ((if hasUnk proof then 1 else 0), map encStep proof, 0)).
Proof.
  intros WE UE Hn Hp HG HL HO HR.
  destruct (roundtrip_gen env n st proof order WE UE Hn Hp HG HL HO) as [expl [fl [text [H1 [LO [HE H2]]]]]].
  exists expl, text. split; auto. intros section w1 w2 rest prev fuel Hw1 Hw2 A B C. apply (H2 _ (w1 ++ text ++ w2)); auto.
  - pose proof (wrkMax_ge prev st section). lia.
  - destruct (Nat.le_gt_cases (List.length (s_reqHyps st) + List.length expl + numLoc proof) 120) as [D|D]; [left; auto|].
    right. left. apply hasPair_app, hasPair_app_l.
    apply (uu_occurs st proof expl fl); auto. apply (gp_wf _ _ _ _ HG).
Qed.

Lemma parser_total env n st :
  wf_env env -> stmtAt (e_db env) n st -> s_type st = S_p ->
  forall fuel max section rest,
  (exists p, section ++ rest = p ++ [chNL]) ->
  List.length (section ++ rest) * (max + 2) + max < fuel ->
  (exists o, parseText fuel env n max section rest = Ok o) \/
  parseText fuel env n max section rest = UB.
Proof.
  intros WE Hn Hp fuel max section rest HE HF.
  pose proof (parseText_total env WE n st Hn Hp fuel max section rest HE HF) as H.
  destruct H as [H|[o H]]; eauto.
Qed.

(* ---------- C11 witness ---------- *)
Definition big_sec : list nat := codes " ( ) UVA ".
Lemma c11_witness : exists env n st proof expl text section tx,
  wf_db (e_db env) /\ wf_env env /\ uniq_env env /\ stmtAt (e_db env) n st /\ s_type st = S_p /\
  goodProof (e_db env) n st proof /\ validProof (e_db env) st proof /\ (forall i, ~ In (Loc i) proof) /\
  compressProof (fun l => Ok l) (e_db env) n (map encStep proof) = Ok (expl, text) /\
  laidOut (map (fun z => e_name env (Z.to_nat z)) expl) text section tx /\
  exists zs, zs <> map encStep proof /\
    forall fuel, 100 <= fuel ->
      parseText fuel env n (wrkMax 0 st section) section ex_end = Ok (Some (0, zs, 0)).
Proof.
  exists big_env, 143, big_st, big_proof, [], (codes "UVA"), big_sec, (codes " UVA ").
  split; [apply big_db_wf|]. split; [apply big_env_wf|]. split; [apply big_env_uniq|].
  split; [vm_compute; reflexivity|]. split; [vm_compute; reflexivity|]. split.
  { constructor.
    - split; [vm_compute; reflexivity|]. intros [|[|k]] i; discriminate.
    - intros [|[|k]] i; discriminate.
    - intros m [E|[]]; injection E as <-; eexists; (split; [vm_compute; reflexivity|]).
      right. split; [right; reflexivity|]. left. apply in_seq. lia. }
  split. { exists [[150; 141]]. change [[150; 141]] with ([] ++ [[150; 141]]).
    eapply rr_cons; [apply (rs_hyp big_db big_st [] [] 141 (mkStmt S_f [150; 141] [] [] [] [] []));
      [vm_compute; reflexivity|right; reflexivity]|]. constructor. }
  split. { intros i [E|[]]; discriminate. }
  split; [vm_compute; reflexivity|]. split.
  { exists [32], (codes " )"). split; [repeat constructor|]. split.
    - apply (ll_nil [32]). repeat constructor.
    - split; [|reflexivity]. cbn. repeat first [apply spd_nil | apply spd_blank; [reflexivity|] | apply spd_char]. }
  exists [121]%Z. split; [discriminate|]. intros fuel Hf.
  rewrite (parseText_fuel _ _ _ _ _ 100 fuel Hf); vm_compute; [reflexivity|discriminate].
Qed.

Definition c12_fails (sec : list nat) : Prop := exists env n st,
  wf_db (e_db env) /\ wf_env env /\ uniq_env env /\ stmtAt (e_db env) n st /\ s_type st = S_p /\
  s_reqHyps st = [] /\
  forall fuel, 100 <= fuel -> parseText fuel env n (wrkMax 0 st sec) sec ex_end = UB.
Lemma c12_gen sec :
  parseText 100 ov_env 42 (wrkMax 0 ov_st sec) sec ex_end = UB -> c12_fails sec.
Proof.
  intros H. exists ov_env, 42, ov_st.
  split; [apply ov_db_wf|]. split; [apply ov_env_wf|]. split; [apply ov_env_uniq|].
  split; [vm_compute; reflexivity|]. split; [vm_compute; reflexivity|]. split; [reflexivity|].
  intros fuel Hf. rewrite (parseText_fuel _ _ _ _ _ 100 fuel Hf); [exact H|]. rewrite H. discriminate.
Qed.
Lemma c12_overflow : c12_fails (codes " ( ax ) UUUUUUUUUUUUUUUUUUUUUUUUUUUUUUUUA ").
Proof. apply c12_gen. vm_compute. reflexivity. Qed.
Lemma c12_stack : c12_fails (codes " ( ax ) A ").
Proof. apply c12_gen. vm_compute. reflexivity. Qed.
Lemma c12_uninit : c12_fails (codes " ( ) A ").
Proof. apply c12_gen. vm_compute. reflexivity. Qed.

(* ---------- C11: a local label on an unknown step ---------- *)
Lemma c11_unknown : exists env n st normal proof expl text section tx,
  wf_db (e_db env) /\ wf_env env /\ uniq_env env /\ stmtAt (e_db env) n st /\ s_type st = S_p /\
  parseText 100 env n (wrkMax 0 st normal) normal ex_end = Ok (Some (1, map encStep proof, 0)) /\
  compressProof (fun l => Ok l) (e_db env) n (map encStep proof) = Ok (expl, text) /\
  laidOut (map (fun z => e_name env (Z.to_nat z)) expl) text section tx /\
  exists k zs e, 2 <= k /\
    forall fuel, 100 <= fuel ->
      parseText fuel env n (wrkMax 0 st section) section ex_end = Ok (Some (k, zs, e)).
Proof.
  exists ex_env, 7, (nth 7 ex_stmts (mkStmt S_other [] [] [] [] [] [])), (codes " a : ? a tpl eqid "),
    [Unk; Loc 0; Stm 4; Stm 5], [4; 5]%Z, (codes "?CAB"), (codes " ( tpl eqid ) ?CAB "), (codes " ?CAB ").
  split; [apply ex_db_wf|]. split; [apply ex_env_wf|]. split; [apply ex_env_uniq|].
  split; [vm_compute; reflexivity|]. split; [vm_compute; reflexivity|].
  split; [vm_compute; reflexivity|]. split; [vm_compute; reflexivity|]. split.
  { exists [32], (codes " tpl eqid )"). split; [repeat constructor|]. split.
    - apply (ll_cons [32] (codes "tpl") 32); [repeat constructor|reflexivity|].
      apply (ll_cons [] (codes "eqid") 32 [] [41]); [repeat constructor|reflexivity|].
      apply (ll_nil []). constructor.
    - split; [|reflexivity]. cbn. repeat first [apply spd_nil | apply spd_blank; [reflexivity|] | apply spd_char]. }
  do 3 eexists. split; [|intros fuel Hf; rewrite (parseText_fuel _ _ _ _ _ 100 fuel Hf); vm_compute; [reflexivity|discriminate]].
  lia.
Qed.

(* all hypotheses of the safety theorem on a malformed proof *)
Lemma c12_safe_example fuel rest :
  parseText fuel ex_env 7 100 (codes " ( tze tpl eqid ) UUVAYZ?!C ") (chDollar :: chDot :: rest) <> UB.
Proof.
  apply (compressed_safe ex_env 7 (nth 7 ex_stmts (mkStmt S_other [] [] [] [] [] [])) 100 2 fuel [32]
    [codes "tze"; codes "tpl"; codes "eqid"] (codes " tze tpl eqid )") (codes " UUVAYZ?!C ")).
  - exact ex_env_wf.
  - reflexivity.
  - reflexivity.
  - repeat constructor.
  - apply (ll_cons [32] (codes "tze") 32); [repeat constructor|reflexivity|].
    apply (ll_cons [] (codes "tpl") 32); [repeat constructor|reflexivity|].
    apply (ll_cons [] (codes "eqid") 32 [] [41]); [repeat constructor|reflexivity|].
    apply (ll_nil []). constructor.
  - intros l [<-|[<-|[<-|[]]]]; (split; [discriminate|repeat constructor]).
  - vm_compute. repeat (constructor; [split; lia|]). constructor.
  - vm_compute. repeat split; lia.
  - left. discriminate.
  - intros m sm Hs _ _. unfold stmtAt in Hs. do 11 (destruct m as [|m]; [injection Hs as <-; cbn; lia|]).
    destruct m; discriminate.
  - vm_compute. lia.
  - vm_compute. lia.
  - vm_compute. discriminate.
Qed.
