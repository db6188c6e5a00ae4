(* ParProps.v -- properties of the proof parsers and of proof compression
   (C06-C12 at the level of the proof text, and C43). *)
From Verif Require Import Base MMSpec VerModel VerSpec VerProofs VerExample TokModel ParModel ParSpec
  ParProofs ParCompr ParTotal CmpModel CmpCodec CmpSpec CmpProofs CmpRound ParText ParSafe ParExample ParWit.
From Coq Require Import String.
Open Scope nat_scope.

(* ---------------- C06, C08 for proof texts ---------------- *)
Theorem C06_clean_run_text : forall env texts parse fuel,
  wf_db (e_db env) -> wf_env env -> parsesTo env texts parse ->
  verifyProofs fuel (e_db env) parse = Ok (true, []) ->
  forall n st, 1 <= n -> stmtAt (e_db env) n st -> s_type st = S_p ->
    validProof (e_db env) st (pr_proof (parse n)) /\
    (forall m sm, In (Stm m) (pr_proof (parse n)) -> stmtAt (e_db env) m sm -> isHyp sm ->
       In m (s_reqHyps st) \/ In m (s_optHyps st)) /\
    (forall m sm, In (Stm m) (pr_proof (parse n)) -> stmtAt (e_db env) m sm -> isAssertion sm -> m < n).
Proof.
  exact (fun env texts parse fuel WF WE HP H =>
    verifyProofs_clean (e_db env) parse fuel WF (parsesTo_ok env texts parse WE HP) H).
Qed.

Theorem C08_text_follows_from_axioms : forall env texts parse fuel,
  wf_db (e_db env) -> wf_env env -> parsesTo env texts parse ->
  (forall st, stmtAt (e_db env) 0 st -> ~ isAssertion st) ->
  verifyProofs fuel (e_db env) parse = Ok (true, []) ->
  forall n st, stmtAt (e_db env) n st -> isAssertion st -> entailed (e_db env) n.
Proof.
  exact (fun env texts parse fuel WF WE HP H0 H =>
    verifyProofs_entailed (e_db env) parse fuel WF (parsesTo_ok env texts parse WE HP) H0 H).
Qed.

(* ---------------- C08, C09: what status 0 or 1 guarantees ---------------- *)
(* Stack never popped below empty and one entry at the end, local references to
   earlier non-references, only earlier assertions and the statement's own
   hypotheses (goodProof); status 0 means no '?' and no error counted. *)
Theorem C09_parsed_good : forall fuel env n st max section rest k zs ec,
  wf_env env -> stmtAt (e_db env) n st -> s_type st = S_p ->
  parseText fuel env n max section rest = Ok (Some (k, zs, ec)) -> k <= 1 ->
  exists proof, zs = map encStep proof /\ goodProof (e_db env) n st proof /\
    (In Unk proof -> k = 1) /\ (k = 0 -> ec = 0).
Proof. exact parseText_good. Qed.

(* ---------------- C07: '?' in the text ---------------- *)
(* normal format: a token starting with '?', or no token at all *)
Theorem C07_unknown_token : forall env n toks k zs ec,
  parseNormal env n toks = Ok (k, zs, ec) ->
  toks = [] \/ (exists t, In t toks /\ isTok chQ t = true) -> 1 <= k.
Proof. exact parseNormal_q. Qed.

(* compressed format: "( labels ) a ? b" with no comment or end marker in a *)
Theorem C07_unknown_letter : forall fuel env n max w names lt a b rest k zs ec,
  blanks w -> labelsLaid names lt ->
  (forall l, In l names -> l <> [] /\ Forall (fun c => labelChar c = true) l) ->
  ~ In chDollar a ->
  parseText fuel env n max (w ++ chOpen :: lt ++ a ++ chQ :: b) rest = Ok (Some (k, zs, ec)) -> 1 <= k.
Proof. exact parseText_q_compr. Qed.

(* and the parser's '?' keeps the verifier from returning 0 *)
Theorem C07_parsed_unknown_not_verified : forall fuel fuel' env n st max section rest k zs ec proof status ds err,
  wf_env env -> stmtAt (e_db env) n st -> s_type st = S_p ->
  parseText fuel env n max section rest = Ok (Some (k, zs, ec)) -> k <= 1 ->
  decodes zs proof -> In zUnk zs ->
  verifyProof fuel' (e_db env) n proof k ec = Ok (status, ds, err) -> k = 1 /\ status <> 0.
Proof. exact unknown_not_verified. Qed.

(* ---------------- C10 ---------------- *)
Theorem C10_label_codec :
  (forall a, decodeLabel false (encodeLabel a) = Some (Z.of_nat a)) /\
  (forall a b, encodeLabel a = encodeLabel b -> a = b) /\
  (forall a b r, encodeLabel b = encodeLabel a ++ r -> r = [] /\ a = b) /\
  (forall ds c, Forall (fun d => 85 <= d <= 89) ds -> 65 <= c <= 84 -> exists a, encodeLabel a = ds ++ [c]) /\
  (forall a, List.length (encodeLabel a) = numChrs a) /\
  (forall a b, a <= b -> List.length (encodeLabel a) <= List.length (encodeLabel b)).
Proof.
  exact (conj decode_encode (conj encode_inj (conj encode_prefix_free (conj encode_surj
    (conj (fun a => eq_sym (numChrs_len a)) encode_mono))))).
Qed.

(* the parser's loop consumes exactly these letters and takes entry a of its
   label table (when the RPN stack allows the step) *)
Theorem C10_parser_reads : forall env max a l s z cnt',
  c_idx s = 0%Z -> (Z.of_nat a <= maxLong)%Z -> nth_error (c_map s) a = Some z ->
  List.length (c_proof s) < max -> c_cnt s < max ->
  (isLeaf env z = Ok None /\ cnt' = S (c_cnt s) \/
   exists sm, isLeaf env z = Ok (Some sm) /\ List.length (s_reqHyps sm) <= c_cnt s /\
     cnt' = S (c_cnt s - List.length (s_reqHyps sm))) ->
  forall f, comprLoop (List.length (encodeLabel a) + f) env max false (encodeLabel a ++ l) s =
            comprLoop f env max false l (mkCst 0 (c_map s) (c_proof s ++ [z]) cnt' (c_err s)).
Proof. exact parser_reads. Qed.

(* ---------------- C11 ---------------- *)
(* The property fails: a valid packed proof whose compressed form is read back,
   with status 0 and no error, as a different proof. *)
Theorem C11_roundtrip_refuted : exists env n st proof expl text section tx,
  wf_db (e_db env) /\ wf_env env /\ uniq_env env /\ stmtAt (e_db env) n st /\ s_type st = S_p /\
  goodProof (e_db env) n st proof /\ validProof (e_db env) st proof /\ (forall i, ~ In (Loc i) proof) /\
  compressProof (fun l => Ok l) (e_db env) n (map encStep proof) = Ok (expl, text) /\
  laidOut (map (fun z => e_name env (Z.to_nat z)) expl) text section tx /\
  exists zs, zs <> map encStep proof /\
    forall fuel, 100 <= fuel ->
      parseText fuel env n (wrkMax 0 st section) section ex_end = Ok (Some (0, zs, 0)).
Proof. exact c11_witness. Qed.

(* It also fails, visibly, when a local label is on an unknown step: the '?' is
   written without its Z. *)
Theorem C11_labelled_unknown_refuted : exists env n st normal proof expl text section tx,
  wf_db (e_db env) /\ wf_env env /\ uniq_env env /\ stmtAt (e_db env) n st /\ s_type st = S_p /\
  parseText 100 env n (wrkMax 0 st normal) normal ex_end = Ok (Some (1, map encStep proof, 0)) /\
  compressProof (fun l => Ok l) (e_db env) n (map encStep proof) = Ok (expl, text) /\
  laidOut (map (fun z => e_name env (Z.to_nat z)) expl) text section tx /\
  exists k zs e, 2 <= k /\
    forall fuel, 100 <= fuel ->
      parseText fuel env n (wrkMax 0 st section) section ex_end = Ok (Some (k, zs, e)).
Proof. exact c11_unknown. Qed.

(* What holds: for any white-space layout, any order of the explicit labels, and
   provided there are at most 120 labels, or "UU" occurs in the letters, or "UV"
   does not occur in the proof section. *)
Theorem C11_roundtrip_partial : forall env n st proof order,
  wf_env env -> uniq_env env -> stmtAt (e_db env) n st -> s_type st = S_p ->
  goodProof (e_db env) n st proof ->
  (forall i, In (Loc i) proof -> exists m sm, nth_error proof i = Some (Stm m) /\
     stmtAt (e_db env) m sm /\ isAssertion sm) ->
  orderOn order st proof ->
  exists expl text, compressProof order (e_db env) n (map encStep proof) = Ok (expl, text) /\
    forall section tx rest prev fuel,
      laidOut (map (fun z => e_name env (Z.to_nat z)) expl) text section tx ->
      (Z.of_nat (wrkMax prev st section) <= maxLong)%Z ->
      List.length (section ++ chDollar :: chDot :: rest) < fuel ->
      (List.length (s_reqHyps st) + List.length expl + numLoc proof <= 120 \/
       hasPair2 85 85 tx = true \/ hasPair2 85 86 section = false) ->
      parseText fuel env n (wrkMax prev st section) section (chDollar :: chDot :: rest) =
        Ok (Some ((if hasUnk proof then 1 else 0), map encStep proof, 0)).
Proof. exact roundtrip_wrk. Qed.

(* In particular: at most 120 mandatory hypotheses, letters on one line. *)
Theorem C11_roundtrip_unbroken_partial : forall env n st proof order,
  wf_env env -> uniq_env env -> stmtAt (e_db env) n st -> s_type st = S_p ->
  goodProof (e_db env) n st proof ->
  (forall i, In (Loc i) proof -> exists m sm, nth_error proof i = Some (Stm m) /\
     stmtAt (e_db env) m sm /\ isAssertion sm) ->
  orderOn order st proof ->
  List.length (s_reqHyps st) <= 120 ->
  exists expl text, compressProof order (e_db env) n (map encStep proof) = Ok (expl, text) /\
    forall section w1 w2 rest prev fuel,
      blanks w1 -> blanks w2 ->
      laidOut (map (fun z => e_name env (Z.to_nat z)) expl) text section (w1 ++ text ++ w2) ->
      (Z.of_nat (wrkMax prev st section) <= maxLong)%Z ->
      List.length (section ++ chDollar :: chDot :: rest) < fuel ->
      parseText fuel env n (wrkMax prev st section) section (chDollar :: chDot :: rest) =
        Ok (Some ((if hasUnk proof then 1 else 0), map encStep proof, 0)).
Proof. exact roundtrip_unbroken. Qed.

(* ---------------- C12 ---------------- *)
(* The property fails in three ways, each for a database read without error and
   the working arrays as allocated: *)
(* "( ax ) A", ax having 40 hypotheses: the RPN stack is pushed beyond its end *)
Theorem C12_stack_overflow_refuted : exists env n st,
  wf_db (e_db env) /\ wf_env env /\ uniq_env env /\ stmtAt (e_db env) n st /\ s_type st = S_p /\
  s_reqHyps st = [] /\
  forall fuel, 100 <= fuel -> parseText fuel env n
    (wrkMax 0 st (codes " ( ax ) A ")) (codes " ( ax ) A ") ex_end = UB.
Proof. exact c12_stack. Qed.
(* "( ) A" without mandatory hypotheses: uninitialised label table entry *)
Theorem C12_uninitialised_refuted : exists env n st,
  wf_db (e_db env) /\ wf_env env /\ uniq_env env /\ stmtAt (e_db env) n st /\ s_type st = S_p /\
  s_reqHyps st = [] /\
  forall fuel, 100 <= fuel -> parseText fuel env n
    (wrkMax 0 st (codes " ( ) A ")) (codes " ( ) A ") ex_end = UB.
Proof. exact c12_uninit. Qed.
(* a long run of digits: signed overflow *)
Theorem C12_overflow_refuted : exists env n st,
  wf_db (e_db env) /\ wf_env env /\ uniq_env env /\ stmtAt (e_db env) n st /\ s_type st = S_p /\
  s_reqHyps st = [] /\
  forall fuel, 100 <= fuel -> parseText fuel env n
    (wrkMax 0 st (codes " ( ax ) UUUUUUUUUUUUUUUUUUUUUUUUUUUUUUUUA ")) (codes " ( ax ) UUUUUUUUUUUUUUUUUUUUUUUUUUUUUUUUA ") ex_end = UB.
Proof. exact c12_overflow. Qed.

(* What holds: "( labels ) text" with 7-bit text and no '$' in it, at least one
   label or mandatory hypothesis, at most 25 digits U..Y in a row, and the listed
   assertions having so few hypotheses that the arrays cannot be outgrown. *)
Theorem C12_safe_partial : forall env n st max M fuel w names lt tx rest,
  wf_env env -> stmtAt (e_db env) n st -> s_type st = S_p ->
  blanks w -> labelsLaid names lt ->
  (forall l, In l names -> l <> [] /\ Forall (fun c => labelChar c = true) l) ->
  Forall (fun c => c < 128 /\ c <> 36) tx -> digitsOk 0 tx ->
  (names <> [] \/ s_reqHyps st <> []) ->
  (forall m sm, stmtAt (e_db env) m sm -> isAssertion sm -> In (e_name env m) names ->
     List.length (s_reqHyps sm) <= M) ->
  M + List.length tx < max ->
  List.length (w ++ chOpen :: lt ++ tx) + List.length (s_reqHyps st) + List.length (s_optHyps st) <= max ->
  (21 * Z.of_nat max <= maxLong)%Z ->
  parseText fuel env n max (w ++ chOpen :: lt ++ tx) (chDollar :: chDot :: rest) <> UB.
Proof. exact compressed_safe. Qed.

(* ---------------- C43 ---------------- *)
(* Parsing a proof terminates and never reaches an internal trap, whatever the
   text, if the file ends with a newline (READ makes sure of that). *)
Theorem C43_parser_total : forall env n st,
  wf_env env -> stmtAt (e_db env) n st -> s_type st = S_p ->
  forall fuel max section rest,
  (exists p, section ++ rest = p ++ [chNL]) ->
  List.length (section ++ rest) * (max + 2) + max < fuel ->
  (exists o, parseText fuel env n max section rest = Ok o) \/
  parseText fuel env n max section rest = UB.
Proof. exact parser_total. Qed.

(* ---------------- examples ---------------- *)
Definition run (sec : string) (n : nat) : res (option pout) :=
  parseText 1000 ex_env n 100 (codes sec) ex_end.
(* th1, normal and compressed, with and without a local label *)
Example ex_normal : run " tze tze tpl eqid " 7 = Ok (Some (0, [3; 3; 4; 5]%Z, 0)).
Proof. vm_compute. reflexivity. Qed.
Example ex_local : run " a : tze a tpl eqid " 7 = Ok (Some (0, [3; -1000; 4; 5]%Z, 0)).
Proof. vm_compute. reflexivity. Qed.
Example ex_compr : run " ( tze tpl eqid ) AZDBC " 7 = Ok (Some (0, [3; -1000; 4; 5]%Z, 0)).
Proof. vm_compute. reflexivity. Qed.
(* unknown steps: status 1; C07 hypotheses *)
Example ex_unk : run " ? ? tpl eqid " 7 = Ok (Some (1, [-63; -63; 4; 5]%Z, 0)).
Proof. vm_compute. reflexivity. Qed.
Example ex_unk_c : run " ( tpl eqid ) ??AB " 7 = Ok (Some (1, [-63; -63; 4; 5]%Z, 0)).
Proof. vm_compute. reflexivity. Qed.
(* forward reference, stack underflow, leftover stack entry *)
Example ex_forward : run " tze tze tpl th2 " 7 = Ok (Some (2, [3; 3; 4; 8]%Z, 1)).
Proof. vm_compute. reflexivity. Qed.
Example ex_under : exists z e, run " tpl " 7 = Ok (Some (3, z, e)).
Proof. vm_compute. eauto. Qed.
Example ex_left : exists z e, run " tze tze " 7 = Ok (Some (3, z, e)).
Proof. vm_compute. eauto. Qed.
(* C09 on the compressed proof *)
Example ex_C09 : exists proof, [3; -1000; 4; 5]%Z = map encStep proof /\ goodProof ex_db 7
  (nth 7 ex_stmts (mkStmt S_other [] [] [] [] [] [])) proof /\ (In Unk proof -> 0 = 1) /\ (0 = 0 -> 0 = 0).
Proof. exact (C09_parsed_good 1000 ex_env 7 _ 100 _ _ 0 _ 0 ex_env_wf eq_refl eq_refl ex_compr (Nat.le_0_l 1)). Qed.
(* C08 for texts: both $p statements of the example database *)
Definition ex_texts (n : nat) : list nat * list nat :=
  (codes (if Nat.eqb n 8 then " tt eqid " else " ( tze tpl eqid ) AZDBC ")%string, ex_end).
Definition ex_parse (n : nat) : parsed :=
  if n =? 8 then mkParsed 0 [Stm 1; Stm 5] 0 0 else mkParsed 0 [Stm 3; Loc 0; Stm 4; Stm 5] 0 0.
Example ex_parsesTo : parsesTo ex_env ex_texts ex_parse.
Proof.
  intros n st Hn Hp. destruct (ex_stmt_p _ _ Hn Hp) as [[-> ->]|[-> ->]]; exists 1000, 0.
  - exists 0, [3; -1000; 4; 5]%Z, 0. repeat split; vm_compute; reflexivity.
  - exists 0, [1; 5]%Z, 0. repeat split; vm_compute; reflexivity.
Qed.
Example ex_C08_text : forall n st, stmtAt ex_db n st -> isAssertion st -> entailed ex_db n.
Proof.
  apply (C08_text_follows_from_axioms ex_env ex_texts ex_parse 200 ex_db_wf ex_env_wf ex_parsesTo).
  - intros st Hs. injection Hs as <-. intros [H|H]; discriminate.
  - vm_compute. reflexivity.
Qed.
(* C10: the old algorithm was not the inverse *)
Example ex_C10_old : encodeLabel 140 = codes "UVA" /\ decodeLabel true (codes "UVA") = Some 120%Z.
Proof. split; reflexivity. Qed.
(* C11: hypotheses met by the packed proof of th1 *)
Example ex_C11 : compressProof (fun l => Ok l) ex_db 7 [3; -1000; 4; 5]%Z = Ok ([3; 4; 5]%Z, codes "AZDBC").
Proof. vm_compute. reflexivity. Qed.
Example ex_C11_laid : laidOut (map (fun z => e_name ex_env (Z.to_nat z)) [3; 4; 5]%Z) (codes "AZDBC")
  (codes " ( tze tpl eqid ) AZD BC ") (codes " AZD BC ").
Proof.
  exists [32], (codes " tze tpl eqid )"). split; [repeat constructor|]. split.
  - apply (ll_cons [32] (codes "tze") 32); [repeat constructor|reflexivity|].
    apply (ll_cons [] (codes "tpl") 32); [repeat constructor|reflexivity|].
    apply (ll_cons [] (codes "eqid") 32 [] [41]); [repeat constructor|reflexivity|].
    apply (ll_nil []). constructor.
  - split; [|reflexivity]. cbn. repeat first [apply spd_nil | apply spd_blank; [reflexivity|] | apply spd_char].
Qed.
(* C12: hypotheses met; the malformed letters are rejected without leaving the arrays *)
Example ex_C12_safe : digitsOk 0 (codes " UUVAYZ?!C ").
Proof. vm_compute. repeat split; lia. Qed.
Example ex_C12_app : forall fuel rest,
  parseText fuel ex_env 7 100 (codes " ( tze tpl eqid ) UUVAYZ?!C ") (chDollar :: chDot :: rest) <> UB.
Proof. exact c12_safe_example. Qed.
Example ex_C12_run : exists z e, run " ( tze tpl eqid ) UUVAYZ?!C " 7 = Ok (Some (3, z, e)).
Proof. vm_compute. eauto. Qed.

Print Assumptions C06_clean_run_text.
Print Assumptions C08_text_follows_from_axioms.
Print Assumptions C09_parsed_good.
Print Assumptions C07_unknown_token.
Print Assumptions C07_unknown_letter.
Print Assumptions C07_parsed_unknown_not_verified.
Print Assumptions C10_label_codec.
Print Assumptions C10_parser_reads.
Print Assumptions C11_roundtrip_refuted.
Print Assumptions C11_labelled_unknown_refuted.
Print Assumptions C11_roundtrip_partial.
Print Assumptions C11_roundtrip_unbroken_partial.
Print Assumptions C12_stack_overflow_refuted.
Print Assumptions C12_uninitialised_refuted.
Print Assumptions C12_overflow_refuted.
Print Assumptions C12_safe_partial.
Print Assumptions C43_parser_total.
