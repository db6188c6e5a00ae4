(* ExpText.v -- proofs about ExpModel: from the text *)
From Verif Require Import Base LabModel StmModel StmSpec TokSpec SrcSpec MMSpec VerModel VerSpec VerProofs TokModel TokProofs ParModel ParSpec
  CmpSpec SqModel SqSpec ReadModel ReadOut ReadSpec ReadWords CheckPar ExpModel ExpSpec ExpMain.
Open Scope nat_scope.

Lemma explicit_yes a x y b : isExplicit (a ++ x :: [chEq] :: y :: b) = true.
Proof.
  induction a as [|z a IH]; [reflexivity|]. cbn [app isExplicit]. destruct a as [|z1 a]; [cbn [app] in *; rewrite IH; apply orb_true_r|]. cbn [app] in *. destruct a as [|z2 a]; cbn [app] in *; rewrite IH; apply orb_true_r.
Qed.
Lemma etoks_explicit s l : isExplicit (etoks (s :: l)) = true.
Proof. unfold etoks. cbn [flat_map]. rewrite <- app_assoc. apply explicit_yes. Qed.
Lemma etoks_last l t : l <> [] -> exists r s, etoks l = r ++ [x_name s] /\ In s l /\ last (etoks l) t = x_name s.
Proof.
  intros N. destruct (exists_last N) as [l' [s ->]]. exists (etoks l' ++ flat_map (fun a : label => [a; [chColon]]) (x_locals s) ++ [x_target s; [chEq]]), s.
  assert (E : etoks (l' ++ [s]) = (etoks l' ++ flat_map (fun a : label => [a; [chColon]]) (x_locals s) ++ [x_target s; [chEq]]) ++ [x_name s]) by (unfold etoks; rewrite flat_map_app; cbn [flat_map]; rewrite app_nil_r, <- !app_assoc; reflexivity).
  split; [exact E|]. split; [apply in_app_iff; right; left; reflexivity|]. rewrite E, last_last. reflexivity.
Qed.

Theorem explicit_text env n st l T section rest w s : wf_env env -> uniq_env env -> hypLabels env -> stmtAt (e_db env) n st -> s_type st = S_p -> localsOk env n st l -> explicitProof env n st l T ->
  section ++ rest = w ++ s -> TokSpec.blanks w s -> startsInk s -> tokenised proofToken noProofToken s (etoks l) rest ->
  exists K q flag, (forall fuel max, K <= fuel -> parseProofText fuel env n max section rest = Ok (flag, q, 0)) /\ denotes (e_db env) q T /\ (flag = 1 /\ hasUnknown l \/ flag = 0 /\ ~ hasUnknown l).
Proof.
  intros WE UE HL HS HT LK EP ES BL SI TK. destruct (explicit_ok env n st l T WE UE HL HS HT LK EP) as [K [q [flag [H1 H2]]]]. exists K, q, flag. split; [|exact H2]. intros fuel max LE.
  destruct EP as [target M]. assert (NE : l <> []) by (intros ->; inversion M).
  assert (LEN : length (etoks l) <= length s). { apply (tokenised_len _ _ _ _ _ (fun t s0 (H : proofToken t s0) => ltac:(destruct H as [(c & -> & _)|(H & _)]; [discriminate|exact H])) TK). }
  pose proof (proofTokens_complete s _ rest TK (S (length s)) ltac:(apply Nat.lt_succ_r; exact LEN)) as PT.
  destruct l as [|s0 l]; [congruence|]. destruct (etoks_last (s0 :: l) [] ltac:(discriminate)) as [r [s1 [ER [IN EL]]]].
  assert (NM : tokName (x_name s1)).
  { pose proof (means_names env n st _ _ _ _ WE UE HS HT M (fun _ => True) ltac:(intros a t []) (fun s a I A => lk_word _ _ _ _ LK s a I A)) as NM. rewrite Forall_forall in NM. exact (NM s1 IN). }
  assert (SN : exists c s', s = c :: s' /\ labelChar c = true).
  { assert (ET : exists t r, etoks (s0 :: l) = t :: r /\ labelWord t).
    { unfold etoks. cbn [flat_map]. destruct (x_locals s0) as [|a al] eqn:EA; cbn [flat_map app]; eexists; eexists; (split; [reflexivity|]).
      - exact (lk_target _ _ _ _ LK s0 (or_introl eq_refl)).
      - apply (lk_word _ _ _ _ LK s0 a (or_introl eq_refl)). rewrite EA. left. reflexivity. }
    destruct ET as [t [r0 [ET WT]]]. rewrite ET in TK. inversion TK as [|t1 w1 s' ts e Ht HB HI HT' E1 E2]; subst. destruct WT as [N1 F1]. destruct t as [|c t]; [congruence|]. inversion F1; subst. exists c, (t ++ w1 ++ s'). auto. }
  destruct SN as (c & s' & EC & LC).
  assert (OP : isTok chOpen s = false) by (rewrite EC; unfold isTok, firstChar; cbn; apply Nat.eqb_neq; intros ->; discriminate LC).
  unfold parseProofText, parseText. rewrite ES. destruct (w ++ s) eqn:EW; [apply app_eq_nil in EW; destruct EW as [_ EW]; congruence|]. rewrite <- EW.
  rewrite (whiteSpace_blanks w s BL SI). cbn [rbind]. rewrite OP, PT. cbn [rbind].
  match goal with |- context [isTok chColon ?a] => replace (isTok chColon a) with false end. 2:{ symmetry. etransitivity; [|exact (name_tok _ chColon NM eq_refl ltac:(discriminate))]. f_equal. exact EL. }
  rewrite etoks_explicit. cbn [rbind]. cbn [fst]. apply H1. exact LE.
Qed.
