(* TrcText.v -- a statement used by a proof is named in the text of the proof. *)
From Coq Require Import Relations.
From Verif Require Import Base MMSpec VerModel VerSpec TokModel TokSpec TokProofs ParModel ParSpec ParText SqModel SqSpec
  VstrModel VstrSpec VstrProofs TrcModel TrcSpec TrcProofs.
Open Scope nat_scope.

Definition asE (env : penv) (m : nat) : Prop := exists st, stmtAt (e_db env) m st /\ isAssertion st.

(* ---------- normal proofs ---------- *)
Lemma scan_steps env n tab : forall toks prev s s', scanToks env n tab prev toks s = Ok s' ->
  (forall t b, In (t, b) (ns_steps s') -> In (t, b) (ns_steps s) \/ In t toks) /\
  (forall l j, In (l, j) (ns_loc s') -> In (l, j) (ns_loc s) \/ (j < 0)%Z).
Proof.
  induction toks as [|t toks IH]; intros prev s s' H; cbn [scanToks] in H.
  - apply Ok_inj in H. subst. auto.
  - destruct (isTok chEq t).
    + apply IH in H. destruct H as [A B]. split; [|exact B]. intros u b I. apply A in I. destruct I; auto. right; right; assumption.
    + destruct (isTok chColon t).
      * apply rbind_ok in H. destruct H as [s1 [H1 H2]]. apply IH in H2. destruct H2 as [A B].
        assert (Q : (forall u b, In (u, b) (ns_steps s1) -> In (u, b) (ns_steps s)) /\
                    (forall l j, In (l, j) (ns_loc s1) -> In (l, j) (ns_loc s) \/ (j < 0)%Z)).
        { unfold colonTok in H1. destruct (ns_steps s) as [|x xs] eqn:ES; [discriminate|].
          cbv zeta in H1. destruct (e_find env tab prev); apply Ok_inj in H1; subst s1; cbn [ns_steps ns_loc]; split.
          - intros u b I. right. exact I.
          - auto.
          - intros u b I. right. exact I.
          - intros l j I. apply in_app_or in I. destruct I as [I|[I|[]]]; [auto|]. injection I as <- <-. right. unfold zLoc. lia. }
        destruct Q as [Q1 Q2]. split.
        -- intros u b I. apply A in I. destruct I as [I|I]; [left; apply Q1, I|right; right; exact I].
        -- intros l j I. apply B in I. destruct I as [I|I]; [apply Q2, I|right; exact I].
      * apply IH in H. destruct H as [A B]. cbn [ns_steps ns_loc] in *. split; [|exact B].
        intros u b I. apply A in I. destruct I as [[I|I]|I]; [|auto|right; right; exact I].
        injection I as <- <-. right; left; reflexivity.
Qed.

Lemma build_named env n st loc : wf_env env -> stmtAt (e_db env) n st -> s_type st = S_p ->
  (forall l j, In (l, j) loc -> (j < 0)%Z) ->
  forall l s s',
  buildSteps env n ((entries env Z.of_nat (s_optHyps st) ++ entries env Z.of_nat (s_reqHyps st)) ++ loc) s l = Ok s' ->
  forall m, asE env m -> In (Z.of_nat m) (b_proof s') ->
    In (Z.of_nat m) (b_proof s) \/ (exists b, In (e_name env m, b) l /\ isTok chQ (e_name env m) = false).
Proof.
  intros WE S P HL. induction l as [|[t lf] l IH]; intros s s' H m AM I; cbn [buildSteps] in H.
  - apply Ok_inj in H. subst. auto.
  - apply rbind_ok in H. destruct H as [s1 [H1 H2]].
    destruct (IH s1 s' H2 m AM I) as [Q|[b [Q1 Q2]]].
    2:{ right. exists b. split; [right; exact Q1|exact Q2]. }
    assert (NH : forall h, In h (s_reqHyps st) \/ In h (s_optHyps st) -> Z.of_nat m <> Z.of_nat h).
    { intros h Hh E. apply Nat2Z.inj in E. subst h. destruct (we_hyps _ WE n st m S P Hh) as [_ [sh [Sh IH0]]].
      destruct AM as [sm [Sm AA]]. unfold stmtAt in *. rewrite Sm in Sh. injection Sh as <-.
      destruct IH0 as [X|X]; destruct AA as [Y|Y]; congruence. }
    assert (Tab : forall j, In (t, j) ((entries env Z.of_nat (s_optHyps st) ++ entries env Z.of_nat (s_reqHyps st)) ++ loc) ->
       j <> Z.of_nat m).
    { intros j Ij E. subst j. apply in_app_or in Ij. destruct Ij as [Ij|Ij]; [|apply HL in Ij; lia].
      apply in_app_or in Ij. unfold entries in Ij. destruct Ij as [Ij|Ij]; apply in_map_iff in Ij; destruct Ij as [h [E Hh]];
        injection E as _ E; apply (NH h); auto. }
    unfold buildStep in H1. cbv zeta in H1. destruct (isTok chQ t) eqn:TQ.
    { apply Ok_inj in H1. subst s1. cbn [b_proof] in Q. apply in_app_or in Q. destruct Q as [Q|[Q|[]]]; [auto|].
      unfold zUnk in Q. lia. }
    match type of H1 with (match ?x with _ => _ end) = _ => destruct x as [j|] eqn:EF end.
    + apply (we_some _ WE) in EF. apply Tab in EF. destruct (j <? 0)%Z eqn:J0.
      * destruct (-1000 - j <? 0)%Z; [discriminate|]. apply Ok_inj in H1. subst s1. cbn [b_proof] in Q.
        apply in_app_or in Q. destruct Q as [Q|[Q|[]]]; [auto|]. exfalso. apply Z.ltb_lt in J0.
        destruct (_ <? _)%Z; unfold zUnk in Q; lia.
      * destruct (j <=? 0)%Z; [discriminate|]. apply Ok_inj in H1. subst s1. cbn [b_proof] in Q.
        apply in_app_or in Q. destruct Q as [Q|[Q|[]]]; [auto|]. contradiction.
    + destruct (e_find env (e_keys env) t) as [j|] eqn:EK.
      * apply (we_some _ WE) in EK. destruct (we_keys _ WE t j EK) as [m' [sm [M0 [-> [Sm [Am Nm]]]]]].
        assert (X : In (Z.of_nat m) (b_proof s) \/ Z.of_nat m' = Z.of_nat m).
        { apply rbind_ok in H1. destruct H1 as [s0 [_ H1]]. destruct (s_type s0); try discriminate.
          all: match type of H1 with (if ?x then _ else _) = _ => destruct x end; apply Ok_inj in H1; subst s1;
            cbn [b_proof] in Q; apply in_app_or in Q; destruct Q as [Q|[Q|[]]]; auto; unfold zUnk in Q; lia. }
        destruct X as [X|X]; [auto|]. apply Nat2Z.inj in X. subst m'. right. exists lf. split; [left; congruence|congruence].
      * apply Ok_inj in H1. subst s1. cbn [b_proof] in Q. apply in_app_or in Q. destruct Q as [Q|[Q|[]]]; [auto|].
        unfold zUnk in Q. lia.
Qed.

Lemma finish_proof p c e k zs ec : finish p c e = Ok (k, zs, ec) -> zs = p.
Proof.
  unfold finish. destruct (c =? 1); [intros H; apply Ok_inj in H; congruence|].
  destruct p; [discriminate|]. intros H; apply Ok_inj in H; congruence.
Qed.

Lemma normal_named env n st toks k zs ec m : wf_env env -> stmtAt (e_db env) n st -> s_type st = S_p ->
  parseNormal env n toks = Ok (k, zs, ec) -> asE env m -> In (Z.of_nat m) zs -> In (e_name env m) toks.
Proof.
  intros WE S P H AM I. unfold parseNormal in H. unfold stmtAt in S. rewrite S in H. cbn [rget rbind] in H. cbv zeta in H.
  destruct (match toks with [] => _ | _ => _ end) as [toks1 e1] eqn:E1.
  destruct (match toks1 with [] => _ | _ => _ end) as [toks2 e2] eqn:E2.
  destruct (if isTok chColon (last toks2 []) then _ else _) as [toks3 e3] eqn:E3.
  apply rbind_ok in H. destruct H as [s [H1 H]]. destruct (dupZero (ns_loc s)); [discriminate|].
  apply rbind_ok in H. destruct H as [b [H2 H]]. apply finish_proof in H. subst zs.
  apply scan_steps in H1. destruct H1 as [A B]. cbn [ns_steps ns_loc] in *.
  assert (HL : forall l j, In (l, j) (ns_loc s) -> (j < 0)%Z).
  { intros l j Ij. apply B in Ij. destruct Ij as [[]|Ij]. exact Ij. }
  destruct (build_named env n st (ns_loc s) WE S P HL _ _ _ H2) with (m := m) as [Q|[bb [Q1 Q2]]].
  - exact AM.
  - exact I.
  - destruct Q.
  - rewrite <- in_rev in Q1. apply A in Q1. destruct Q1 as [[]|Q1].
    assert (X2 : In (e_name env m) toks2).
    { destruct (isTok chColon (last toks2 [])); injection E3 as <- _; [|exact Q1].
      unfold dropLast in Q1. clear - Q1. induction toks2 as [|a l IH]; [exact Q1|]. simpl in Q1.
      destruct l; [destruct Q1|]. destruct Q1 as [->|Q1]; [left; reflexivity|right; apply IH, Q1]. }
    assert (X1 : In (e_name env m) toks1).
    { destruct toks1 as [|t r]; [injection E2 as <- _; exact X2|].
      destruct (isTok chColon t); injection E2 as <- _; [|exact X2].
      destruct X2 as [X2|X2]; [|right; exact X2]. rewrite <- X2 in Q2. discriminate. }
    destruct toks; [|injection E1 as <- _; exact X1]. injection E1 as <- _.
    destruct X1 as [X1|[]]. rewrite <- X1 in Q2. discriminate.
Qed.

(* ---------- compressed proofs ---------- *)
Lemma labelCodes_named env n st : wf_env env -> stmtAt (e_db env) n st -> s_type st = S_p ->
  forall ts e codes e', labelCodes env n (entries env Z.of_nat (s_optHyps st)
             ++ entries env (fun h => -1000 - Z.of_nat h)%Z (s_reqHyps st)) ts e = Ok (codes, e') ->
  forall m, asE env m -> In (Z.of_nat m) codes -> In (e_name env m) ts.
Proof.
  intros WE S P. induction ts as [|t ts IH]; intros e codes e' H m AM I; cbn [labelCodes] in H.
  - apply Ok_inj in H. injection H as <- _. destruct I.
  - apply rbind_ok in H. destruct H as [[z e1] [H1 H]]. apply rbind_ok in H. destruct H as [[zs e2] [H2 H]].
    apply Ok_inj in H. injection H as <- _. destruct I as [I|I]; [|right; eapply IH; eassumption]. subst z.
    assert (NH : forall h, In h (s_reqHyps st) \/ In h (s_optHyps st) -> Z.of_nat m <> Z.of_nat h).
    { intros h Hh E. apply Nat2Z.inj in E. subst h. destruct (we_hyps _ WE n st m S P Hh) as [_ [sh [Sh IH0]]].
      destruct AM as [sm [Sm AA]]. unfold stmtAt in *. rewrite Sm in Sh. injection Sh as <-.
      destruct IH0 as [X|X]; destruct AA as [Y|Y]; congruence. }
    unfold labelCode in H1.
    match type of H1 with (match ?x with _ => _ end) = _ => destruct x as [j|] eqn:EF end.
    + exfalso. apply (we_some _ WE) in EF. apply in_app_or in EF. unfold entries in EF.
      destruct EF as [EF|EF]; apply in_map_iff in EF; destruct EF as [h [E Hh]];
        apply (f_equal snd) in E; cbn [snd] in E; subst j.
      * replace (Z.of_nat h <? 0)%Z with false in H1 by (symmetry; apply Z.ltb_ge; lia).
        destruct (Z.of_nat h <=? 0)%Z; [discriminate|]. apply Ok_inj in H1. injection H1 as E _. apply (NH h); auto.
      * replace (-1000 - Z.of_nat h <? 0)%Z with true in H1 by (symmetry; apply Z.ltb_lt; lia).
        destruct (_ <=? 0)%Z; [discriminate|]. apply Ok_inj, (f_equal fst) in H1. cbn [fst] in H1. apply (NH h); [auto|lia].
    + destruct (e_find env (e_keys env) t) as [j|] eqn:EK.
      * apply (we_some _ WE) in EK. destruct (we_keys _ WE t j EK) as [m' [sm [M0 [-> [Sm [Am Nm]]]]]].
        apply rbind_ok in H1. destruct H1 as [s0 [_ H1]].
        assert (X : Z.of_nat m' = Z.of_nat m) by (destruct (s_type s0); try discriminate; apply Ok_inj in H1; congruence).
        apply Nat2Z.inj in X. subst m'. left. congruence.
      * apply Ok_inj in H1. injection H1 as E _. unfold zUnk in E. lia.
Qed.

(* elements of the working proof come from the label map, or are '?' *)
Definition fromMap (map0 : list Z) (s : cst) : Prop :=
  (forall z, In z (c_map s) -> In z map0 \/ (z < 0)%Z) /\
  (forall z, In z (c_proof s) -> In z map0 \/ (z < 0)%Z).

Lemma comprLoop_map env max bg map0 : forall fuel l s s', comprLoop fuel env max bg l s = Ok s' ->
  fromMap map0 s -> (length (c_proof s) = 0 \/ 1 <= length (c_proof s)) -> fromMap map0 s'.
Proof.
  induction fuel as [|f IH]; intros l s s' H F _; cbn [comprLoop] in H; [discriminate|].
  destruct l as [|c r]; [discriminate|]. destruct (128 <=? c); [discriminate|].
  assert (Len : forall s1 : cst, length (c_proof s1) = 0 \/ 1 <= length (c_proof s1)) by (intros; lia).
  destruct ((65 <=? c) && (c <=? 84)).
  { apply rbind_ok in H. destruct H as [[s1 a] [H1 H2]]. eapply IH; [exact H2| |apply Len].
    unfold letterStep in H1. cbv zeta in H1. destruct (maxLong <? _)%Z; [discriminate|].
    apply rbind_ok in H1. destruct H1 as [stmt [N H1]].
    assert (IM : In stmt (c_map s)).
    { match type of N with rget ?x = _ => destruct x eqn:EN; [|discriminate] end. cbn [rget] in N. apply Ok_inj in N. subst.
      eapply nth_error_In, EN. }
    destruct (max <=? length (c_proof s)); [discriminate|]. apply rbind_ok in H1. destruct H1 as [leaf [_ H1]].
    destruct F as [F1 F2].
    assert (G : forall z, In z (c_proof s ++ [stmt]) -> In z map0 \/ (z < 0)%Z).
    { intros z Hz. apply in_app_or in Hz. destruct Hz as [Hz|[<-|[]]]; [apply F2, Hz|apply F1, IM]. }
    destruct leaf as [st|].
    - match type of H1 with (if ?x then _ else _) = _ => destruct x end;
        (match type of H1 with (if ?x then _ else _) = _ => destruct x end; [discriminate|]);
        apply Ok_inj in H1; injection H1 as <- _; split; cbn [c_map c_proof]; auto.
    - destruct (max <=? c_cnt s); [discriminate|]. apply Ok_inj in H1. injection H1 as <- _. split; cbn [c_map c_proof]; auto. }
  destruct ((85 <=? c) && (c <=? 89)).
  { apply rbind_ok in H. destruct H as [s1 [H1 H2]]. eapply IH; [exact H2| |apply Len].
    unfold digitStep in H1. cbv zeta in H1. destruct (maxLong <? _)%Z; [discriminate|]. apply Ok_inj in H1. subst s1. exact F. }
  destruct (c =? 90).
  { apply rbind_ok in H. destruct H as [s1 [H1 H2]]. eapply IH; [exact H2| |apply Len].
    unfold zStep in H1. cbv zeta in H1. destruct (max <=? length (c_map s)); [discriminate|].
    destruct F as [F1 F2].
    assert (L : rev (c_proof s) <> [] -> 1 <= length (c_proof s)).
    { intros N. rewrite <- rev_length. destruct (rev (c_proof s)); [contradiction N; reflexivity|simpl; lia]. }
    assert (G : forall z, In z (c_map s ++ [(-1000 - (Z.of_nat (length (c_proof s)) - 1))%Z]) -> In z map0 \/ (z < 0)%Z).
    { intros z Hz. apply in_app_or in Hz. destruct Hz as [Hz|[<-|[]]]; [apply F1, Hz|]. right. lia. }
    destruct (rev (c_proof s)) as [|x xs]; [apply Ok_inj in H1; subst s1; split; cbn [c_map c_proof]; auto|].
    apply rbind_ok in H1. destruct H1 as [leaf [_ H1]]. apply Ok_inj in H1. subst s1. split; cbn [c_map c_proof]; auto. }
  destruct (isspace c); [eapply IH; [exact H|exact F|apply Len]|].
  destruct (c =? 36).
  { destruct r as [|d r'].
    - eapply IH; [exact H| |apply Len]. exact F.
    - destruct (d =? 46); [apply Ok_inj in H; subst; exact F|].
      destruct ((d =? 40) || (d =? 33)).
      + apply rbind_ok in H. destruct H as [l' [_ H]]. eapply IH; [exact H|exact F|apply Len].
      + eapply IH; [exact H| |apply Len]. exact F. }
  destruct (c =? 63).
  { apply rbind_ok in H. destruct H as [s1 [H1 H2]]. eapply IH; [exact H2| |apply Len].
    unfold qStep in H1. cbv zeta in H1. destruct (_ || _); [discriminate|]. apply Ok_inj in H1. subst s1.
    destruct F as [F1 F2]. split; cbn [c_map c_proof]; auto. intros z Hz. apply in_app_or in Hz.
    destruct Hz as [Hz|[<-|[]]]; [apply F2, Hz|right; unfold zUnk; lia]. }
  eapply IH; [exact H| |apply Len]. exact F.
Qed.

Lemma compressed_named fuel env n st max labels closed bg text k zs ec m : wf_env env ->
  stmtAt (e_db env) n st -> s_type st = S_p ->
  parseCompressed fuel env n max labels closed bg text = Ok (k, zs, ec) ->
  asE env m -> In (Z.of_nat m) zs -> In (e_name env m) labels.
Proof.
  intros WE S P H AM I. unfold parseCompressed in H. assert (S' := S). unfold stmtAt in S'. rewrite S' in H.
  cbn [rget rbind] in H. cbv zeta in H. apply rbind_ok in H. destruct H as [[codes e2] [H1 H]].
  match type of H with (if ?x then _ else _) = _ => destruct x end; [discriminate|].
  apply rbind_ok in H. destruct H as [s [H2 H]].
  apply comprLoop_map with (map0 := map Z.of_nat (s_reqHyps st) ++ codes) in H2; [| |cbn; lia].
  2:{ split; cbn [c_map c_proof]; [auto|intros ? []]. }
  destruct H2 as [_ F].
  assert (X : In (Z.of_nat m) (c_proof s)).
  { destruct (c_proof s) as [|x xs].
    - destruct (_ || _); [discriminate|]. apply finish_proof in H. subst zs. destruct I as [I|[]]. unfold zUnk in I. lia.
    - destruct (max <=? length (x :: xs)); [discriminate|]. apply finish_proof in H. subst zs. exact I. }
  apply F in X. destruct X as [X|X]; [|lia]. apply in_app_or in X. destruct X as [X|X].
  - exfalso. apply in_map_iff in X. destruct X as [h [E Hh]]. apply Nat2Z.inj in E. subst h.
    destruct (we_hyps _ WE n st m S P (or_introl Hh)) as [_ [sh [Sh IH0]]].
    destruct AM as [sm [Sm AA]]. unfold stmtAt in *. rewrite Sm in Sh. injection Sh as <-.
    destruct IH0 as [X|X]; destruct AA as [Y|Y]; congruence.
  - eapply labelCodes_named; eassumption.
Qed.

(* ---------- the text ---------- *)
Lemma plain_skip a r : ~ In 36 a -> forall fuel, length a < fuel -> exists w b, a = w ++ b /\
  skipWs fuel (a ++ 36 :: 46 :: r) = Ok (b ++ 36 :: 46 :: r) /\ Forall (fun c => isgraph c = false) w /\
  (b = [] \/ exists c b', b = c :: b' /\ isgraph c = true).
Proof.
  induction a as [|c a IH]; intros N fuel Hf; (destruct fuel as [|f]; [simpl in Hf; lia|]); cbn [app skipWs].
  - exists [], []. change (36 =? chDollar) with true. cbn iota. change (46 =? chOpen) with false.
    change (46 =? chBang) with false. cbn iota. auto.
  - assert (c <> 36) by (intros ->; apply N; left; reflexivity).
    replace (c =? chDollar) with false by (symmetry; apply Nat.eqb_neq; exact H).
    destruct (isgraph c) eqn:G.
    + exists [], (c :: a). split; [reflexivity|]. split; [reflexivity|]. split; [constructor|]. right. exists c, a. auto.
    + destruct (IH (fun Q => N (or_intror Q)) f ltac:(simpl in Hf; lia)) as [w [b [E [A [B C]]]]].
      exists (c :: w), b. split; [simpl; congruence|]. split; [exact A|]. split; [constructor; assumption|exact C].
Qed.
Lemma plain_ws a r : ~ In 36 a -> exists w b, a = w ++ b /\
  whiteSpace (a ++ 36 :: 46 :: r) = Ok (b ++ 36 :: 46 :: r) /\ Forall (fun c => isgraph c = false) w /\
  (b = [] \/ exists c b', b = c :: b' /\ isgraph c = true).
Proof. intros N. apply plain_skip; [exact N|]. rewrite app_length. simpl. lia. Qed.

Lemma go_plain r : forall a, ~ In 36 a -> exists t b, a = t ++ b /\
  proofTokenGo (a ++ 36 :: 46 :: r) = length t /\ Forall (fun c => proofSpecial c = false) t.
Proof.
  induction a as [|c a IH]; intros N; cbn [app proofTokenGo].
  - exists [], []. change (36 =? chDollar) with true. cbn iota. change (46 =? chDollar) with false. auto.
  - assert (c <> 36) by (intros ->; apply N; left; reflexivity).
    replace (c =? chDollar) with false by (symmetry; apply Nat.eqb_neq; exact H).
    destruct (negb (isgraph c)); [exists [], (c :: a); auto|].
    destruct (proofSpecial c) eqn:PS; [exists [], (c :: a); auto|].
    destruct (IH (fun Q => N (or_intror Q))) as [t [b [E [A B]]]]. exists (c :: t), b. split; [simpl; congruence|].
    split; [simpl; congruence|]. constructor; assumption.
Qed.
(* the token is a piece of a, and contains ')' only if it is ")" *)
Lemma tok_plain a r : ~ In 36 a -> exists t b, a = t ++ b /\
  proofTokenLen (a ++ 36 :: 46 :: r) = length t /\ (isTok chClose (a ++ 36 :: 46 :: r) = false -> ~ In 41 t).
Proof.
  intros N. destruct (go_plain r a N) as [t [b [E [A B]]]].
  assert (NT : ~ In 41 t). { intros I. rewrite Forall_forall in B. apply B in I. discriminate. }
  unfold proofTokenLen. destruct a as [|c a]; cbn [app].
  - exists [], []. destruct t; [|discriminate]. change (proofSpecial 36) with false. cbn iota. auto.
  - destruct (proofSpecial c) eqn:PS; [|exists t, b; auto].
    exists [c], a. split; [reflexivity|]. split; [reflexivity|]. intros IT [->|[]]. discriminate.
Qed.

Lemma sub_notin (a x y : list nat) c : a = x ++ y -> ~ In c a -> ~ In c x /\ ~ In c y.
Proof. intros -> N. split; intros I; apply N, in_or_app; auto. Qed.

Lemma labelList_plain r : forall fuel a ls closed text, ~ In 36 a ->
  labelList fuel (a ++ 36 :: 46 :: r) = Ok (ls, closed, text) ->
  forall t, In t (map fst ls) -> exists x y, a = x ++ t ++ y /\ ~ In 41 (x ++ t).
Proof.
  induction fuel as [|f IH]; intros a ls closed text N H t I; cbn [labelList] in H; [discriminate|].
  apply rbind_ok in H. destruct H as [l1 [H1 H]].
  destruct (plain_ws a r N) as [w [b [E [A [B _]]]]]. rewrite A in H1. apply Ok_inj in H1. subst l1.
  destruct (sub_notin _ _ _ _ E N) as [Nw Nb].
  assert (W41 : ~ In 41 w). { intros Q. rewrite Forall_forall in B. apply B in Q. discriminate. }
  destruct (tok_plain b r Nb) as [u [c [E2 [TL NC]]]]. rewrite TL in H. destruct (length u) as [|k] eqn:LU.
  { apply Ok_inj in H. injection H as <- _ _. destruct I. }
  rewrite <- LU in *. destruct (isTok chClose (b ++ 36 :: 46 :: r)) eqn:IT.
  { apply Ok_inj in H. injection H as <- _ _. destruct I. }
  specialize (NC eq_refl). apply rbind_ok in H. destruct H as [[[ls' cl'] e'] [H2 H]]. apply Ok_inj in H. injection H as <- _ _.
  cbn [map fst] in I. subst b. rewrite <- app_assoc in *.
  assert (FT : firstn (length u) (u ++ c ++ 36 :: 46 :: r) = u).
  { rewrite firstn_app, Nat.sub_diag, firstn_all. simpl. apply app_nil_r. }
  assert (SK : skipn (length u) (u ++ c ++ 36 :: 46 :: r) = c ++ 36 :: 46 :: r).
  { rewrite skipn_app, Nat.sub_diag, skipn_all. reflexivity. }
  rewrite FT in I. rewrite SK in H2. destruct (sub_notin _ _ _ _ eq_refl Nb) as [_ Nc].
  destruct I as [<-|I].
  - exists w, c. split; [exact E|]. intros Q. apply in_app_or in Q. tauto.
  - destruct (IH c ls' cl' e' Nc H2 t I) as [x [y [Ex Nx]]]. exists (w ++ u ++ x), y. split.
    + rewrite E, Ex. rewrite <- !app_assoc. reflexivity.
    + rewrite <- !app_assoc. intros Q. apply in_app_or in Q. destruct Q as [Q|Q]; [tauto|].
      apply in_app_or in Q. tauto.
Qed.

Lemma proofTokens_plain r : forall fuel a ts e, ~ In 36 a ->
  proofTokens fuel (a ++ 36 :: 46 :: r) = Ok (ts, e) ->
  forall t, In t ts -> exists x y, a = x ++ t ++ y.
Proof.
  induction fuel as [|f IH]; intros a ts e N H t I; cbn [proofTokens] in H; [discriminate|].
  destruct (tok_plain a r N) as [u [c [E2 [TL _]]]]. rewrite TL in H. destruct (length u) as [|k] eqn:LU.
  { apply Ok_inj in H. injection H as <- _. destruct I. }
  rewrite <- LU in *. apply rbind_ok in H. destruct H as [s [H1 H]]. apply rbind_ok in H. destruct H as [[ts' e'] [H2 H]].
  apply Ok_inj in H. injection H as <- _. subst a. rewrite <- app_assoc in *.
  assert (FT : firstn (length u) (u ++ c ++ 36 :: 46 :: r) = u).
  { rewrite firstn_app, Nat.sub_diag, firstn_all. simpl. apply app_nil_r. }
  assert (SK : skipn (length u) (u ++ c ++ 36 :: 46 :: r) = c ++ 36 :: 46 :: r).
  { rewrite skipn_app, Nat.sub_diag, skipn_all. reflexivity. }
  rewrite FT in I. rewrite SK in H1. destruct (sub_notin _ _ _ _ eq_refl N) as [_ Nc].
  destruct (plain_ws c r Nc) as [w [b [E [A _]]]]. rewrite A in H1. apply Ok_inj in H1. subst s.
  destruct (sub_notin _ _ _ _ E Nc) as [_ Nb].
  destruct I as [<-|I].
  - exists [], c. reflexivity.
  - destruct (IH b ts' e' Nb H2 t I) as [x [y Ex]]. exists (u ++ w ++ x), y. rewrite E, Ex, <- !app_assoc. reflexivity.
Qed.

Lemma upToClose_at x y : ~ In 41 x -> upToClose (x ++ 41 :: y) = Ok x.
Proof.
  induction x as [|c x IH]; intros N; cbn [app upToClose].
  - reflexivity.
  - replace (c =? chClose) with false by (symmetry; apply Nat.eqb_neq; intros ->; apply N; left; reflexivity).
    rewrite IH by (intros Q; apply N; right; exact Q). reflexivity.
Qed.
Lemma first_close l : In 41 l -> exists x y, l = x ++ 41 :: y /\ ~ In 41 x.
Proof.
  induction l as [|c l IH]; intros I; [destruct I|]. destruct (Nat.eq_dec c 41) as [->|N].
  - exists [], l. auto.
  - destruct I as [I|I]; [congruence|]. destruct (IH I) as [x [y [E Q]]]. exists (c :: x), y. split; [simpl; congruence|].
    intros [H|H]; auto.
Qed.
Lemma instr_occ l m x y : m <> [] -> l = x ++ m ++ y -> (instr 1 l m =? 0) = false.
Proof.
  intros Hm E. destruct (instr_ok 1 l m Hm) as [[_ N]|[q [H [O _]]]].
  - exfalso. apply (N (length x + 1)); [lia|]. exists x, y. auto.
  - rewrite H. apply occurs_bound in O. apply Nat.eqb_neq. lia.
Qed.

Lemma label_in_text env n st max fuel sec r k zs ec m : wf_env env -> stmtAt (e_db env) n st -> s_type st = S_p ->
  ~ In 36 sec -> (In 40 sec -> In 41 sec) -> e_name env m <> [] -> asE env m ->
  parseText fuel env n max sec (36 :: 46 :: r) = Ok (Some (k, zs, ec)) ->
  exists b, labelInText (e_name env m) sec (36 :: 46 :: r) = Ok b /\ (In (Z.of_nat m) zs -> b = true).
Proof.
  intros WE S P N PC NE AM H. unfold parseText in H. unfold labelInText.
  assert (NN : exists c l, sec ++ 36 :: 46 :: r = c :: l) by (destruct sec; simpl; eauto).
  destruct NN as [c0 [l0 EN]]. rewrite EN in *. rewrite <- EN in *. clear c0 l0 EN.
  apply rbind_ok in H. destruct H as [l [HW H]]. rewrite HW. cbn [rbind].
  destruct (plain_ws sec r N) as [w [b [E [A [B C]]]]]. rewrite A in HW. apply Ok_inj in HW. subst l.
  destruct (sub_notin _ _ _ _ E N) as [Nw Nb].
  destruct (isTok chOpen (b ++ 36 :: 46 :: r)) eqn:IT.
  - destruct C as [->|[c [b' [-> G]]]]; [discriminate|].
    assert (c = 40). { unfold isTok, firstChar in IT. simpl in IT. apply Nat.eqb_eq in IT. exact IT. } subst c.
    assert (I41 : In 41 b').
    { assert (Q : In 41 sec). { apply PC. rewrite E. apply in_or_app. right. left. reflexivity. }
      rewrite E in Q. apply in_app_or in Q. destruct Q as [Q|[Q|Q]]; [|discriminate|exact Q].
      rewrite Forall_forall in B. apply B in Q. discriminate. }
    destruct (first_close b' I41) as [x [y [Eb Nx]]].
    assert (U : upToClose ((40 :: b') ++ 36 :: 46 :: r) = Ok (40 :: x)).
    { rewrite Eb. replace ((40 :: x ++ 41 :: y) ++ 36 :: 46 :: r) with ((40 :: x) ++ 41 :: (y ++ 36 :: 46 :: r)).
      - apply upToClose_at. intros [Q|Q]; [discriminate|auto].
      - simpl. rewrite <- app_assoc. reflexivity. }
    rewrite U. cbn [rbind]. eexists. split; [reflexivity|]. intros I.
    apply rbind_ok in H. destruct H as [[[ls closed] text] [HL H]]. apply rbind_ok in H. destruct H as [o [HC H]].
    apply Ok_inj in H. injection H as ->.
    assert (IL := compressed_named _ _ _ _ _ _ _ _ _ _ _ _ _ WE S P HC AM I).
    cbn [app tl] in HL.
    destruct (labelList_plain r _ b' ls closed text (fun Q => Nb (or_intror Q)) HL _ IL) as [p [q [Ep Np]]].
    (* the piece is before the first ')' *)
    assert (PX : exists q', x = p ++ e_name env m ++ q').
    { rewrite Eb in Ep. rewrite app_assoc in Ep.
      enough (Q : exists q', x = (p ++ e_name env m) ++ q').
      { destruct Q as [q' Q]. exists q'. rewrite <- app_assoc in Q. exact Q. }
      clear - Ep Np Nx. revert Ep Np. generalize (p ++ e_name env m) as pm. intros pm Ep Np.
      revert pm q Ep Np. induction x as [|c x IH]; intros pm q Ep Np.
      - destruct pm as [|d pm]; [exists []; reflexivity|]. simpl in Ep. injection Ep as <- _. exfalso. apply Np. left. reflexivity.
      - destruct pm as [|d pm]; [exists (c :: x); reflexivity|]. simpl in Ep. injection Ep as <- Ep.
        destruct (IH (fun Q => Nx (or_intror Q)) pm q Ep (fun Q => Np (or_intror Q))) as [q' Eq]. exists q'. simpl. congruence. }
    destruct PX as [q' PX]. rewrite PX. rewrite (instr_occ _ (e_name env m) (40 :: p) q'); [reflexivity|exact NE|reflexivity].
  - cbn [rbind]. eexists. split; [reflexivity|]. intros I.
    apply rbind_ok in H. destruct H as [[toks e] [HT H]].
    match type of H with (if ?x then _ else _) = _ => destruct x end; [discriminate|].
    apply rbind_ok in H. destruct H as [o [HN H]]. apply Ok_inj in H. injection H as ->.
    assert (IL := normal_named _ _ _ _ _ _ _ _ WE S P HN AM I).
    destruct (proofTokens_plain r _ b toks e Nb HT _ IL) as [p [q Ep]].
    assert (LN : length (sec ++ 36 :: 46 :: r) - length (b ++ 36 :: 46 :: r) = length w).
    { rewrite E, !app_length. lia. }
    rewrite LN. assert (LE : length sec = length w + length b) by (rewrite E, app_length; reflexivity).
    replace (length w <=? length sec) with true by (symmetry; apply Nat.leb_le; lia).
    replace (length sec - length w) with (length b) by lia.
    rewrite firstn_app, Nat.sub_diag, firstn_all. simpl firstn. rewrite app_nil_r.
    rewrite (instr_occ b (e_name env m) p q); [reflexivity|exact NE|exact Ep].
Qed.

(* ---------- putting the two together ---------- *)
Lemma fromTexts_wf env e : wf_db (t_db e) -> fromTexts env e ->
  (forall n st h, stmtAt (t_db e) n st -> s_type st = S_p -> In h (s_reqHyps st) \/ In h (s_optHyps st) -> h < n) ->
  (forall st, stmtAt (t_db e) 0 st -> s_type st = S_other) -> wf_tenv e.
Proof.
  intros WD [WE [ED [_ [_ PT]]]] HH H0. constructor; auto. intros n st S P R. rewrite ED in *.
  destruct (PT n st S P) as [fuel [prev [k [zs [ec [H1 [H2 [_ [_ H5]]]]]]]]]. unfold readable in R. rewrite H2 in R.
  destruct (parseText_good _ _ _ _ _ _ _ _ _ _ WE S P H1 R) as [proof [-> [HG _]]].
  rewrite (decodes_enc _ _ (H5 R)). exact HG.
Qed.

Lemma direct_texts env e s c : wf_tenv e -> fromTexts env e -> plainTexts e ->
  s < length (db_stmts (t_db e)) -> c <= nstm (t_db e) ->
  (forall st, stmtAt (t_db e) s st -> isHyp st \/ isAssertion st) ->
  exists fl, traceUsage e s false c = Ok fl /\ length fl = S (nstm (t_db e)) /\
    (forall n, n <= nstm (t_db e) -> nth_error fl n = Some chY \/ nth_error fl n = Some chN) /\
    (forall n, 0 < n -> (marked fl n <-> uses e n s /\ (c = 0 \/ n <= c))) /\
    (marked fl 0 <-> exists n, uses e n s /\ (c = 0 \/ n <= c)).
Proof.
  intros W FT PL HS HC HT. apply usage_direct; auto.
  intros st n Ss NH Tn. destruct FT as [WE [ED [EN [NE PT]]]].
  destruct (HT st Ss) as [Q|AS]; [contradiction|].
  destruct Tn as [sn [Sn Pn]]. destruct (PL n (ex_intro _ sn (conj Sn Pn))) as [P1 [P2 [r P3]]].
  rewrite ED in Sn. destruct (PT n sn Sn Pn) as [fuel [prev [k [zs [ec [H1 [H2 [_ [_ H5]]]]]]]]].
  rewrite P3 in *. rewrite EN.
  assert (AE : asE env s) by (exists st; rewrite <- ED; auto).
  destruct (label_in_text _ _ _ _ _ _ _ _ _ _ s WE Sn Pn P1 P2 (NE s (ex_intro _ st (conj Ss AS))) AE H1) as [b [B1 B2]].
  exists b. split; [exact B1|]. intros [_ [R I]]. apply B2. unfold readable in R. rewrite H2 in R.
  destruct (parseText_good _ _ _ _ _ _ _ _ _ _ WE Sn Pn H1 R) as [proof [-> [HG _]]].
  rewrite (decodes_enc _ _ (H5 R)) in I. apply (in_map encStep) in I. exact I.
Qed.
