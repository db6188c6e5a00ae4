(* FltMain.v -- proofs about FltModel: the search *)
From Coq Require Import ZifyBool ZifyNat Permutation Relation_Operators.
From Verif Require Import Base.
From Verif Require Import UniModel UniSpec UniSub UniCore UniStep UniRun UniProofs UniFilter UniMatch UniAll UniFin UniTwice HenModel HenProofs HenMore.
From Verif Require Import MMSpec VerModel VerSpec ParModel SqModel SqSpec SqProofs SqAttr PfaModel PfaSpec PfaProofs FltModel FltSpec FltProofs.
Open Scope nat_scope.

Lemma toFront_ok l k : k < length l -> exists l', toFront l k = Ok l' /\ Permutation l' l.
Proof.
  intros H. unfold toFront. destruct (get_ok l k H) as [x [-> X]]. cbn [rbind]. eexists. split; [reflexivity|].
  apply nth_error_split in X. destruct X as [l1 [l2 [-> <-]]]. rewrite firstn_app, firstn_all, Nat.sub_diag, firstn_O, app_nil_r.
  replace (skipn (S (length l1)) (l1 ++ x :: l2)) with l2; [apply Permutation_middle|].
  rewrite skipn_app, (skipn_all2 l1) by lia. replace (S (length l1) - length l1) with 1 by lia. reflexivity.
Qed.

Section Main.
  Variable E : fenv.
  Variable T : option tree.
  Hypothesis FO : fltOk E T.
  Notation db := (f_db E).
  Notation iv := (db_isvar (f_db E)).
  Notation e := (f_u E).
  Notation mt := (u_mt (f_u E)).
  Let WD := fo_wf E T FO.

  (* a failure of the limits has been reported *)
  Definition Inv (s : fst_) : Prop := (fs_mde s = true -> fs_msgs s <> []) /\ (f_limit E < fs_trials s -> fs_msgs s <> []).
  Definition later (s s' : fst_) : Prop := Inv s' /\ (fs_msgs s <> [] -> fs_msgs s' <> []).
  Lemma later_refl s : Inv s -> later s s. Proof. intros H. split; [exact H|auto]. Qed.
  Lemma later_trans a b c : later a b -> later b c -> later a c.
  Proof. intros [_ H1] [H2 H3]. split; [exact H2|auto]. Qed.
  Definition found (p : list Z) (m : list nat) : Prop := exists t, p = rpn t /\ proves E T t m.
  Definition post (d : nat) (m : list nat) (s : fst_) (q : list Z * fst_) : Prop :=
    later s (snd q) /\ (fst q <> [] -> found (fst q) m) /\ (fst q = [] -> fs_msgs (snd q) <> [] \/ ~ derivable_at E d m).
  (* the function ends for all large fuel with the same result *)
  Definition endsWith {X} (f : nat -> res X) (Q : X -> Prop) : Prop := exists x k, Q x /\ forall fuel, k <= fuel -> f fuel = Ok x.

  Section Level.
    Variable rec : nat -> list nat -> fst_ -> res (list Z * fst_).     (* by fuel *)
    Variable d : nat.
    Hypothesis REC : forall m s, goal E m -> Inv s -> endsWith (fun fuel => rec fuel m s) (post (S d) m s).

    Section St.
      Variables (sn : nat) (st : stmtRec) (m : list nat).
      Hypothesis US : usable E sn st.
      Hypothesis HV : forall v, In v (s_reqVars st) -> In v (s_math st).
      Hypothesis GM : goal E m.
      Let HS := us_stmt _ _ _ US. Let HA := us_type _ _ _ US.
      Notation scheme := (map (dum E st) (s_math st)).
      Notation schemes := (map (fun h => map (dum E st) (hypMath E h)) (s_reqHyps st)).
      Notation hyps := (s_reqHyps st).
      Let OKI : okInput e scheme m := ok_in E T FO sn st HS HA HV m GM.
      Lemma hyp_math h : In h hyps -> exists sh, stmtAt db h sh /\ isHyp sh /\ hypMath E h = s_math sh.
      Proof.
        intros I. destruct (wf_hyps db WD sn st h HS HA I) as [sh [K1 K2]]. exists sh. split; [exact K1|]. split; [exact K2|]. unfold hypMath. unfold stmtAt in K1. rewrite K1. reflexivity.
      Qed.
      Lemma hyp_goal sg h : (forall v, In v (s_reqVars st) -> forall t, In t (sg v) -> In t m) -> In h hyps -> goal E (MMSpec.subst iv sg (hypMath E h)).
      Proof.
        intros VL I. destruct (hyp_math h I) as [sh [K1 [K2 ->]]]. split.
        - destruct (wf_head db WD h sh K1 (or_introl K2)) as [c [r [X V]]]. rewrite X. unfold MMSpec.subst. cbn [flat_map]. rewrite V. discriminate.
        - intros t J. unfold MMSpec.subst in J. apply in_flat_map in J. destruct J as [x [J1 J2]].
          destruct (hyp_ok E T FO sn st HS HA h sh I K1 x J1) as [Q1 Q2]. destruct (iv x) eqn:V; [|destruct J2 as [<-|[]]; exact Q2].
          apply GM. exact (VL x (Q1 eq_refl) t J2).
      Qed.

      (* ---------- proving the hypotheses under one answer ---------- *)
      Section Ans.
        Variable u : ust.
        Variable sg : nat -> list nat.
        Hypothesis VL : forall v, In v (s_reqVars st) -> forall t, In t (sg v) -> In t m.
        Hypothesis MS : forall l, varsOk E st l -> makeSubst e u (map (dum E st) l) = Ok (MMSpec.subst iv sg l, false).
        Definition hypGoal (j : nat) : option (list nat) := option_map (fun h => MMSpec.subst iv sg (hypMath E h)) (nth_error hyps j).
        Definition proved (ps : list (list Z)) (j : nat) : Prop := exists p g, nth_error ps j = Some p /\ hypGoal j = Some g /\ found p g.
        Definition hypPost (order : list nat) (k : nat) (ps : list (list Z)) (s : fst_) (q : option nat * list (list Z) * fst_) : Prop :=
          later s (snd q) /\ length (snd (fst q)) = length ps /\
          match fst (fst q) with
          | None => (forall j, In j order -> proved (snd (fst q)) j) /\ (forall j, ~ In j order -> nth_error (snd (fst q)) j = nth_error ps j)
          | Some pos => k <= pos < k + length order /\ (fs_msgs (snd q) <> [] \/ exists j g, nth_error order (pos - k) = Some j /\ hypGoal j = Some g /\ ~ derivable_at E (S d) g)
          end.
        Lemma hypLoop_ok : forall order k ps s, NoDup order -> (forall j, In j order -> j < length hyps) -> length ps = length hyps -> Inv s ->
          endsWith (fun fuel => hypLoop (rec fuel) e u schemes order k ps s) (hypPost order k ps s).
        Proof.
          induction order as [|j order IH]; intros k ps s ND LO LP IN.
          - exists (None, ps, s), 0. split; [|intros; reflexivity]. split; [apply later_refl, IN|]. split; [reflexivity|]. split; [intros j []|reflexivity].
          - pose proof (LO j (or_introl eq_refl)) as Lj. destruct (nth_error hyps j) as [h|] eqn:Eh; [|apply nth_error_None in Eh; lia].
            pose proof (nth_error_In _ _ Eh) as Ih. destruct (hyp_math h Ih) as [sh [K1 [K2 K3]]].
            assert (GS : get schemes j = Ok (map (dum E st) (hypMath E h))) by (unfold get; rewrite (map_nth_error _ _ _ Eh); reflexivity).
            assert (MSH : makeSubst e u (map (dum E st) (hypMath E h)) = Ok (MMSpec.subst iv sg (hypMath E h), false)).
            { apply MS. rewrite K3. exact (hyp_ok E T FO sn st HS HA h sh Ih K1). }
            set (g := MMSpec.subst iv sg (hypMath E h)) in *. assert (HG : hypGoal j = Some g) by (unfold hypGoal; rewrite Eh; reflexivity).
            destruct (REC g s (hyp_goal sg h VL Ih) IN) as [[p s1] [k1 [[P1 [P2 P3]] R]]]. cbn [fst snd] in P1, P2, P3.
            destruct p as [|z p].
            + exists (Some k, ps, s1), k1. split.
              * split; [exact P1|]. split; [reflexivity|]. cbn [fst snd]. split; [cbn [length]; lia|]. destruct (P3 eq_refl) as [Q|Q]; [left; exact Q|right]. exists j, g. rewrite Nat.sub_diag. auto.
              * intros fuel L. cbn [hypLoop]. rewrite GS. cbn [rbind]. rewrite MSH. cbn [rbind fst snd]. rewrite (R fuel L). reflexivity.
            + inversion ND as [|? ? N1 N2]; subst. destruct (IH (S k) (put ps j (z :: p)) s1 N2 (fun j' I => LO j' (or_intror I)) ltac:(rewrite put_len; exact LP) (proj1 P1)) as [[[o ps'] s2] [k2 [[Q1 [Q2 Q3]] R2]]].
              cbn [fst snd] in Q1, Q2, Q3. rewrite put_len in Q2. exists (o, ps', s2), (k1 + k2). split.
              * split; [exact (later_trans _ _ _ P1 Q1)|]. split; [exact Q2|]. cbn [fst snd]. destruct o as [pos|].
                -- destruct Q3 as [Q3 Q4]. cbn [length]. split; [lia|]. destruct Q4 as [Q4|[j' [g' [Q4 Q5]]]]; [left; exact Q4|right]. exists j', g'.
                   replace (pos - k) with (S (pos - S k)) by lia. split; [exact Q4|exact Q5].
                -- destruct Q3 as [Q3 Q4]. split.
                   ++ intros j' [<-|I]; [|exact (Q3 j' I)]. exists (z :: p), g. rewrite (Q4 j N1), put_same by lia. split; [reflexivity|]. split; [exact HG|]. apply P2. discriminate.
                   ++ intros j' I. rewrite (Q4 j') by (intros J; apply I; right; exact J). apply put_other. intros <-. apply I. left. reflexivity.
              * intros fuel L. cbn [hypLoop]. rewrite GS. cbn [rbind]. rewrite MSH. cbn [rbind fst snd]. rewrite (R fuel) by lia. cbn [rbind fst snd]. rewrite set_ok by lia. cbn [rbind]. apply R2. lia.
        Qed.
        (* all hypotheses proved: a proof of the whole *)
        Lemma all_found ps : length ps = length hyps -> (forall j, j < length hyps -> proved ps j) -> MMSpec.subst iv sg (s_math st) = m -> found (concat ps ++ [Z.of_nat sn]) m.
        Proof.
          intros LP AP EQ.
          assert (X : forall hs ps, (length ps = length hs) -> (forall j, j < length hs -> exists p g h, nth_error ps j = Some p /\ nth_error hs j = Some h /\ g = MMSpec.subst iv sg (hypMath E h) /\ found p g) -> (forall h, In h hs -> In h hyps) ->
            exists kids es, concat ps = flat_map rpn kids /\ Forall2 (proves E T) kids es /\ Forall2 (fun h x => exists sh, stmtAt db h sh /\ MMSpec.subst iv sg (s_math sh) = x) hs es).
          { clear ps LP AP. induction hs as [|h hs IH]; intros ps LP AP SB.
            - destruct ps; [|discriminate LP]. exists [], []. split; [reflexivity|]. split; constructor.
            - destruct ps as [|p ps]; [discriminate LP|]. destruct (AP 0 ltac:(cbn; lia)) as [p' [g [h' [A1 [A2 [A3 [t [A4 A5]]]]]]]]. cbn [nth_error] in A1, A2. injection A1 as <-. injection A2 as <-.
              destruct (IH ps ltac:(cbn in LP; lia) (fun j L => AP (S j) ltac:(cbn; lia)) (fun h' I => SB h' (or_intror I))) as [kids [es [B1 [B2 B3]]]].
              exists (t :: kids), (g :: es). split; [cbn [concat flat_map]; congruence|]. split; [constructor; assumption|]. constructor; [|exact B3].
              destruct (hyp_math h (SB h (or_introl eq_refl))) as [sh [C1 [_ C2]]]. exists sh. split; [exact C1|]. rewrite A3, C2. reflexivity. }
          destruct (X hyps ps LP) as [kids [es [B1 [B2 B3]]]]; [|auto|].
          { intros j L. destruct (AP j L) as [p [g [A1 [A2 A3]]]]. unfold hypGoal in A2. destruct (nth_error hyps j) as [h|]; [|discriminate A2]. cbn [option_map] in A2. injection A2 as <-.
            exists p, (MMSpec.subst iv sg (hypMath E h)), h. auto. }
          exists (Node (Z.of_nat sn) kids). split; [cbn [rpn]; rewrite B1; reflexivity|]. rewrite <- EQ. apply pr_use with (es := es); [exact US|exact B2|exact B3].
        Qed.
      End Ans.

      (* ---------- all answers ---------- *)
      (* under this answer some hypothesis has no proof *)
      Definition failed (h : hst) : Prop := exists hy sh w, In hy hyps /\ stmtAt db hy sh /\ makeSubst e (h_s h) (map (dum E st) (s_math sh)) = Ok w /\ ~ derivable_at E (S d) (fst w).
      Definition tryPost (s : fst_) (q : option (list Z) * fst_) : Prop :=
        later s (snd q) /\
        match fst q with
        | Some p => (p <> [] -> found p m) /\ (p = [] -> fs_msgs (snd q) <> [])
        | None => fs_msgs (snd q) <> [] \/ exists l, allAnswersH e (f_on E) scheme m l /\ forall h, In h l -> failed h
        end.
      Notation hist := (historyH e (f_on E) scheme m).
      Lemma tryLoop_ok h tc : forall l order ps s, hist (h :: l) -> (fs_msgs s <> [] \/ forall h', In h' l -> failed h') -> Permutation order (seq 0 (length hyps)) -> length ps = length hyps -> Inv s ->
        exists q k, tryPost s q /\ forall n fuel, k <= n -> k <= fuel -> tryLoop n fuel E (rec fuel) sn scheme m schemes (HYes h) tc order ps s = Ok q.
      Proof.
        intros l order ps s HI. pose proof (histH_answer e scheme m OKI (f_on E) _ h HI (or_introl eq_refl)) as AN0.
        pose proof (answer_acc e scheme m OKI (h_s h) AN0) as AC. remember (UDone (h_s h)) as o eqn:Eo. revert h tc l order ps s HI AN0 Eo.
        induction AC as [o _ IH]. intros h tc l order ps s HI AN Eo FL PO LP IN. subst o.
        destruct (ans_subst E T FO sn st HS HA HV m GM (h_s h) AN) as [sg [EQ [VL MS]]].
        assert (ND : NoDup order) by (apply (Permutation_NoDup (Permutation_sym PO)), seq_NoDup).
        assert (LO : forall j, In j order <-> j < length hyps).
        { intros j. split; intros I; [apply (Permutation_in _ PO), in_seq in I; lia|apply (Permutation_in _ (Permutation_sym PO)), in_seq; lia]. }
        destruct (hypLoop_ok (h_s h) sg VL MS order 0 ps s ND (fun j => proj1 (LO j)) LP IN) as [[[o ps'] s1] [k1 [[P1 [P2 P3]] R]]]. cbn [fst snd] in P1, P2, P3.
        destruct o as [pos|].
        - destruct P3 as [P3 P4]. destruct (f_limit E <? fs_trials s1) eqn:EL.
          + exists (Some [], s1), (S k1). split.
            * split; [exact P1|]. cbn [fst snd]. split; [congruence|]. intros _. apply (proj1 P1). lia.
            * intros n fuel L1 L2. destruct n; [lia|]. cbn [tryLoop]. rewrite (R fuel) by lia. cbn [rbind]. rewrite EL. reflexivity.
          + destruct (toFront_ok order pos ltac:(lia)) as [order' [TF PF]].
            destruct (next_endsH e scheme m OKI (f_on E) h tc AN) as [[r tc'] [k2 [[G1 G2] R2]]]. unfold goodH in G1. cbn [fst] in G1, G2.
            assert (FL' : fs_msgs s1 <> [] \/ forall h', In h' (h :: l) -> failed h').
            { destruct P4 as [P4|[j [g [J1 [J2 J3]]]]]; [left; exact P4|]. destruct FL as [FL|FL]; [left; exact (proj2 P1 FL)|]. right. intros h' [<-|I]; [|exact (FL h' I)].
              unfold hypGoal in J2. destruct (nth_error hyps j) as [hy|] eqn:Eh; [|discriminate J2]. cbn [option_map] in J2. injection J2 as <-.
              pose proof (nth_error_In _ _ Eh) as Ih. destruct (hyp_math hy Ih) as [sh [C1 [_ C2]]]. exists hy, sh, (MMSpec.subst iv sg (s_math sh), false).
              split; [exact Ih|]. split; [exact C1|]. split; [apply MS, (hyp_ok E T FO sn st HS HA hy sh Ih C1)|]. cbn [fst]. rewrite <- C2. exact J3. }
            assert (STEP : forall n fuel, k1 <= fuel -> k2 <= fuel -> tryLoop (S n) fuel E (rec fuel) sn scheme m schemes (HYes h) tc order ps s = tryLoop n fuel E (rec fuel) sn scheme m schemes r tc' order' ps' s1).
            { intros n fuel L1 L2. cbn [tryLoop]. rewrite (R fuel L1). cbn [rbind]. rewrite EL, TF. cbn [rbind]. rewrite (R2 fuel L2). reflexivity. }
            destruct r as [| |h2].
            * exists (None, s1), (S (S (k1 + k2))). split.
              -- split; [exact P1|]. cbn [fst snd]. destruct FL' as [FL'|FL']; [left; exact FL'|right]. exists (h :: l). split; [eapply ah_some; [exact HI|apply (R2 k2), le_n]|exact FL'].
              -- intros n fuel L1 L2. destruct n; [lia|]. rewrite STEP by lia. destruct n; [lia|]. reflexivity.
            * exists (None, note s1 MTimeout), (S (S (k1 + k2))). split.
              -- assert (NE : fs_msgs (note s1 MTimeout) <> []) by (unfold note; cbn [fs_msgs]; destruct (fs_msgs s1); discriminate).
                 split; [split; [split; intros _; exact NE|intros _; exact NE]|]. left. exact NE.
              -- intros n fuel L1 L2. destruct n; [lia|]. rewrite STEP by lia. destruct n; [lia|]. reflexivity.
            * assert (HI2 : hist (h2 :: h :: l)) by (eapply hh_next; [exact HI|apply (R2 k2), le_n]).
              destruct (IH _ G2 h2 tc' (h :: l) order' ps' s1 HI2 G1 eq_refl FL' (Permutation_trans PF PO) ltac:(lia) (proj1 P1)) as [q [k3 [Q1 R3]]].
              exists q, (S (k1 + k2 + k3)). split; [split; [exact (later_trans _ _ _ P1 (proj1 Q1))|exact (proj2 Q1)]|].
              intros n fuel L1 L2. destruct n; [lia|]. rewrite STEP by lia. apply R3; lia.
        - destruct P3 as [P3 P4]. exists (Some (concat ps' ++ [Z.of_nat sn]), s1), (S k1). split.
          + split; [exact P1|]. cbn [fst snd]. split; [|intros X; destruct (concat ps'); discriminate X]. intros _.
            apply (all_found (h_s h) sg VL MS); [lia| |exact EQ]. intros j L. apply P3, LO, L.
          + intros n fuel L1 L2. destruct n; [lia|]. cbn [tryLoop]. rewrite (R fuel) by lia. cbn [rbind].
            assert (B1 : f_disc E sn && (f_override E =? 0) = false).
            { destruct (f_override E =? 0) eqn:X; [|apply andb_false_r]. rewrite (us_disc _ _ _ US) by lia. reflexivity. }
            rewrite B1. replace (2 <? f_override E) with false by (pose proof (fo_over E T FO); lia). rewrite andb_false_r. reflexivity.
      Qed.
      (* the list of failures leaves no room for a use of the statement *)
      Lemma failed_all l sg : allAnswersH e (f_on E) scheme m l -> (forall h, In h l -> failed h) -> MMSpec.subst iv sg (s_math st) = m -> (forall v, In v (s_reqVars st) -> okValue E (sg v)) ->
        (forall h sh, In h hyps -> stmtAt db h sh -> derivable_at E (S d) (MMSpec.subst iv sg (s_math sh))) -> False.
      Proof.
        intros AL FA EQ OV KD. pose proof (sg_matching E T FO sn st HS HA HV m GM sg EQ OV) as MM.
        destruct (henty_match e scheme m OKI (f_on E) l (valOf E st sg) (gr E T FO st HV m GM) MM AL) as [h [I G]].
        destruct (FA h I) as [hy [sh [w [I1 [I2 [I3 I4]]]]]]. apply I4.
        assert (AN : answer e scheme m (h_s h)).
        { inversion AL; subst; [destruct I|]. eapply histH_answer; [exact OKI|eassumption|exact I]. }
        rewrite (hit_subst E T FO sn st HS HA HV m GM sg (h_s h) w (s_math sh) AN G (hyp_ok E T FO sn st HS HA hy sh I1 I2) I3). exact (KD hy sh I1 I2).
      Qed.
    End St.

    (* ---------- one statement ---------- *)
    Definition usesAt (sn : nat) (m : list nat) : Prop := exists st sg, usable E sn st /\ (hasE E st -> d <= f_maxE E /\ forall v, In v (s_reqVars st) -> In v (s_math st)) /\
      (forall v, In v (s_reqVars st) -> okValue E (sg v)) /\ (forall h sh, In h (s_reqHyps st) -> stmtAt db h sh -> derivable_at E (S d) (MMSpec.subst iv sg (s_math sh))) /\
      MMSpec.subst iv sg (s_math st) = m.
    Definition stmtPost (sn : nat) (m : list nat) (s : fst_) (q : option (list Z) * fst_) : Prop :=
      later s (snd q) /\
      match fst q with
      | Some p => (p <> [] -> found p m) /\ (p = [] -> fs_msgs (snd q) <> [])
      | None => fs_msgs (snd q) <> [] \/ ~ usesAt sn m
      end.
    Lemma anyE_ok s st : stmtAt db s st -> isAssertion st -> forall hyps, (forall h, In h hyps -> In h (s_reqHyps st)) -> exists b, anyE db hyps = Ok b /\
      (b = true <-> exists h sh, In h hyps /\ stmtAt db h sh /\ s_type sh = S_e).
    Proof.
      intros HS HA. induction hyps as [|h hyps IH]; intros SB; [exists false; split; [reflexivity|]; split; [discriminate|intros [h [sh [[] _]]]]|].
      destruct (wf_hyps db WD s st h HS HA (SB h (or_introl eq_refl))) as [sh [K1 K2]]. cbn [anyE]. unfold stmtOf. unfold stmtAt in K1. rewrite K1. cbn [rget rbind].
      destruct (isE (s_type sh)) eqn:X.
      - exists true. split; [reflexivity|]. split; [|reflexivity]. intros _. exists h, sh. split; [left; reflexivity|]. split; [exact K1|]. destruct (s_type sh); try discriminate X; reflexivity.
      - destruct (IH (fun h' I => SB h' (or_intror I))) as [b [B1 B2]]. exists b. split; [exact B1|]. rewrite B2. split; intros [h' [sh' [I [J1 J2]]]]; exists h', sh'.
        + split; [right; exact I|auto].
        + destruct I as [<-|I]; [|split; [exact I|auto]]. exfalso. unfold stmtAt in J1. rewrite K1 in J1. injection J1 as <-. rewrite J2 in X. discriminate X.
    Qed.
    Lemma tryStmt_ok sn m s : 1 <= sn < f_n E -> goal E m -> Inv s -> endsWith (fun fuel => tryStmt fuel E (rec fuel) d m sn s) (stmtPost sn m s).
    Proof.
      intros LS GM IN. destruct (fo_n E T FO) as [stn HN]. assert (exists st, stmtAt db sn st) as [st HS].
      { unfold stmtAt in *. destruct (nth_error (db_stmts db) sn) as [st|] eqn:X; [eauto|]. apply nth_error_None in X. pose proof (proj1 (nth_error_Some (db_stmts db) (f_n E)) ltac:(congruence)). lia. }
      assert (NE : isAssertion st -> s_math st <> []) by (intros A X; destruct (wf_head db WD sn st HS (or_intror A)) as [c [r [Y _]]]; congruence).
      destruct (filter_ok db st m (proj1 GM) NE) as [b [FB FA]].
      assert (STO : stmtOf db sn = Ok st) by (unfold stmtOf; unfold stmtAt in HS; rewrite HS; reflexivity).
      assert (UNI : forall st', stmtAt db sn st' -> st' = st) by (intros st' X; unfold stmtAt in *; congruence).
      assert (NO : forall P : Prop, (usesAt sn m -> False) -> (forall fuel, tryStmt fuel E (rec fuel) d m sn s = Ok (None, s)) -> endsWith (fun fuel => tryStmt fuel E (rec fuel) d m sn s) (stmtPost sn m s)).
      { intros _ X Y. exists (None, s), 0. split; [split; [apply later_refl, IN|right; exact X]|intros fuel _; apply Y]. }
      destruct b.
      2:{ apply (NO True).
          - intros [st' [sg [U [_ [_ [_ EQ]]]]]]. pose proof (UNI st' (us_stmt _ _ _ U)) as X. subst st'. pose proof (us_type _ _ _ U) as A.
            rewrite (filter_complete db st sg m EQ A (proj1 GM) (NE A)) in FB. discriminate FB.
          - intros fuel. unfold tryStmt. rewrite STO. cbn [rbind]. rewrite FB. reflexivity. }
      pose proof (FA eq_refl) as HA. destruct (avoided E sn st) eqn:AV.
      { apply (NO True).
        - intros [st' [sg [U _]]]. pose proof (UNI st' (us_stmt _ _ _ U)) as X. subst st'. unfold avoided in AV. apply orb_true_iff in AV. destruct AV as [AV|AV]; [apply orb_true_iff in AV; destruct AV as [AV|AV]|].
          + pose proof (us_disc _ _ _ U). destruct (f_disc E sn); [|lia]. assert (f_override E = 0) by lia. intuition congruence.
          + pose proof (us_mbox _ _ _ U). destruct (f_mboxFlag E); [discriminate AV|]. lia.
          + pose proof (us_dist _ _ _ U) as D. destruct (f_noDist E); [|discriminate AV]. rewrite (D eq_refl) in AV. discriminate AV.
        - intros fuel. unfold tryStmt. rewrite STO. cbn [rbind]. rewrite FB. cbn [rbind negb]. rewrite AV. reflexivity. }
      assert (US : usable E sn st).
      { unfold avoided in AV. apply orb_false_iff in AV. destruct AV as [AV A3]. apply orb_false_iff in AV. destruct AV as [A1 A2]. constructor; [exact HS|exact LS|exact HA| | |].
        - intros X. rewrite X in A1. exact A1.
        - intros X Y. rewrite X in A2. lia.
        - intros X. rewrite X in A3. destruct (s_reqDisj st); [reflexivity|discriminate A3]. }
      destruct (anyE_ok sn st HS HA (s_reqHyps st) (fun h I => I)) as [b [B1 B2]].
      set (skip := b && ((f_maxE E <? d) || existsb (fun v => negb (memb v (s_math st))) (s_reqVars st))).
      assert (SK : eSkip E d st = Ok skip) by (unfold eSkip; rewrite B1; reflexivity).
      destruct skip eqn:SKE.
      { apply (NO True).
        - intros [st' [sg [U [HE _]]]]. pose proof (UNI st' (us_stmt _ _ _ U)) as X. subst st'. unfold skip in SKE. apply andb_true_iff in SKE. destruct SKE as [S1 S2].
          destruct (HE (proj1 B2 S1)) as [H1 H2]. apply orb_true_iff in S2. destruct S2 as [S2|S2]; [lia|]. apply existsb_exists in S2. destruct S2 as [v [I S2]].
          pose proof (proj2 (memb_in v (s_math st)) (H2 v I)) as X. rewrite X in S2. discriminate S2.
        - intros fuel. unfold tryStmt. rewrite STO. cbn [rbind]. rewrite FB. cbn [rbind negb]. rewrite AV, SK. reflexivity. }
      assert (HV : forall v, In v (s_reqVars st) -> In v (s_math st)).
      { unfold skip in SKE. destruct b.
        - cbn [andb] in SKE. apply orb_false_iff in SKE. destruct SKE as [_ S2]. intros v I. apply memb_in. destruct (memb v (s_math st)) eqn:X; [reflexivity|].
          assert (existsb (fun v => negb (memb v (s_math st))) (s_reqVars st) = true) by (apply existsb_exists; exists v; split; [exact I|rewrite X; reflexivity]). congruence.
        - apply (fo_vars E T FO sn st HS HA). intros X. apply B2 in X. discriminate X. }
      pose proof (dummies_ok E st (s_math st) (math_ok E T FO sn st HS HA)) as D1.
      pose proof (schemes_ok E T FO sn st HS HA (s_reqHyps st) (fun h I => I)) as D2.
      set (scheme := map (dum E st) (s_math st)) in *. set (schemes := map (fun h => map (dum E st) (hypMath E h)) (s_reqHyps st)) in *.
      pose proof (ok_in E T FO sn st HS HA HV m GM) as OKI. fold scheme in OKI.
      destruct (first_ends e scheme m OKI (f_on E) 1) as [[r tc] [k1 [G1 R1]]]. unfold goodH in G1. cbn [fst] in G1.
      assert (STEP : forall fuel, k1 <= fuel -> tryStmt fuel E (rec fuel) d m sn s = tryLoop fuel fuel E (rec fuel) sn scheme m schemes r tc (seq 0 (length (s_reqHyps st))) (repeat [] (length (s_reqHyps st))) s).
      { intros fuel L. unfold tryStmt. rewrite STO. cbn [rbind]. rewrite FB. cbn [rbind negb]. rewrite AV, SK. cbn [rbind]. rewrite D1. cbn [rbind]. rewrite D2. cbn [rbind]. rewrite (R1 fuel L). reflexivity. }
      assert (NOUSE : forall l, allAnswersH e (f_on E) scheme m l -> (forall h, In h l -> failed st h) -> ~ usesAt sn m).
      { intros l AL FA' [st' [sg [U [_ [OV [KD EQ]]]]]]. pose proof (UNI st' (us_stmt _ _ _ U)) as X. subst st'. exact (failed_all sn st m US HV GM l sg AL FA' EQ OV KD). }
      destruct r as [| |h].
      - exists (None, s), (S k1). split; [split; [apply later_refl, IN|]|intros fuel L; rewrite STEP by lia; destruct fuel; [lia|reflexivity]].
        right. apply (NOUSE []); [econstructor; apply (R1 k1), le_n|intros h []].
      - exists (None, note s MTimeout), (S k1). assert (NE' : fs_msgs (note s MTimeout) <> []) by (unfold note; cbn [fs_msgs]; destruct (fs_msgs s); discriminate).
        split; [split; [split; [split; intros _; exact NE'|intros _; exact NE']|left; exact NE']|]. intros fuel L. rewrite STEP by lia. destruct fuel; [lia|reflexivity].
      - destruct (tryLoop_ok sn st m US HV GM h tc [] (seq 0 (length (s_reqHyps st))) (repeat [] (length (s_reqHyps st))) s) as [q [k2 [[Q1 Q2] R2]]]; [econstructor; apply (R1 k1), le_n|right; intros h' []|reflexivity|apply repeat_length|exact IN|].
        exists q, (k1 + k2). split; [|intros fuel L; rewrite STEP by lia; apply R2; lia]. split; [exact Q1|]. destruct (fst q) as [p|]; [exact Q2|].
        destruct Q2 as [Q2|[l [Q2 Q3]]]; [left; exact Q2|right; exact (NOUSE l Q2 Q3)].
    Qed.

    (* ---------- all statements ---------- *)
    Lemma scan_ok m : goal E m -> forall k s, k < f_n E -> Inv s ->
      endsWith (fun fuel => scanStmts k fuel E (rec fuel) d m s) (fun q => later s (snd q) /\ (fst q <> [] -> found (fst q) m) /\ (fst q = [] -> fs_msgs (snd q) <> [] \/ forall sn, 1 <= sn <= k -> ~ usesAt sn m)).
    Proof.
      intros GM. induction k as [|k IH]; intros s L IN.
      - exists ([], s), 0. split; [|reflexivity]. split; [apply later_refl, IN|]. split; [intros X; destruct (X eq_refl)|]. intros _. right. intros sn X. lia.
      - destruct (tryStmt_ok (S k) m s ltac:(lia) GM IN) as [[o s1] [k1 [[P1 P2] R1]]]. cbn [fst snd] in P1, P2. destruct o as [p|].
        + exists (p, s1), k1. split; [|intros fuel Lf; cbn [scanStmts]; rewrite (R1 fuel Lf); reflexivity]. split; [exact P1|]. split; [apply P2|]. intros X. left. apply P2, X.
        + destruct (IH s1 ltac:(lia) (proj1 P1)) as [q [k2 [[Q1 [Q2 Q3]] R2]]]. exists q, (k1 + k2).
          split; [|intros fuel Lf; cbn [scanStmts]; rewrite (R1 fuel) by lia; apply R2; lia]. split; [exact (later_trans _ _ _ P1 Q1)|]. split; [exact Q2|]. intros X.
          destruct (Q3 X) as [Y|Y]; [left; exact Y|]. destruct P2 as [P2|P2]; [left; exact (proj2 Q1 P2)|]. right. intros sn LS. destruct (Nat.eq_dec sn (S k)) as [->|N]; [exact P2|]. apply Y. lia.
    Qed.
  End Level.

  (* ---------- the whole search ---------- *)
  Lemma hypScan_ok m : forall hyps, (forall h, In h hyps -> ownHyp E h) -> exists o, hypScan db m hyps = Ok o /\
    match o with Some h => In h hyps /\ exists sh, stmtAt db h sh /\ s_math sh = m | None => forall h sh, In h hyps -> stmtAt db h sh -> s_math sh <> m end.
  Proof.
    induction hyps as [|h hyps IH]; intros H; [exists None; split; [reflexivity|intros h sh []]|].
    destruct (fo_hyps E T FO h (H h (or_introl eq_refl))) as [sh [K1 K2]]. cbn [hypScan]. unfold stmtOf. unfold stmtAt in K1. rewrite K1. cbn [rget rbind].
    destruct (nmbrEqb m (s_math sh)) eqn:X.
    - apply nmbrEqb_eq in X. exists (Some h). split; [reflexivity|]. split; [left; reflexivity|]. exists sh. split; [exact K1|auto].
    - destruct (IH (fun h' I => H h' (or_intror I))) as [o [O1 O2]]. exists o. split; [exact O1|]. destruct o as [h'|]; [destruct O2 as [A B]; split; [right; exact A|exact B]|].
      intros h' sh' [<-|I] Y; [|exact (O2 h' sh' I Y)]. unfold stmtAt in Y. rewrite K1 in Y. injection Y as <-. intros Z. rewrite <- Z in X. pose proof (proj2 (nmbrEqb_eq (s_math sh) (s_math sh)) eq_refl). congruence.
  Qed.
  Lemma selfScan_ok m : forall k, k <= length (f_pf E) -> exists o, selfScan db (f_pf E) (f_tg E) m k = Ok o /\ match o with Some p => p <> [] /\ found p m | None => True end.
  Proof.
    induction k as [|i IH]; intros L; [exists None; split; reflexivity|]. destruct (IH ltac:(lia)) as [o [O1 O2]].
    pose proof (fo_pip E T FO) as P. destruct T as [t|] eqn:ET; [|rewrite P in L; cbn in L; lia]. destruct P as [P1 [P2 P3]].
    cbn [selfScan]. destruct (get_ok (f_tg E) i ltac:(lia)) as [tgt [G1 G2]]. rewrite G1. cbn [rbind].
    destruct (nmbrEqb m tgt) eqn:X; [|eauto]. apply nmbrEqb_eq in X. subst tgt.
    destruct (nodeAt_total t i) as [path [u N]]; [rewrite P2 in L; exact L|]. assert (SN : subproofLen db (f_pf E) i = Ok (sz u)) by (rewrite P2; exact (subLen_node db t i path u P1 N)). rewrite SN. cbn [rbind].
    destruct (node_split t i path u N) as [a [b [EA LA]]].
    assert (SL : firstn (sz u) (skipn (i + 1 - sz u) (f_pf E)) = rpn u).
    { rewrite P2, EA. replace (i + 1 - sz u) with (length a) by lia. rewrite skipn_app, skipn_all, Nat.sub_diag, skipn_O. cbn [app].
      unfold sz. rewrite firstn_app, firstn_all, Nat.sub_diag, firstn_O, app_nil_r. reflexivity. }
    rewrite SL. destruct (existsb (Z.eqb zUnk) (rpn u)) eqn:Q; [eauto|]. exists (Some (rpn u)). split; [reflexivity|].
    split; [intros Z; pose proof (sz_pos u) as Y; unfold sz in Y; rewrite Z in Y; cbn in Y; lia|]. exists u. split; [reflexivity|].
    eapply pr_known with (t := t); [exact ET|exact N| |exact G2]. intros I. assert (existsb (Z.eqb zUnk) (rpn u) = true) by (apply existsb_exists; exists zUnk; split; [exact I|apply Z.eqb_refl]). congruence.
  Qed.

  Lemma note_ne s x : fs_msgs (note s x) <> []. Proof. unfold note. cbn [fs_msgs]. destruct (fs_msgs s); discriminate. Qed.
  Lemma ne_later s s' : fs_msgs s' <> [] -> later s s'.
  Proof. intros H. split; [split; intros _; exact H|intros _; exact H]. Qed.
  Lemma prove_ok : forall left, left <= MAX_DEPTH -> forall m s, goal E m -> Inv s -> endsWith (fun fuel => prove left fuel E m s) (post (S MAX_DEPTH - left) m s).
  Proof.
    induction left as [|left IH]; intros LE m s GM IN.
    - set (s' := if 0 =? MAX_DEPTH then mkS 0 false (fs_msgs s) else mkS (S (fs_trials s)) (fs_mde s) (fs_msgs s)).
      assert (MM : fs_msgs s' = fs_msgs s) by (unfold s'; destruct (0 =? MAX_DEPTH); reflexivity).
      destruct (f_limit E <? fs_trials s') eqn:E1.
      { exists ([], note s' MLimit), 0. split; [split; [apply ne_later, note_ne|]; split; [intros X; destruct (X eq_refl)|intros _; left; apply note_ne]|].
        intros fuel _. cbn [prove]. fold s'. rewrite E1. reflexivity. }
      destruct (fs_mde s') eqn:E2.
      { assert (NE : fs_msgs s' <> []) by (rewrite MM; apply (proj1 IN); exact E2).
        exists ([], s'), 0. split; [split; [apply ne_later, NE|]; split; [intros X; destruct (X eq_refl)|intros _; left; exact NE]|]. intros fuel _. cbn [prove]. fold s'. rewrite E1, E2. reflexivity. }
      exists ([], note (mkS (fs_trials s') true (fs_msgs s')) MLoop), 0. split; [split; [apply ne_later, note_ne|]; split; [intros X; destruct (X eq_refl)|intros _; left; apply note_ne]|].
      intros fuel _. cbn [prove]. fold s'. rewrite E1, E2. reflexivity.
    - set (s' := if S left =? MAX_DEPTH then mkS 0 false (fs_msgs s) else mkS (S (fs_trials s)) (fs_mde s) (fs_msgs s)).
      assert (MM : fs_msgs s' = fs_msgs s) by (unfold s'; destruct (S left =? MAX_DEPTH); reflexivity).
      destruct (f_limit E <? fs_trials s') eqn:E1.
      { exists ([], note s' MLimit), 0. split; [split; [apply ne_later, note_ne|]; split; [intros X; destruct (X eq_refl)|intros _; left; apply note_ne]|].
        intros fuel _. cbn [prove]. fold s'. rewrite E1. reflexivity. }
      destruct (fs_mde s') eqn:E2.
      { assert (NE : fs_msgs s' <> []).
        { rewrite MM. apply (proj1 IN). unfold s' in E2. destruct (S left =? MAX_DEPTH); [discriminate E2|exact E2]. }
        exists ([], s'), 0. split; [split; [apply ne_later, NE|]; split; [intros X; destruct (X eq_refl)|intros _; left; exact NE]|]. intros fuel _. cbn [prove]. fold s'. rewrite E1, E2. reflexivity. }
      assert (IN' : Inv s') by (split; intros X; [congruence|lia]).
      assert (LT : later s s') by (split; [exact IN'|rewrite MM; auto]).
      destruct (fo_n E T FO) as [stn HN]. assert (STO : stmtOf db (f_n E) = Ok stn) by (unfold stmtOf; unfold stmtAt in HN; rewrite HN; reflexivity).
      destruct (hypScan_ok m (s_reqHyps stn) ltac:(intros h I; exists stn; auto)) as [a [A1 A2]].
      assert (PRE : forall fuel, prove (S left) fuel E m s = match a with Some h => Ok ([Z.of_nat h], s') | None => do b <- hypScan db m (s_optHyps stn); match b with Some h => Ok ([Z.of_nat h], s')
                | None => do c <- selfScan db (f_pf E) (f_tg E) m (length (f_pf E)); match c with Some p => Ok (p, s') | None => scanStmts (f_n E - 1) fuel E (prove left fuel E) (S MAX_DEPTH - S left) m s' end end end).
      { intros fuel. cbn [prove]. fold s'. rewrite E1, E2, STO. cbn [rbind]. rewrite A1. reflexivity. }
      assert (HYP : forall h sh, ownHyp E h -> stmtAt db h sh -> s_math sh = m -> post (S MAX_DEPTH - S left) m s ([Z.of_nat h], s')).
      { intros h sh O Y Z. split; [exact LT|]. cbn [fst snd]. split; [|discriminate]. intros _. exists (Node (Z.of_nat h) []). split; [reflexivity|]. rewrite <- Z. apply pr_hyp; assumption. }
      destruct a as [h|].
      { destruct A2 as [A2 [sh [A3 A4]]]. exists ([Z.of_nat h], s'), 0. split; [apply (HYP h sh); [exists stn; auto|exact A3|exact A4]|intros fuel _; apply PRE]. }
      destruct (hypScan_ok m (s_optHyps stn) ltac:(intros h I; exists stn; auto)) as [b [B1 B2]]. rewrite B1 in PRE. cbn [rbind] in PRE.
      destruct b as [h|].
      { destruct B2 as [B2 [sh [B3 B4]]]. exists ([Z.of_nat h], s'), 0. split; [apply (HYP h sh); [exists stn; auto|exact B3|exact B4]|intros fuel _; apply PRE]. }
      destruct (selfScan_ok m (length (f_pf E)) (le_n _)) as [c [C1 C2]]. rewrite C1 in PRE. cbn [rbind] in PRE.
      destruct c as [p|].
      { exists (p, s'), 0. split; [|intros fuel _; apply PRE]. split; [exact LT|]. cbn [fst snd]. split; [intros _; apply C2|intros X; destruct (proj1 C2 X)]. }
      assert (REC : forall m s, goal E m -> Inv s -> endsWith (fun fuel => prove left fuel E m s) (post (S (S MAX_DEPTH - S left)) m s)).
      { intros m' s1 G1 I1. replace (S (S MAX_DEPTH - S left)) with (S MAX_DEPTH - left) by lia. apply IH; [lia|exact G1|exact I1]. }
      assert (LN : f_n E - 1 < f_n E \/ f_n E = 0) by lia. destruct LN as [LN|LN].
      + destruct (scan_ok (fun fuel => prove left fuel E) (S MAX_DEPTH - S left) REC m GM (f_n E - 1) s' LN IN') as [q [k [[Q1 [Q2 Q3]] R]]].
        exists q, k. split; [|intros fuel L; rewrite PRE; apply R, L]. split; [exact (later_trans _ _ _ LT Q1)|]. split; [exact Q2|]. intros X. destruct (Q3 X) as [Y|Y]; [left; exact Y|right].
        intros D. inversion D as [d0 h sh O1 O2 O3 O4|d0 sn st sg U HE OV KD O3 O4]; subst.
        * destruct O1 as [stn' [N' O1]]. unfold stmtAt in HN, N'. rewrite HN in N'. injection N' as <-. destruct O1 as [O1|O1]; [exact (A2 h sh O1 O2 eq_refl)|exact (B2 h sh O1 O2 eq_refl)].
        * apply (Y sn); [pose proof (us_range _ _ _ U); lia|]. exists st, sg. auto.
      + exists ([], s'), 0. split; [|intros fuel _; rewrite PRE, LN; reflexivity]. split; [exact LT|]. split; [intros X; destruct (X eq_refl)|]. intros _. right.
        intros D. inversion D as [d0 h sh O1 O2 O3 O4|d0 sn st sg U HE OV KD O3 O4]; subst.
        * destruct O1 as [stn' [N' O1]]. unfold stmtAt in HN, N'. rewrite HN in N'. injection N' as <-. destruct O1 as [O1|O1]; [exact (A2 h sh O1 O2 eq_refl)|exact (B2 h sh O1 O2 eq_refl)].
        * pose proof (us_range _ _ _ U). lia.
  Qed.

  Lemma float_ok m : goal E m -> endsWith (fun fuel => proveFloating fuel E m) (fun q => (fst q <> [] -> found (fst q) m) /\ (fst q = [] -> snd q <> [] \/ ~ derivable_at E 1 m)).
  Proof.
    intros GM. destruct (prove_ok MAX_DEPTH (le_n _) m (mkS 0 false []) GM) as [q [k [[_ [Q1 Q2]] R]]]; [split; cbn [fs_mde fs_trials]; intros X; [discriminate X|lia]|].
    exists (fst q, fs_msgs (snd q)), k. split; [split; [exact Q1|exact Q2]|]. intros fuel L. unfold proveFloating. rewrite (R fuel L). reflexivity.
  Qed.
End Main.
