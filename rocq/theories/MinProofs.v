(* MinProofs.v -- proofs about MinModel *)
From Coq Require Import ZifyBool ZifyNat.
From Verif Require Import Base.
From Verif Require Import UniModel UniSpec UniProofs HenModel HenProofs.
From Verif Require Import MMSpec VerModel VerSpec VerProofs ParModel SqModel SqSpec SqProofs SqAttr SqValid PfaModel PfaSpec PfaProofs PfaMore PfaHist FltModel FltSpec FltProofs FltMain FltVal RepModel RepSpec RepProofs RepMain AkModel AkSpec AkProofs AkMain AkTop MinModel MinSpec.
Open Scope nat_scope.

(* ---------- nodes after a replacement ---------- *)
Section Put.
  Variables (db : dbase) (ok : list nat -> Prop).
  Lemma put_shows v T path T' : putAt v T path T' -> forall k u, nodeAt T k path u -> (forall y, shows db ok u y -> shows db ok v y) -> forall x, shows db ok T x -> shows db ok T' x.
  Proof.
    induction 1 as [t|z ks1 kd ks2 path k' P IH]; intros k u N V x S.
    - inversion N; subst. exact (V x S).
    - inversion N as [|? ? ? c0 k0 ? ? Nc Q]; subst. rewrite nth_error_app2, Nat.sub_diag in Nc by lia. injection Nc as <-.
      destruct (shows_node _ _ _ _ _ S) as [[h [sh [_ [_ [X _]]]]]|[n [st [xs [sg [A0 [-> [A1 [A2 [A3 [F [A5 [A6 ->]]]]]]]]]]]]]; [destruct ks1; discriminate X|].
      apply (sh_use db ok n st _ xs sg A0 A1 A2 A3); [|exact A5|exact A6].
      apply Forall2_app_inv_l in F. destruct F as [e1 [e2 [F1 [F2 ->]]]]. inversion F2 as [|? ek ? ? G1 G2]; subst.
      apply Forall2_app; [exact F1|]. constructor; [|exact G2]. exact (IH k0 u Q V ek G1).
  Qed.
  Lemma put_len v T path T' : putAt v T path T' -> forall k u, nodeAt T k path u -> sz T' + sz u = sz T + sz v.
  Proof.
    induction 1 as [t|z ks1 kd ks2 path k' P IH]; intros k u N.
    - inversion N; subst. lia.
    - inversion N as [|? ? ? c0 k0 ? ? Nc Q]; subst. rewrite nth_error_app2, Nat.sub_diag in Nc by lia. injection Nc as <-. specialize (IH k0 u Q).
      cbn [rpn]. rewrite !flat_map_app. cbn [flat_map]. rewrite !app_length. cbn [length]. lia.
  Qed.
  Lemma fm_app j (a b : list tree) : length (flat_map rpn (firstn (length a + j) (a ++ b))) = length (flat_map rpn a) + length (flat_map rpn (firstn j b)).
  Proof. rewrite firstn_app_2, flat_map_app, app_length. reflexivity. Qed.
  Lemma put_nodes v T path T' : putAt v T path T' -> forall k u, nodeAt T k path u -> (forall y, shows db ok u y -> shows db ok v y) -> forall k' p' w', nodeAt T' k' p' w' ->
    (k + 1 - sz u <= k' < k + 1 - sz u + sz v) \/
    exists w, nodeAt T (if k' <? k + 1 - sz u then k' else k' + sz u - sz v) p' w /\ forall y, shows db ok w y -> shows db ok w' y.
  Proof.
    induction 1 as [t|z ks1 kd ks2 path c' P IH]; intros k u N V k' p' w' M.
    - left. apply nodeAt_bound in M. inversion N; subst. pose proof (sz_pos u). lia.
    - assert (PP : putAt v (Node z (ks1 ++ kd :: ks2)) ((z, length ks1) :: path) (Node z (ks1 ++ c' :: ks2))) by (constructor; exact P).
      pose proof (put_len _ _ _ _ PP _ _ N) as LL. pose proof (put_shows _ _ _ _ PP _ _ N V) as SS.
      inversion N as [|? ? ? c0 k0 ? ? Nc Q]; subst. assert (Nc' := Nc). rewrite nth_error_app2, Nat.sub_diag in Nc by lia. injection Nc as <-.
      assert (OFF : forall x : tree, firstn (length ks1) (ks1 ++ x :: ks2) = ks1) by (intros x; rewrite firstn_app, firstn_all, Nat.sub_diag, firstn_O; apply app_nil_r).
      rewrite OFF.
      pose proof (nodeAt_bound _ _ _ _ Q) as BQ. destruct (node_split _ _ _ _ Q) as [a [b [EQ LQ]]]. pose proof (put_len _ _ _ _ P _ _ Q) as LC.
      assert (LT : sz kd = length a + sz u + length b) by (rewrite EQ, !app_length; lia). pose proof (sz_pos u) as SU. pose proof (sz_pos v) as SV.
      inversion M as [t0|z0 ks j c q pa w Nj Mj]; subst.
      + right. exists (Node z (ks1 ++ kd :: ks2)). split; [|exact SS].
        assert (LT2 : sz (Node z (ks1 ++ kd :: ks2)) = length (flat_map rpn ks1) + sz kd + length (flat_map rpn ks2) + 1).
        { cbn [rpn]. rewrite !flat_map_app. cbn [flat_map]. rewrite !app_length. cbn [length]. lia. }
        replace (sz (Node z (ks1 ++ c' :: ks2)) - 1 <? length (flat_map rpn ks1) + k0 + 1 - sz u) with false by lia.
        replace (sz (Node z (ks1 ++ c' :: ks2)) - 1 + sz u - sz v) with (sz (Node z (ks1 ++ kd :: ks2)) - 1) by lia. constructor.
      + destruct (lt_eq_lt_dec j (length ks1)) as [[L|L]|L].
        * right. exists w'. split; [|auto]. rewrite nth_error_app1 in Nj by lia. pose proof (nodeAt_bound _ _ _ _ Mj) as B.
          assert (B2 : length (flat_map rpn (firstn j ks1)) + sz c <= length (flat_map rpn ks1)).
          { clear -Nj. apply nth_error_split in Nj. destruct Nj as [l1 [l2 [-> <-]]]. rewrite firstn_app, firstn_all, Nat.sub_diag, firstn_O, app_nil_r, flat_map_app. cbn [flat_map]. rewrite !app_length. lia. }
          rewrite firstn_app in *. replace (j - length ks1) with 0 in * by lia. cbn [firstn] in *. rewrite app_nil_r in *.
          replace (length (flat_map rpn (firstn j ks1)) + q <? length (flat_map rpn ks1) + k0 + 1 - sz u) with true by lia.
          replace (firstn j ks1) with (firstn j (ks1 ++ kd :: ks2)) by (rewrite firstn_app; replace (j - length ks1) with 0 by lia; cbn [firstn]; apply app_nil_r).
          eapply na_kid; [|exact Mj]. rewrite nth_error_app1 by lia. exact Nj.
        * subst j. rewrite nth_error_app2, Nat.sub_diag in Nj by lia. injection Nj as <-. rewrite OFF in *.
          destruct (le_lt_dec (k0 + 1 - sz u) q) as [L1|L1]; [destruct (lt_dec q (k0 + 1 - sz u + sz v)) as [L2|L2]; [left; lia|]|];
            (destruct (IH k0 u Q V q pa w' Mj) as [R|[w [W1 W2]]]; [lia|]; right; exists w; split; [|exact W2];
             pose proof (na_kid z (ks1 ++ kd :: ks2) (length ks1) kd _ _ _ Nc' W1) as X; rewrite OFF in X).
          -- replace (q <? k0 + 1 - sz u) with false in X by lia. replace (length (flat_map rpn ks1) + q <? length (flat_map rpn ks1) + k0 + 1 - sz u) with false by lia.
             replace (length (flat_map rpn ks1) + q + sz u - sz v) with (length (flat_map rpn ks1) + (q + sz u - sz v)) by lia. exact X.
          -- replace (q <? k0 + 1 - sz u) with true in X by lia. replace (length (flat_map rpn ks1) + q <? length (flat_map rpn ks1) + k0 + 1 - sz u) with true by lia. exact X.
        * right. exists w'. split; [|auto]. destruct (j - length ks1) as [|d] eqn:D; [lia|]. assert (EJ : j = length ks1 + S d) by lia. subst j. rewrite nth_error_app2 in Nj by lia.
          replace (length ks1 + S d - length ks1) with (S d) in Nj by lia. cbn [nth_error] in Nj. rewrite fm_app. cbn [firstn flat_map]. rewrite app_length.
          replace (length (flat_map rpn ks1) + (sz c' + length (flat_map rpn (firstn d ks2))) + q <? length (flat_map rpn ks1) + k0 + 1 - sz u) with false by lia.
          replace (length (flat_map rpn ks1) + (sz c' + length (flat_map rpn (firstn d ks2))) + q + sz u - sz v) with (length (flat_map rpn (firstn (length ks1 + S d) (ks1 ++ kd :: ks2))) + q)
            by (rewrite fm_app; cbn [firstn flat_map]; rewrite app_length; lia).
          eapply na_kid; [|exact Mj]. rewrite nth_error_app2 by lia. replace (length ks1 + S d - length ks1) with (S d) by lia. exact Nj.
  Qed.
End Put.

Section Min.
  Variables (E : fenv) (repl : nat) (st : stmtRec).
  Hypothesis MO : minOk E repl st.
  Notation db := (f_db E).
  Let FO := mo_flt _ _ _ MO.
  Lemma flt_at s T : wfTree db T -> pf s = rpn T -> length (tg s) = length (pf s) -> fltOk (envAt E s) (Some T).
  Proof.
    intros W P L. destruct FO as [F1 F2 F3 F4 F5 F6 F7 F8 F9 F10]. constructor; [exact F1|exact F2|exact F3|exact F4|exact F5|exact F6|exact F7|exact F8|cbn; lia|].
    split; [exact W|]. split; [exact P|]. cbn [envAt f_tg f_pf]. rewrite map_length. exact L.
  Qed.
  Lemma shows_expr u y : shows db anything u y -> (exists c r, y = c :: r /\ c < db_sep db) /\ (forall t, In t y -> t < db_sep db).
  Proof.
    intros S. destruct (proj2 (plain_shows E None FO (mo_plain _ _ _ MO) u y S)) as [c [w [-> _]]]. pose proof (shows_tok E None FO anything u _ S) as H. rewrite (fo_mt E None FO) in H.
    split; [|exact H]. exists c, w. split; [reflexivity|]. apply H. left. reflexivity.
  Qed.

  (* ---------- checkStmtMatch ---------- *)
  Lemma repl_math : exists c r, s_math st = c :: r /\ db_isvar db c = false.
  Proof. exact (wf_head db (fo_wf E None FO) repl st (mo_stmt _ _ _ MO) (or_intror (mo_type _ _ _ MO))). Qed.
  Lemma repl_vars : varsOk E st (s_math st).
  Proof.
    intros t I. split; [intros V; exact (wf_vars_math db (fo_wf E None FO) repl st (mo_stmt _ _ _ MO) (mo_type _ _ _ MO) t I V)|].
    exact (fo_tok E None FO repl st t (mo_stmt _ _ _ MO) (or_intror (mo_type _ _ _ MO)) I).
  Qed.
  Notation e := (f_u E).
  Notation mt := (u_mt (f_u E)).
  Definition exprn (t : list nat) : Prop := (exists c r, t = c :: r /\ c <= mt) /\ ~ In mt t.
  Lemma exprn_of t : expression db t -> exprn t.
  Proof. intros [[c [r [-> L]]] N]. rewrite <- (fo_mt E None FO) in *. split; [exists c, r; split; [reflexivity|lia]|exact N]. Qed.
  Lemma exprn_two X t : exprn X -> exprn t -> okInput e X t.
  Proof.
    intros [[c [r [-> L]]] N] [[c' [r' [-> L']]] N']. constructor; try discriminate.
    - rewrite (fo_mt E None FO). apply (fo_con E None FO).
    - rewrite !(proj1 (count_occ_not_In _ _ _)) by assumption. reflexivity.
    - apply (fo_min E None FO).
    - right. intros x [H|H]; injection H as <-; assumption.
  Qed.
  Lemma scheme_expr : exprn (map (dum E st) (s_math st)).
  Proof.
    pose proof repl_math as [c [r [EQ V]]]. pose proof repl_vars as H. split.
    - exists c, (map (dum E st) r). rewrite EQ. cbn [map]. rewrite dum_low by exact V. split; [reflexivity|]. rewrite (fo_mt E None FO). pose proof (proj2 (H c ltac:(rewrite EQ; left; reflexivity))). lia.
    - intros I. apply in_map_iff in I. destruct I as [u [X I]]. destruct (H u I) as [K1 K2]. destruct (db_isvar db u) eqn:Q.
      + destruct (dum_var E st u Q (K1 eq_refl)) as [i [Y _]]. unfold base in Y. lia.
      + rewrite dum_low in X by exact Q. rewrite (fo_mt E None FO) in X. lia.
  Qed.
  Lemma two_ends E' scheme target user : f_u E' = f_u E -> exprn scheme -> exprn target -> (user = [] \/ exprn user) ->
    exists c K, forall fuel, K <= fuel -> twoMatches fuel E' scheme target user = Ok c.
  Proof.
    intros EU HS HT HU. unfold twoMatches. rewrite EU. destruct (first_ends e target scheme (exprn_two _ _ HT HS) (f_on E') 1) as [r [K1 [_ R1]]].
    assert (U : exists c K, forall fuel, K <= fuel -> (match user with [] => Ok 1 | _ => do x <- unifyH fuel e (f_on E') user scheme 1; Ok (flagOf (fst x)) end) = Ok c).
    { destruct HU as [->|HU]; [exists 1, 0; reflexivity|]. destruct (first_ends e user scheme (exprn_two _ _ HU HS) (f_on E') 1) as [r2 [K2 [_ R2]]]. destruct user as [|t user]; [exists 1, 0; reflexivity|].
      exists (flagOf (fst r2)), K2. intros fuel L. rewrite (R2 fuel L). reflexivity. }
    destruct U as [c [K2 R2]]. eexists. exists (Nat.max K1 K2). intros fuel L. rewrite (R1 fuel) by lia. cbn [rbind]. rewrite (R2 fuel) by lia. cbn [rbind].
    instantiate (1 := if (flagOf (fst r) =? 0) || (c =? 0) then 0 else if (flagOf (fst r) =? 1) && (c =? 1) then 1 else 2).
    destruct ((flagOf (fst r) =? 0) || (c =? 0)); [reflexivity|]. destruct ((flagOf (fst r) =? 1) && (c =? 1)); reflexivity.
  Qed.
  Lemma dummies_at s l : dummies (envAt E s) st l = dummies E st l.
  Proof. induction l as [|t l IH]; [reflexivity|]. cbn [dummies]. rewrite IH. reflexivity. Qed.
  Lemma match_ends s target user : exprn target -> (user = [] \/ exprn user) -> exists c K, forall fuel, K <= fuel -> checkStmtMatch fuel (envAt E s) repl target user = Ok c.
  Proof.
    intros HT HU. destruct HT as [[t0 [tr [-> Lt]]] NT]. assert (HT : exprn (t0 :: tr)) by (split; [exists t0, tr; auto|exact NT]).
    destruct repl_math as [c0 [cr [EM V]]]. unfold checkStmtMatch. unfold stmtOf. cbn [envAt f_db]. pose proof (mo_stmt _ _ _ MO) as S. unfold stmtAt in S. rewrite S. cbn [rget rbind].
    assert (X : exists c K, forall fuel, K <= fuel -> (do d <- symbolsDiffer (f_u E) (s_math st) (t0 :: tr);
      if (d : bool) then Ok 0 else do scheme <- dummies (envAt E s) st (s_math st); twoMatches fuel (envAt E s) scheme (t0 :: tr) user) = Ok c).
    { assert (Y : exists d, symbolsDiffer (f_u E) (s_math st) (t0 :: tr) = Ok d).
      { unfold symbolsDiffer. rewrite EM. destruct (_ && negb (c0 =? t0)); [eexists; reflexivity|]. destruct (negb (last (c0 :: cr) 0 =? last (t0 :: tr) 0) && _ && _); [eexists; reflexivity|]. destruct cr, tr; eexists; reflexivity. }
      destruct Y as [d ->]. cbn [rbind]. destruct d; [exists 0, 0; reflexivity|].
      rewrite dummies_at, (dummies_ok E st (s_math st) repl_vars). cbn [rbind].
      exact (two_ends (envAt E s) _ _ user eq_refl scheme_expr HT HU). }
    destruct X as [c [K X]]. exists c, K. intros fuel L. specialize (X fuel L). destruct (mo_type _ _ _ MO) as [-> | ->]; exact X.
  Qed.

  (* ---------- the statement found is right ---------- *)
  Section At.
    Variables (s : pip) (T : tree).
    Hypothesis CO : complete E s T.
    Let PO := co_pip _ _ _ CO.
    Let FOS : fltOk (envAt E s) (Some T) := flt_at s T (po_tree _ _ _ PO) (po_rpn _ _ _ PO) (po_tg _ _ _ PO).
    Lemma tg_at k path u : nodeAt T k path u -> exists y, shows db anything u y /\ nth_error (tg s) k = Some (toZ y) /\ nth_error (f_tg (envAt E s)) k = Some y.
    Proof.
      intros N. destruct (co_steps _ _ _ CO k path u N) as [y [Y1 Y2]]. exists y. split; [exact Y1|]. split; [exact Y2|]. cbn [envAt f_tg]. rewrite nth_error_map, Y2. cbn [option_map]. rewrite to_of. reflexivity.
    Qed.
    Lemma codes_nat z : In z (rpn T) -> (0 <= z)%Z.
    Proof.
      intros I. apply In_nth_error in I. destruct I as [k H]. destruct (nodeAt_total T k) as [path [u N]]; [apply nth_error_Some; congruence|]. destruct (co_steps _ _ _ CO k path u N) as [y [Y _]].
      destruct (node_split _ _ _ _ N) as [a [b [ES LS]]]. destruct u as [z' kids]. cbn [rpn] in *. rewrite app_length in LS. cbn [length] in LS. rewrite ES, !app_assoc in H. rewrite <- !app_assoc in H.
      rewrite app_assoc, nth_error_app2 in H by (rewrite app_length; lia). rewrite app_length in H. replace (k - (length a + length (flat_map rpn kids))) with 0 in H by lia. cbn in H. injection H as ->.
      destruct (shows_node _ _ _ _ _ Y) as [[h [sh [_ [-> _]]]]|[n [st' [xs [sg [_ [-> _]]]]]]]; lia.
    Qed.
    Lemma all_known k path u : nodeAt T k path u -> finished u.
    Proof. intros N I. destruct (node_split _ _ _ _ N) as [a [b [ES _]]]. pose proof (codes_nat zUnk ltac:(rewrite ES; apply in_app_iff; right; apply in_app_iff; left; exact I)). unfold zUnk in *. lia. Qed.
    Lemma rep_at step m : nth_error (f_tg (envAt E s)) step = Some m -> goal (envAt E s) m -> repOk (envAt E s) T repl st step m true false.
    Proof.
      intros HM G. constructor.
      - exact FOS.
      - exact (po_norefs _ _ _ PO).
      - intros z I. left. exact (codes_nat z I).
      - exact HM.
      - exact G.
      - intros t I. apply In_nth_error in I. destruct I as [k H]. assert (L : k < length (rpn T)).
        { assert (k < length (f_tg (envAt E s))) by (apply nth_error_Some; congruence). cbn [envAt f_tg] in *. rewrite map_length, (po_tg _ _ _ PO), (po_rpn _ _ _ PO) in *. assumption. }
        destruct (nodeAt_total T k L) as [path [u N]]. destruct (tg_at k path u N) as [y [Y1 [_ Y3]]]. rewrite H in Y3. injection Y3 as <-. destruct (shows_expr u t Y1) as [A B]. split; [exact A|]. intros J. apply B in J. cbn in J. lia.
      - constructor; [exact (mo_stmt _ _ _ MO)|exact (mo_range _ _ _ MO)|exact (mo_type _ _ _ MO)|discriminate|discriminate|discriminate].
      - exact (mo_vars _ _ _ MO).
      - discriminate.
      - intros _ k path u t N _ _ H x I. destruct (tg_at k path u N) as [y [Y1 [_ Y3]]]. rewrite H in Y3. injection Y3 as <-. exact (proj2 (shows_expr u t Y1) x I).
    Qed.
    Lemma proves_shows t : forall m, proves (envAt E s) (Some T) t m -> shows db anything t m.
    Proof.
      induction t as [z kids IH] using tree_ind2. intros m P. inversion P as [h sh O1 O2 O3 O4|t k path u e' O1 O2 O3 O4 O5 O6|n st' kids' es sg U F UN O3 O4]; subst.
      - destruct (fo_hyps _ _ FOS h O1) as [sh' [K1 K2]]. unfold stmtAt in K1, O2. rewrite O2 in K1. injection K1 as <-. apply sh_hyp; [|exact O2|exact K2]. intros ->. exact (proj1 (mo_zero _ _ _ MO sh O2) K2).
      - injection O1 as <-. destruct (tg_at k path _ O2) as [y [Y1 [_ Y3]]]. rewrite O4 in Y3. injection Y3 as <-. exact Y1.
      - apply (sh_use db anything n st' kids es sg); [pose proof (us_range _ _ _ U); lia|exact (us_stmt _ _ _ U)|exact (us_type _ _ _ U)|exact (mo_floated _ _ _ MO n st' (us_stmt _ _ _ U) (us_type _ _ _ U))| |exact UN|intros; exact I].
        rewrite Forall_forall in IH. clear -IH F. induction F as [|k y l l' X F IHF]; constructor; [apply IH; [left; reflexivity|exact X]|]. apply IHF. intros c I. apply IH. right. exact I.
    Qed.
    Lemma proves_earlier t : forall m, proves (envAt E s) (Some T) t m -> onlyEarlier E (pf s) (rpn t).
    Proof.
      induction t as [z kids IH] using tree_ind2. intros m P. inversion P as [h sh O1 O2 O3 O4|t k path u e' O1 O2 O3 O4 O5 O6|n st' kids' es sg U F UN O3 O4]; subst.
      - intros x [<-|[]]. right. exists h. split; [reflexivity|]. left. exact O1.
      - injection O1 as <-. intros x I. left. rewrite (po_rpn _ _ _ PO). exact (sub_in _ _ _ _ O2 x I).
      - intros x I. cbn [rpn] in I. apply in_app_or in I. destruct I as [I|[<-|[]]]; [|right; exists n; split; [reflexivity|right; split; [exact (us_range _ _ _ U)|exists st'; split; [exact (us_stmt _ _ _ U)|exact (us_type _ _ _ U)]]]].
        apply in_flat_map in I. destruct I as [c [I J]]. rewrite Forall_forall in IH. assert (exists y, proves (envAt E s) (Some T) c y) as [y Q]; [|exact (IH c I y Q x J)].
        clear -F I. induction F as [|k y l l' X F IHF]; [destruct I|]. destruct I as [<-|I]; [eauto|exact (IHF I)].
    Qed.
  End At.
End Min.
