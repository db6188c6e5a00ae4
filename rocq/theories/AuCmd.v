(* AuCmd.v -- proofs about AuModel: interactive unification *)
From Coq Require Import ZifyBool ZifyNat.
From Verif Require Import Base.
From Verif Require Import UniModel UniSpec UniCore UniStep UniProofs UniFilter UniTwice HenModel HenProofs HenMore.
From Verif Require Import MMSpec VerModel VerSpec ParModel SqModel SqSpec SqProofs SqAttr PfaModel PfaSpec PfaProofs FltModel FltSpec RepSpec AkModel AkSpec AkProofs AkMain MinModel MinSpec AuModel AuSpec AuProofs AuMain.
From Verif Require Import UniFin UniRun UniAll UniFin.
Open Scope nat_scope.

Section Answers.
  Variables (e : uenv) (A B : list nat).
  Hypothesis OK : okInput e A B.
  Variable on : bool.
  Lemma answers_good : forall k fuel h l tc q, historyH e on A B (h :: l) -> answers k fuel e on A B h tc = Ok (Some q) -> forall x, In x q -> answer e A B (h_s x).
  Proof.
    induction k as [|k IH]; intros fuel h l tc q HI H x I; [discriminate|]. cbn [answers] in H. apply rbind_ok in H. destruct H as [[r t] [N H]]. cbn [fst snd] in H.
    destruct r as [| |h']; [injection H as <-; destruct I|discriminate|]. apply rbind_ok in H. destruct H as [o [R H]]. destruct o as [q'|]; [|discriminate]. injection H as <-.
    assert (HI' : historyH e on A B (h' :: h :: l)) by (eapply hh_next; [exact HI|exact N]).
    destruct I as [<-|I]; [exact (histH_answer e A B OK on _ h' HI' (or_introl eq_refl))|exact (IH fuel h' _ t q' HI' R x I)].
  Qed.
  Lemma answers_end h : answer e A B (h_s h) -> forall tc, exists q K, forall k fuel, K <= k -> K <= fuel -> answers k fuel e on A B h tc = Ok q.
  Proof.
    intros As. pose proof (answer_acc e A B OK (h_s h) As) as K. remember (UDone (h_s h)) as o eqn:Eo. revert h Eo As. induction K as [o _ IH]. intros h -> As tc.
    destruct (next_endsH e A B OK on h tc As) as [r [k [[G1 G2] K]]]. destruct r as [[| |h'] tc']; cbn [fst] in *.
    - exists (Some []), (S k). intros k0 fuel L1 L2. destruct k0; [lia|]. cbn [answers]. rewrite (K fuel) by lia. reflexivity.
    - exists None, (S k). intros k0 fuel L1 L2. destruct k0; [lia|]. cbn [answers]. rewrite (K fuel) by lia. reflexivity.
    - destruct (IH _ G2 h' eq_refl G1 tc') as [q [K' HK]]. exists (option_map (cons h') q), (S (k + K')). intros k0 fuel L1 L2. destruct k0; [lia|]. cbn [answers].
      rewrite (K fuel) by lia. cbn [rbind fst snd]. rewrite HK by lia. reflexivity.
  Qed.
End Answers.

Section Inter.
  Variable E : fenv.
  Hypothesis FO : fltOk E None.
  Notation db := (f_db E).
  Notation e := (f_u E).
  Notation mt := (u_mt (f_u E)).
  Lemma nth_pick {X} (l : list X) i x : nth_error l i = Some x -> In x l.
  Proof. apply nth_error_In. Qed.
  Lemma interactive_ok a b pick : entry E a -> entry E b -> a <> b -> exists o K, (forall k fuel, K <= k -> K <= fuel -> interactiveUnify k fuel E a b pick = Ok o) /\
    (forall h, o = Some h -> answer e (ofZ a) (ofZ b) (h_s h)).
  Proof.
    intros EA EB NE. assert (OK := two_entries E FO a b EA EB). unfold interactiveUnify. replace (strEqb a b) with false by (symmetry; apply Bool.not_true_iff_false; intros Q; apply strEqb_eq in Q; contradiction).
    destruct (first_ends e _ _ OK (f_on E) 1) as [[r t] [K1 [_ R1]]]. destruct r as [| |h].
    - exists None, K1. split; [intros k fuel L1 L2; rewrite (R1 fuel L2); reflexivity|discriminate].
    - exists None, K1. split; [intros k fuel L1 L2; rewrite (R1 fuel L2); reflexivity|discriminate].
    - assert (HI : historyH e (f_on E) (ofZ a) (ofZ b) [h]) by (econstructor; exact (R1 K1 (le_n _))).
      assert (AN := histH_answer e _ _ OK (f_on E) [h] h HI (or_introl eq_refl)).
      destruct (answers_end e _ _ OK (f_on E) h AN t) as [q [K2 R2]].
      pose proof (fun l => answers_good e _ _ OK (f_on E) K2 K2 h [] t l HI) as GD. specialize (R2). pose proof (R2 K2 K2 (le_n _) (le_n _)) as R3.
      exists (match q with None => None | Some [] => Some h | Some l => match pick (h :: l) with Some i => nth_error (h :: l) i | None => None end end), (Nat.max K1 K2).
      split.
      + intros k fuel L1 L2. rewrite (R1 fuel) by lia. cbn [rbind fst snd]. rewrite (R2 k fuel) by lia. cbn [rbind]. destruct q as [[|x l]|]; [reflexivity| |reflexivity]. destruct (pick (h :: x :: l)); reflexivity.
      + intros x Q. destruct q as [l|]; [|discriminate]. assert (I : In x (h :: l)). { destruct l as [|y l]; [injection Q as <-; left; reflexivity|]. destruct (pick (h :: y :: l)); [|discriminate]. exact (nth_error_In _ _ Q). }
        destruct I as [<-|I]; [exact AN|]. exact (GD l R3 x I).
  Qed.
  Lemma subst_answer s a b h : shape E s -> In a (tg s ++ sr s ++ us s) -> In b (tg s ++ sr s ++ us s) -> entry E a -> entry E b -> a <> b ->
    answer e (ofZ a) (ofZ b) (h_s h) -> exists s', makeSubstAll e h s = Ok s' /\ stepTo E s s' true.
  Proof.
    intros SH IA IB EA EB NE AN. assert (OK := two_entries E FO a b EA EB). destruct (answer_spec e _ _ OK (h_s h) AN) as [f [UF G]]. destruct (makeSubstAll_ok E h f s _ _ UF G) as [s' [M SB]].
    exists s'. split; [exact M|]. split; [exists f; exact SB|]. split; [discriminate|]. intros _. apply (fewer E f s s' a b _ SB UF IA IB).
    intros Q. destruct EA as [y [-> _]], EB as [y' [-> _]]. rewrite !to_of in Q. apply NE. congruence.
  Qed.
  Lemma step_ok s step pick : shape E s -> step < length (pf s) -> exists s' c K, (forall k fuel, K <= k -> K <= fuel -> interactiveUnifyStep k fuel E s step pick = Ok (s', c)) /\
    stepTo E s s' c /\ (unified3 s -> s' = s /\ c = false).
  Proof.
    intros SH L. pose proof SH as [[L1 [L2 L3]] [HT [HR HU]]]. destruct (nth_error (tg s) step) as [t|] eqn:T; [|apply nth_error_None in T; lia].
    destruct (nth_error (sr s) step) as [r|] eqn:R; [|apply nth_error_None in R; lia]. destruct (nth_error (us s) step) as [u|] eqn:U; [|apply nth_error_None in U; lia].
    unfold interactiveUnifyStep, get. rewrite T, R, U. cbn [rget rbind].
    assert (NT : t <> []) by (apply (scheme_ne E); exact (HT t (nth_error_In _ _ T))).
    set (ab := match u, r with
                | _ :: _, [] => if strEqb t u then None else Some (t, u)
                | _ :: _, _ :: _ => if strEqb t u then if strEqb r u then None else Some (r, u) else Some (t, u)
                | [], _ :: _ => if strEqb t r then None else Some (t, r)
                | [], [] => None
                end).
    assert (TRL : exists s' c K, (forall k fuel, K <= k -> K <= fuel -> Ok (s, false) = Ok (s', c)) /\ stepTo E s s' c /\ (unified3 s -> s' = s /\ c = false)).
    { exists s, false, 0. split; [reflexivity|]. split; [apply stepTo_refl; exact SH|auto]. }
    assert (NEQ : forall x y, strEqb x y = false -> x <> y) by (intros x y Q EQ; apply strEqb_eq in EQ; congruence).
    assert (X : match ab with None => True | Some (a, b) => In a [t; r; u] /\ In b [t; r; u] /\ a <> [] /\ b <> [] /\ a <> b /\ ~ unified3 s end).
    { unfold ab. destruct u as [|u0 u].
      - destruct r as [|r0 r]; [exact I|]. destruct (strEqb t (r0 :: r)) eqn:Q; [exact I|]. apply NEQ in Q. repeat split; cbn; auto; try discriminate.
        intros UN. apply Q. symmetry. apply (proj1 (UN step _ _ _ T R U)). discriminate.
      - destruct r as [|r0 r].
        + destruct (strEqb t (u0 :: u)) eqn:Q; [exact I|]. apply NEQ in Q. repeat split; cbn; auto; try discriminate. intros UN. apply Q. symmetry. apply (proj2 (UN step _ _ _ T R U)). discriminate.
        + destruct (strEqb t (u0 :: u)) eqn:Q.
          * apply strEqb_eq in Q. destruct (strEqb (r0 :: r) (u0 :: u)) eqn:Q'; [exact I|]. apply NEQ in Q'. repeat split; cbn; auto; try discriminate.
            intros UN. apply Q'. rewrite <- Q. apply (proj1 (UN step _ _ _ T R U)). discriminate.
          * apply NEQ in Q. repeat split; cbn; auto; try discriminate. intros UN. apply Q. symmetry. apply (proj2 (UN step _ _ _ T R U)). discriminate. }
    destruct t as [|t0 t]; [congruence|]. fold ab. destruct ab as [[a b]|]; [|exact TRL].
    destruct X as [IA [IB [NA [NB [NE NU]]]]].
    assert (IN : forall x, In x [t0 :: t; r; u] -> In x (tg s ++ sr s ++ us s)).
    { intros x [<-|[<-|[<-|[]]]]; rewrite !in_app_iff; apply nth_error_In in T, R, U; auto. }
    assert (EN : forall x, In x [t0 :: t; r; u] -> x <> [] -> entry E x).
    { intros x I N. destruct (shape_entry E s SH x (IN x I)); [contradiction|assumption]. }
    destruct (interactive_ok a b pick (EN a IA NA) (EN b IB NB) NE) as [o [K [R1 G1]]]. destruct o as [h|].
    - destruct (subst_answer s a b h SH (IN a IA) (IN b IB) (EN a IA NA) (EN b IB NB) NE (G1 h eq_refl)) as [s' [M S1]].
      exists s', true, K. split; [intros k fuel K1 K2; rewrite (R1 k fuel) by lia; cbn [rbind]; rewrite M; reflexivity|]. split; [exact S1|]. intros UN. contradiction.
    - exists s, false, K. split; [intros k fuel K1 K2; rewrite (R1 k fuel) by lia; reflexivity|]. split; [apply stepTo_refl; exact SH|auto].
  Qed.
  Lemma interSteps_ok pick : forall k s, shape E s -> k <= length (pf s) -> exists s' c K, (forall fuel, K <= fuel -> interSteps k fuel E s pick = Ok (s', c)) /\ stepTo E s s' c /\ (unified3 s -> s' = s /\ c = false).
  Proof.
    induction k as [|k IH]; intros s SH L.
    - exists s, false, 0. split; [reflexivity|]. split; [apply stepTo_refl; exact SH|auto].
    - destruct (step_ok s k (pick k) SH ltac:(lia)) as [s1 [c1 [K1 [H1 [S1 U1]]]]]. destruct (stepTo_shape E FO s s1 c1 S1 SH) as [SH1 P1].
      destruct (IH s1 SH1 ltac:(rewrite P1; lia)) as [s2 [c2 [K2 [H2 [S2 U2]]]]]. exists s2, (c1 || c2), (Nat.max K1 K2).
      split; [intros fuel LF; cbn [interSteps]; rewrite (H1 fuel fuel) by lia; cbn [rbind fst snd]; rewrite (H2 fuel) by lia; reflexivity|]. split; [exact (stepTo_trans E _ _ _ _ _ S1 S2)|].
      intros UN. destruct (U1 UN) as [-> ->]. exact (U2 UN).
  Qed.
End Inter.
