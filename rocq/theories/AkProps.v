(* AkProps.v -- C63: the expressions of known steps *)
From Coq Require Import ZifyBool ZifyNat.
From Verif Require Import Base UniSpec UniModel HenModel.
From Verif Require Import MMSpec VerModel VerSpec VerExample VerProofs ParModel SqModel SqSpec SqProofs SqAttr SqValid PfaModel PfaSpec PfaProofs PfaValid PfaProps FltModel FltSpec FltProps AkModel AkSpec AkProofs AkMain AkTop.
Open Scope nat_scope.

(* Giving the steps of a subproof without unknown steps their expressions: for a subproof u
   (ending at step k) that proves something, this ends without bug() and without reading
   outside an array.  Either there is a complaint, or the sources of all its steps and the
   targets of all but the last are what the steps prove; nothing else changes.  There is no
   complaint if the substitutions are ones that the assistant would try. *)
Theorem C63_known_steps : forall E T0 ok s T k path u x, fltOk E T0 -> pipOk (f_db E) s T -> nodeAt T k path u -> shows (f_db E) ok u x ->
  exists b s' K, (forall fuel, K <= fuel -> assignKnownSteps fuel E s (k + 1 - length (rpn u)) (length (rpn u)) = Ok (b, s')) /\
    assigned (f_db E) ok u k b s s' /\ pipOk (f_db E) s' T /\ ((forall w, ok w -> okValue E w) -> b = true).
Proof. intros E T0 ok s T k path u x FO. exact (aks_ok E T0 FO ok s T k path u x). Qed.
Print Assumptions C63_known_steps.

(* The same for all finished parts of a proof in progress. *)
Theorem C63_known_subproofs : forall E T0 ok s T, fltOk E T0 -> pipOk (f_db E) s T -> (forall i p v, nodeAt T i p v -> finished v -> exists y, shows (f_db E) ok v y) ->
  exists b s' K, (forall fuel, K <= fuel -> assignKnownSubProofs fuel E s = Ok (b, s')) /\ doneFrom (f_db E) ok T 0 b s s' /\ pipOk (f_db E) s' T /\
    ((forall w, ok w -> okValue E w) -> b = true).
Proof. intros E T0 ok s T FO PO H. exact (aksp_ok E T0 FO ok T s H PO). Qed.
Print Assumptions C63_known_subproofs.

(* In a plain database whatever is proved is proved with substitutions that the assistant
   would try, so that there is never a complaint. *)
Theorem C63_plain : forall E T0 u x, fltOk E T0 -> plainDb E -> shows (f_db E) anything u x -> shows (f_db E) (okValue E) u x.
Proof. intros E T0 u x FO PL H. exact (proj1 (plain_shows E T0 FO PL u x H)). Qed.
Print Assumptions C63_plain.
Theorem C63_no_complaint : forall E T0 s T k path u x, fltOk E T0 -> plainDb E -> pipOk (f_db E) s T -> nodeAt T k path u -> shows (f_db E) anything u x ->
  exists s' K, (forall fuel, K <= fuel -> assignKnownSteps fuel E s (k + 1 - length (rpn u)) (length (rpn u)) = Ok (true, s')) /\
    (forall j p v y, nodeAt u j p v -> shows (f_db E) anything v y -> nth_error (sr s') (k + 1 - length (rpn u) + j) = Some (toZ y)).
Proof.
  exact aks_plain.
Qed.
Print Assumptions C63_no_complaint.

(* What the verifier accepts proves something in the sense used here, and each tree only one
   expression. *)
Theorem C63_valid_shows : forall db stp u e, wf_db db -> (forall st, stmtAt db 0 st -> ~ isHyp st /\ ~ isAssertion st) -> (forall n st, stmtAt db n st -> isAssertion st -> floated db st) ->
  wfTree db u -> legalCodes (rpn u) -> noRefs (rpn u) -> tval db stp u e -> shows db anything u e.
Proof. intros db stp u e. exact (shows_tval db stp u e). Qed.
Print Assumptions C63_valid_shows.
Theorem C63_one_value : forall E T0 ok u x y, fltOk E T0 -> shows (f_db E) ok u x -> shows (f_db E) ok u y -> x = y.
Proof. intros E T0 ok u x y FO. exact (shows_det E T0 FO ok ok u x y). Qed.
Print Assumptions C63_one_value.

(* ---------- examples ---------- *)
(* without "plain" there may be a complaint about a correct proof: p is a wff variable, all
   axioms have matching brackets, but there is a hypothesis "wff (" *)
Definition exK_stmts : list stmtRec := [
  mkStmt S_other [] [] [] [] [] [];
  mkStmt S_f [7; 1] [] [] [] [] [];                                   (* 1 wp $f wff p *)
  mkStmt S_a [6; 1] [1] [] [1] [] [];                                 (* 2 ax $a |- p *)
  mkStmt S_e [7; 8] [] [] [] [] [];                                   (* 3 h $e wff ( *)
  mkStmt S_p [6; 8] [3] [1] [] [] []].                                (* 4 th $p |- ( $= h ax $. *)
Definition exK_db : dbase := mkDb (fun t => t =? 1) 20 exK_stmts.
Definition exK_E : fenv := mkF exK_db (mkUenv 20 1 1000 (fun t => (t <=? 20) && negb (t =? 1)) (fun t => [32 + t]) [[6; 1]]) 4 0 true 0 (fun _ => false) false 0 0 0 1000 true 0 [] [].
Definition exK_T : tree := Node 2 [Node 3 []].
Definition exK_s : pip := mkPip [3; 2]%Z [[]; [6; 8]%Z] [[]; []] [[]; []].
Lemma exK_cases (P : nat -> stmtRec -> Prop) : (forall i st, In (i, st) (combine (seq 0 5) exK_stmts) -> P i st) -> forall n st, stmtAt exK_db n st -> P n st.
Proof. intros H n st S. apply H. do 5 (destruct n as [|n]; [injection S as <-; cbn; intuition congruence|]). unfold stmtAt in S. cbn in S. destruct n; discriminate S. Qed.
Lemma exK_flt : fltOk exK_E None.
Proof.
  constructor.
  - apply wf_dbB_ok. vm_compute. reflexivity.
  - reflexivity.
  - intros t. cbn. lia.
  - cbn. lia.
  - intros n st t S K. revert t. revert n st S K. refine (exK_cases (fun n st => isHyp st \/ isAssertion st -> forall t, In t (s_math st) -> t < 20) _).
    intros i st I _ t J. cbn in I. repeat (destruct I as [I|I]; [injection I as <- <-; cbn in J; lia|]). destruct I.
  - intros n st S A NE v I. revert n st S A NE v I. refine (exK_cases (fun n st => isAssertion st -> ~ hasE _ st -> forall v, In v (s_reqVars st) -> In v (s_math st)) _).
    intros i st I _ _ v J. cbn in I. repeat (destruct I as [I|I]; [injection I as <- <-; cbn in J |- *; tauto|]). destruct I.
  - eexists. reflexivity.
  - intros h [stn [S K]]. injection S as <-. cbn in K. destruct K as [[<-|[]]|[<-|[]]]; eexists; (split; [reflexivity|]); [left|right]; reflexivity.
  - cbn. lia.
  - reflexivity.
Qed.
Lemma exK_pip : pipOk exK_db exK_s exK_T.
Proof.
  constructor; try reflexivity.
  - repeat (constructor; try reflexivity).
  - intros z H. cbn in H. repeat (destruct H as [<-|H]; [reflexivity|]). destruct H.
  - intros [|[|k]] H; try discriminate H. destruct k; discriminate H.
Qed.
Lemma exK_shows : shows exK_db anything exK_T [6; 8].
Proof.
  change [6; 8] with (MMSpec.subst (db_isvar exK_db) (fun _ => [8]) [6; 1]).
  apply (sh_use exK_db anything 2 (mkStmt S_a [6; 1] [1] [] [1] [] []) [Node 3 []] [[7; 8]]); [lia|reflexivity|left; reflexivity| | | |intros; exact I].
  - intros t [<-|[]]. exists 1, (mkStmt S_f [7; 1] [] [] [] [] []), 7. repeat split. left. reflexivity.
  - constructor; [|constructor]. exact (sh_hyp exK_db anything 3 (mkStmt S_e [7; 8] [] [] [] [] []) ltac:(lia) eq_refl (or_introl eq_refl)).
  - constructor; [|constructor]. eexists. split; reflexivity.
Qed.
Theorem C63_never_complains_refuted : exists E s T x, fltOk E None /\ pipOk (f_db E) s T /\ shows (f_db E) anything T x /\
  exists s', forall fuel, 20 <= fuel -> assignKnownSteps fuel E s 0 (length (rpn T)) = Ok (false, s').
Proof.
  exists exK_E, exK_s, exK_T, [6; 8]. split; [exact exK_flt|]. split; [exact exK_pip|]. split; [exact exK_shows|].
  eexists. intros fuel L. replace fuel with (20 + (fuel - 20)) by lia. generalize (fuel - 20). intros n. vm_compute. reflexivity.
Qed.
Print Assumptions C63_never_complains_refuted.

(* a plain database, and a subproof in a proof with an unknown step:  ? ; 0 , |- 0 = 0 *)
Lemma ex63_plain : plainDb (exFE 0 [] []).
Proof.
  constructor.
  - intros n st c w S K. revert c w. revert n st S K. refine (exF_stmt (fun n st => isHyp st \/ isAssertion st -> forall c w, s_math st = c :: w -> okValue (exFE 0 [] []) w) _).
    intros i st I K c w EQ. split.
    + cbn in I. repeat (destruct I as [I|I]; [injection I as <- <-; first [destruct K as [[K|K]|[K|K]]; discriminate K|injection EQ as <- <-; cbn; lia]|]). destruct I.
    + constructor.
      * intros _ o cl B. assert (N : forall t, In t w -> named (u_name exFU) o t = false /\ named (u_name exFU) cl t = false).
        { intros t J. assert (L : 1 <= t <= 6). { cbn in I. repeat (destruct I as [I|I]; [injection I as <- <-; first [discriminate EQ|injection EQ as <- <-; cbn in J; lia]|]). destruct I. }
          unfold named, exFU, u_name. cbn in B. repeat (destruct B as [B|B]; [injection B as <- <-; split; (destruct list_eq_dec as [X|X]; [try discriminate X; injection X; lia|reflexivity])|]). destruct B. }
        assert (C : forall l, (forall t, In t l -> In t w) -> count (named (u_name exFU) o) l = 0 /\ count (named (u_name exFU) cl) l = 0).
        { intros l H. induction l as [|t l IH]; [split; reflexivity|]. destruct (N t (H t (or_introl eq_refl))) as [N1 N2]. destruct (IH ltac:(intros t' J; apply H; right; exact J)) as [C1 C2]. rewrite !count_cons, N1, N2, C1, C2. split; reflexivity. }
        split; [intros k|]; cbn [exFE exFG f_u]; [destruct (C (firstn k w)) as [-> ->]; [intros t J; rewrite <- (firstn_skipn k w); apply in_app_iff; left; exact J|lia]|destruct (C w) as [-> ->]; auto].
      * intros _ c' r EQ' CC. cbn in I. repeat (destruct I as [I|I]; [injection I as <- <-; first [discriminate EQ|injection EQ as <- <-; injection EQ' as <- <-; first [discriminate CC|exists 7; eexists; left; reflexivity]]|]). destruct I.
      * intros _ c' EQ' CC. cbn in I. repeat (destruct I as [I|I]; [injection I as <- <-; first [discriminate EQ|injection EQ as <- <-; first [discriminate EQ'|injection EQ' as <-; first [discriminate CC|exists 7; left; reflexivity]]]|]). destruct I.
      * intros _ r c' EQ' CC. exists 7, []. left. cbn [app]. apply (f_equal (fun l => last l 0)) in EQ'. rewrite last_last in EQ'. subst c'.
        cbn in I. repeat (destruct I as [I|I]; [injection I as <- <-; first [discriminate EQ|injection EQ as <- <-; first [discriminate CC|reflexivity]]|]). destruct I.
  - intros v o c V B. cbn in V. assert (L : v = 1 \/ v = 2) by (unfold ex_isvar in V; lia).
    cbn in B. destruct L as [-> | ->]; repeat (destruct B as [B|B]; [injection B as <- <-; split; discriminate|]); destruct B.
Qed.
Definition ex63_T : tree := Node 4 [Node zUnk []; Node 4 [Node 3 []; Node 3 []]].
Definition ex63_s : pip := mkPip [zUnk; 3; 3; 4; 4]%Z [[7; 21]; [7; 22]; [7; 23]; [7; 24]; [7; 21; 4; 24]]%Z [[]; []; []; []; []] [[]; []; []; []; []].
Lemma ex63_pip : pipOk ex51_db ex63_s ex63_T.
Proof.
  constructor; try reflexivity.
  - repeat (constructor; try reflexivity).
  - intros z H. cbn in H. repeat (destruct H as [<-|H]; [reflexivity|]). destruct H.
  - intros k H. do 6 (destruct k as [|k]; try (discriminate H || reflexivity)).
Qed.
Lemma ex63_0 : shows ex51_db anything (Node 3 []) [7; 3].
Proof.
  change [7; 3] with (MMSpec.subst (db_isvar ex51_db) (fun _ => []) [7; 3]). apply (sh_use ex51_db anything 3 (mkStmt S_a [7; 3] [] [1; 2] [] [] []) [] []); [lia|reflexivity|left; reflexivity|intros t []|constructor|constructor|intros; exact I].
Qed.
Lemma ex63_shows : shows ex51_db anything (Node 4 [Node 3 []; Node 3 []]) [7; 3; 4; 3].
Proof.
  change [7; 3; 4; 3] with (MMSpec.subst (db_isvar ex51_db) (fun _ => [3]) [7; 1; 4; 2]).
  apply (sh_use ex51_db anything 4 (mkStmt S_a [7; 1; 4; 2] [1; 2] [] [1; 2] [] []) [Node 3 []; Node 3 []] [[7; 3]; [7; 3]]); [lia|reflexivity|left; reflexivity| |repeat constructor; exact ex63_0| |intros; exact I].
  - intros t [<-|[<-|[]]]; [exists 1, (mkStmt S_f [7; 1] [] [] [] [] []), 7|exists 2, (mkStmt S_f [7; 2] [] [] [] [] []), 7]; repeat split; cbn; auto.
  - repeat constructor; eexists; split; reflexivity.
Qed.
Lemma ex63_node : nodeAt ex63_T 3 [(4%Z, 1)] (Node 4 [Node 3 []; Node 3 []]).
Proof. exact (na_kid 4 [Node zUnk []; Node 4 [Node 3 []; Node 3 []]] 1 _ 2 _ _ eq_refl (na_root (Node 4 [Node 3 []; Node 3 []]))). Qed.
Example ex_C63 := C63_no_complaint (exFE 0 [] []) None ex63_s ex63_T 3 _ _ _ (exF_ok _ 0 [] [] None eq_refl) ex63_plain ex63_pip ex63_node ex63_shows.
Example ex_C63_run : forall n, assignKnownSteps (40 + n) (exFE 0 [] []) ex63_s 1 3 =
  Ok (true, mkPip [zUnk; 3; 3; 4; 4]%Z [[7; 21]; [7; 3]; [7; 3]; [7; 24]; [7; 21; 4; 24]]%Z [[]; [7; 3]; [7; 3]; [7; 3; 4; 3]; []]%Z [[]; []; []; []; []]) /\
  assignKnownSubProofs (40 + n) (exFE 0 [] []) ex63_s =
  Ok (true, mkPip [zUnk; 3; 3; 4; 4]%Z [[7; 21]; [7; 3]; [7; 3]; [7; 24]; [7; 21; 4; 24]]%Z [[]; [7; 3]; [7; 3]; [7; 3; 4; 3]; []]%Z [[]; []; []; []; []]).
Proof. intros n. split; vm_compute; reflexivity. Qed.
Lemma ex63_all : forall i p v, nodeAt ex63_T i p v -> finished v -> exists y, shows ex51_db anything v y.
Proof.
  intros i p v N F. pose proof (nodeAt_bound _ _ _ _ N) as L. cbn in L. unfold ex63_T in N.
  destruct i as [|[|[|[|[|i]]]]]; [..|lia].
  - destruct (nodeAt_unique _ _ _ _ N _ _ (na_kid 4 [Node zUnk []; Node 4 [Node 3 []; Node 3 []]] 0 _ 0 _ _ eq_refl (na_root (Node zUnk [])))) as [_ ->]. destruct F. left. reflexivity.
  - destruct (nodeAt_unique _ _ _ _ N _ _ (na_kid 4 [Node zUnk []; Node 4 [Node 3 []; Node 3 []]] 1 _ 0 _ _ eq_refl (na_kid 4 [Node 3 []; Node 3 []] 0 _ 0 _ _ eq_refl (na_root (Node 3 []))))) as [_ ->]. eexists. exact ex63_0.
  - destruct (nodeAt_unique _ _ _ _ N _ _ (na_kid 4 [Node zUnk []; Node 4 [Node 3 []; Node 3 []]] 1 _ 1 _ _ eq_refl (na_kid 4 [Node 3 []; Node 3 []] 1 _ 0 _ _ eq_refl (na_root (Node 3 []))))) as [_ ->]. eexists. exact ex63_0.
  - destruct (nodeAt_unique _ _ _ _ N _ _ ex63_node) as [_ ->]. eexists. exact ex63_shows.
  - destruct (nodeAt_unique _ _ _ _ N _ _ (na_root ex63_T)) as [_ ->]. destruct F. left. reflexivity.
Qed.
Example ex_C63_sub := C63_known_subproofs (exFE 0 [] []) None anything ex63_s ex63_T (exF_ok _ 0 [] [] None eq_refl) ex63_pip ex63_all.
