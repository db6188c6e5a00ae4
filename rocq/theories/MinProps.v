(* MinProps.v -- C64: MINIMIZE_WITH keeps the proof a proof *)
From Coq Require Import ZifyBool ZifyNat.
From Verif Require Import Base UniSpec UniModel HenModel.
From Verif Require Import MMSpec VerModel VerSpec VerExample VerProofs ParModel SqModel SqSpec SqProofs SqAttr SqValid PfaModel PfaSpec PfaProofs PfaValid PfaProps FltModel FltSpec FltProofs FltProps RepModel RepSpec AkModel AkSpec AkProofs AkTop AkProps MinModel MinSpec MinProofs MinMain.
Open Scope nat_scope.

(* A complete proof remains a complete proof of the same expression ($d requirements aside),
   built from what it used before and statements before the one being proved; it does not
   become longer, and is unchanged if it does not become shorter.  This ends after at most
   as many rounds as the proof has steps, without bug() and without reading outside an
   array. *)
Theorem C64_minimize : forall E repl st s T, minOk E repl st -> complete E s T ->
  exists s' T' K, (forall w fuel, length (pf s) < w -> K <= fuel -> minimizeProof w fuel E repl false s = Ok s') /\
    kept E s T s' T' /\ (s' = s \/ length (pf s') < length (pf s)).
Proof. intros E repl st s T MO CO. exact (minimize_ok E repl st MO s T CO). Qed.
Print Assumptions C64_minimize.

(* With MAY_GROW: the same, apart from the length; the number of rounds is bounded too. *)
Theorem C64_may_grow : forall E repl st s T, minOk E repl st -> complete E s T ->
  exists s' T' K, (forall w fuel, 2 ^ (2 * length (pf s)) <= w -> K <= fuel -> minimizeProof w fuel E repl true s = Ok s') /\ kept E s T s' T'.
Proof. intros E repl st s T MO CO. exact (may_grow_ok E repl st MO s T CO). Qed.
Print Assumptions C64_may_grow.

(* The preliminary tests on symbols reject nothing that matches. *)
Theorem C64_symbols : forall e isvar sg math m, (forall t, u_con e t = true -> isvar t = false) -> math <> [] -> (forall c r, math = c :: r -> isvar c = false) ->
  MMSpec.subst isvar sg math = m -> symbolsDiffer e math m = Ok false.
Proof. exact symbols_ok. Qed.
Print Assumptions C64_symbols.


(* ---------- examples ---------- *)
(* t, r variables (1, 2); 3 "0", 4 "+", 5 "=", 6 "|-", 7 "term".  0 = 0 proved by symmetry
   from 0 = 0, which is found to be superfluous *)
Definition exM_st8 : stmtRec := mkStmt S_p [6; 3; 5; 3] [] [1; 2] [] [] [].
Definition exM_stmts : list stmtRec := [
  mkStmt S_other [] [] [] [] [] [];
  mkStmt S_f [7; 1] [] [] [] [] [];                                   (* 1 $f term t *)
  mkStmt S_f [7; 2] [] [] [] [] [];                                   (* 2 $f term r *)
  mkStmt S_a [7; 3] [] [1; 2] [] [] [];                               (* 3 $a term 0 *)
  mkStmt S_a [7; 1; 4; 2] [1; 2] [] [1; 2] [] [];                     (* 4 $a term t + r *)
  mkStmt S_a [6; 1; 5; 1] [1] [2] [1] [] [];                          (* 5 $a |- t = t *)
  mkStmt S_e [6; 1; 5; 2] [] [] [] [] [];                             (* 6 $e |- t = r *)
  mkStmt S_a [6; 2; 5; 1] [1; 2; 6] [] [1; 2] [] [];                  (* 7 $a |- r = t *)
  exM_st8].                                                           (* 8 $p |- 0 = 0 *)
Definition exM_db : dbase := mkDb ex_isvar 20 exM_stmts.
Definition exM_U : uenv := mkUenv 20 1 1000 (fun t => (t <=? 20) && negb (ex_isvar t)) (fun t => [48 + t])
  (map s_math (filter (fun st => match s_type st with S_a => true | _ => false end) exM_stmts)).
Definition exM_E : fenv := mkF exM_db exM_U 8 0 false 2 (fun _ => false) true 0 9 0 1000 true 0 [] [].
Definition exM_T : tree := Node 7 [Node 3 []; Node 3 []; Node 5 [Node 3 []]].
Definition exM_s : pip := mkPip [3; 3; 3; 5; 7]%Z [[7; 3]; [7; 3]; [7; 3]; [6; 3; 5; 3]; [6; 3; 5; 3]]%Z [[]; []; []; []; []] [[]; []; []; []; []].
Lemma exM_cases (P : nat -> stmtRec -> Prop) : (forall i st, In (i, st) (combine (seq 0 9) exM_stmts) -> P i st) -> forall n st, stmtAt exM_db n st -> P n st.
Proof. intros H n st S. apply H. do 9 (destruct n as [|n]; [injection S as <-; cbn; intuition congruence|]). unfold stmtAt in S. cbn in S. destruct n; discriminate S. Qed.
Lemma exM_flt : fltOk exM_E None.
Proof.
  constructor.
  - apply wf_dbB_ok. vm_compute. reflexivity.
  - reflexivity.
  - intros t. cbn [exM_E f_u f_db u_con exM_U exM_db db_sep]. lia.
  - cbn. lia.
  - intros n st t S K. revert t. revert n st S K. refine (exM_cases (fun n st => isHyp st \/ isAssertion st -> forall t, In t (s_math st) -> t < 20) _).
    intros i st I _ t J. cbn in I. repeat (destruct I as [I|I]; [injection I as <- <-; cbn in J; lia|]). destruct I.
  - intros n st S A NE v I. revert n st S A NE v I. refine (exM_cases (fun n st => isAssertion st -> ~ hasE _ st -> forall v, In v (s_reqVars st) -> In v (s_math st)) _).
    intros i st I _ _ v J. apply memb_in. cbn in I. repeat (destruct I as [I|I]; [injection I as <- <-; cbn in J; repeat (destruct J as [<-|J]; [reflexivity|]); destruct J|]). destruct I.
  - eexists. reflexivity.
  - intros h [stn [S K]]. injection S as <-. cbn in K. destruct K as [[]|[<-|[<-|[]]]]; eexists; (split; [reflexivity|right; reflexivity]).
  - cbn. lia.
  - reflexivity.
Qed.
Lemma exM_plain : plainDb exM_E.
Proof.
  constructor.
  - intros n st c w S K. revert c w. revert n st S K. refine (exM_cases (fun n st => isHyp st \/ isAssertion st -> forall c w, s_math st = c :: w -> okValue exM_E w) _).
    intros i st I K c w EQ. split.
    + cbn in I. repeat (destruct I as [I|I]; [injection I as <- <-; first [destruct K as [[K|K]|[K|K]]; discriminate K|injection EQ as <- <-; cbn; lia]|]). destruct I.
    + constructor.
      * intros _ o cl B. assert (N : forall t, In t w -> named (u_name exM_U) o t = false /\ named (u_name exM_U) cl t = false).
        { intros t J. assert (L : 1 <= t <= 6). { cbn in I. repeat (destruct I as [I|I]; [injection I as <- <-; first [discriminate EQ|injection EQ as <- <-; cbn in J; lia]|]). destruct I. }
          unfold named, exM_U, u_name. cbn in B. repeat (destruct B as [B|B]; [injection B as <- <-; split; (destruct list_eq_dec as [X|X]; [try discriminate X; injection X; lia|reflexivity])|]). destruct B. }
        assert (C : forall l, (forall t, In t l -> In t w) -> UniSpec.count (named (u_name exM_U) o) l = 0 /\ UniSpec.count (named (u_name exM_U) cl) l = 0).
        { intros l H. induction l as [|t l IH]; [split; reflexivity|]. destruct (N t (H t (or_introl eq_refl))) as [N1 N2]. destruct (IH ltac:(intros t' J; apply H; right; exact J)) as [C1 C2]. rewrite !count_cons, N1, N2, C1, C2. split; reflexivity. }
        split; [intros k|]; cbn [exM_E f_u]; [destruct (C (firstn k w)) as [-> ->]; [intros t J; rewrite <- (firstn_skipn k w); apply in_app_iff; left; exact J|lia]|destruct (C w) as [-> ->]; auto].
      * intros _ c' r EQ' CC. cbn in I. repeat (destruct I as [I|I]; [injection I as <- <-; first [discriminate EQ|injection EQ as <- <-; injection EQ' as <- <-; first [discriminate CC|exists 7; eexists; left; reflexivity]]|]). destruct I.
      * intros _ c' EQ' CC. cbn in I. repeat (destruct I as [I|I]; [injection I as <- <-; first [discriminate EQ|injection EQ as <- <-; first [discriminate EQ'|injection EQ' as <-; first [discriminate CC|exists 7; left; reflexivity]]]|]). destruct I.
      * intros _ r c' EQ' CC. exists 7, []. left. cbn [app]. apply (f_equal (fun l => last l 0)) in EQ'. rewrite last_last in EQ'. subst c'.
        cbn in I. repeat (destruct I as [I|I]; [injection I as <- <-; first [discriminate EQ|injection EQ as <- <-; first [discriminate CC|reflexivity]]|]). destruct I.
  - intros v o c V B. cbn in V. assert (L : v = 1 \/ v = 2) by (unfold ex_isvar in V; lia).
    cbn in B. destruct L as [-> | ->]; repeat (destruct B as [B|B]; [injection B as <- <-; split; discriminate|]); destruct B.
Qed.
Lemma exM_floated : forall n st, stmtAt exM_db n st -> isAssertion st -> floated exM_db st.
Proof.
  refine (exM_cases (fun n st => isAssertion st -> floated exM_db st) _). intros i st I A. cbn in I.
  repeat (destruct I as [I|I]; [injection I as <- <-; first [destruct A as [A|A]; discriminate A|
    intros t J; cbn in J; repeat (destruct J as [<-|J]; [first [exists 1; eexists; exists 7; split; [solve [cbn; auto]|split; [reflexivity|split; reflexivity]]|exists 2; eexists; exists 7; split; [solve [cbn; auto]|split; [reflexivity|split; reflexivity]]]|]); destruct J]|]). destruct I.
Qed.
Lemma exM_min : minOk exM_E 5 (mkStmt S_a [6; 1; 5; 1] [1] [2] [1] [] []).
Proof.
  constructor; [exact exM_flt|exact exM_plain| |exact exM_floated|reflexivity|left; reflexivity|cbn; lia|].
  - intros st S. injection S as <-. split; intros [K|K]; discriminate K.
  - intros v [<-|[]]. left. cbn. auto.
Qed.
Lemma exM_0 : shows exM_db anything (Node 3 []) [7; 3].
Proof.
  change [7; 3] with (MMSpec.subst (db_isvar exM_db) (fun _ => []) [7; 3]). apply (sh_use exM_db anything 3 (mkStmt S_a [7; 3] [] [1; 2] [] [] []) [] []); [lia|reflexivity|left; reflexivity|intros t []|constructor|constructor|intros; exact I].
Qed.
Lemma exM_5 : shows exM_db anything (Node 5 [Node 3 []]) [6; 3; 5; 3].
Proof.
  change [6; 3; 5; 3] with (MMSpec.subst (db_isvar exM_db) (fun _ => [3]) [6; 1; 5; 1]).
  apply (sh_use exM_db anything 5 (mkStmt S_a [6; 1; 5; 1] [1] [2] [1] [] []) [Node 3 []] [[7; 3]]); [lia|reflexivity|left; reflexivity| |repeat constructor; exact exM_0| |intros; exact I].
  - exact (exM_floated 5 _ eq_refl (or_introl eq_refl)).
  - repeat constructor; eexists; split; reflexivity.
Qed.
Lemma exM_7 : shows exM_db anything exM_T [6; 3; 5; 3].
Proof.
  change [6; 3; 5; 3] with (MMSpec.subst (db_isvar exM_db) (fun _ => [3]) [6; 2; 5; 1]).
  apply (sh_use exM_db anything 7 (mkStmt S_a [6; 2; 5; 1] [1; 2; 6] [] [1; 2] [] []) _ [[7; 3]; [7; 3]; [6; 3; 5; 3]]); [lia|reflexivity|left; reflexivity| |repeat constructor; first [exact exM_0|exact exM_5]| |intros; exact I].
  - exact (exM_floated 7 _ eq_refl (or_introl eq_refl)).
  - repeat constructor; eexists; split; reflexivity.
Qed.
Lemma exM_complete : complete exM_E exM_s exM_T.
Proof.
  constructor.
  - constructor; try reflexivity.
    + repeat (constructor; try reflexivity).
    + intros z H. cbn in H. repeat (destruct H as [<-|H]; [reflexivity|]). destruct H.
    + intros k H. do 6 (destruct k as [|k]; try (discriminate H || reflexivity)).
  - intros k path u N. pose proof (nodeAt_bound _ _ _ _ N) as L. cbn in L. unfold exM_T in N.
    destruct k as [|[|[|[|[|k]]]]]; [..|lia].
    + destruct (nodeAt_unique _ _ _ _ N _ _ (na_kid 7 [Node 3 []; Node 3 []; Node 5 [Node 3 []]] 0 _ 0 _ _ eq_refl (na_root (Node 3 [])))) as [_ ->]. exists [7; 3]. split; [exact exM_0|reflexivity].
    + destruct (nodeAt_unique _ _ _ _ N _ _ (na_kid 7 [Node 3 []; Node 3 []; Node 5 [Node 3 []]] 1 _ 0 _ _ eq_refl (na_root (Node 3 [])))) as [_ ->]. exists [7; 3]. split; [exact exM_0|reflexivity].
    + destruct (nodeAt_unique _ _ _ _ N _ _ (na_kid 7 [Node 3 []; Node 3 []; Node 5 [Node 3 []]] 2 _ 0 _ _ eq_refl (na_kid 5 [Node 3 []] 0 _ 0 _ _ eq_refl (na_root (Node 3 []))))) as [_ ->]. exists [7; 3]. split; [exact exM_0|reflexivity].
    + destruct (nodeAt_unique _ _ _ _ N _ _ (na_kid 7 [Node 3 []; Node 3 []; Node 5 [Node 3 []]] 2 _ 1 _ _ eq_refl (na_root (Node 5 [Node 3 []])))) as [_ ->]. eexists. split; [exact exM_5|reflexivity].
    + destruct (nodeAt_unique _ _ _ _ N _ _ (na_root exM_T)) as [_ ->]. eexists. split; [exact exM_7|reflexivity].
  - intros x H. left. cbn in H. intuition congruence.
Qed.
Example ex_C64 := C64_minimize exM_E 5 _ exM_s exM_T exM_min exM_complete.
Example ex_C64_grow := C64_may_grow exM_E 5 _ exM_s exM_T exM_min exM_complete.
Example ex_C64_run : forall n, minimizeProof (3 + n) (60 + n) exM_E 5 false exM_s =
  Ok (mkPip [3; 5]%Z [[7; 3]; [6; 3; 5; 3]]%Z [[7; 3]; [6; 3; 5; 3]]%Z [[]; []]).
Proof. intros n. vm_compute. reflexivity. Qed.
