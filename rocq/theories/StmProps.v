(* StmProps.v -- C31 (frames) and C32 (scoping) for parseMathDecl/parseStatements. *)
From Verif Require Import Base LabModel StmModel StmSpec StmMain.
From Coq Require Import String Ascii Permutation Sorted.
Open Scope nat_scope.

(* [key]: any result of the C library's qsort on the symbol table.  The nesting limit is
   the 32000 of mmpars.c:912.  [StmSpec.legal] is written from the language definition. *)

(* C32: the reader reports nothing exactly on the databases that obey the scoping rules. *)
Theorem C32_error_free_iff_legal : forall (sts : list sinp) (key : list nat) (minSub : nat),
  mqsorted (map mt_name (declTokens 1 sts)) key ->
  ((exists s, parseStmts key minSub sts = Ok s /\ p_err s = []) <->
   legal sts /\ forall n, n <= S (List.length sts) -> (depth sts n <= 32000)%Z).
Proof.
  intros sts key m HQ. split.
  - intros (s & H & E). exact (read_sound sts key HQ m s H E).
  - intros [HL HB]. destruct (read_complete sts key HQ m HL HB) as (s & A & B & _). exists s. exact (conj A B).
Qed.
Print Assumptions C32_error_free_iff_legal.

(* C31: after an error-free read every statement's symbols are stored as the tokens they
   denote there, and every assertion's frame is the one the language defines. *)
Theorem C31_frames_follow_the_language : forall sts key minSub s,
  mqsorted (map mt_name (declTokens 1 sts)) key ->
  parseStmts key minSub sts = Ok s -> p_err s = [] ->
  List.length (p_out s) = S (List.length sts) /\
  forall n i o, stAt sts n i -> nth_error (p_out s) n = Some o ->
    goodOut sts (declTokens 1 sts) n i o.
Proof.
  intros sts key m s HQ H E. destruct (read_sound sts key HQ m s H E) as [HL HB].
  destruct (read_complete sts key HQ m HL HB) as (s' & A & _ & G). rewrite A in H. injection H as ->. exact G.
Qed.
Print Assumptions C31_frames_follow_the_language.

(* the parts of the English property of C31, spelled out *)
Theorem C31_mandatory_hypotheses : forall sts key minSub s n i o,
  mqsorted (map mt_name (declTokens 1 sts)) key ->
  parseStmts key minSub sts = Ok s -> p_err s = [] ->
  stAt sts n i -> (si_kind i = K_a \/ si_kind i = K_p) -> nth_error (p_out s) n = Some o ->
  StronglySorted lt (o_reqHyps o) /\
  (forall h, In h (o_reqHyps o) <-> mandHyp sts n h) /\
  (forall x y, (mandVar sts n x /\ mandVar sts n y /\ disjAt sts n x y) <->
     exists a b d, In (a, b, d) (o_reqDisj o) /\ denotes sts (declTokens 1 sts) a x n /\ denotes sts (declTokens 1 sts) b y n \/
                   In (a, b, d) (o_reqDisj o) /\ denotes sts (declTokens 1 sts) a y n /\ denotes sts (declTokens 1 sts) b x n).
Proof.
  intros sts key m s n i o HQ H E Hi HK HO.
  destruct (C31_frames_follow_the_language sts key m s HQ H E) as [_ G]. destruct (G n i o Hi HO) as (_ & _ & F).
  destruct HK as [HK|HK]; rewrite HK in F; exact (conj (gf_hyps_sorted _ _ _ _ F) (conj (gf_hyps _ _ _ _ F) (gf_disj _ _ _ _ F))).
Qed.
Print Assumptions C31_mandatory_hypotheses.

(* C32 in words: declared before use, active where used, one $f per variable of an
   assertion, every block closed. *)
Theorem C32_scoping : forall sts key minSub s,
  mqsorted (map mt_name (declTokens 1 sts)) key ->
  parseStmts key minSub sts = Ok s -> p_err s = [] ->
  (forall n i x, stAt sts n i -> isDecl (si_kind i) = false -> In x (si_toks i) ->
     si_kind i <> K_lb -> si_kind i <> K_rb ->
     exists h v, h < n /\ declares sts h x v /\ inScope sts h n) /\
  (forall n i x, stAt sts n i -> (si_kind i = K_a \/ si_kind i = K_p) -> mandVar sts n x ->
     exists f, floats sts n f x /\ forall g, floats sts n g x -> g = f) /\
  depth sts (S (List.length sts)) = 0%Z /\
  (forall n, kindAt sts n K_rb -> (0 < depth sts n)%Z).
Proof.
  intros sts key m s HQ H E. destruct (read_sound sts key HQ m s H E) as [[HL HZ] _].
  assert (V : forall x v n, visible sts x v n -> exists h w, h < n /\ declares sts h x w /\ inScope sts h n).
  { intros x v n (h & D & I). exists h, v. destruct (I) as [[_ L] _]. auto. }
  repeat split; auto.
  - intros n i x Hi HD Hx K1 K2. specialize (HL n i Hi). unfold legalStmt in HL.
    destruct (si_kind i); try discriminate; try congruence.
    + destruct HL as (_ & _ & HL). eauto.
    + destruct HL as (c & r & EQ & V1 & V2). rewrite EQ in Hx. destruct Hx as [<-|Hx]; [eauto|]. destruct (V2 x Hx); eauto.
    + destruct HL as (c & y & EQ & V1 & V2). rewrite EQ in Hx. destruct Hx as [<-|[<-|[]]]; eauto.
    + destruct HL as ((c & r & EQ & V1 & V2) & _). rewrite EQ in Hx. destruct Hx as [<-|Hx]; [eauto|]. destruct (V2 x Hx); eauto.
    + destruct HL as ((c & r & EQ & V1 & V2) & _). rewrite EQ in Hx. destruct Hx as [<-|Hx]; [eauto|]. destruct (V2 x Hx); eauto.
  - intros n i x Hi HK MV. specialize (HL n i Hi). unfold legalStmt in HL.
    assert (A : asrtOK sts n) by (destruct HK as [HK|HK]; rewrite HK in HL; apply HL).
    destruct A as (A1 & A2 & A3). destruct MV as [V1 D] eqn:EM.
    assert (X : exists f, floats sts n f x).
    { destruct D as [D|(e & D1 & D2 & D3)]; [now apply A1|]. destruct (A2 e x D1 D2 D3 V1) as (f & _ & F). eauto. }
    destruct X as (f & F). exists f. split; [exact F|]. intros g G. now apply (A3 x g f).
  - intros n (i & Hi & HK). specialize (HL n i Hi). unfold legalStmt in HL. now rewrite HK in HL.
Qed.
Print Assumptions C32_scoping.

(* ---------- limits found ---------- *)
Definition codes (s : string) : list nat := map nat_of_ascii (list_ascii_of_string s).
Definition W := map codes.
Lemma sorted_names names key :
  Permutation key (seq 0 (List.length names)) ->
  Sorted (fun i j => match nth_error names i, nth_error names j with Some a, Some b => strcmp a b <> Gt | _, _ => True end) key ->
  mqsorted names key.
Proof.
  intros P H. split; [exact P|]. clear P. induction H as [|a l H IH R]; constructor; [exact IH|].
  destruct R as [|b l R]; constructor. intros x y Hx Hy. now rewrite Hx, Hy in R.
Qed.
(* a database with blocks, $d, an optional variable and an $f hidden by a block *)
Definition db1 : list sinp :=
  [ mkS K_c (W ["wff"; "|-"; "->"]); mkS K_v (W ["ph"; "ps"; "ch"]);
    mkS K_f (W ["wff"; "ph"]); mkS K_f (W ["wff"; "ps"]); mkS K_f (W ["wff"; "ch"]);
    mkS K_lb []; mkS K_e (W ["|-"; "ph"]); mkS K_v (W ["th"]); mkS K_f (W ["wff"; "th"]);
    mkS K_d (W ["ph"; "ps"; "ch"]);
    mkS K_p (W ["|-"; "ps"]); mkS K_rb []; mkS K_lb []; mkS K_v (W ["th"]); mkS K_rb [];
    mkS K_a (W ["|-"; "ch"; "->"; "ph"]) ]%string.
(* symbols 0..7: wff |- -> ph ps ch th th *)
Definition key1 : list nat := [2; 5; 3; 4; 6; 7; 0; 1].
Example db1_sorted : mqsorted (map mt_name (declTokens 1 db1)) key1.
Proof.
  apply sorted_names; [|vm_compute; repeat constructor; discriminate].
  apply NoDup_Permutation; [repeat constructor; cbn; intuition lia|apply seq_NoDup|vm_compute; intuition lia].
Qed.
Definition show (r : res pst) : option (list sErr * list (list nat * list nat * list nat * list nat * list (nat*nat*nat) * list (nat*nat*nat))) :=
  match r with
  | Ok s => Some (p_err s, map (fun o => (o_math o, o_reqHyps o, o_optHyps o, o_optVars o, o_reqDisj o, o_optDisj o))
                     (filter (fun o => match o_kind o with K_a | K_p => true | _ => false end) (p_out s)))
  | _ => None
  end.
Example db1_read : show (parseStmts key1 1 db1) =
  Some ([], [([1; 4], [3; 4; 7], [5; 9], [5; 6], [(3, 4, 10)], [(3, 5, 10); (4, 5, 10)]);
             ([1; 5; 2; 3], [3; 5], [], [], [], [])]).
Proof. vm_compute. reflexivity. Qed.
Example db1_legal : legal db1.
Proof.
  destruct (parseStmts key1 1 db1) as [s| | |] eqn:E; try (vm_compute in E; discriminate).
  apply (C32_error_free_iff_legal db1 key1 1 db1_sorted). exists s. split; [exact E|].
  pose proof db1_read as R. rewrite E in R. cbn [show] in R. injection R as ->; reflexivity.
Qed.

(* The language allows at most one active $f per variable and wants an $f for every
   variable of an $e; this is only checked where an assertion makes it mandatory. *)
Definition db2 : list sinp :=
  [ mkS K_c (W ["wff"; "|-"]); mkS K_v (W ["x"; "y"]); mkS K_f (W ["wff"; "x"]); mkS K_f (W ["wff"; "x"]);
    mkS K_p (W ["|-"]) ]%string.
Definition db3 : list sinp :=
  [ mkS K_c (W ["wff"; "|-"]); mkS K_v (W ["x"; "y"]); mkS K_lb []; mkS K_e (W ["|-"; "x"]); mkS K_rb [] ]%string.
Definition key2 : list nat := [0; 2; 3; 1].
Lemma key2_sorted : mqsorted (W ["wff"; "|-"; "x"; "y"]%string) key2.
Proof.
  apply sorted_names; [|vm_compute; repeat constructor; discriminate].
  apply NoDup_Permutation; [repeat constructor; cbn; intuition lia|apply seq_NoDup|vm_compute; intuition lia].
Qed.
Theorem C32_duplicate_float_reported_refuted :
  mqsorted (map mt_name (declTokens 1 db2)) key2 /\
  (exists s, parseStmts key2 1 db2 = Ok s /\ p_err s = []) /\
  floats db2 4 3 (codes "x") /\ toksAt db2 4 [codes "wff"; codes "x"] /\ ~ strict db2.
Proof.
  assert (F : floats db2 4 3 (codes "x")).
  { split; [split; [lia|]|split].
    - intros t Ht. assert (t = 4) as -> by lia. vm_compute. discriminate.
    - eexists. split; [split; [lia|reflexivity]|reflexivity].
    - exists (codes "wff"). eexists. split; [split; [lia|reflexivity]|reflexivity]. }
  assert (TA : toksAt db2 4 [codes "wff"; codes "x"]) by (eexists; split; [split; [lia|reflexivity]|reflexivity]).
  split; [exact key2_sorted|]. split; [|split; [exact F|split; [exact TA|]]].
  - destruct (parseStmts key2 1 db2) as [s| | |] eqn:E; try (vm_compute in E; discriminate). exists s. split; [reflexivity|].
    assert (R : show (parseStmts key2 1 db2) = Some ([], [([1], [], [3; 4], [2; 3], [], [])])) by (vm_compute; reflexivity).
    rewrite E in R. cbn [show] in R. injection R as ->; reflexivity.
  - intros (_ & _ & S). apply (S 4 3 (codes "x")); [|exact F|eauto].
    eexists. split; [split; [lia|reflexivity]|reflexivity].
Qed.
Print Assumptions C32_duplicate_float_reported_refuted.
Theorem C32_missing_float_of_e_reported_refuted :
  mqsorted (map mt_name (declTokens 1 db3)) key2 /\
  (exists s, parseStmts key2 1 db3 = Ok s /\ p_err s = []) /\
  kindAt db3 4 K_e /\ hasTok db3 4 (codes "x") /\ visible db3 (codes "x") true 4 /\ forall f, ~ floats db3 4 f (codes "x").
Proof.
  split; [exact key2_sorted|]. split.
  - destruct (parseStmts key2 1 db3) as [s| | |] eqn:E; try (vm_compute in E; discriminate). exists s. split; [reflexivity|].
    assert (R : show (parseStmts key2 1 db3) = Some ([], [])) by (vm_compute; reflexivity).
    rewrite E in R. cbn [show] in R. injection R as ->; reflexivity.
  - split; [eexists; split; [split; [lia|reflexivity]|reflexivity]|].
    split; [eexists; split; [split; [lia|reflexivity]|right; left; reflexivity]|].
    split.
    + exists 2. split; [split; [eexists; split; [split; [lia|reflexivity]|reflexivity]|eexists; split; [split; [lia|reflexivity]|left; reflexivity]]|].
      split; [lia|]. intros t Ht. assert (t = 3 \/ t = 4) as [ -> | -> ] by lia; vm_compute; discriminate.
    + intros f [_ [(i & [H0 H] & K) _]]. destruct f as [|[|[|[|[|[|f]]]]]]; try lia; cbn in H; try (injection H as <-; discriminate K).
      destruct f; discriminate H.
Qed.
Print Assumptions C32_missing_float_of_e_reported_refuted.

(* A symbol longer than every declared symbol is looked up outside symbolLenExists[]. *)
Theorem C32_undeclared_symbol_is_reported_refuted :
  let db := [mkS K_c (W ["a"]); mkS K_a (W ["abc"])]%string in
  mqsorted (map mt_name (declTokens 1 db)) [0] /\ parseStmts [0] 1 db = UB.
Proof.
  split; [|vm_compute; reflexivity].
  apply sorted_names; [apply Permutation_refl|vm_compute; repeat constructor].
Qed.
Print Assumptions C32_undeclared_symbol_is_reported_refuted.

(* On a malformed database the reader can stop at an internal trap (1708): an $e with an
   undeclared symbol whose stack entry is later reused. *)
Definition db4 : list sinp :=
  [ mkS K_c (W ["|-"; "long"]); mkS K_e (W ["|-"; "x"]); mkS K_lb []; mkS K_v (W ["x"]); mkS K_rb []; mkS K_a (W ["|-"]) ]%string.
Theorem C32_reader_never_traps_refuted :
  mqsorted (map mt_name (declTokens 1 db4)) [1; 2; 0] /\ parseStmts [1; 2; 0] 1 db4 = Bug 1708.
Proof.
  split; [|vm_compute; reflexivity].
  apply sorted_names; [|vm_compute; repeat constructor; discriminate].
  apply NoDup_Permutation; [repeat constructor; cbn; intuition lia|apply seq_NoDup|vm_compute; intuition lia].
Qed.
Print Assumptions C32_reader_never_traps_refuted.
