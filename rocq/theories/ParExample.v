(* ParExample.v -- concrete label tables for the examples and counterexamples of
   ParProps.v, with a decision procedure for wf_env and uniq_env. *)
From Verif Require Import Base MMSpec VerModel VerSpec VerExample TokModel ParModel ParSpec ParProofs
  ParCompr ParTotal CmpModel CmpCodec CmpSpec CmpProofs CmpRound ParText ParSafe.
From Coq Require Import String Ascii.
Open Scope nat_scope.

(* text as character codes *)
Fixpoint codes (s : string) : list nat :=
  match s with
  | EmptyString => []
  | String a r => nat_of_ascii a :: codes r
  end.

(* linear search: one possible bsearch *)
Fixpoint linFind (tab : list (label * Z)) (l : label) : option Z :=
  match tab with
  | [] => None
  | (a, j) :: r => if list_eq_dec Nat.eq_dec a l then Some j else linFind r l
  end.
Lemma linFind_some tab l j : linFind tab l = Some j -> In (l, j) tab.
Proof.
  induction tab as [|[a i] r IH]; cbn [linFind]; [discriminate|].
  destruct (list_eq_dec Nat.eq_dec a l) as [->|_]; intros H; [injection H as ->; left; auto|right; auto].
Qed.
Lemma linFind_none tab l : linFind tab l = None -> forall j, ~ In (l, j) tab.
Proof.
  induction tab as [|[a i] r IH]; cbn [linFind]; intros H j Hin; [destruct Hin|].
  destruct (list_eq_dec Nat.eq_dec a l) as [->|Hne]; [discriminate|].
  destruct Hin as [E|Hin]; [congruence|]. exact (IH H j Hin).
Qed.

Definition stdKeys (db : dbase) (name : nat -> label) : list (label * Z) :=
  flat_map (fun m => match nth_error (db_stmts db) m with
                     | Some st => if assB st && (1 <=? m) then [(name m, Z.of_nat m)] else []
                     | None => [] end) (seq 0 (List.length (db_stmts db))).
Definition stdEnv (db : dbase) (name : nat -> label) : penv := mkEnv db name (stdKeys db name) linFind.

Definition envB (db : dbase) : bool :=
  forallb (fun st => match s_type st with
    | S_p => forallb (fun h => (1 <=? h) && match nth_error (db_stmts db) h with Some sh => hypB sh | None => false end)
               (s_reqHyps st ++ s_optHyps st)
    | _ => true end) (db_stmts db) &&
  match nth_error (db_stmts db) 0 with Some st => negb (assB st) | None => true end.

Lemma assB_iff st : assB st = true <-> isAssertion st.
Proof. unfold assB, isAssertion. destruct (s_type st); split; intros H; auto; try discriminate; destruct H; discriminate. Qed.
Lemma hypB_iff st : hypB st = true <-> isHyp st.
Proof. unfold hypB, isHyp. destruct (s_type st); split; intros H; auto; try discriminate; destruct H; discriminate. Qed.

Lemma stdKeys_In db name l j : In (l, j) (stdKeys db name) <->
  exists m st, 0 < m /\ j = Z.of_nat m /\ stmtAt db m st /\ isAssertion st /\ name m = l.
Proof.
  unfold stdKeys. rewrite in_flat_map. split.
  - intros [m [_ Hm]]. destruct (nth_error (db_stmts db) m) as [st|] eqn:E; [|destruct Hm].
    destruct (assB st && (1 <=? m)) eqn:B; [|destruct Hm]. apply andb_prop in B. destruct B as [B1 B2].
    apply assB_iff in B1. apply Nat.leb_le in B2. destruct Hm as [Hm|[]]. injection Hm as <- <-.
    exists m, st. repeat split; auto.
  - intros [m [st [H1 [-> [H3 [H4 <-]]]]]]. exists m. unfold stmtAt in H3. split.
    + apply in_seq. assert (m < List.length (db_stmts db)) by (apply nth_error_Some; congruence). lia.
    + rewrite H3. apply assB_iff in H4. rewrite H4. destruct (Nat.leb_spec 1 m); [|lia]. left. auto.
Qed.

Lemma stdEnv_wf db name : envB db = true -> wf_env (stdEnv db name).
Proof.
  intros H. unfold envB in H. apply andb_prop in H. destruct H as [H _]. rewrite forallb_forall in H. constructor; cbn [e_find e_keys e_db e_name stdEnv].
  - intros. apply linFind_some; auto.
  - intros. apply linFind_none; auto.
  - intros l j Hin. apply stdKeys_In in Hin. exact Hin.
  - intros n st h Hn Hp Hh. specialize (H st (nth_error_In _ _ Hn)). rewrite Hp in H.
    rewrite forallb_forall in H. specialize (H h ltac:(apply in_or_app; tauto)). apply andb_prop in H.
    destruct H as [H1 H2]. apply Nat.leb_le in H1. split; [lia|]. unfold stmtAt.
    destruct (nth_error (db_stmts db) h) as [sh|]; [|discriminate]. exists sh. split; auto. apply hypB_iff. auto.
Qed.

Fixpoint nodupL (l : list label) : bool :=
  match l with
  | [] => true
  | x :: r => negb (existsb (fun y => if list_eq_dec Nat.eq_dec x y then true else false) r) && nodupL r
  end.
Lemma nodupL_ok l : nodupL l = true -> NoDup l.
Proof.
  induction l as [|x r IH]; cbn [nodupL]; intros H; constructor; apply andb_prop in H; destruct H as [H1 H2]; auto.
  intros Hin. apply negb_true_iff in H1. assert (E : existsb (fun y => if list_eq_dec Nat.eq_dec x y then true else false) r = true).
  { apply existsb_exists. exists x. split; auto. destruct (list_eq_dec Nat.eq_dec x x); congruence. }
  congruence.
Qed.

Definition uniqB (db : dbase) (name : nat -> label) : bool :=
  let ms := filter (fun m => match nth_error (db_stmts db) m with Some st => assB st || hypB st | None => false end)
              (seq 0 (List.length (db_stmts db))) in
  nodupL (map name ms) &&
  forallb (fun m => negb (match name m with [] => true | _ => false end) && forallb labelChar (name m)) ms.

Lemma NoDup_map_inj {A B} (f : A -> B) : forall l a b, NoDup (map f l) -> In a l -> In b l -> f a = f b -> a = b.
Proof.
  induction l as [|x l IH]; intros a b H Ha Hb E; [destruct Ha|]. cbn [map] in H. inversion H; subst.
  destruct Ha as [->|Ha], Hb as [->|Hb]; auto.
  - exfalso. apply H2. rewrite E. apply in_map. auto.
  - exfalso. apply H2. rewrite <- E. apply in_map. auto.
Qed.

Lemma stdEnv_uniq db name : envB db = true -> uniqB db name = true -> uniq_env (stdEnv db name).
Proof.
  intros H0 H. unfold uniqB in H. set (ms := filter _ _) in H. apply andb_prop in H. destruct H as [H1 H2].
  apply nodupL_ok in H1 as ND. rewrite forallb_forall in H2.
  assert (HI : forall m sm, stmtAt db m sm -> labelled sm -> In m ms).
  { intros m sm Hs Hl. unfold ms. apply filter_In. unfold stmtAt in Hs. split.
    - apply in_seq. assert (m < List.length (db_stmts db)) by (apply nth_error_Some; congruence). lia.
    - rewrite Hs. apply orb_true_iff. destruct Hl as [Hl|Hl]; [left; apply assB_iff|right; apply hypB_iff]; auto. }
  constructor; cbn [e_keys e_db e_name stdEnv].
  - intros m1 m2 s1 s2 A B C D E. apply (NoDup_map_inj name ms); eauto.
  - intros m sm Hs Ha. apply stdKeys_In. exists m, sm. repeat split; auto.
    destruct m as [|m]; [|lia]. exfalso. unfold envB in H0. apply andb_prop in H0. destruct H0 as [_ H0].
    unfold stmtAt in Hs. rewrite Hs in H0. apply assB_iff in Ha. rewrite Ha in H0. discriminate.
  - intros m sm Hs Hl. specialize (H2 m (HI _ _ Hs Hl)). apply andb_prop in H2. destruct H2 as [A B].
    rewrite forallb_forall in B. split.
    + intros C. rewrite C in A. discriminate.
    + apply Forall_forall. exact B.
Qed.

(* ---------- fuel ---------- *)
Lemma comprLoop_fuel env max bg : forall f f' l s, f <= f' -> comprLoop f env max bg l s <> Fuel ->
  comprLoop f' env max bg l s = comprLoop f env max bg l s.
Proof.
  induction f as [|f IH]; intros f' l s Hle H; [cbn in H; congruence|].
  destruct f' as [|f']; [lia|]. apply le_S_n in Hle. cbn [comprLoop] in *.
  destruct l as [|c r]; auto. destruct (128 <=? c); auto.
  destruct ((65 <=? c) && (c <=? 84)).
  { destruct (letterStep _ _ _ _) as [[s1 a]| | |]; cbn [rbind] in *; auto. }
  destruct ((85 <=? c) && (c <=? 89)).
  { destruct (digitStep _ _ _); cbn [rbind] in *; auto. }
  destruct (c =? 90).
  { destruct (zStep _ _ _); cbn [rbind] in *; auto. }
  destruct (isspace c); auto.
  destruct (c =? 36).
  { destruct r as [|d r']; auto. destruct (d =? 46); auto. destruct ((d =? 40) || (d =? 33)); auto.
    destruct (whiteSpace _); cbn [rbind] in *; auto. }
  destruct (c =? 63); auto.
  destruct (qStep _ _); cbn [rbind] in *; auto.
Qed.
Lemma parseText_fuel env n max sec rest f f' : f <= f' -> parseText f env n max sec rest <> Fuel ->
  parseText f' env n max sec rest = parseText f env n max sec rest.
Proof.
  intros Hle H. unfold parseText in *. destruct (sec ++ rest); auto.
  destruct (whiteSpace _) as [l'| | |]; cbn [rbind] in *; auto. destruct (isTok chOpen l'); auto.
  destruct (labelList _ _) as [[[ls cl] tx]| | |]; cbn [rbind] in *; auto.
  set (bg := firstn _ _) in *. clearbody bg.
  enough (E : parseCompressed f' env n max (map fst ls) cl bg tx = parseCompressed f env n max (map fst ls) cl bg tx)
    by (rewrite E; auto).
  assert (H' : parseCompressed f env n max (map fst ls) cl bg tx <> Fuel).
  { intros E. rewrite E in H. apply H. reflexivity. }
  clear H. unfold parseCompressed in *. destruct (rget _); cbn [rbind] in *; auto.
  destruct (labelCodes _ _ _ _ _) as [[zs e2]| | |]; cbn [rbind] in *; auto. destruct (_ <? _); auto.
  rewrite (comprLoop_fuel _ _ _ f f'); auto.
  intros E. rewrite E in H'. apply H'. reflexivity.
Qed.

(* ---------- the example database of VerExample with labels ---------- *)
Definition ex_name (m : nat) : label := codes (match m with
  | 1 => "tt" | 2 => "tr" | 3 => "tze" | 4 => "tpl" | 5 => "eqid" | 6 => "eqd" | 7 => "th1" | 8 => "th2"
  | 9 => "hyp" | 10 => "sym" | _ => "x" end)%string.
Definition ex_env : penv := stdEnv ex_db ex_name.
Lemma ex_env_wf : wf_env ex_env.
Proof. apply stdEnv_wf. reflexivity. Qed.
Lemma ex_env_uniq : uniq_env ex_env.
Proof. apply stdEnv_uniq; vm_compute; reflexivity. Qed.
Definition ex_end : list nat := codes " $. " ++ [10].

(* ---------- witness for C11: 142 mandatory hypotheses ---------- *)
(* symbols 1..141 variables, 150 a constant; statements 1..141 $f's, 142 a $e with
   all the variables, 143 "$p wff v141" whose proof is the single step 141 *)
Definition big_stmts : list stmtRec :=
  mkStmt S_other [] [] [] [] [] [] ::
  map (fun v => mkStmt S_f [150; v] [] [] [] [] []) (seq 1 141) ++
  [ mkStmt S_e (150 :: seq 1 141) [] [] [] [] [];
    mkStmt S_p [150; 141] (seq 1 142) [] (seq 1 141) [] [] ].
Definition big_db : dbase := mkDb (fun t => (1 <=? t) && (t <=? 141)) 151 big_stmts.
(* labels: h followed by as many x as the number; th *)
Definition big_name (m : nat) : label :=
  if m =? 143 then codes "th" else 104 :: List.repeat 120 m.
Definition big_env : penv := stdEnv big_db big_name.
Lemma big_db_wf : wf_db big_db.
Proof. apply wf_dbB_ok. vm_compute. reflexivity. Qed.
Lemma big_env_wf : wf_env big_env.
Proof. apply stdEnv_wf. vm_compute. reflexivity. Qed.
Lemma big_env_uniq : uniq_env big_env.
Proof. apply stdEnv_uniq; vm_compute; reflexivity. Qed.
Definition big_st : stmtRec := nth 143 big_stmts (mkStmt S_other [] [] [] [] [] []).
Definition big_proof : list pstep := [Stm 141].

(* ---------- witnesses for C12 ---------- *)
(* statements 1..40 $e-like hypotheses; 41 an $a with all of them; 42 a $p with none *)
Definition ov_stmts : list stmtRec :=
  mkStmt S_other [] [] [] [] [] [] ::
  map (fun _ => mkStmt S_e [150] [] [] [] [] []) (seq 1 40) ++
  [ mkStmt S_a [150] (seq 1 40) [] [] [] [];
    mkStmt S_p [150] [] [] [] [] [] ].
Definition ov_db : dbase := mkDb (fun _ => false) 151 ov_stmts.
Definition ov_name (m : nat) : label :=
  if m =? 41 then codes "ax" else if m =? 42 then codes "th" else 104 :: List.repeat 120 m.
Definition ov_env : penv := stdEnv ov_db ov_name.
Lemma ov_db_wf : wf_db ov_db.
Proof. apply wf_dbB_ok. vm_compute. reflexivity. Qed.
Lemma ov_env_wf : wf_env ov_env.
Proof. apply stdEnv_wf. vm_compute. reflexivity. Qed.
Lemma ov_env_uniq : uniq_env ov_env.
Proof. apply stdEnv_uniq; vm_compute; reflexivity. Qed.
Definition ov_st : stmtRec := nth 42 ov_stmts (mkStmt S_other [] [] [] [] [] []).
