(* MatchProps.v -- label lookup (C29) and label patterns (C16, C17). *)
From Verif Require Import Base VstrModel VstrSpec VstrProps LabModel LabSpec LabProofs MatchModel MatchSpec MatchProofs.
From Coq Require Import String Permutation Sorted.
Open Scope nat_scope.

(* ---------------- C29 ---------------- *)
(* For every statement table and every result the sorting function may give: the
   duplicate check reports exactly the statements whose label is used elsewhere;
   lookupLabel stays inside the tables, ends without trap and finds an assertion
   with the given label if there is one; the clash check reports exactly the tokens
   that are labels. *)
Theorem C29_label_lookup : forall st sorted, qsorted st sorted -> labelled_ok st ->
  exists dups all asrt, labelTables st sorted = Ok (dups, all, asrt) /\
    (forall k, In k dups <-> exists l j, hasLabel st k l /\ hasLabel st j l /\ j <> k) /\
    (forall l, exists r, lookupLabel st asrt l = Ok r /\
       match r with
       | Some k => hasLabel st k l /\ isAsrt st k
       | None => forall k, hasLabel st k l -> ~ isAsrt st k
       end) /\
    (forall tokens, (forall t, In t tokens -> t <> []) -> exists bad, tokenClash st all tokens = Ok bad /\
       forall t, In t bad <-> In t tokens /\ exists k, hasLabel st k t).
Proof. exact tables_ok. Qed.

Definition exStmts : list lstmt :=
  [ {| l_kind := K_c; l_label := [] |}; {| l_kind := K_f; l_label := chars "wp" |};
    {| l_kind := K_a; l_label := chars "wi" |}; {| l_kind := K_a; l_label := chars "ax-1" |};
    {| l_kind := K_p; l_label := chars "a1i" |} ].
Example C29_example :
  qsorted exStmts [1; 5; 4; 3; 2] /\ labelled_ok exStmts /\
  labelTables exStmts [1; 5; 4; 3; 2] = Ok ([], [5; 4; 3; 2], [5; 4; 3]) /\
  lookupLabel exStmts [5; 4; 3] (chars "wi") = Ok (Some 3) /\
  lookupLabel exStmts [5; 4; 3] (chars "wp") = Ok None /\
  tokenClash exStmts [5; 4; 3; 2] [chars "->"; chars "wp"] = Ok [chars "wp"].
Proof.
  split.
  - split.
    + cbn. apply perm_skip. 
      apply NoDup_Permutation; [repeat constructor; simpl; intuition lia|repeat constructor; simpl; intuition lia|].
      simpl. intuition.
    + repeat first [apply Sorted_nil | apply Sorted_cons | apply HdRel_nil | apply HdRel_cons];
      intros a b Ha Hb; apply Ok_inj in Ha, Hb; subst; vm_compute; discriminate.
  - split; [|repeat split; vm_compute; reflexivity]. intros s Hs L. simpl in Hs.
    repeat (destruct Hs as [<-|Hs]; [first [exact I|exfalso; apply L; reflexivity]|]). destruct Hs.
Qed.
Print Assumptions C29_label_lookup.

(* ---------------- C16 ---------------- *)
(* Patterns without a special meaning, matched against a string without wildcard
   characters: glob semantics; the loops terminate and read nothing beyond the
   terminators.  (w, o: the two wildcard characters, '*' and '?' for labels.) *)
Theorem C16_matches_glob : forall env test pat w o fuel,
  isStr pat -> isStr test -> w <> 0 -> o <> 0 -> w <> o -> ~ In w test -> (w = 42 -> ~ special pat) ->
  (List.length pat + List.length test) * (List.length pat + 2) + List.length pat + 1 < fuel ->
  exists r, matches fuel env test pat w o = Ok r /\ (r = true <-> glob w o pat test).
Proof. exact matches_glob. Qed.

(* The patterns with a special meaning: *)
Theorem C16_range : forall env test a b o fuel, env_ok env -> isStr (a ++ 126 :: b) -> ~ In 126 a ->
  exists r, matches fuel env test (a ++ 126 :: b) 42 o = Ok r /\
    (r = true <-> exists k, asrtNamed env test k /\
       (a = [] \/ exists i, asrtNamed env a i /\ i <= k) /\ (b = [] \/ exists j, asrtNamed env b j /\ k <= j)).
Proof. exact matches_range. Qed.
Theorem C16_statement_number : forall env test d n o fuel, decimal d 0 = Some n ->
  exists r, matches fuel env test (35 :: d) 42 o = Ok r /\
    (r = true <-> exists s, lnth (e_stmts env) n = Some s /\ l_label s = test).
Proof. exact matches_number. Qed.
Theorem C16_page_number : forall env test d n o fuel, env_ok env -> decimal d 0 = Some n ->
  exists r, matches fuel env test (64 :: d) 42 o = Ok r /\
    (r = true <-> exists k, asrtNamed env test k /\ e_pink env k = Z.of_nat n).
Proof. exact matches_page. Qed.
Theorem C16_prove_statement : forall env test o fuel, env_ok env -> (0 <= e_prove env)%Z ->
  exists r, matches fuel env test [61] 42 o = Ok r /\
    (r = true <-> exists k, asrtNamed env test k /\ e_prove env = Z.of_nat k).
Proof. exact matches_prove. Qed.
Theorem C16_changed : forall env test o fuel, env_ok env ->
  exists r, matches fuel env test [37] 42 o = Ok r /\
    (r = true <-> exists k s, asrtNamed env test k /\ lnth (e_stmts env) k = Some s /\ l_kind s = K_p /\ e_changed env k = true).
Proof. exact matches_changed. Qed.

(* Without "no wildcard character in the string" the glob reading is wrong: the
   literal scan eats the wildcard. *)
Theorem C16_star_in_string_refuted : forall env,
  matches 100 env (chars "*x") (chars "*") 42 63 = Ok false /\ glob 42 63 (chars "*") (chars "*x").
Proof. exact (fun env => conj eq_refl (glob_star 42 63 (chars "*x") [] [] (glob_nil 42 63))). Qed.

Definition exEnv : menv := {| e_stmts := exStmts; e_keys := [5; 4; 3]; e_pink := fun k => Z.of_nat (k - 2);
  e_changed := fun k => k =? 5; e_prove := 5 |}.
Example C16_example :
  env_ok exEnv /\ ~ special (chars "a*?1") /\ glob 42 63 (chars "a*?1") (chars "ax-1") /\
  matches 100 exEnv (chars "ax-1") (chars "a*?1") 42 63 = Ok true /\
  matches 100 exEnv (chars "abcbd") (chars "*bc*b?") 42 63 = Ok true /\
  matches 100 exEnv (chars "abcb") (chars "*bc*b?") 42 63 = Ok false /\
  matches 100 exEnv (chars "ax-1") (chars "wi~a1i") 42 63 = Ok true /\
  matches 100 exEnv (chars "wi") (chars "ax-1~") 42 63 = Ok false /\
  matches 100 exEnv (chars "a1i") (chars "@3") 42 63 = Ok true.
Proof.
  split.
  - exists [1; 5; 4; 3; 2]. destruct C29_example as [A [B [C _]]]. split; [exact A|]. split; [exact B|].
    exists [5; 4; 3; 2]. exact C.
  - split; [intros [Q|[[r Q]|[[r Q]|[Q|Q]]]]; vm_compute in Q; try discriminate; repeat (destruct Q as [Q|Q]; [discriminate|]); exact Q|].
    split; [|repeat split; vm_compute; reflexivity].
    change (glob 42 63 [97; 42; 63; 49] [97; 120; 45; 49]).
    apply glob_char; [lia|lia|]. apply (glob_star 42 63 [120]). apply glob_one. apply glob_char; [lia|lia|]. constructor.
Qed.
Print Assumptions C16_matches_glob.
Print Assumptions C16_range.
Print Assumptions C16_statement_number.
Print Assumptions C16_page_number.
Print Assumptions C16_prove_statement.
Print Assumptions C16_changed.
Print Assumptions C16_star_in_string_refuted.

(* ---------------- C17 ---------------- *)
(* A non-empty list matches iff one of the pieces between commas does; the empty
   list matches nothing. *)
Theorem C17_list_union : forall fuel env test pat w o, env_ok env ->
  isStr pat -> isStr test -> w <> 0 -> o <> 0 -> w <> o -> ~ In w test ->
  (List.length pat + List.length test) * (List.length pat + 2) + List.length pat + 1 < fuel ->
  exists r, matchesList fuel env test pat w o = Ok r /\
    (r = true <-> pat <> [] /\ exists f, In f (fields pat) /\ matches fuel env test f w o = Ok true).
Proof. exact matchesList_union. Qed.
Example C17_example : matchesList 100 exEnv (chars "ax-1") (chars "w*,,ax-?") 42 63 = Ok true /\
  matchesList 100 exEnv (chars "ax-1") (chars "w*,a1i") 42 63 = Ok false.
Proof. split; vm_compute; reflexivity. Qed.
Print Assumptions C17_list_union.
