(* TrcModel.v -- executable model of usage and dependency tracing: traceUsage,
   traceProofWork and traceProof, src/mmcmds.c:3560-3665, 2864-2973, 2749-2862
   (SHOW USAGE, SHOW TRACE_BACK).  No proofs here. *)
From Verif Require Import Base VerModel TokModel ParModel SqModel VstrModel.
Open Scope nat_scope.

(* What tracing reads.  t_db: g_Statement[]; t_name: labelName; t_parse n: what
   parseProof(n) leaves behind for statement n; t_text n: the proof section of
   statement n (proofSectionPtr, proofSectionLen) and the file text after it.
   Simplification: parseProof is represented by its result (modelled in
   ParModel.v).  g_statements is the number of statements; entry 0 is unused. *)
Record tenv := mkTenv {
  t_db : dbase;
  t_name : nat -> list nat;
  t_parse : nat -> parsed;
  t_text : nat -> list nat * list nat }.
Definition nstm (db : dbase) : nat := length (db_stmts db) - 1.
Definition chY : nat := 89.
Definition chN : nat := 78.

(* "Don't use bad proofs (incomplete proofs are ok)", 3626-3632 and 2918-2924 *)
Definition proofOf (e : tenv) (n : nat) : list Z :=
  if 1 <? pr_k (t_parse e n) then [zUnk] else map encStep (pr_proof (t_parse e n)).

(* nmbrElementIn(1, proof, m) != 0, src/mmdata.c:1617-1624 *)
Definition refersTo (proof : list Z) (m : nat) : bool := existsb (Z.eqb (Z.of_nat m)) proof.

(* the text up to the first ')', 3607-3611; bug(217) at the end of the file *)
Fixpoint upToClose (l : list nat) : res (list nat) :=
  match l with
  | [] => Bug 217
  | c :: r => if c =? chClose then Ok [] else do x <- upToClose r; Ok (c :: x)
  end.

(* the speed-up test, 3599-3624: false = skip this statement.  The source text is
   cut at fbPtr2 during the search; when the white space runs past the section
   the cut is before fbPtr and the search goes on to the end of the file. *)
Definition labelInText (name section rest : list nat) : res bool :=
  match section ++ rest with
  | [] => Ok false
  | full =>
      do l <- whiteSpace full;
      do region <- (if isTok chOpen l then upToClose l
                    else let skipped := length full - length l in
                         Ok (if skipped <=? length section
                             then firstn (length section - skipped) l else l));
      Ok (negb (instr 1 region name =? 0))
  end.

(* the loop over the statements, 3590-3648.  lst = statementList, last = lastPos *)
Fixpoint usageLoop (e : tenv) (s : nat) (rec notEFRec : bool) (stmts : list nat)
  (lst : list nat) (last : nat) : res (list nat) :=
  match stmts with
  | [] => Ok lst
  | n :: r =>
      do st <- rget (nth_error (db_stmts (t_db e)) n);
      match s_type st with
      | S_p =>
          do go <- (if notEFRec then labelInText (t_name e s) (fst (t_text e n)) (snd (t_text e n))
                    else Ok true);
          if negb go then usageLoop e s rec notEFRec r lst last
          else if existsb (refersTo (proofOf e n)) (firstn last lst)
          then usageLoop e s rec notEFRec r (lst ++ [n]) (if rec then S last else last)
          else usageLoop e s rec notEFRec r lst last
      | _ => usageLoop e s rec notEFRec r lst last
      end
  end.

Fixpoint setAt {A : Type} (k : nat) (x : A) (l : list A) : list A :=
  match l, k with
  | [], _ => []
  | _ :: r, 0 => x :: r
  | a :: r, S k' => a :: setAt k' x r
  end.

(* filling in the flags, 3655-3661 *)
Fixpoint markAll (db : dbase) (s : nat) (l : list nat) (fl : list nat) : res (list nat) :=
  match l with
  | [] => Ok fl
  | n :: r =>
      do st <- rget (nth_error (db_stmts db) n);
      if (n <=? s) || negb (match s_type st with S_p => true | _ => false end) || (nstm db <? n)
      then Bug 212
      else markAll db s r (setAt n chY fl)
  end.

(* traceUsage(statemNum, recursiveFlag, cutoffStmt), 3560-3665: the string
   statementUsedFlags *)
Definition traceUsage (e : tenv) (s : nat) (rec : bool) (cutoff : nat) : res (list nat) :=
  do st <- rget (nth_error (db_stmts (t_db e)) s);
  let notEFRec := match s_type st with S_e | S_f => false | _ => negb rec end in
  let cutoff := if cutoff =? 0 then nstm (t_db e) else cutoff in
  do lst <- usageLoop e s rec notEFRec (seq (S s) (cutoff - s)) [s] 1;
  let fl := repeat chN (S (nstm (t_db e))) in
  let fl := if 1 <? length lst then setAt 0 chY fl else fl in
  markAll (t_db e) s (tl lst) fl.

(* ---------- traceProofWork, 2864-2973 ---------- *)

(* OR the usage into the filter, 2897-2902 *)
Fixpoint orFlags (f u : list nat) : list nat :=
  match f, u with
  | a :: f', b :: u' => (if b =? chY then chY else a) :: orFlags f' u'
  | _, _ => f
  end.

(* the /TO filter, 2880-2904.  hit n: matchesList(label of n, traceToList) (see
   MatchModel.v).  Entry 0 of the filter is not used. *)
Fixpoint toFilter (e : tenv) (hit : nat -> bool) (s : nat) (stmts : list nat) (f : list nat)
  : res (list nat) :=
  match stmts with
  | [] => Ok f
  | n :: r =>
      do st <- rget (nth_error (db_stmts (t_db e)) n);
      match s_type st with
      | S_a | S_p =>
          if hit n then
            do u <- traceUsage e n true s;
            let f1 := setAt n chY f in
            let f2 := if nth 0 u 0 =? chY
                      then firstn (S n) f1 ++ orFlags (skipn (S n) f1) (skipn (S n) u) else f1 in
            toFilter e hit s r f2
          else toFilter e hit s r f
      | _ => toFilter e hit s r f
      end
  end.

(* statementList (its used part), statementUsedFlags, unprovedList *)
Record wst := mkWst { w_list : list nat; w_flags : list nat; w_unpr : list nat }.

(* one proof step, 2935-2966.  p = statementList[pos]; ess = essentialFlags[step]
   (1 when they are not used).  nmbrSpace(g_statements) has room for g_statements
   entries and the terminator. *)
Definition workStep (e : tenv) (filter : option (list nat)) (p : nat) (ess z : Z) (w : wst) : res wst :=
  if (ess =? 0)%Z then Ok w
  else if (z <? 0)%Z then
    if (-1000 <? z)%Z
    then Ok (if existsb (Nat.eqb p) (w_unpr w) then w
             else mkWst (w_list w) (w_flags w) (w_unpr w ++ [p]))
    else Ok w
  else
    let m := Z.to_nat z in
    do st <- rget (nth_error (db_stmts (t_db e)) m);
    match s_type st with
    | S_a | S_p =>
        do c <- rget (nth_error (w_flags w) m);
        if c =? chN then
          do pass <- match filter with
                     | None => Ok true
                     | Some f => do x <- rget (nth_error f m); Ok (x =? chY)
                     end;
          if (pass : bool) then
            if nstm (t_db e) <? length (w_list w) then UB
            else Ok (mkWst (w_list w ++ [m]) (setAt m chY (w_flags w)) (w_unpr w))
          else Ok w
        else Ok w
    | _ => Ok w
    end.

Fixpoint workSteps (e : tenv) (filter : option (list nat)) (p : nat) (ess proof : list Z) (w : wst)
  : res wst :=
  match proof with
  | [] => Ok w
  | z :: r =>
      do x <- rget (hd_error ess);
      do w' <- workStep e filter p x z w;
      workSteps e filter p (tl ess) r w'
  end.

(* the loop over statementList, 2912-2968 *)
Fixpoint workLoop (fuel : nat) (e : tenv) (essential : bool) (filter : option (list nat)) (pos : nat) (w : wst)
  : res wst :=
  match fuel with
  | 0 => Fuel
  | S f =>
      match nth_error (w_list w) pos with
      | None => Ok w
      | Some n =>
          do st <- rget (nth_error (db_stmts (t_db e)) n);
          match s_type st with
          | S_p =>
              let proof := proofOf e n in
              do ess <- (if essential then getEssential (length proof) (t_db e) proof
                         else Ok (repeat 1%Z (length proof)));
              do w' <- workSteps e filter n ess proof w;
              workLoop f e essential filter (S pos) w'
          | _ => workLoop f e essential filter (S pos) w
          end
      end
  end.

(* traceProofWork: statementUsedFlags and unprovedList.  to = None: no /TO. *)
Definition traceProofWork (fuel : nat) (e : tenv) (s : nat) (essential : bool) (to : option (nat -> bool))
  : res (list nat * list nat) :=
  do filter <- match to with
               | None => Ok None
               | Some hit =>
                   do f <- toFilter e hit s (seq 1 (nstm (t_db e))) (repeat chN (S (nstm (t_db e))));
                   Ok (Some f)
               end;
  let fl := setAt s chY (repeat chN (S (nstm (t_db e)))) in
  do w <- workLoop fuel e essential filter 0 (mkWst [s] fl []);
  Ok (w_flags w, w_unpr w).

(* traceProof, 2749-2862: foundFlag, the statements listed and those reported as
   not proved.  match_ = None: no /MATCH list.  Simplifications: the scroll prompt
   (abortOnQuit) and the formatting of the printed lines. *)
Definition traceProof (fuel : nat) (e : tenv) (s : nat) (essential axiomFlag testOnly : bool)
  (match_ to : option (nat -> bool)) : res (bool * list nat * list nat) :=
  do st <- rget (nth_error (db_stmts (t_db e)) s);
  match s_type st with
  | S_p =>
      do x <- traceProofWork fuel e s essential to;
      let '(fl, unpr) := x in
      if negb (length fl =? S (nstm (t_db e))) then Bug 226
      else
        let kept := List.filter (fun n => (nth n fl 0 =? chY)
                       && match match_ with None => true | Some f => f n end) (seq 1 (s - 1)) in
        let found := negb (length kept =? 0) in
        if testOnly then Ok (found, [], [])
        else Ok (found,
                 List.filter (fun n => negb axiomFlag
                    || match nth_error (db_stmts (t_db e)) n with
                       | Some sn => match s_type sn with S_a => true | _ => false end
                       | None => false
                       end) kept, unpr)
  | _ => Bug 249
  end.
