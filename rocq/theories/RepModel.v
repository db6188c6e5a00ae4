(* RepModel.v -- replaceStatement() and proveByReplacement(), src/mmpfas.c:247-957 (REPLACE,
   IMPROVE and MINIMIZE_WITH).  No proofs here.
   Math tokens as in UniModel.v.  Messages, debug output and deallocation are not modelled.
   Trial steps are counted from 0: trialStep - (scanLowerBound - reqHyps) in C. *)
From Verif Require Import Base VerModel ParModel SqModel UniModel HenModel PfaModel FltModel.
Open Scope nat_scope.

(* ---------- the order of the hypotheses, 424-493 ---------- *)
Definition swapAt (l : list nat) (i j : nat) : res (list nat) :=
  do x <- get l i; do y <- get l j; do l <- set l i y; set l j x.
(* 456-465: the $e hypotheses to the front; k left, at hyp, n = schEHyps *)
Fixpoint moveE (db : dbase) (hyps : list nat) (k hyp n : nat) (sm : list nat) : res (nat * list nat) :=
  match k with
  | O => Ok (n, sm)
  | S k' =>
      do j <- get sm hyp;
      do h <- get hyps j;
      do sh <- stmtOf db h;
      if isE (s_type sh) then do sm' <- swapAt sm hyp n; moveE db hyps k' (S hyp) (S n) sm'
      else moveE db hyps k' (S hyp) n sm
  end.
(* 469-478: longest first *)
Fixpoint sortIn (schemes : list (list nat)) (k hyp i : nat) (sm : list nat) : res (list nat) :=
  match k with
  | O => Ok sm
  | S k' =>
      do a <- get sm i; do b <- get sm hyp;
      do x <- get schemes a; do y <- get schemes b;
      if length y <? length x then do sm' <- swapAt sm hyp i; sortIn schemes k' hyp (S i) sm'
      else sortIn schemes k' hyp (S i) sm
  end.
Fixpoint sortE (schemes : list (list nat)) (k n hyp : nat) (sm : list nat) : res (list nat) :=
  match k with
  | O => Ok sm
  | S k' => do sm' <- sortIn schemes (n - S hyp) hyp (S hyp) sm; sortE schemes k' n (S hyp) sm'
  end.

(* ---------- what does not change during the search ---------- *)
Record rctx := mkC {
  c_E : fenv;
  c_repl : nat;                     (* replStatemNum *)
  c_hyps : list nat;                (* its reqHypList *)
  c_schemes : list (list nat);      (* hypList *)
  c_scheme : list nat;              (* scheme *)
  c_m : list nat;                   (* prfMath *)
  c_map : list nat;                 (* hypSortMap *)
  c_nE : nat;                       (* schEHyps *)
  c_own : list nat;                 (* reqHypList of provStmtNum *)
  c_lo : nat; c_hi : nat;           (* scanLowerBound, scanUpperBound *)
  c_indep : option (list bool);     (* indepKnownSteps; None if subProofFlag *)
  c_search : bool }.                (* searchMethod == 1 *)
Definition c_lim (C : rctx) : nat := c_hi C - c_lo C + length (c_own C).
(* hypTestPtr, 643-653: the mandatory hypotheses of the statement being proved, then the
   steps *)
Definition stepOf (C : rctx) (ts : nat) : nat := c_lo C + (ts - length (c_own C)).
Definition cand (C : rctx) (ts : nat) : res (list nat) :=
  if ts <? length (c_own C) then do h <- get (c_own C) ts; do sh <- stmtOf (f_db (c_E C)) h; Ok (s_math sh)
  else get (f_tg (c_E C)) (stepOf C ts).
(* 655-661 *)
Definition mayUse (C : rctx) (ts : nat) : res bool :=
  if ts <? length (c_own C) then Ok true
  else match c_indep C with None => Ok true | Some l => get l (stepOf C ts) end.
(* 671-682 *)
Definition hdDiffer (e : uenv) (t X : list nat) : res bool :=
  match t, X with
  | i :: _, j :: _ => Ok (u_con e i && u_con e j && negb (i =? j))
  | _, _ => UB
  end.
(* 732-753: has the same expression been seen before? *)
Fixpoint seenIn (C : rctx) (k i : nat) (t : list nat) : res bool :=
  match k with
  | O => Ok false
  | S k' => do x <- cand C i; if nmbrEqb t x then Ok true else seenIn C k' (S i) t
  end.
(* 763-776 *)
Definition proofAt (C : rctx) (ts : nat) : res (list Z) :=
  if ts <? length (c_own C) then do h <- get (c_own C) ts; Ok [Z.of_nat h]
  else
    let i := stepOf C ts in
    do n <- subproofLen (f_db (c_E C)) (f_pf (c_E C)) i;
    Ok (firstn n (skipn (i + 1 - n) (f_pf (c_E C)))).

(* ---------- the state of the search ---------- *)
(* by number of the hypothesis: hypMakeSubstList, hypStateVectorList (None: no answer),
   hypReEntryFlagList, hypStepList, hypProofList; by position in the order:
   hasFloatingProof == 'Y', tryFloatingProofLater (None: ' '); g_unifTrialCount *)
Record rst := mkT {
  t_sub : list (list nat); t_sv : list (option hst); t_fl : list nat; t_step : list nat; t_prf : list (list Z);
  t_hf : list bool; t_tl : list (option bool); t_tc : nat }.

(* 634-779, the loop over trialStep: ts, k steps are left; fl = the re-entry flag, sv = the
   state vector.  Found: where; in any case the flag, the state vector and the counter *)
Fixpoint trialLoop (fuel : nat) (C : rctx) (X : list nat) (dv : bool) (k ts fl : nat) (sv : option hst) (tc : nat)
  : res (option (nat * hst) * (nat * option hst * nat)) :=
  match k with
  | O => Ok (None, (fl, sv, tc))
  | S k' =>
      do t <- cand C ts;
      do ok <- mayUse C ts;
      if negb ok then trialLoop fuel C X dv k' (S ts) fl sv tc
      else if negb dv && negb (nmbrEqb t X) then trialLoop fuel C X dv k' (S ts) fl sv tc
      else
        do hd <- hdDiffer (f_u (c_E C)) t X;
        if (hd : bool) then trialLoop fuel C X dv k' (S ts) fl sv tc
        else if negb ((fl =? 1) || (fl =? 2)) then Bug 1851
        else
          do r <- (if fl =? 1 then unifyH fuel (f_u (c_E C)) (f_on (c_E C)) X t 1
                   else match sv with Some h => unifyHNext fuel (f_u (c_E C)) (f_on (c_E C)) X t h 1 | None => UB end);
          match fst r with
          | HYes h =>
              do seen <- (if fl =? 1 then seenIn C ts 0 t else Ok false);
              if (seen : bool) then trialLoop fuel C X dv k' (S ts) 1 None (snd r)
              else Ok (Some (ts, h), (2, Some h, snd r))
          | HNo => if negb dv && (fl =? 2) then Ok (None, (1, None, snd r)) else trialLoop fuel C X dv k' (S ts) 1 None (snd r)
          | HTimeout => if negb dv && (fl =? 2) then Ok (None, (1, None, 1)) else trialLoop fuel C X dv k' (S ts) 1 None 1
          end
  end.

(* 549-566 and 848-856: the substitutions of the hypotheses at the positions ps *)
Fixpoint chain (C : rctx) (s : rst) (x : list nat * bool) (ps : list nat) : res (list nat * bool) :=
  match ps with
  | [] => Ok x
  | i :: r =>
      do hf <- get (t_hf s) i;
      if (hf : bool) then chain C s x r
      else
        do k <- get (c_map C) i;
        do o <- get (t_sv s) k;
        match o with
        | Some h => do y <- makeSubst (f_u (c_E C)) (h_s h) (fst x); chain C s y r
        | None => UB
        end
  end.
Definition hasDummy (C : rctx) (X : list nat) : bool := existsb (fun t => u_mt (f_u (c_E C)) <? t) X.

(* 842-899: the postponed $e hypotheses, positions ps; false: break out *)
Fixpoint later (fuel : nat) (C : rctx) (s : rst) (ps : list nat) : res (bool * rst) :=
  match ps with
  | [] => Ok (true, s)
  | i :: r =>
      do tl <- get (t_tl s) i;
      match tl with
      | Some true =>
          do k <- get (c_map C) i;
          do x <- get (t_sub s) k;
          do y <- chain C s (x, false) (seq (S i) (c_nE C - S i));
          do sub <- set (t_sub s) k (fst y);
          let s := mkT sub (t_sv s) (t_fl s) (t_step s) (t_prf s) (t_hf s) (t_tl s) (t_tc s) in
          if hasDummy C (fst y) then Ok (false, s)
          else
            do q <- proveFloating fuel (c_E C) (fst y);
            match fst q with
            | [] => Ok (false, s)
            | _ =>
                do prf <- set (t_prf s) k (fst q);
                do fl <- set (t_fl s) k 3;
                do hf <- set (t_hf s) i true;
                later fuel C (mkT (t_sub s) (t_sv s) fl (t_step s) prf hf (t_tl s) (t_tc s)) r
            end
      | _ => later fuel C s r
      end
  end.
(* 903-923: back over postponed hypotheses; 0: no more possibilities *)
Fixpoint back (tl : list (option bool)) (p : nat) : res nat :=
  match p with
  | O => Ok 0
  | S i =>
      do x <- get tl i;
      match x with
      | Some false => Ok (S i)
      | Some true => back tl i
      | None => Bug 1853
      end
  end.

Inductive rout := RNext (p : nat) (s : rst) | RNoMatch (s : rst).
(* 528-632: the hypothesis at position p after all substitutions known so far; then where
   to start: trial step, reenterFFlag, flag *)
Definition prepare (C : rctx) (main : hst) (p : nat) (s : rst) : res ((list nat * bool) * nat * rst) :=
  do k <- get (c_map C) p;
  do sch <- get (c_schemes C) k;
  do x0 <- makeSubst (f_u (c_E C)) (h_s main) sch;
  do hf <- set (t_hf s) p false;
  do tl <- set (t_tl s) p (Some false);
  let s := mkT (t_sub s) (t_sv s) (t_fl s) (t_step s) (t_prf s) hf tl (t_tc s) in
  do x <- chain C s x0 (seq 0 (Nat.min p (c_nE C)));
  do sub <- set (t_sub s) k (fst x);
  do h <- get (c_hyps C) k;
  do sh <- stmtOf (f_db (c_E C)) h;
  if (p <? c_nE C) && negb (isE (s_type sh)) then Bug 1823
  else if negb (p <? c_nE C) && negb (match s_type sh with S_f => true | _ => false end) then Bug 1824
  else Ok (x, k, mkT sub (t_sv s) (t_fl s) (t_step s) (t_prf s) hf tl (t_tc s)).
Definition startAt (C : rctx) (p k : nat) (s : rst) : res (nat * bool * nat) :=
  do fl <- get (t_fl s) k;
  if fl =? 2 then do ts <- get (t_step s) k; Ok (ts, c_nE C <=? p, 2)
  else if fl =? 1 then Ok (0, false, 1)
  else if fl =? 3 then Ok (c_lim C, true, 1)
  else Bug 1826.
(* 781-837: no step matched *)
Definition noStep (fuel : nat) (C : rctx) (p k : nat) (reF : bool) (X : list nat) (s : rst) : res (bool * rst) :=
  if (negb (p <? c_nE C) || c_search C) && negb reF then
    if hasDummy C X then
      if p <? c_nE C then
        do fl <- get (t_fl s) k;
        do sv <- get (t_sv s) k;
        do r <- (if fl =? 1 then unifyH fuel (f_u (c_E C)) (f_on (c_E C)) X X (t_tc s)
                 else match sv with Some h => unifyHNext fuel (f_u (c_E C)) (f_on (c_E C)) X X h (t_tc s) | None => UB end);
        match fst r with
        | HYes h =>
            do tl <- set (t_tl s) p (Some true);
            do sv <- set (t_sv s) k (Some h);
            Ok (true, mkT (t_sub s) sv (t_fl s) (t_step s) (t_prf s) (t_hf s) tl (snd r))
        | _ => Bug 1849
        end
      else Ok (false, s)
    else
      do q <- proveFloating fuel (c_E C) X;
      match fst q with
      | [] => Ok (false, s)
      | _ =>
          do prf <- set (t_prf s) k (fst q);
          do fl <- set (t_fl s) k 3;
          do hf <- set (t_hf s) p true;
          Ok (true, mkT (t_sub s) (t_sv s) fl (t_step s) prf hf (t_tl s) (t_tc s))
      end
  else Ok (false, s).
Definition store (C : rctx) (k : nat) (r : option (nat * hst) * (nat * option hst * nat)) (s : rst) : res (bool * rst) :=
  let '(o, (fl, sv, tc)) := r in
  do fls <- set (t_fl s) k fl;
  do svs <- set (t_sv s) k sv;
  match o with
  | None => Ok (false, mkT (t_sub s) svs fls (t_step s) (t_prf s) (t_hf s) (t_tl s) tc)
  | Some (ts, _) =>
      do steps <- set (t_step s) k ts;
      do pr <- proofAt C ts;
      do prf <- set (t_prf s) k pr;
      Ok (true, mkT (t_sub s) svs fls steps prf (t_hf s) (t_tl s) tc)
  end.
(* 528-924, one pass of the loop over the hypotheses *)
Definition hypStep (fuel : nat) (C : rctx) (main : hst) (p : nat) (s : rst) : res rout :=
  do q <- prepare C main p s;
  let '(x, k, s) := q in
  do b <- startAt C p k s;
  let '(ts, reF, fl) := b in
  do sv <- get (t_sv s) k;
  do r <- trialLoop fuel C (fst x) (snd x) (c_lim C - ts) ts fl sv (t_tc s);
  do q <- store C k r s;
  do q <- (if fst q then Ok q else noStep fuel C p k reF (fst x) (snd q));
  do o <- (if fst q && (S p =? c_nE C) then do l <- later fuel C (snd q) (seq 0 (c_nE C)); Ok (if (fst l : bool) then (true, p, snd l) else (false, 0, snd l))
           else Ok (fst q, p, snd q));
  let '(found, p, s) := o in
  if (found : bool) then Ok (RNext (S p) s)
  else
    do p' <- back (t_tl s) p;
    match p' with
    | O => Ok (RNoMatch s)
    | S p'' => Ok (RNext p'' s)
    end.
(* the loop: true: all hypotheses have a proof *)
Fixpoint hypsLoop (n fuel : nat) (C : rctx) (main : hst) (p : nat) (s : rst) : res (bool * rst) :=
  if p =? length (c_hyps C) then Ok (true, s)
  else
    match n with
    | O => Fuel
    | S n' =>
        do o <- hypStep fuel C main p s;
        match o with
        | RNext p' s' => hypsLoop n' fuel C main p' s'
        | RNoMatch s' => Ok (false, s')
        end
    end.
(* 929-940 *)
Definition build (C : rctx) (s : rst) : res (list Z) :=
  if existsb (fun p => length p =? 0) (t_prf s) then Bug 1852 else Ok (concat (t_prf s) ++ [Z.of_nat (c_repl C)]).
(* 508-943; r = the answer of unifyH() *)
Fixpoint mainLoop (n fuel : nat) (C : rctx) (r : hres) (s : rst) : res (list Z) :=
  match n with
  | O => Fuel
  | S n' =>
      match r with
      | HYes h =>
          do q <- hypsLoop fuel fuel C h 0 s;
          if fst q then build C (snd q)
          else
            let s := snd q in
            do r' <- unifyHNext fuel (f_u (c_E C)) (f_on (c_E C)) (c_scheme C) (c_m C) h (t_tc s);
            mainLoop n' fuel C (fst r') (mkT (t_sub s) (t_sv s) (t_fl s) (t_step s) (t_prf s) (t_hf s) (t_tl s) (snd r'))
      | _ => Ok []
      end
  end.

(* 327-957.  repl: replStatemNum; step: prfStep; sub: subProofFlag; search: searchMethod == 1.
   f_n E: provStmtNum; f_maxE E: improveDepth *)
(* (getIndepKnownSteps() does not look at the sources and user strings) *)
Definition pipOf (E : fenv) : pip := mkPip (f_pf E) (map (map Z.of_nat) (f_tg E)) (map (fun _ => []) (f_pf E)) (map (fun _ => []) (f_pf E)).
Definition context (E : fenv) (repl step : nat) (sub search : bool) : res rctx :=
  do st <- stmtOf (f_db E) repl;
  if (f_override E =? 0) && f_disc E repl then Bug 1868
  else
    do m <- get (f_tg E) step;
    do b <- (if sub then do n <- subproofLen (f_db E) (f_pf E) step; Ok (step + 1 - n, step) else Ok (0, length (f_pf E) - 1));
    if negb (isAP (s_type st)) then Bug 1822
    else
      do scheme <- dummies E st (s_math st);
      do schemes <- hypSchemes E st (s_reqHyps st);
      do e <- moveE (f_db E) (s_reqHyps st) (length (s_reqHyps st)) 0 0 (seq 0 (length (s_reqHyps st)));
      do sm <- sortE schemes (fst e) (fst e) 0 (snd e);
      do ind <- (if sub then Ok None else do l <- getIndepKnownSteps (f_db E) (Z.of_nat (u_mt (f_u E))) (pipOf E) step; Ok (Some l));
      do stn <- stmtOf (f_db E) (f_n E);
      Ok (mkC E repl (s_reqHyps st) schemes scheme m sm (fst e) (s_reqHyps stn) (fst b) (snd b) ind search).
Definition initSt (C : rctx) (tc : nat) : rst :=
  let n := length (c_hyps C) in
  mkT (repeat [] n) (repeat None n) (repeat 1 n) (repeat 0 n) (repeat [] n) (repeat false n) (repeat None n) tc.
Definition replaceStatement (fuel : nat) (E : fenv) (repl step : nat) (sub search : bool) : res (list Z) :=
  do C <- context E repl step sub search;
  do r <- unifyH fuel (f_u E) (f_on E) (c_scheme C) (c_m C) 1;
  mainLoop fuel fuel C (fst r) (initSt C (snd r)).

(* proveByReplacement, 253-325, with dummyVarFlag = 0: statements i, i + 1, ...; k left *)
Fixpoint byRepl (k fuel : nat) (E : fenv) (step : nat) (search : bool) (m : list nat) (i : nat) : res (list Z) :=
  match k with
  | O => Ok []
  | S k' =>
      do st <- stmtOf (f_db E) i;
      do b <- quickMatchFilter (f_db E) st m;
      if negb b || avoided E i st then byRepl k' fuel E step search m (S i)
      else
        do p <- replaceStatement fuel E i step false search;
        match p with
        | [] => byRepl k' fuel E step search m (S i)
        | _ => Ok p
        end
  end.
Definition proveByReplacement (fuel : nat) (E : fenv) (step : nat) (search : bool) : res (list Z) :=
  do m <- get (f_tg E) step;
  byRepl (f_n E - 1) fuel E step search m 1.
