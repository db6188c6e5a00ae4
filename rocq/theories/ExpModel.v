(* ExpModel.v -- parseProof() for proofs in /EXPLICIT format, src/mmpars.c:2064-2729: what
   ParModel.parseNormal leaves out.  No proofs here.
   The elements of proofString beyond the current step are not looked at.  Message texts are
   not modelled. *)
From Verif Require Import Base VerModel TokModel ParModel SqModel SqSpec.
Open Scope nat_scope.

(* the scan of the tokens, 2083-2196.  xs_idx: the token numbers of the steps (last first);
   the pointers in stepSrcPtrPntr are compared with those of tokens (2228-2229) *)
Record xscan := mkXs { xs_n : nscan; xs_idx : list nat }.
(* "tok < numTokens - 2" and the next token begins with '=' *)
Definition beforeEq (r : list label) : bool :=
  match r with
  | t1 :: _ :: _ => isTok chEq t1
  | _ => false
  end.
Fixpoint scanX (env : penv) (n : nat) (hypTab : list (label * Z)) (prev : label) (i : nat) (toks : list label) (s : xscan) : res xscan :=
  match toks with
  | [] => Ok s
  | t :: r =>
      if beforeEq r || isTok chEq t then scanX env n hypTab t (S i) r s
      else if isTok chColon t then
        do s' <- colonTok env n hypTab prev (xs_n s);
        scanX env n hypTab t (S i) r (mkXs s' (tl (xs_idx s)))
      else
        let q := xs_n s in
        scanX env n hypTab t (S i) r (mkXs (mkNscan ((t, ns_lf q) :: ns_steps q) false (ns_loc q) (ns_err q)) (i :: xs_idx s))
  end.

(* the targets, 2204-2249.  idx: token numbers of the steps still without target; ts: the
   targets so far.  Those not assigned are the literal "" (pntrSpace, mmdata.c:2785) *)
Fixpoint targetsX (i : nat) (toks : list label) (idx : list nat) (ts : list label) (e : perr) : list label * perr :=
  match toks with
  | t :: r =>
      if beforeEq r then
        match idx with
        | [] => (ts, raise 2 e)
        | k :: idx' => targetsX (S i) r idx' (ts ++ [t]) (if k =? i + 2 then e else raise 2 e)
        end
      else targetsX (S i) r idx ts e
  | [] => (ts, match idx with [] => e | _ => raise 2 e end)
  end.

(* the subproofs of the hypotheses, 2479-2502: (step, steps of the subproof, their original
   numbers) *)
Fixpoint hypSegs (db : dbase) (wrk : list Z) (old : list nat) (stk : list nat) : res (list (nat * (list Z * list nat))) :=
  match stk with
  | [] => Ok []
  | h :: r =>
      do n <- subproofLen db wrk h;
      do l <- hypSegs db wrk old r;
      Ok ((h, (firstn n (skipn (h + 1 - n) wrk), firstn n (skipn (h + 1 - n) old))) :: l)
  end.
(* 2510-2524: the first subproof whose target is the label.  A target not assigned: writing to
   a string literal *)
Fixpoint findSeg (targets : list label) (name : label) (segs : list (nat * (list Z * list nat))) : res (option (list Z * list nat)) :=
  match segs with
  | [] => Ok None
  | (h, x) :: r =>
      do t <- rget (nth_error targets h);
      if list_eq_dec Nat.eq_dec name t then Ok (Some x) else findSeg targets name r
  end.
(* 2508-2548 *)
Fixpoint matchHyps (env : penv) (targets : list label) (segs : list (nat * (list Z * list nat))) (hyps : list nat) : res (option (list Z * list nat)) :=
  match hyps with
  | [] => Ok (Some ([], []))
  | h :: r =>
      do x <- findSeg targets (e_name env h) segs;
      match x with
      | None => Ok None
      | Some (a, b) =>
          do y <- matchHyps env targets segs r;
          match y with
          | None => Ok None
          | Some (a', b') => Ok (Some (a ++ a', b ++ b'))
          end
      end
  end.
(* 2468-2574.  wrk, old: with the step itself; stk: the steps of the hypotheses, last first.
   None: the targets do not match *)
Definition rearrange (env : penv) (targets : list label) (hyps : list nat) (wrk : list Z) (old : list nat) (stk : list nat) : res (option (list Z * list nat)) :=
  let step := length wrk - 1 in
  do concl <- subproofLen (e_db env) wrk step;
  do segs <- hypSegs (e_db env) wrk old (rev stk);
  if negb (length (flat_map (fun x => fst (snd x)) segs) =? concl - 1) then Bug 1731
  else
    do m <- matchHyps env targets segs hyps;
    match m with
    | None => Ok None
    | Some (a, b) =>
        if negb (length a =? concl - 1) then Bug 1732
        else Ok (Some (firstn (step + 1 - concl) wrk ++ a ++ skipn step wrk, firstn (step + 1 - concl) old ++ b ++ skipn step old))
    end.

(* 2299-2582.  xb_stk: RPNStack, last first; xb_old: oldStepNums *)
Record xbuild := mkXb { xb_proof : list Z; xb_old : list nat; xb_stk : list nat; xb_err : perr }.
Definition buildX (env : penv) (n : nat) (tab : list (label * Z)) (targets : list label) (s : xbuild) (x : label * bool) : res xbuild :=
  let '(t, lf) := x in
  let step := length (xb_proof s) in
  let push z e := Ok (mkXb (xb_proof s ++ [z]) (xb_old s ++ [step]) (step :: xb_stk s) e) in
  if isTok chQ t then push zUnk (atLeast 1 (xb_err s))
  else
    match e_find env tab t with
    | Some j =>
        if (j <? 0)%Z then
          let i := (-1000 - j)%Z in
          if (i <? 0)%Z then Bug 1734
          else
            let e1 := if (Z.of_nat step <? i)%Z then raise 2 (xb_err s) else xb_err s in
            let e2 := if lf then raise 2 e1 else e1 in
            push (if (Z.of_nat step <? i)%Z then zUnk else j) e2
        else
          let e1 := if lf then raise 2 (xb_err s) else xb_err s in
          if (j <=? 0)%Z then Bug 1709 else push j e1
    | None =>
        match e_find env (e_keys env) t with
        | None => push zUnk (raise 2 (xb_err s))
        | Some j =>
            do st <- rget (nth_error (db_stmts (e_db env)) (Z.to_nat j));
            match s_type st with
            | S_a | S_p =>
                let e1 := if (Z.of_nat n <=? j)%Z then raise 2 (xb_err s) else xb_err s in
                let nh := length (s_reqHyps st) in
                if length (xb_stk s) <? nh then push zUnk (raise 3 e1)
                else
                  let wrk := xb_proof s ++ [j] in
                  let old := xb_old s ++ [step] in
                  do r <- rearrange env targets (s_reqHyps st) wrk old (firstn nh (xb_stk s));
                  let stk := step :: skipn nh (xb_stk s) in
                  match r with
                  | None => Ok (mkXb wrk old stk (raise 2 e1))
                  | Some (wrk', old') => Ok (mkXb wrk' old' stk e1)
                  end
            | _ => Bug 1710
            end
        end
    end.
Fixpoint buildsX (env : penv) (n : nat) (tab : list (label * Z)) (targets : list label) (s : xbuild) (l : list (label * bool)) : res xbuild :=
  match l with
  | [] => Ok s
  | x :: r => do s' <- buildX env n tab targets s x; buildsX env n tab targets s' r
  end.

(* 2598-2627: local references follow the steps they refer to *)
Fixpoint indexOf (k : nat) (l : list nat) (m : nat) : option nat :=
  match l with
  | [] => None
  | x :: r => if x =? k then Some m else indexOf k r (S m)
  end.
Definition fixRef (old : list nat) (z : Z) : res Z :=
  if (z <=? -1000)%Z then
    let k := refOf z in
    match nth_error old k with
    | None => Bug 1733
    | Some x => if x =? k then Ok z
                else match indexOf k old 0 with Some m => Ok (zLoc (Z.of_nat m)) | None => Bug 1740 end
    end
  else Ok z.
Fixpoint mapRes {A B} (f : A -> res B) (l : list A) : res (list B) :=
  match l with
  | [] => Ok []
  | x :: r => do y <- f x; do ys <- mapRes f r; Ok (y :: ys)
  end.

(* 2642-2647: the first step with a reference to a later step *)
Fixpoint firstForward (i : nat) (p : list Z) : option (nat * nat) :=
  match p with
  | [] => None
  | z :: r => if isRef z && (i <? refOf z) then Some (i, refOf z) else firstForward (S i) r
  end.
(* 2686-2709 *)
Definition renumber (step k m len : nat) (z : Z) : res Z :=
  if (-1000 <? z)%Z then Ok z
  else
    let j := refOf z in
    if j <? step then Ok z
    else if j =? step then Bug 1738
    else if j + m <=? k then Ok (zLoc (Z.of_nat (j + m - 1)))
    else if j <=? k then Ok (zLoc (Z.of_nat (j + step + m - 1 - k)))
    else if j <? len then Ok z
    else Bug 1739.
(* 2649-2717: exchange the reference and the subproof *)
Definition moveSub (db : dbase) (p : list Z) (step k : nat) : res (list Z) :=
  do m <- subproofLen db p k;
  do x <- rget (nth_error p step);
  let wrk := firstn step p ++ firstn m (skipn (k + 1 - m) p) ++ firstn (k + 1 - m - (step + 1)) (skipn (step + 1) p) ++ [x] ++ skipn (k + 1) p in
  if negb (length wrk =? length p) then Bug 1736
  else
    do y <- rget (nth_error wrk k);
    if negb (y =? x)%Z then Bug 1737
    else mapRes (renumber step k m (length p)) wrk.
(* 2636-2720 *)
Fixpoint moveSubs (fuel : nat) (db : dbase) (p : list Z) : res (list Z) :=
  match fuel with
  | O => Fuel
  | S f =>
      match firstForward 0 p with
      | None => Ok p
      | Some (step, k) => do p' <- moveSub db p step k; moveSubs f db p'
      end
  end.

(* the whole, from the tokens *)
Definition parseExplicit (fuel : nat) (env : penv) (n : nat) (toks0 : list label) : res pout :=
  do st <- rget (nth_error (db_stmts (e_db env)) n);
  let e1 := mkErr 0 0 in
  let hypTab := entries env Z.of_nat (s_optHyps st) ++ entries env Z.of_nat (s_reqHyps st) in
  let '(toks2, e2) := match toks0 with                            (* 2064-2073 *)
                      | t :: r => if isTok chColon t then ([chQ] :: r, raise 2 e1) else (toks0, e1)
                      | [] => (toks0, e1)
                      end in
  let '(toks3, e3) := if isTok chColon (last toks2 [])            (* 2074-2082 *)
                      then (dropLast toks2, raise 2 e2) else (toks2, e2) in
  do s <- scanX env n hypTab [] 0 toks3 (mkXs (mkNscan [] false [] e3) []);
  let q := xs_n s in
  let '(targets, e4) := targetsX 0 toks3 (rev (xs_idx s)) [] (ns_err q) in
  if dupZero (ns_loc q) then UB else
  let e5 := raiseN (dupCount (ns_loc q)) 2 e4 in
  do b <- buildsX env n (hypTab ++ ns_loc q) targets (mkXb [] [] [] e5) (rev (ns_steps q));
  do o <- ParModel.finish (xb_proof b) (length (xb_stk b)) (xb_err b);
  do p1 <- mapRes (fixRef (xb_old b)) (xb_proof b);
  do p2 <- moveSubs fuel (e_db env) p1;
  Ok (fst (fst o), p2, snd o).

(* parseProof() in all formats: ParModel.parseText gives None for the /EXPLICIT format
   (1937-2062) *)
Definition parseProofText (fuel : nat) (env : penv) (n max : nat) (section rest : list nat) : res pout :=
  do o <- parseText fuel env n max section rest;
  match o with
  | Some p => Ok p
  | None =>
      do l <- whiteSpace (section ++ rest);
      do x <- proofTokens (S (length l)) l;
      parseExplicit fuel env n (fst x)
  end.
