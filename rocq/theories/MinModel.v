(* MinModel.v -- checkStmtMatch(), src/mmpfas.c:1357-1491, and minimizeProof(), 2015-2122
   (ASSIGN, MINIMIZE_WITH).  No proofs here.
   Math tokens as in UniModel.v.  Declaring dummy variables, messages and deallocation are
   not modelled; of assignKnownSteps' complaint, that there was one is kept. *)
From Verif Require Import Base VerModel ParModel SqModel UniModel HenModel PfaModel FltModel RepModel AkModel.
Open Scope nat_scope.

(* 0: no, 1: yes, 2: unification timed out *)
Definition flagOf (r : hres) : nat := match r with HNo => 0 | HYes _ => 1 | HTimeout => 2 end.
(* 1383-1384, 1413-1416, 1469-1476: target, then the user's expression if there is one *)
Definition twoMatches (fuel : nat) (E : fenv) (scheme target user : list nat) : res nat :=
  do r <- unifyH fuel (f_u E) (f_on E) target scheme 1;
  do r' <- (match user with [] => Ok 1 | _ => do x <- unifyH fuel (f_u E) (f_on E) user scheme 1; Ok (flagOf (fst x)) end);
  if (flagOf (fst r) =? 0) || (r' =? 0) then Ok 0
  else if (flagOf (fst r) =? 1) && (r' =? 1) then Ok 1
  else Ok 2.
(* 1424-1463: the first, last and second symbols.  mString[-1] if the statement is empty *)
Definition symbolsDiffer (e : uenv) (math target : list nat) : res bool :=
  match math, target with
  | s0 :: sr, t0 :: tr =>
      let both := u_con e s0 && u_con e t0 in
      let differ x y := negb (x =? y) && u_con e x && u_con e y in
      if both && negb (s0 =? t0) then Ok true
      else if differ (last math 0) (last target 0) then Ok true
      else match sr, tr with
           | s1 :: _, t1 :: _ => Ok (both && differ s1 t1)
           | _, _ => Ok false
           end
  | _, _ => UB
  end.
Definition checkStmtMatch (fuel : nat) (E : fenv) (n : nat) (target user : list nat) : res nat :=
  match target with
  | [] => Bug 1807
  | _ =>
      do st <- stmtOf (f_db E) n;
      match s_type st with
      | S_e | S_f =>
          do stn <- stmtOf (f_db E) (f_n E);
          if negb (memb n (s_reqHyps stn) || memb n (s_optHyps stn)) then Ok 0
          else twoMatches fuel E (s_math st) target user
      | _ =>
          do d <- symbolsDiffer (f_u E) (s_math st) target;
          if (d : bool) then Ok 0
          else do scheme <- dummies E st (s_math st); twoMatches fuel E scheme target user
      end
  end.

(* what replaceStatement() and proveFloating() are called with, 2068-2079: the proof in
   progress, noDistinct = 0, overrideFlag = 2, mathboxFlag = 1, improveDepth = 0 *)
Definition envAt (E : fenv) (s : pip) : fenv :=
  mkF (f_db E) (f_u E) (f_n E) 0 false 2 (f_disc E) true (f_mboxNum E) (f_mboxStmt E) (f_mboxStart E) (f_limit E) (f_on E) (f_pipDummy E)
      (pf s) (map ofZ (tg s)).
(* 2036-2106: the steps k - 1, ..., 0.  None: nothing to be done; Some: the proof after the
   first replacement, and whether assignKnownSteps() complained *)
Fixpoint minSteps (k fuel : nat) (E : fenv) (repl : nat) (grow : bool) (s : pip) : res (option (bool * pip)) :=
  match k with
  | O => Ok None
  | S step =>
      do mz <- get (tg s) step;
      let m := ofZ mz in
      if existsb (fun t => u_mt (f_u E) <? t) m then minSteps step fuel E repl grow s
      else
        do u <- get (us s) step;
        do c <- checkStmtMatch fuel (envAt E s) repl m (ofZ u);
        if c =? 0 then minSteps step fuel E repl grow s
        else
          do z <- get (pf s) step;
          do p <- (if negb (z =? Z.of_nat repl)%Z || negb grow then replaceStatement fuel (envAt E s) repl step true false else Ok []);
          if length p =? 0 then minSteps step fuel E repl grow s
          else if existsb (Z.eqb zUnk) p then minSteps step fuel E repl grow s
          else
            do n <- subproofLen (f_db E) (pf s) step;
            if (length p <? n) || grow then
              do s1 <- (if (z =? zUnk)%Z then (if grow then Ok s else Bug 1831) else deleteSubProof (f_db E) s step);
              do s2 <- addSubProof s1 p (step + 1 - n);
              do r <- assignKnownSteps fuel (envAt E s2) s2 (step + 1 - n) (length p);
              Ok (Some r)
            else minSteps step fuel E repl grow s
  end.
(* 2031-2121: w counts the rounds; start = startingPlen *)
Fixpoint minRounds (w fuel : nat) (E : fenv) (repl : nat) (grow : bool) (start : nat) (s : pip) : res pip :=
  match w with
  | O => Fuel
  | S w' =>
      do r <- minSteps (length (pf s)) fuel E repl grow s;
      match r with
      | None => Ok s
      | Some x => if grow && (2 * start <? length (pf s)) then Ok (snd x) else minRounds w' fuel E repl grow start (snd x)
      end
  end.
Definition minimizeProof (w fuel : nat) (E : fenv) (repl : nat) (grow : bool) (s : pip) : res pip :=
  minRounds w fuel E repl grow (length (pf s)) s.
