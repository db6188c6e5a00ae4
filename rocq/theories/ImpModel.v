(* ImpModel.v -- IMPROVE with the default search (/ 1), src/metamath.c:4690-5000.  No proofs
   here.
   Not modelled: messages (apart from the congratulations and whether assignKnownSteps()
   complained), getStepNum() and val(), the searches / 2 and / 3 (proveByReplacement(), C62) with
   the passes that only they have, the display of the new unknown steps. *)
From Verif Require Import Base VerModel ParModel SqModel UniModel HenModel PfaModel FltModel AkModel MinModel AuModel.
Open Scope nat_scope.

(* / DEPTH, / NO_DISTINCT, / OVERRIDE (or SET DISCOURAGEMENT OFF), / INCLUDE_MATHBOXES, 4692-4716 *)
Record impOpts := mkOpts { io_depth : nat; io_noDist : bool; io_override : bool; io_mbox : bool }.
(* the arguments and globals of the search: the proof in progress s, dv = g_pipDummyVars *)
Definition impEnv (E : fenv) (o : impOpts) (s : pip) (dv : nat) : fenv :=
  mkF (f_db E) (f_u E) (f_n E) (io_depth o) (io_noDist o) (if io_override o then 1 else 0) (f_disc E) (io_mbox o)
    (f_mboxNum E) (f_mboxStmt E) (f_mboxStart E) (f_limit E) (f_on E) dv (pf s) (map ofZ (tg s)).
(* checkDummyVarIsolation, mmpfas.c:2914-2926.  Simplification: only whether its answer is 0;
   1 and 2 differ in nothing but the message if the search is / 1 *)
Definition hasDummy (mt : nat) (x : list Z) : bool := existsb (fun t => (Z.of_nat mt <? t)%Z) x.

(* 4725-4783 and 4869-4923 for the step at k (from 0).  None: no proof was found, or none was
   looked for; otherwise the new state and whether assignKnownSteps() did not complain *)
Definition improveAt (fuel : nat) (E : fenv) (o : impOpts) (s : pip) (dv k : nat) : res (option (pip * bool)) :=
  do q <- subproofLen (f_db E) (pf s) k;
  if negb (existsb (Z.eqb zUnk) (firstn q (skipn (k + 1 - q) (pf s)))) then Ok None
  else
    do t <- get (tg s) k;
    if hasDummy (u_mt (f_u E)) t then Ok None
    else
      do p <- proveFloating fuel (impEnv E o s dv) (ofZ t);
      match fst p with
      | [] => Ok None
      | _ =>
          do s1 <- (if 1 <? q then deleteSubProof (f_db E) s k else Ok s);
          do s2 <- addSubProof s1 (fst p) (k + 1 - q);
          do r <- assignKnownSteps fuel (dvEnv E dv) s2 (k + 1 - q) (length (fst p));
          Ok (Some (snd r, fst r))
      end.
(* IMPROVE STEP n, 4718-4808: the state, whether the congratulations were printed, whether
   assignKnownSteps() did not complain *)
Definition improveStep (fuel : nat) (E : fenv) (o : impOpts) (x : pst) (n : nat) : res (pst * bool * bool) :=
  let '(s, dv) := x in
  if negb ((1 <=? n) && (n <=? length (pf s))) then Ok (x, false, true)
  else
    do r <- improveAt fuel E o s dv (n - 1);
    match r with
    | None => Ok (x, false, true)
    | Some (s', ok) => do b <- auto1 fuel E s' dv; Ok (b, ok)
    end.

(* 4847-4934, in the first pass: e = s of the code; w bounds the rounds.  The state,
   g_proofChangedFlag, whether assignKnownSteps() did not complain *)
Fixpoint improvePass (w fuel : nat) (E : fenv) (o : impOpts) (s : pip) (dv e : nat) : res (pip * bool * bool) :=
  match e with
  | O => Ok (s, false, true)
  | S k =>
      match w with
      | O => Fuel
      | S w' =>
          do z <- get (pf s) k;
          do t <- get (tg s) k;
          do r <- get (sr s) k;
          if negb (z =? zUnk)%Z && strEqb t r then improvePass w' fuel E o s dv k
          else
            do q <- subproofLen (f_db E) (pf s) k;
            if (z =? zUnk)%Z && negb (q =? 1) then Bug 1120
            else
              do a <- improveAt fuel E o s dv k;
              match a with
              | None => improvePass w' fuel E o s dv k
              | Some (s', ok) =>
                  do b <- improvePass w' fuel E o s' dv (e - q);
                  Ok (fst (fst b), true, ok && snd b)
              end
      end
  end.
(* IMPROVE ALL, 4809-4977 *)
Definition improveAll (fuel : nat) (E : fenv) (o : impOpts) (x : pst) : res (pst * bool * bool) :=
  let '(s, dv) := x in
  if negb (existsb (Z.eqb zUnk) (pf s)) then Ok (x, false, true)
  else
    do r <- improvePass (length (pf s)) fuel E o s dv (length (pf s));
    let '(s1, ch, ok) := r in
    do s2 <- (if (ch : bool) then do a <- autoUnify fuel fuel E false s1; Ok (fst (fst a)) else Ok s1);
    if negb (existsb (Z.eqb zUnk) (pf s2)) then do b <- auto1 fuel E s2 dv; Ok (b, ok)
    else Ok (s2, dv, false, ok).
