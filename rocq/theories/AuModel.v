(* AuModel.v -- autoUnify(), makeSubstAll(), interactiveUnifyStep(), replaceDummyVar(),
   initProofStruct(), src/mmpfas.c:1493-1515, 2410-2478, 2686-2880, 3120-3153, and the commands UNIFY,
   LET, ASSIGN, DELETE STEP and INITIALIZE, src/metamath.c:4175-4250, 4346-4400, 4422-4492, 5575-5598,
   5699-5755.  No proofs here.
   The math strings of the proof in progress are lists of Z as in PfaModel.v.  Messages are
   not modelled, apart from the congratulations and the internal errors. *)
From Verif Require Import Base VerModel ParModel SqModel UniModel HenModel PfaModel FltModel AkModel MinModel.
Open Scope nat_scope.

(* nmbrEq() *)
Definition strEqb (a b : list Z) : bool := if list_eq_dec Z.eq_dec a b then true else false.

(* makeSubstAll, 2785-2813.  The targets are substituted without looking whether they are
   empty; makeSubstUnif() of an empty string is empty *)
Definition substString (e : uenv) (h : hst) (x : list Z) : res (list Z) :=
  do r <- makeSubst e (h_s h) (ofZ x); Ok (toZ (fst r)).
Fixpoint substStrings (e : uenv) (h : hst) (l : list (list Z)) : res (list (list Z)) :=
  match l with
  | [] => Ok []
  | x :: r => do y <- substString e h x; do q <- substStrings e h r; Ok (y :: q)
  end.
Definition makeSubstAll (e : uenv) (h : hst) (s : pip) : res pip :=
  do t <- substStrings e h (tg s);
  do r <- substStrings e h (sr s);
  do u <- substStrings e h (us s);
  Ok (mkPip (pf s) t r u).

(* autoUnify, 2690-2783 *)
(* one pass of one step, 2713-2757: state, somethingChanged, somethingNotUnified *)
Definition onePass (fuel : nat) (E : fenv) (s : pip) (x : nat * nat) : res (pip * bool * bool) :=
  do t <- get (tg s) (fst x);
  do r <- get (sr s) (fst x);
  do u <- get (us s) (fst x);
  let ab := match snd x with 0 => (t, u) | 1 => (r, u) | _ => (t, r) end in
  match fst ab, snd ab with
  | [], _ | _, [] => Ok (s, false, false)
  | _, _ =>
      if strEqb (fst ab) (snd ab) then Ok (s, false, false)
      else
        do q <- uniqueUnif fuel (f_u E) (f_on E) (ofZ (fst ab)) (ofZ (snd ab)) 1;
        match fst q with
        | QOne h => do s' <- makeSubstAll (f_u E) h s; Ok (s', true, false)
        | _ => Ok (s, false, true)
        end
  end.
Fixpoint passes (fuel : nat) (E : fenv) (s : pip) (xs : list (nat * nat)) (ch nu : bool) : res (pip * bool * bool) :=
  match xs with
  | [] => Ok (s, ch, nu)
  | x :: r =>
      do o <- onePass fuel E s x;
      let '(s', c, n) := o in passes fuel E s' r (ch || c) (nu || n)
  end.
Definition allPasses (plen : nat) : list (nat * nat) := flat_map (fun step => [(step, 0); (step, 1); (step, 2)]) (seq 0 plen).
(* while (somethingChanged), 2709-2759: w rounds at most.  State, g_proofChangedFlag set,
   somethingNotUnified *)
Fixpoint rounds (w fuel : nat) (E : fenv) (s : pip) (pch nu : bool) : res (pip * bool * bool) :=
  match w with
  | O => Fuel
  | S w' =>
      do o <- passes fuel E s (allPasses (length (pf s))) false nu;
      let '(s', ch, nu') := o in
      if (ch : bool) then rounds w' fuel E s' true nu' else Ok (s', pch, nu')
  end.
(* state, g_proofChangedFlag set, congratulations printed *)
Definition autoUnify (w fuel : nat) (E : fenv) (congrats : bool) (s : pip) : res (pip * bool * bool) :=
  do o <- rounds w fuel E s false false;
  let '(s', ch, nu) := o in
  Ok (s', ch, congrats && negb nu && negb (existsb (Z.eqb zUnk) (pf s'))).

(* interactiveUnify, 2478-2684.  The answers of unifyH(), first to last; None: timeout, or
   there are none.  In the code they are enumerated again to be offered, in the order of
   their weights; pick: the one that the user accepts, if any (a single one is not offered).
   Simplification: the weights are not modelled *)
Fixpoint answers (k fuel : nat) (e : uenv) (on : bool) (A B : list nat) (h : hst) (tc : nat) : res (option (list hst)) :=
  match k with
  | O => Fuel
  | S k' =>
      do r <- unifyHNext fuel e on A B h tc;
      match fst r with
      | HTimeout => Ok None
      | HNo => Ok (Some [])
      | HYes h' => do q <- answers k' fuel e on A B h' (snd r); Ok (option_map (cons h') q)
      end
  end.
Definition interactiveUnify (k fuel : nat) (E : fenv) (A B : list Z) (pick : list hst -> option nat) : res (option hst) :=
  if strEqb A B then Bug 1818
  else
    let e := f_u E in let a := ofZ A in let b := ofZ B in
    do r <- unifyH fuel e (f_on E) a b 1;
    match fst r with
    | HTimeout | HNo => Ok None
    | HYes h =>
        do q <- answers k fuel e (f_on E) a b h (snd r);
        match q with
        | None => Ok None
        | Some [] => Ok (Some h)
        | Some l => match pick (h :: l) with Some i => Ok (nth_error (h :: l) i) | None => Ok None end
        end
    end.
(* interactiveUnifyStep, 2418-2476: state, g_proofChangedFlag set *)
Definition interactiveUnifyStep (k fuel : nat) (E : fenv) (s : pip) (step : nat) (pick : list hst -> option nat) : res (pip * bool) :=
  do t <- get (tg s) step;
  do r <- get (sr s) step;
  do u <- get (us s) step;
  match t with
  | [] => Bug 1817
  | _ =>
      let ab := match u, r with
                | _ :: _, [] => if strEqb t u then None else Some (t, u)
                | _ :: _, _ :: _ => if strEqb t u then if strEqb r u then None else Some (r, u) else Some (t, u)
                | [], _ :: _ => if strEqb t r then None else Some (t, r)
                | [], [] => None
                end in
      match ab with
      | None => Ok (s, false)
      | Some (a, b) =>
          do o <- interactiveUnify k fuel E a b pick;
          match o with
          | None => Ok (s, false)
          | Some h => do s' <- makeSubstAll (f_u E) h s; Ok (s', true)
          end
      end
  end.

(* replaceDummyVar, 2815-2895 (LET VARIABLE): unknown number d (from 1) becomes w *)
Definition replaceIn (v : Z) (w x : list Z) : list Z := flat_map (fun t => if (t =? v)%Z then w else [t]) x.
Definition replaceDummyVar (mt d : nat) (w : list Z) (s : pip) : pip :=
  let f := map (replaceIn (Z.of_nat (mt + d)) w) in mkPip (pf s) (f (tg s)) (f (sr s)) (f (us s)).

(* checkMStringMatch, 1493-1515 *)
Definition checkMStringMatch (fuel : nat) (E : fenv) (w target source : list nat) : res nat :=
  do r <- unifyH fuel (f_u E) (f_on E) w target 1;
  do r' <- (match source with [] => Ok 1 | _ => do x <- unifyH fuel (f_u E) (f_on E) w source 1; Ok (flagOf (fst x)) end);
  if (flagOf (fst r) =? 0) || (r' =? 0) then Ok 0
  else if (flagOf (fst r) =? 1) && (r' =? 1) then Ok 1
  else Ok 2.

(* ---------- the commands ---------- *)
(* the state: the proof in progress and g_pipDummyVars.  fuel bounds all loops.  Each command
   returns the new state and whether the congratulations were printed *)
Definition pst : Type := pip * nat.
(* the math string as parseMathTokens() returns it; steps from 1; pick as in interactiveUnify *)
Inductive order :=
| O_unify (n : nat) (pick : list hst -> option nat)      (* UNIFY STEP n *)
| O_unifyAll                                             (* UNIFY ALL *)
| O_unifyInt (pick : nat -> nat -> list hst -> option nat) (* UNIFY ALL / INTERACTIVE: in each round, for each step *)
| O_letVar (d : nat) (w : list nat)                      (* LET VARIABLE $d = w *)
| O_letStep (n : nat) (w : list nat)                     (* LET STEP n = w *)
| O_assign (n k : nat) (override noUnify : bool) (pick : list hst -> option nat) (* ASSIGN n k *)
| O_delete (n : nat)                                     (* DELETE STEP n *)
| O_initStep (n : nat)                                   (* INITIALIZE STEP n *)
| O_initUser                                             (* INITIALIZE USER *)
| O_initAll.                                             (* INITIALIZE ALL *)

(* 4225-4228: for (s = m - 1; s >= 0; s--) *)
Fixpoint interSteps (k fuel : nat) (E : fenv) (s : pip) (pick : nat -> list hst -> option nat) : res (pip * bool) :=
  match k with
  | O => Ok (s, false)
  | S step =>
      do r <- interactiveUnifyStep fuel fuel E s step (pick step);
      do q <- interSteps step fuel E (fst r) pick;
      Ok (fst q, snd r || snd q)
  end.
(* 4216-4247: while (1); i counts the rounds *)
Fixpoint interRounds (w fuel : nat) (E : fenv) (s : pip) (i : nat) (pick : nat -> nat -> list hst -> option nat) (pr : bool) : res (pip * bool) :=
  match w with
  | O => Fuel
  | S w' =>
      do a <- autoUnify fuel fuel E false s;
      do b <- interSteps (length (pf s)) fuel E (fst (fst a)) (pick i);
      do c <- autoUnify fuel fuel E true (fst b);
      if snd (fst a) || snd b || snd (fst c) then interRounds w' fuel E (fst (fst c)) (S i) pick (pr || snd c)
      else Ok (fst (fst c), pr || snd c)
  end.
(* the loops over initStep(), mmpfas.c:3142-3146 and metamath.c:5709-5711; onlyEmpty: those
   without a source.  Simplification: the same stale tmp fields before each step *)
Fixpoint initSteps (onlyEmpty : bool) (E : fenv) (old : nat -> Z) (s : pip) (dv : nat) (js : list nat) : res (pip * nat) :=
  match js with
  | [] => Ok (s, dv)
  | j :: r =>
      do x <- get (sr s) j;
      if onlyEmpty && (match x with [] => false | _ => true end) then initSteps onlyEmpty E old s dv r
      else do o <- initStep (f_db E) (u_mt (f_u E)) old s j dv; initSteps onlyEmpty E old (fst o) (snd o) r
  end.
Definition auto1 (fuel : nat) (E : fenv) (s : pip) (dv : nat) : res (pst * bool) :=
  do a <- autoUnify fuel fuel E true s; Ok (fst (fst a), dv, snd a).
Definition dvEnv (E : fenv) (dv : nat) : fenv :=
  mkF (f_db E) (f_u E) (f_n E) (f_maxE E) (f_noDist E) (f_override E) (f_disc E) (f_mboxFlag E) (f_mboxNum E) (f_mboxStmt E) (f_mboxStart E) (f_limit E) (f_on E) dv (f_pf E) (f_tg E).
(* initProofStruct, mmpfas.c:3120-3153 (PROVE, EXPAND), of a proof of the expression m that is
   not packed: the state, and whether assignKnownSteps() did not complain *)
Definition initProofStruct (fuel : nat) (E : fenv) (old : nat -> Z) (p : list Z) (m : list nat) : res (bool * pst) :=
  match p with
  | [] => UB
  | _ =>
      let n := length p in
      do k <- assignKnownSubProofs fuel (dvEnv E 0) (mkPip p (repeat [] (n - 1) ++ [toZ m]) (repeat [] n) (repeat [] n));
      do o <- initSteps true E old (snd k) 0 (seq 0 n);
      do a <- autoUnify fuel fuel E false (fst o);
      Ok (fst k, (fst (fst a), snd o))
  end.
(* old: the stale g_MathToken[].tmp fields, see initStep *)
Definition perform (fuel : nat) (E : fenv) (old : nat -> Z) (x : pst) (o : order) : res (pst * bool) :=
  let '(s, dv) := x in
  let inRange n := (1 <=? n) && (n <=? length (pf s)) in
  match o with
  | O_unify n pick => (* 4178-4203 *)
      if negb (inRange n) then Ok (x, false)
      else do r <- interactiveUnifyStep fuel fuel E s (n - 1) pick; auto1 fuel E (fst r) dv
  | O_unifyAll => auto1 fuel E s dv (* 4206 *)
  | O_unifyInt pick => do r <- interRounds fuel fuel E s 0 pick false; Ok (fst r, dv, snd r)
  | O_letVar d w => (* 4360-4381 *)
      if negb ((1 <=? d) && (d <=? dv)) then Ok (x, false)
      else auto1 fuel E (replaceDummyVar (u_mt (f_u E)) d (toZ w) s) dv
  | O_letStep n w => (* 4383-4403; the choice of the step, getStepNum(), is not modelled *)
      if negb (inRange n) then Ok (x, false)
      else
        do t <- get (tg s) (n - 1);
        do r <- get (sr s) (n - 1);
        do c <- checkMStringMatch fuel E w (ofZ t) (ofZ r);
        if c =? 0 then Ok (x, false)
        else do u <- set (us s) (n - 1) (toZ w); auto1 fuel E (mkPip (pf s) (tg s) (sr s) u) dv
  | O_assign n k override noUnify pick => (* 4422-4492; getStepNum() and getStatementNum() are not modelled *)
      if negb (inRange n) then Ok (x, false)
      else if f_disc E k && negb override then Ok (x, false)
      else
        do z <- get (pf s) (n - 1);
        if negb (z =? zUnk)%Z then Ok (x, false)
        else
          do t <- get (tg s) (n - 1);
          do u <- get (us s) (n - 1);
          do c <- checkStmtMatch fuel (dvEnv E dv) k (ofZ t) (ofZ u);
          if c =? 0 then Ok (x, false)
          else
            do a <- assignStatement (f_db E) (u_mt (f_u E)) old s k (n - 1) dv;
            do b <- auto1 fuel E (fst a) (snd a);
            if noUnify then Ok b
            else
              (* s - m + n - 1 *)
              do r <- interactiveUnifyStep fuel fuel E (fst (fst b)) (n + length (pf (fst (fst b))) - length (pf s) - 1) pick;
              Ok (fst r, snd (fst b), snd b)
  | O_delete n => (* 5575-5634 *)
      do r <- deleteStep (f_db E) s n;
      Ok (match r with Some s' => (s', dv, false) | None => (x, false) end)
  | O_initStep n => (* 5736-5753 *)
      if negb (inRange n) then Ok (x, false)
      else
        do o <- initStep (f_db E) (u_mt (f_u E)) old s (n - 1) dv;
        do u <- set (us (fst o)) (n - 1) [];
        Ok (mkPip (pf (fst o)) (tg (fst o)) (sr (fst o)) u, snd o, false)
  | O_initUser => Ok (mkPip (pf s) (tg s) (sr s) (map (fun _ => []) (us s)), dv, false) (* 5721-5734 *)
  | O_initAll => (* 5701-5719 *)
      do o <- initSteps false E old s 0 (seq 0 (length (pf s)));
      do k <- assignKnownSubProofs fuel (dvEnv E (snd o)) (fst o);
      Ok (snd k, snd o, false)
  end.
