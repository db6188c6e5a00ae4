(* AkModel.v -- assignKnownSteps(), src/mmpfas.c:2247-2404 (PROVE, IMPROVE, REPLACE,
   MINIMIZE_WITH).  No proofs here.
   Math tokens as in UniModel.v; the math strings of the proof in progress (PfaModel.v) are
   lists of Z.  Declaring dummy variables, deallocation and the text of the message
   (2347-2360) are not modelled; that it was printed is. *)
From Verif Require Import Base VerModel ParModel SqModel UniModel HenModel PfaModel FltModel.
Open Scope nat_scope.

Definition toZ (l : list nat) : list Z := map Z.of_nat l.
Definition ofZ (l : list Z) : list nat := map Z.to_nat l.

(* 2281-2296 and 2300-2318: strings with a separator before, between and after them *)
Definition sepd (mt : nat) (l : list (list nat)) : list nat := mt :: flat_map (fun x => x ++ [mt]) l.
Fixpoint hypStrings (db : dbase) (hyps : list nat) : res (list (list nat)) :=
  match hyps with
  | [] => Ok []
  | h :: r => do sh <- stmtOf db h; do l <- hypStrings db r; Ok (s_math sh :: l)
  end.

(* 2273-2374: the expression of an assertion whose hypotheses have the expressions insts.
   None: the message, give up. *)
Definition knownStep (fuel : nat) (E : fenv) (st : stmtRec) (insts : list (list nat)) : res (option (list nat)) :=
  do hs <- hypStrings (f_db E) (s_reqHyps st);
  do scheme <- dummies E st (sepd (u_mt (f_u E)) hs);
  do assertion <- dummies E st (s_math st);
  let inst := sepd (u_mt (f_u E)) insts in
  do r <- unifyH fuel (f_u E) (f_on E) scheme inst 0;
  match fst r with
  | HNo => Ok None
  | HTimeout => UB                       (* 2: the state vector is not an answer *)
  | HYes h =>
      do x <- makeSubst (f_u E) (h_s h) assertion;
      if snd x then Bug 1814
      else
        do r' <- unifyHNext fuel (f_u E) (f_on E) scheme inst h (snd r);
        match fst r' with
        | HNo => Ok (Some (fst x))
        | _ => Bug 1815
        end
  end.

(* the source strings of the steps on the stack *)
Fixpoint strings (sr : list (list Z)) (ps : list nat) : res (list (list nat)) :=
  match ps with
  | [] => Ok []
  | p :: r => do x <- get sr p; do l <- strings sr r; Ok (ofZ x :: l)
  end.
(* 2264-2383: k steps are left, at pos; stk = stack[0..stackPtr - 1], last first.  false:
   the message was printed *)
Fixpoint knownLoop (k fuel : nat) (E : fenv) (pf : list Z) (pos : nat) (sr : list (list Z)) (stk : list nat) : res (bool * list (list Z)) :=
  match k with
  | O => if length stk =? 1 then Ok (true, sr) else Bug 1816
  | S k' =>
      do z <- get pf pos;
      if (z <=? 0)%Z then (if (z =? zUnk)%Z then Bug 1830 else Bug 1810)
      else
        do st <- stmtOf (f_db E) (Z.to_nat z);
        match s_type st with
        | S_e | S_f => do sr <- set sr pos (toZ (s_math st)); knownLoop k' fuel E pf (S pos) sr (pos :: stk)
        | _ =>
            let n := length (s_reqHyps st) in
            if length stk <? n then Bug 1850
            else
              do insts <- strings sr (rev (firstn n stk));
              do o <- knownStep fuel E st insts;
              match o with
              | None => Ok (false, sr)
              | Some x => do sr <- set sr pos (toZ x); knownLoop k' fuel E pf (S pos) sr (pos :: skipn n stk)
              end
        end
  end.
(* 2386-2390: positions pos, pos + 1, ...; k of them *)
Fixpoint copyTargets (k pos : nat) (sr tg : list (list Z)) : res (list (list Z)) :=
  match k with
  | O => Ok tg
  | S k' => do x <- get sr pos; do tg <- set tg pos x; copyTargets k' (S pos) sr tg
  end.
Definition assignKnownSteps (fuel : nat) (E : fenv) (s : pip) (start len : nat) : res (bool * pip) :=
  do r <- knownLoop len fuel E (pf s) start (sr s) [];
  do tg <- copyTargets (len - 1) start (snd r) (tg s);
  Ok (fst r, mkPip (pf s) tg (snd r) (us s)).
(* assignKnownSubProofs, 2212-2243: e = pos + 1 *)
Fixpoint knownSubs (n fuel : nat) (E : fenv) (s : pip) (e : nat) : res (bool * pip) :=
  match e with
  | O => Ok (true, s)
  | S pos =>
      match n with
      | O => Fuel
      | S n' =>
          do len <- subproofLen (f_db E) (pf s) pos;
          let start := pos + 1 - len in
          if existsb (Z.eqb zUnk) (firstn len (skipn start (pf s))) then knownSubs n' fuel E s pos
          else
            do r <- assignKnownSteps fuel E s start len;
            do q <- knownSubs n' fuel E (snd r) start;
            Ok (fst r && fst q, snd q)
      end
  end.
Definition assignKnownSubProofs (fuel : nat) (E : fenv) (s : pip) : res (bool * pip) :=
  knownSubs (length (pf s)) fuel E s (length (pf s)).
