(* VerModel.v -- executable model of the proof verifier, src/mmveri.c.
   No proofs here. *)
From Verif Require Import Base.
Open Scope nat_scope.

(* ---------- data (src/mmdata.h: statement_struct, mathToken_struct) ---------- *)

(* statement types a_, p_, e_, f_; all the others ($c $v $d ${ $} etc.) are S_other *)
Inductive stype := S_a | S_p | S_e | S_f | S_other.

(* The fields of g_Statement[] the verifier reads (src/mmdata.h statement_struct):
   type, mathString, reqHypList (numReqHyp is its length), reqVarList,
   reqDisjVarsA/B (as pairs), optDisjVarsA/B (as pairs), optHypList. *)
Record stmtRec := mkStmt {
  s_type : stype;
  s_math : list nat;
  s_reqHyps : list nat;
  s_optHyps : list nat;
  s_reqVars : list nat;
  s_reqDisj : list (nat * nat);
  s_optDisj : list (nat * nat) }.

(* db_isvar t  <->  g_MathToken[t].tokenType == var_ ;  otherwise it is con_.
   db_sep = g_mathTokens, the number of the dummy separator token "$|$"
   (src/mmveri.c:101-106).  db_stmts is g_Statement[]; entry 0 is unused in C. *)
Record dbase := mkDb {
  db_isvar : nat -> bool;
  db_sep : nat;
  db_stmts : list stmtRec }.

(* One element of a proof string (src/mmveri.c:44-75): -(long)'?' is Unk,
   -1000-i (a local label reference to step i, 0-based) is Loc i, a positive
   statement number n is Stm n.  Simplification: the other negative values,
   which lead to bug(2101), are not representable. *)
Inductive pstep := Unk | Loc (i : nat) | Stm (n : nat).

(* Error messages printed by the verifier (sourceError calls in src/mmveri.c).
   Only the parameters that identify the error are kept. *)
Inductive diag :=
| DNoUnify (step scheme : nat)              (* mmveri.c:440-445 cannot be unified *)
| DDisjCommon (step x y a : nat)            (* mmveri.c:585-609 variable in common *)
| DDisjMissing (step x y a b : nat)         (* mmveri.c:656-699 no $d requirement *)
| DNotUnique (step : nat)                   (* mmveri.c:742-755 not unique *)
| DMismatch (step : nat).                   (* mmveri.c:183-200 result does not match *)

(* ---------- nmbrExtractVars (src/mmdata.c:1591-1611) ---------- *)
(* nmbrElementIn(1, v, e) != 0, src/mmdata.c:1617-1624 *)
Definition memb (x : nat) (l : list nat) : bool := existsb (Nat.eqb x) l.

(* Scan m left to right, appending each variable not already in v.
   Simplification: the range check bug(1328) is not modelled. *)
Fixpoint extractVarsGo (isvar : nat -> bool) (m v : list nat) : list nat :=
  match m with
  | [] => v
  | t :: m' => if isvar t && negb (memb t v) then extractVarsGo isvar m' (v ++ [t])
               else extractVarsGo isvar m' v
  end.
Definition extractVars (isvar : nat -> bool) (m : list nat) : list nat :=
  extractVarsGo isvar m [].

(* g_MathToken[t].tmp after src/mmveri.c:265-269: position of t in
   bigSubstSchemeVars.  None = the field was not set by this call (stale). *)
Fixpoint indexOf (t : nat) (l : list nat) : option nat :=
  match l with
  | [] => None
  | x :: r => if Nat.eqb x t then Some 0
              else match indexOf t r with Some i => Some (S i) | None => None end
  end.

(* substSchemeFrstVarOcc[] (src/mmveri.c:259-263, 271-281) of variable number i: the first
   position in the scheme holding that variable *)
Definition firstOcc (vars scheme : list nat) (i : nat) : option nat :=
  match nth_error vars i with
  | None => None
  | Some t => indexOf t scheme
  end.

(* ---------- the matcher of assignVar (src/mmveri.c:283-411) ---------- *)

(* Matcher state: p, q as in C.  m_asg holds (substInstFrstVarOcc[i], varAssLen[i])
   for i = v, v-1, ..., 0 (head is variable v), so v = length m_asg - 1.
   Simplification: array entries above v are dead in C (they are re-initialised
   when v is incremented, mmveri.c:346-348) and are not represented. *)
Record mst := mkMst { m_p : nat; m_q : nat; m_asg : list (nat * nat) }.

(* The "backtrack to last variable assigned and add 1 to its length" loop,
   src/mmveri.c:306-338 and, identically, 367-400.  None is breakFlag = 1. *)
Fixpoint backtrack (vars scheme inst : list nat) (sep : nat) (asg : list (nat * nat))
  : res (option mst) :=
  match asg with
  | [] => Ok None
  | (st, len) :: rest =>
      match firstOcc vars scheme (length rest) with
      | None => UB
      | Some fo =>
          let len' := len + 1 in
          let p := fo + 1 in
          let q := st + len' in
          match nth_error inst (q - 1) with
          | Some t =>
              if Nat.eqb t sep then backtrack vars scheme inst sep rest
              else if length inst <=? q then Bug 2104
              else Ok (Some (mkMst p q ((st, len') :: rest)))
          | None => if Nat.eqb (q - 1) (length inst) then Bug 2104 else UB
          end
      end
  end.

(* "It's not the first occurrence; check that it matches", src/mmveri.c:352-366:
   compare inst[st ..] with inst[q ..] for len tokens; false = breakFlag *)
Fixpoint sameSeg (inst : list nat) (st q len : nat) : res bool :=
  match len with
  | 0 => Ok true
  | S len' =>
      if length inst <=? q then Ok false
      else match nth_error inst st, nth_error inst q with
           | Some a, Some b => if Nat.eqb a b then sameSeg inst (st + 1) (q + 1) len'
                               else Ok false
           | _, _ => UB
           end
  end.

(* One iteration of the scan loop, src/mmveri.c:290-411.
   Result: None = leave the loop with breakFlag, Some st = continue. *)
Definition scanStep (isvar : nat -> bool) (sep : nat) (vars scheme inst : list nat) (s : mst)
  : res (option mst) :=
  match nth_error scheme (m_p s) with
  | None => UB                      (* g_MathToken[-1] *)
  | Some t =>
      if negb (isvar t) then
        match nth_error inst (m_q s) with
        | Some u =>
            if Nat.eqb t u then Ok (Some (mkMst (m_p s + 1) (m_q s + 1) (m_asg s)))
            else backtrack vars scheme inst sep (m_asg s)
        | None => if Nat.eqb (m_q s) (length inst)   (* the -1 terminator *)
                  then backtrack vars scheme inst sep (m_asg s) else UB
        end
      else
        match indexOf t vars with
        | None => UB                (* stale .tmp *)
        | Some v1 =>
            if length (m_asg s) <=? v1 then          (* v1 > v *)
              if negb (Nat.eqb v1 (length (m_asg s))) then Bug 2105
              else Ok (Some (mkMst (m_p s + 1) (m_q s) ((m_q s, 0) :: m_asg s)))
            else
              match nth_error (m_asg s) (length (m_asg s) - 1 - v1) with
              | None => UB
              | Some (st, len) =>
                  do b <- sameSeg inst st (m_q s) len;
                  if b then Ok (Some (mkMst (m_p s + 1) (m_q s + len) (m_asg s)))
                  else backtrack vars scheme inst sep (m_asg s)
              end
        end
  end.

(* while (p != bigSubstSchemeLen-1 || q != bigSubstInstLen-1), src/mmveri.c:290 *)
Definition scanDone (scheme inst : list nat) (s : mst) : bool :=
  Nat.eqb (m_p s) (length scheme - 1) && Nat.eqb (m_q s) (length inst - 1).

Fixpoint scan (fuel : nat) (isvar : nat -> bool) (sep : nat) (vars scheme inst : list nat)
  (s : mst) : res (option mst) :=
  match fuel with
  | 0 => Fuel
  | S f =>
      if scanDone scheme inst s then Ok (Some s)
      else do o <- scanStep isvar sep vars scheme inst s;
           match o with
           | None => Ok None
           | Some s' => scan f isvar sep vars scheme inst s'
           end
  end.

(* ---------- $d check (src/mmveri.c:524-707) ---------- *)

(* value assigned to variable number i *)
Definition asgGet (asg : list (nat * nat)) (i : nat) : option (nat * nat) :=
  if i <? length asg then nth_error asg (length asg - 1 - i) else None.

(* index of the first pair containing a, as in the speedup scans 556-563, 568-575;
   length of the list if there is none *)
Fixpoint firstPair (a : nat) (l : list (nat * nat)) : nat :=
  match l with
  | [] => 0
  | (x, y) :: r => if Nat.eqb x a || Nat.eqb y a then 0 else S (firstPair a r)
  end.

Definition hasPair (a b : nat) (l : list (nat * nat)) : bool :=
  existsb (fun xy => Nat.eqb (fst xy) a && Nat.eqb (snd xy) b) l.

(* one (aToken, bToken) combination, src/mmveri.c:583-703; the message (if any),
   assuming no previous error.  req/opt are the required and optional $d lists
   of the statement being proved, already advanced to reqStart/optStart. *)
Definition dvPair (step x y a b : nat) (req opt : list (nat * nat)) : list diag :=
  if Nat.eqb a b then [DDisjCommon step x y a]
  else
    let a2 := if b <? a then b else a in
    let b2 := if b <? a then a else b in
    if hasPair a2 b2 req || hasPair a2 b2 opt then []
    else [DDisjMissing step x y a b].

(* scan of the substitution of the 2nd variable, src/mmveri.c:582-703 *)
Definition dvScanB (isvar : nat -> bool) (step x y a : nat) (req opt : list (nat * nat))
  (bs : list nat) : list diag :=
  flat_map (fun b => if isvar b then dvPair step x y a b req opt else []) bs.

(* scan of the substitution of the 1st variable, src/mmveri.c:544-704, with the
   reqStart/optStart speedup (548-580): if a occurs in the required list, scan
   from its first occurrence there and the whole optional list; otherwise skip
   the required list and scan the optional one from its first occurrence *)
Definition dvScanA (isvar : nat -> bool) (step x y : nat) (req opt : list (nat * nat))
  (as_ bs : list nat) : list diag :=
  flat_map (fun a =>
    if isvar a then
      let rs := firstPair a req in
      if rs <? length req
      then dvScanB isvar step x y a (skipn rs req) opt bs
      else dvScanB isvar step x y a [] (skipn (firstPair a opt) opt) bs
    else []) as_.

(* scan of the pairs of the referenced assertion, src/mmveri.c:526-706.
   bigSubstInstAss[pos .. pos+len-1] is firstn len (skipn pos inst). *)
Fixpoint dvCheck (isvar : nat -> bool) (step : nat) (vars inst : list nat)
  (asg : list (nat * nat)) (req opt : list (nat * nat)) (pairs : list (nat * nat))
  : res (list diag) :=
  match pairs with
  | [] => Ok []
  | (x, y) :: r =>
      match indexOf x vars, indexOf y vars with
      | Some ix, Some iy =>
          match asgGet asg ix, asgGet asg iy with
          | Some (sx, lx), Some (sy, ly) =>
              do rest <- dvCheck isvar step vars inst asg req opt r;
              Ok (dvScanA isvar step x y req opt
                    (firstn lx (skipn sx inst)) (firstn ly (skipn sy inst)) ++ rest)
          | _, _ => UB
          end
      | _, _ => UB
      end
  end.

(* ---------- result assembly (src/mmveri.c:709-740) ---------- *)
(* the two passes (length, then copy) are merged *)
Fixpoint assemble (isvar : nat -> bool) (vars inst : list nat) (asg : list (nat * nat))
  (m : list nat) : res (list nat) :=
  match m with
  | [] => Ok []
  | t :: r =>
      do rest <- assemble isvar vars inst asg r;
      if isvar t then
        match indexOf t vars with
        | None => UB
        | Some i => match asgGet asg i with
                    | None => UB
                    | Some (s, l) => Ok (firstn l (skipn s inst) ++ rest)
                    end
        end
      else Ok (t :: rest)
  end.

(* ---------- assignVar (src/mmveri.c:210-794) ---------- *)
(* Output: the result string ([] = empty), the messages printed, the new
   g_WrkProof.errorCount.
   Simplifications: getStep information (480-522) and db7 debugging output are
   not modelled. *)
Definition gated (errCount : nat) (d : list diag) : list diag :=
  match errCount with 0 => d | S _ => [] end.

Definition assignVar (fuel : nat) (db : dbase) (scheme inst : list nat)
  (substScheme : nat) (ss : stmtRec) (stmtProved : stmtRec) (step : nat) (unk : bool)
  (errCount : nat) : res (list nat * list diag * nat) :=
  let isvar := db_isvar db in
  let sep := db_sep db in
  let vars := extractVars isvar scheme in                        (* 226 *)
  if negb (Nat.eqb (length vars) (length (s_reqVars ss))) then   (* 246-257 *)
    if unk then Ok ([], [], errCount)
    else if Nat.eqb errCount 0 then Bug 2103 else Ok ([], [], errCount)
  else
    do o <- scan fuel isvar sep vars scheme inst (mkMst 0 0 []); (* 283-411 *)
    match o with
    | None =>                                                    (* 418-463 *)
        Ok ([], gated errCount [DNoUnify step substScheme], errCount + 1)
    | Some s =>
        if negb (scanDone scheme inst s && Nat.eqb (length (m_asg s)) (length vars))
        then Bug 2107                                            (* 464-465 *)
        else
          do dv <- dvCheck isvar step vars inst (m_asg s)
                     (s_reqDisj stmtProved) (s_optDisj stmtProved) (s_reqDisj ss);
          let dv := gated errCount dv in
          do result <- assemble isvar vars inst (m_asg s) (s_math ss);
          (* prepare to see if the unification is unique, 760-773: drop the last
             variable and backtrack.  v-- is applied before the test, so with no
             variable at all the result is unique.  (The C loop here omits the
             q >= bigSubstInstLen trap when the token is not the separator; that
             trap is proved unreachable.) *)
          do o2 <- backtrack vars scheme inst sep (tl (m_asg s));
          match o2 with
          | None => Ok (result, dv, errCount)
          | Some s1 =>
              do o3 <- scan fuel isvar sep vars scheme inst s1;
              match o3 with
              | None => Ok (result, dv, errCount)                (* 420-423 *)
              | Some s2 =>
                  if negb (scanDone scheme inst s2 && Nat.eqb (length (m_asg s2)) (length vars))
                  then Bug 2107
                  else if unk then Ok ([], dv, errCount)         (* 469-476 *)
                  else
                    do result2 <- assemble isvar vars inst (m_asg s2) (s_math ss);
                    Ok (result2, dv ++ gated errCount [DNotUnique step], errCount + 1)
              end
          end
    end.

(* ---------- verifyProof (src/mmveri.c:25-208) ---------- *)

(* Working state after some steps: mathStringPtrs[] of the steps already done
   (in order), the RPN stack (head = top), messages so far, errorCount, returnFlag *)
Record vst := mkVst {
  v_maths : list (list nat);
  v_stack : list nat;
  v_diags : list diag;
  v_err : nat;
  v_flag : nat }.

(* assemble bigSubstSchemeHyp and bigSubstInstHyp, src/mmveri.c:99-132.
   hyps: statement numbers of the hypotheses; insts: their stack entries *)
Fixpoint bigHyps (db : dbase) (hyps : list nat) (insts : list (list nat))
  : res (list nat * list nat * bool) :=
  match hyps, insts with
  | [], [] => Ok ([], [], false)
  | h :: hs, i :: is =>
      do r <- bigHyps db hs is;
      let '(sc, ins, unk) := r in
      match i with
      | [] => Ok (db_sep db :: sc, db_sep db :: ins, true)
      | _ => do st <- rget (nth_error (db_stmts db) h);
             Ok (s_math st ++ db_sep db :: sc, i ++ db_sep db :: ins, unk)
      end
  | _, _ => UB
  end.

(* Building the two strings and unifying, for an assertion step whose hypotheses
   have the instances insts: src/mmveri.c:99-147.  verifyStep below contains the
   same sequence (it also needs the unknown flag); VerProofs.verifyStep_assert
   ties the two together. *)
Definition stepCall (fuel : nat) (db : dbase) (stp ss : stmtRec) (n : nat)
  (insts : list (list nat)) (step err : nat) : res (list nat * list diag * nat) :=
  do r <- bigHyps db (s_reqHyps ss) insts;
  let '(sc, ins, unk) := r in
  assignVar fuel db (db_sep db :: sc) (db_sep db :: ins) n ss stp step unk err.

(* mathStringPtrs[i]: assigned for steps already done, NULL_NMBRSTRING (empty) for
   the other steps of the proof (mmveri.c:28-32), out of bounds beyond numSteps *)
Definition mathOf (numSteps : nat) (maths : list (list nat)) (i : nat) : res (list nat) :=
  match nth_error maths i with
  | Some m => Ok m
  | None => if i <? numSteps then Ok [] else UB
  end.

Fixpoint mapRes {A B : Type} (f : A -> res B) (l : list A) : res (list B) :=
  match l with
  | [] => Ok []
  | a :: r => do b <- f a; do bs <- mapRes f r; Ok (b :: bs)
  end.

(* body of the step loop, src/mmveri.c:43-174 *)
Definition verifyStep (fuel : nat) (db : dbase) (stp : stmtRec) (numSteps : nat)
  (v : vst) (x : pstep) : res vst :=
  let step := length (v_maths v) in
  match x with
  | Unk =>
      Ok (mkVst (v_maths v ++ [[]]) (step :: v_stack v) (v_diags v) (v_err v)
            (if v_flag v <? 1 then 1 else v_flag v))
  | Loc i =>
      do m <- mathOf numSteps (v_maths v) i;
      Ok (mkVst (v_maths v ++ [m]) (step :: v_stack v) (v_diags v) (v_err v) (v_flag v))
  | Stm n =>
      do st <- rget (nth_error (db_stmts db) n);
      match s_type st with
      | S_e | S_f =>
          Ok (mkVst (v_maths v ++ [s_math st]) (step :: v_stack v) (v_diags v)
                (v_err v) (v_flag v))
      | S_other => Bug 2102
      | S_a | S_p =>
          let nh := length (s_reqHyps st) in
          if length (v_stack v) <? nh then UB                 (* RPNStack[-1] *)
          else
            do insts <- mapRes (mathOf numSteps (v_maths v)) (rev (firstn nh (v_stack v)));
            do r <- bigHyps db (s_reqHyps st) insts;
            let '(sc, ins, unk) := r in
            do a <- assignVar fuel db (db_sep db :: sc) (db_sep db :: ins) n st stp step unk
                      (v_err v);
            let '(result, ds, err') := a in
            let flag' := match result with
                         | [] => if unk then v_flag v else 2
                         | _ => v_flag v
                         end in
            Ok (mkVst (v_maths v ++ [result]) (step :: skipn nh (v_stack v))
                  (v_diags v ++ ds) err' flag')
      end
  end.

Fixpoint verifySteps (fuel : nat) (db : dbase) (stp : stmtRec) (numSteps : nat)
  (v : vst) (l : list pstep) : res vst :=
  match l with
  | [] => Ok v
  | x :: r => do v' <- verifyStep fuel db stp numSteps v x;
              verifySteps fuel db stp numSteps v' r
  end.

Definition listEqb (a b : list nat) : bool :=
  if list_eq_dec Nat.eq_dec a b then true else false.

(* verifyProof(statemNum): returned status, messages printed.
   severity, errCount: g_WrkProof.errorSeverity and errorCount left by parseProof *)
Definition verifyProof (fuel : nat) (db : dbase) (statemNum : nat) (proof : list pstep)
  (severity errCount : nat) : res (nat * list diag * nat) :=
  do stp <- rget (nth_error (db_stmts db) statemNum);
  match s_type stp with
  | S_p =>
      if 2 <? severity then Ok (severity, [], errCount)
      else
        match proof with
        | [] => Ok (2, [], errCount)
        | _ =>
            let n := length proof in
            do v <- verifySteps fuel db stp n (mkVst [] [] [] errCount 0) proof;
            if negb (Nat.eqb (length (v_stack v)) 1) then Bug 2108
            else
              do last <- mathOf n (v_maths v) (n - 1);
              if Nat.eqb (v_flag v) 0 && negb (listEqb (s_math stp) last) then
                Ok (v_flag v, v_diags v ++ gated (v_err v) [DMismatch (n - 1)], v_err v + 1)
              else Ok (v_flag v, v_diags v, v_err v)
        end
  | _ => Ok (4, [], errCount)
  end.

(* ---------- verifyProofs (src/mmcmds.c:4591-4667), label match "*", verifyFlag 1 ----------
   parse i is what parseProof(i) left behind: its return value k, the proof string,
   errorSeverity and errorCount of g_WrkProof.  Output: errorFound, emptyProofList,
   the error messages printed by verifyProof.  Simplification: status bar and timing
   output not modelled. *)
Record parsed := mkParsed { pr_k : nat; pr_proof : list pstep; pr_sev : nat; pr_err : nat }.

Fixpoint verifyLoop (fuel : nat) (db : dbase) (parse : nat -> parsed) (i cnt : nat)
  (errorFound : bool) (empty : list nat) (msgs : list (nat * diag))
  : res (bool * list nat * list (nat * diag)) :=
  match cnt with
  | 0 => Ok (errorFound, empty, msgs)
  | S cnt' =>
      do st <- rget (nth_error (db_stmts db) i);
      match s_type st with
      | S_p =>
          let pr := parse i in
          let e1 := errorFound || (2 <=? pr_k pr) in
          do r <- (if pr_k pr <? 2 then
                     do v <- verifyProof fuel db i (pr_proof pr) (pr_sev pr) (pr_err pr);
                     let '(status, ds, _) := v in
                     Ok (e1 || (2 <=? status), map (fun d => (i, d)) ds)
                   else Ok (e1, []));
          let '(e2, ds) := r in
          verifyLoop fuel db parse (S i) cnt' e2
            (if Nat.eqb (pr_k pr) 1 then empty ++ [i] else empty) (msgs ++ ds)
      | _ => verifyLoop fuel db parse (S i) cnt' errorFound empty msgs
      end
  end.

(* result: is "All proofs in the database were verified" printed, and the messages.
   Statements are numbered 1 .. g_statements. *)
Definition verifyProofs (fuel : nat) (db : dbase) (parse : nat -> parsed)
  : res (bool * list (nat * diag)) :=
  do r <- verifyLoop fuel db parse 1 (length (db_stmts db) - 1) false [] [];
  let '(errorFound, empty, msgs) := r in
  Ok (match empty with [] => negb errorFound | _ => false end, msgs).
