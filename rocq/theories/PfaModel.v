(* PfaModel.v -- proof-assistant surgery on the proof in progress, src/mmpfas.c.
   No proofs here.  The state is struct pip_struct (mmpfas.h): the proof and, for each
   of its steps, target, source and user math strings.  Steps count from 0.
   nmbrLeft/nmbrRight/pntrLeft/pntrRight on positions in range are firstn/skipn (see
   NmbModel for the functions themselves); an element read out of range is UB.
   Deallocation is not modelled. *)
From Verif Require Import Base VerModel ParModel SqModel.
Open Scope nat_scope.

Record pip := mkPip { pf : list Z; tg : list (list Z); sr : list (list Z); us : list (list Z) }.

(* addSubProof, mmpfas.c:1117-1141.  pntrNSpace(sbPfLen - 1) needs a non-empty subproof. *)
Definition addSubProof (s : pip) (sub : list Z) (step : nat) : res pip :=
  do z <- rget (nth_error (pf s) step);
  if negb (z =? zUnk)%Z then Bug 1803
  else
    do src <- rget (nth_error (sr s) step);
    match sub with
    | [] => UB
    | _ =>
      if negb (length src =? 0) then Bug 1804
      else
        let pad l := firstn step l ++ repeat [] (length sub - 1) ++ skipn step l in
        Ok (mkPip (firstn step (pf s) ++ sub ++ skipn (step + 1) (pf s)) (pad (tg s)) (pad (sr s)) (pad (us s)))
    end.

(* deleteSubProof, mmpfas.c:1326-1355 *)
Definition deleteSubProof (db : dbase) (s : pip) (step : nat) : res pip :=
  do z <- rget (nth_error (pf s) step);
  if (z =? zUnk)%Z then Ok s
  else
    do n <- subproofLen db (pf s) step;
    do src <- rget (nth_error (sr s) step);
    let a := step + 1 - n in
    Ok (mkPip (firstn a (pf s) ++ [zUnk] ++ skipn (step + 1) (pf s))
              (firstn a (tg s) ++ skipn step (tg s))
              (firstn a (sr s) ++ [] :: skipn (step + 1) (sr s))
              (firstn a (us s) ++ skipn step (us s))).

(* the subproof replacement used by REPLACE, IMPROVE and MINIMIZE_WITH:
   metamath.c:4611-4613, 4780-4781, 4922-4923, mmpfas.c:2090-2101 *)
Definition replaceSubProof (db : dbase) (s : pip) (sub : list Z) (step : nat) : res pip :=
  do n <- subproofLen db (pf s) step;
  do s' <- deleteSubProof db s step;
  addSubProof s' sub (step + 1 - n).

(* DELETE STEP, metamath.c:5575-5598: n counts from 1.  The step is looked at before
   its range is checked: number 0 reads the header cell in front of the array, the
   number after the last the terminator -1, larger ones are out of bounds.  None: a
   message, nothing changed. *)
Definition deleteStep (db : dbase) (s : pip) (n : nat) : res (option pip) :=
  match n with
  | O => Ok None
  | S k =>
      if k =? length (pf s) then Ok None
      else
        do z <- rget (nth_error (pf s) k);
        if (z =? zUnk)%Z then Ok None
        else do s' <- deleteSubProof db s k; Ok (Some s')
  end.

(* DELETE FLOATING_HYPOTHESES, metamath.c:5643-5666.  e = s of the C code; flags is
   the result of nmbrGetEssential for the original proof. *)
Fixpoint deleteFloatLoop (fuel : nat) (db : dbase) (flags : list Z) (s : pip) (e : nat) : res pip :=
  match e with
  | O => Ok s
  | S step =>
      match fuel with
      | O => Fuel
      | S f =>
          do fl <- rget (nth_error flags step);
          if (fl =? 1)%Z then deleteFloatLoop f db flags s step
          else
            do z <- rget (nth_error (pf s) step);
            if (z =? zUnk)%Z then deleteFloatLoop f db flags s step
            else
              do q <- subproofLen db (pf s) step;
              do s' <- deleteSubProof db s step;
              deleteFloatLoop f db flags s' (step + 1 - q)
      end
  end.
Definition deleteFloating (db : dbase) (s : pip) : res pip :=
  do flags <- getEssential (length (pf s)) db (pf s);
  deleteFloatLoop (length (pf s)) db flags s (length (pf s)).

(* getParentStep, mmpfas.c:3004-3030.  sp = stackPtr; l = the steps after startStep. *)
Fixpoint parentLoop (db : dbase) (l : list Z) (prfStep : nat) (sp : Z) : res (option nat) :=
  match l with
  | [] => Ok None
  | z :: r =>
      if (z <? 0)%Z then
        if negb (z =? zUnk)%Z then Bug 1842 else parentLoop db r (S prfStep) (sp + 1)
      else
        do st <- rget (nth_error (db_stmts db) (Z.to_nat z));
        match s_type st with
        | S_e | S_f => parentLoop db r (S prfStep) (sp + 1)
        | S_a | S_p =>
            let sp := (sp - Z.of_nat (length (s_reqHyps st)) + 1)%Z in
            if (sp <=? 0)%Z then Ok (Some prfStep) else parentLoop db r (S prfStep) sp
        | S_other => Bug 1843
        end
  end.
Definition getParentStep (db : dbase) (proof : list Z) (startStep : nat) : res nat :=
  do r <- parentLoop db (skipn (S startStep) proof) (S startStep) 0;
  match r with
  | Some k => Ok k
  | None => if S startStep =? length proof then Ok startStep else Bug 1844
  end.

(* getKnownSubProofs, mmpfas.c:1064-1112: true for 'K'.  stk = unkSubPrfStack, top
   first.  The stack's array has as many cells as there are steps. *)
Fixpoint knownLoop (db : dbase) (l : list Z) (stk : list bool) : res (list bool * list bool) :=
  match l with
  | [] => Ok ([], stk)
  | z :: r =>
      do x <-
        (if (z <? 0)%Z then if negb (z =? zUnk)%Z then Bug 1837 else Ok (false, stk)
         else
           do st <- rget (nth_error (db_stmts db) (Z.to_nat z));
           match s_type st with
           | S_e | S_f => Ok (true, stk)
           | S_a | S_p =>
               let n := length (s_reqHyps st) in
               if length stk <? n then Bug 1839
               else Ok (forallb (fun b => b) (firstn n stk), skipn n stk)
           | S_other => Bug 1838
           end);
      do y <- knownLoop db r (fst x :: snd x);
      Ok (fst x :: fst y, snd y)
  end.
Definition getKnownSubProofs (db : dbase) (proof : list Z) : res (list bool) :=
  do x <- knownLoop db proof [];
  if length (snd x) =? 1 then Ok (fst x) else Bug 1841.

(* getIndepKnownSteps, mmpfas.c:970-1058: true for 'Y'.  ref = refStep. *)
(* 984-1003: e = prfStep + 1, fl = indepSteps *)
Definition setRange (a n : nat) (fl : list bool) : list bool :=
  firstn a fl ++ repeat true n ++ skipn (a + n) fl.
Fixpoint indepLoop (fuel : nat) (db : dbase) (proof : list Z) (ref : nat) (e : nat) (fl : list bool) : res (list bool) :=
  match e with
  | O => Ok fl
  | S k =>
      match fuel with
      | O => Fuel
      | S f =>
          do n <- subproofLen db proof k;
          if (ref <=? k) && (k + 1 - n <=? ref) then indepLoop f db proof ref k fl
          else
            if existsb (fun b => b) (firstn n (skipn (k + 1 - n) fl)) then Bug 1832
            else indepLoop f db proof ref (k + 1 - n) (setRange (k + 1 - n) n fl)
      end
  end.
(* 1007-1046; mt = g_mathTokens *)
Definition usable (db : dbase) (mt : Z) (z : Z) (target : list Z) : res bool :=
  do hyp <-
    (if (z <? 0)%Z then if (z =? zUnk)%Z then Ok false else Bug 1833
     else
       do st <- rget (nth_error (db_stmts db) (Z.to_nat z));
       match s_type st with
       | S_e | S_f => Ok true
       | S_a | S_p => Ok false
       | S_other => Bug 1834
       end);
  if (hyp : bool) then Ok false
  else match target with
       | [] => Bug 1835
       | _ => Ok (forallb (fun t => (t <=? mt)%Z) target)
       end.
Fixpoint indepFilter (db : dbase) (mt : Z) (l : list Z) (targets : list (list Z)) (fl known : list bool) : res (list bool) :=
  match l, targets, fl, known with
  | [], _, _, _ => Ok []
  | z :: l', t :: ts, b :: fl', k :: ks =>
      do u <- (if (b : bool) then usable db mt z t else Ok false);
      do r <- indepFilter db mt l' ts fl' ks;
      Ok ((u && k) :: r)
  | _, _, _, _ => UB
  end.
Definition getIndepKnownSteps (db : dbase) (mt : Z) (s : pip) (ref : nat) : res (list bool) :=
  let n := length (pf s) in
  do fl <- indepLoop n db (pf s) ref (n - 1) (repeat false n);
  do known <- getKnownSubProofs db (pf s);
  indepFilter db mt (pf s) (tg s) fl known.

(* ---------- expandProof, mmpfas.c:1146-1322 ---------- *)
(* the step of the source proof: what it becomes, 1230-1276.  hyps = hypSubproofs *)
Fixpoint findHyp (z : Z) (req : list nat) (hyps : list (list Z)) : option (list Z) :=
  match req, hyps with
  | h :: r, p :: ps => if (Z.of_nat h =? z)%Z then Some p else findHyp z r ps
  | _, _ => None
  end.
Definition expandStep (db : dbase) (req : list nat) (hyps : list (list Z)) (z : Z) : res (list Z) :=
  if (z <? 0)%Z then if (z =? zUnk)%Z then Ok [zUnk] else Bug 1873
  else
    do st <- rget (nth_error (db_stmts db) (Z.to_nat z));
    match s_type st with
    | S_e | S_f =>
        match findHyp z req hyps with
        | Some p => Ok p
        | None => match s_type st with S_e => Bug 1874 | _ => Ok [zUnk] end
        end
    | S_a | S_p => Ok [z]
    | S_other => Bug 1875
    end.
Fixpoint expandSteps (db : dbase) (req : list nat) (hyps : list (list Z)) (src : list Z) : res (list Z) :=
  match src with
  | [] => Ok []
  | z :: r => do a <- expandStep db req hyps z; do b <- expandSteps db req hyps r; Ok (a ++ b)
  end.
(* 1203-1214: the proofs of the hypotheses, last first; e = hypStep + 1 *)
Fixpoint hypProofs (db : dbase) (proof : list Z) (k e : nat) (acc : list (list Z)) : res (list (list Z) * nat) :=
  match k with
  | O => Ok (acc, e)
  | S k' =>
      match e with
      | O => UB
      | S h =>
          do n <- subproofLen db proof h;
          hypProofs db proof k' (e - n) (firstn n (skipn (e - n) proof) :: acc)
      end
  end.
(* the last step equal to src, 1195-1196 *)
Fixpoint lastUse (src : Z) (l : list Z) (k : nat) : option nat :=
  match l with
  | [] => None
  | z :: r => match lastUse src r (S k) with
              | Some i => Some i
              | None => if (z =? src)%Z then Some k else None
              end
  end.
(* the while loop, 1191-1289 *)
Fixpoint expandLoop (fuel : nat) (db : dbase) (src : nat) (req : list nat) (srcProof target : list Z) : res (list Z) :=
  match fuel with
  | O => Fuel
  | S f =>
      match lastUse (Z.of_nat src) target 0 with
      | None => Ok target
      | Some step =>
          do n <- subproofLen db target step;
          do x <- hypProofs db target (length req) step [];
          if negb (step - snd x =? n - 1) then Bug 1872
          else
            do e <- expandSteps db req (fst x) srcProof;
            expandLoop f db src req srcProof (firstn (step + 1 - n) target ++ e ++ skipn (step + 1) target)
      end
  end.
(* source = what getProof returns for the source statement *)
Definition expandProof (fuel : nat) (db : dbase) (src : nat) (source target : list Z) : res (list Z) :=
  do sp <- unsquishProof fuel db source;
  do tp <- unsquishProof fuel db target;
  do st <- rget (nth_error (db_stmts db) src);
  match s_type st with
  | S_p => expandLoop fuel db src (s_reqHyps st) sp tp
  | _ => Bug 1871
  end.
(* EXPAND, metamath.c:5536-5565, over the statements ss that match, highest number
   first.  sources m = what getProof returns for statement m. *)
Fixpoint expandAll (fuel : nat) (db : dbase) (sources : nat -> list Z) (ss : list nat) (proof : list Z) : res (list Z) :=
  match ss with
  | [] => Ok proof
  | m :: r => do p <- expandProof fuel db m (sources m) proof; expandAll fuel db sources r p
  end.

(* ---------- assignStatement, initStep ---------- *)
(* initStep, mmpfas.c:2126-2210.  mt = g_mathTokens; dummy variable number i (from 0)
   is token mt + 1 + i; dv = g_pipDummyVars; the new value of dv is returned.  The
   mapping from required variables to dummies (g_MathToken[].tmp) is a function: a
   variable that is not required keeps whatever tmp it had (old).  isv = token type is
   var_; dummy variables are variables too.  declareDummyVars only makes room. *)
Definition dummyOf (mt dv : nat) (reqVars : list nat) (old : nat -> Z) (t : nat) : Z :=
  match find (fun p => fst p =? t) (rev (combine reqVars (seq 0 (length reqVars)))) with
  | Some p => Z.of_nat (mt + 1 + dv + snd p)
  | None => old t
  end.
Definition dummyMath (db : dbase) (m : nat -> Z) (e : list nat) : list Z :=
  map (fun t => if db_isvar db t then m t else Z.of_nat t) e.
Definition setNth {A} (l : list A) (k : nat) (x : A) : res (list A) :=
  if k <? length l then Ok (firstn k l ++ x :: skipn (S k) l) else UB.
(* 2162-2174, 2195-2205: hs = the required hypotheses, last first; pos = step of the
   current one *)
Fixpoint initHyps (db : dbase) (m : nat -> Z) (proof : list Z) (hs : list nat) (pos : nat) (targets : list (list Z))
  : res (list (list Z)) :=
  match hs with
  | [] => Ok targets
  | h :: r =>
      do sh <- rget (nth_error (db_stmts db) h);
      do ts <- setNth targets pos (dummyMath db m (s_math sh));
      match r with
      | [] => Ok ts
      | _ =>
          do n <- subproofLen db proof pos;
          if pos <? n then UB else initHyps db m proof r (pos - n) ts
      end
  end.
Definition initStep (db : dbase) (mt : nat) (old : nat -> Z) (s : pip) (step : nat) (dv : nat) : res (pip * nat) :=
  do z <- rget (nth_error (pf s) step);
  if (z <? 0)%Z then
    if (z =? zUnk)%Z then do x <- setNth (sr s) step []; Ok (mkPip (pf s) (tg s) x (us s), dv) else Bug 1809
  else
    do st <- rget (nth_error (db_stmts db) (Z.to_nat z));
    match s_type st with
    | S_e | S_f => do x <- setNth (sr s) step (map Z.of_nat (s_math st)); Ok (mkPip (pf s) (tg s) x (us s), dv)
    | _ =>
        let m := dummyOf mt dv (s_reqVars st) old in
        do x <- setNth (sr s) step (dummyMath db m (s_math st));
        do t <- (match s_reqHyps st with
                 | [] => Ok (tg s)
                 | _ => if step =? 0 then UB else initHyps db m (pf s) (rev (s_reqHyps st)) (step - 1) (tg s)
                 end);
        Ok (mkPip (pf s) t x (us s), dv + length (s_reqVars st))
    end.
(* assignStatement, mmpfas.c:227-245 *)
Definition assignStatement (db : dbase) (mt : nat) (old : nat -> Z) (s : pip) (n step dv : nat) : res (pip * nat) :=
  do z <- rget (nth_error (pf s) step);
  if negb (z =? zUnk)%Z then Bug 1802
  else
    do st <- rget (nth_error (db_stmts db) n);
    let k := length (s_reqHyps st) in
    do s' <- addSubProof s (repeat zUnk k ++ [Z.of_nat n]) step;
    initStep db mt old s' (step + k) dv.
