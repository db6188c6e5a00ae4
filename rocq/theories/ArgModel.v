(* ArgModel.v -- the arguments of MM-PA commands: which step (getStepNum,
   getRelStepNums) and which statement (getStatementNum), src/mmcmds.c:5465-5777.
   No proofs here. *)
From Verif Require Import Base VstrModel ParModel VerModel SqModel LabModel MatchModel DateModel.
Open Scope nat_scope.

(* the messages printed (their texts are not modelled) *)
Inductive smsg := SM_none | SM_range (n : Z) | SM_plus | SM_minus | SM_noAll | SM_usage (all : bool)
  | SM_noUnknown | SM_notEnough (n : Z).

Definition FIRST : list nat := [70; 73; 82; 83; 84].
Definition LAST : list nat := [76; 65; 83; 84].
Definition ALL : list nat := [65; 76; 76].
(* the element '?' of a proof: -(long)'?' *)
Definition unkCode : Z := (-63)%Z.

(* scanning backwards, mmcmds.c:5536-5550: i is the number of steps left to look at;
   0 if the count was not reached.  Reading outside the arrays is UB. *)
Fixpoint scanBack (ess pf : list Z) (i : nat) (j : Z) : res nat :=
  match i with
  | 0 => Ok 0
  | S i' =>
      do e <- rget (nth_error ess i');
      do z <- rget (nth_error pf i');
      if negb (e =? 0)%Z && (z =? unkCode)%Z then
        if (j - 1 =? 0)%Z then Ok i else scanBack ess pf i' (j - 1)
      else scanBack ess pf i' j
  end.
(* scanning forwards, 5551-5566: step i + 1 is looked at next, n steps are left *)
Fixpoint scanForw (ess pf : list Z) (i n : nat) (j : Z) : res nat :=
  match n with
  | 0 => Ok 0
  | S n' =>
      do e <- rget (nth_error ess i);
      do z <- rget (nth_error pf i);
      if negb (e =? 0)%Z && (z =? unkCode)%Z then
        if (j - 1 =? 0)%Z then Ok (S i) else scanForw ess pf (S i) n' (j - 1)
      else scanForw ess pf (S i) n' j
  end.
(* 5529-5576 *)
Definition findUnknown (fuel : nat) (db : dbase) (pf : list Z) (neg : bool) (v : Z) : res (Z * smsg) :=
  do ess <- getEssential fuel db pf;
  do r <- (if neg then scanBack ess pf (length pf) (v + 1) else scanForw ess pf 0 (length pf) (v + 1));
  if r =? 0 then Ok ((-1)%Z, if (v =? 0)%Z then SM_noUnknown else SM_notEnough (v + 1)) else Ok (Z.of_nat r, SM_none).
(* getStepNum, 5471-5584.  edit: VstrModel (bit 5: upper case); valL and str: DateModel
   (the conversion of a number above the range of long to long is UB) *)
Definition getStepNum (fuel : nat) (db : dbase) (relStep : list nat) (pf : list Z) (allFlag : bool) : res (Z * smsg) :=
  do caps <- edit fuel relStep 32 [];
  do v <- valL caps;
  do lf <- left_ FIRST (Z.of_nat (length caps));
  do ll <- left_ LAST (Z.of_nat (length caps));
  do la <- left_ ALL (Z.of_nat (length caps));
  do c0 <- rd caps 0;
  if (0 <=? v)%Z && strEq caps (str v) then
    if (Z.of_nat (length pf) <? v)%Z || (v <? 1)%Z then Ok ((-1)%Z, SM_range (Z.of_nat (length pf))) else Ok (v, SM_none)
  else if strEq caps lf then findUnknown fuel db pf false 0
  else if strEq caps ll then findUnknown fuel db pf true 0
  else if c0 =? 43 then
    do r <- right_ caps 2;
    if strEq r (str v) then findUnknown fuel db pf false v else Ok ((-1)%Z, SM_plus)
  else if c0 =? 45 then
    do r <- right_ caps 2;
    if strEq r (str (- v)) then findUnknown fuel db pf true (- v) else Ok ((-1)%Z, SM_minus)
  else if strEq caps la then
    if negb allFlag then Ok ((-1)%Z, SM_noAll) else Ok (0%Z, SM_none)
  else Ok ((-1)%Z, SM_usage allFlag).

(* getRelStepNums, 5592-5615: from the last step to the first; j: the next offset *)
Fixpoint relLoop (ess pf : list Z) (i : nat) (j : Z) (acc : list Z) : res (list Z) :=
  match i with
  | 0 => Ok acc
  | S i' =>
      do e <- rget (nth_error ess i');
      do z <- rget (nth_error pf i');
      if negb (e =? 0)%Z && (z =? unkCode)%Z then relLoop ess pf i' (j - 1) (j :: acc)
      else relLoop ess pf i' j (Z.of_nat i :: acc)
  end.
Definition getRelStepNums (fuel : nat) (db : dbase) (pf : list Z) : res (list Z) :=
  do ess <- getEssential fuel db pf;
  relLoop ess pf (length pf) 0 [].

(* ---------------- getStatementNum ---------------- *)
Inductive gmsg := GM_none | GM_noLabel | GM_noP | GM_noAP | GM_earlier | GM_notHyp | GM_unique (n : nat) (a b : list nat).
Record gflags := { g_a : bool; g_p : bool; g_e : bool; g_f : bool; g_efOnly : bool; g_unique : bool }.

(* strpbrk(stmtName, "*?=~%#@,") != NULL *)
Definition hasWild (s : list nat) : bool :=
  existsb (fun c => existsb (Nat.eqb c) [42; 63; 61; 126; 37; 35; 64; 44]) s.
Definition kindIn (fl : gflags) (k : kind) : bool :=
  match k with K_a => g_a fl | K_p => g_p fl | K_e => g_e fl | K_f => g_f fl | _ => true end.
Definition isHyp (k : kind) : bool := match k with K_e | K_f => true | _ => false end.

(* the part of the loop body from the empty-label test to the efOnlyForMaxStmt test,
   5661-5702: does statement stmt match?  hyps m: the required and optional hypotheses
   of statement m (nmbrElementIn in either list) *)
Definition stmtFits (fuel : nat) (env : menv) (hyps : nat -> list nat) (fl : gflags) (name : list nat) (maxS stmt : nat) : res bool :=
  do l <- labelOf (e_stmts env) stmt;
  do ty <- kindOf (e_stmts env) stmt;
  match l with
  | [] => Ok false
  | _ =>
    if negb (kindIn fl ty) then Ok false
    else
      do m <- (if hasWild name then matchesList fuel env l name 42 63 else Ok (strEq name l));
      if negb m then Ok false
      else if g_efOnly fl then
        if length (e_stmts env) <? maxS then Bug 247
        else Ok (negb (isHyp ty && negb (existsb (Nat.eqb stmt) (hyps maxS))))
      else Ok true
  end.
(* the loop, 5647-5721: n statements are left, stmt is the next.  State: matchesFound,
   matchStmt, matchStmt2; result with laterMatchFound *)
Fixpoint gsLoop (fuel : nat) (env : menv) (hyps : nat -> list nat) (fl : gflags) (name : list nat) (maxS : nat)
  (n stmt found m1 m2 : nat) : res (nat * nat * nat * bool) :=
  match n with
  | 0 => Ok (found, m1, m2, false)
  | S n' =>
      if (maxS <=? stmt) && ((0 <? found) || negb (g_unique fl)) then Ok (found, m1, m2, false)
      else
        do b <- stmtFits fuel env hyps fl name maxS stmt;
        if negb b then gsLoop fuel env hyps fl name maxS n' (S stmt) found m1 m2
        else if maxS <=? stmt then Ok (found, m1, m2, true)
        else
          let m1 := if found =? 0 then stmt else m1 in
          let m2 := if found =? 1 then stmt else m2 in
          let found := S found in
          if negb (g_unique fl) then Ok (found, m1, m2, false)
          else if negb (hasWild name) then Ok (found, m1, m2, false)
          else gsLoop fuel env hyps fl name maxS n' (S stmt) found m1 m2
  end.
(* getStatementNum, 5624-5777 *)
Definition getStatementNum (fuel : nat) (env : menv) (hyps : nat -> list nat) (name : list nat) (start maxS : nat) (fl : gflags)
  : res (Z * gmsg) :=
  do r <- gsLoop fuel env hyps fl name maxS (S (length (e_stmts env)) - start) start 0 1 1;
  let '(found, m1, m2, later) := r in
  do msg <-
    (if found =? 0 then
       Ok (if negb (g_unique fl) then (if start =? 1 then GM_noLabel else GM_none)
           else if g_a fl && g_p fl && g_e fl && g_f fl && negb (g_efOnly fl) then GM_noLabel
           else if negb (g_a fl) && g_p fl && negb (g_e fl) && negb (g_f fl) then GM_noP
           else if negb (g_e fl) && negb (g_f fl) then (if later then GM_earlier else GM_noAP)
           else (if later then GM_earlier else GM_notHyp))
     else if 2 <=? found then
       do a <- labelOf (e_stmts env) m1; do b <- labelOf (e_stmts env) m2; Ok (GM_unique found a b)
     else Ok GM_none);
  if negb (g_unique fl) && (1 <? found) then Bug 248
  else Ok (if found =? 1 then Z.of_nat m1 else (-1)%Z, msg).
