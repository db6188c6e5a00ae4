(* SqModel.v -- executable models of the functions that look at the tree
   structure of a proof: nmbrGetSubproofLen, nmbrSquishProof, nmbrUnsquishProof,
   nmbrGetIndentation, nmbrGetEssential, nmbrGetTargetHyp (src/mmdata.c:1700-1955)
   and subproofLen (src/mmpfas.c:2882-2902).  No proofs here.
   A proof is the list of its elements (without the final -1).  Reading the
   terminator or beyond is UB.  A step number is represented by step + 1 where the
   C variable may become -1. *)
From Verif Require Import Base VerModel ParModel.
Open Scope nat_scope.

(* nmbrGetSubproofLen, mmdata.c:1704-1720; e = step + 1.  The loop over the
   hypotheses goes backward from pos = step - 1. *)
Fixpoint subLoop (rec : nat -> res nat) (k e : nat) : res nat :=
  match k with
  | 0 => Ok e
  | S k' => do n <- rec e; subLoop rec k' (e - n)
  end.
Fixpoint subLen (fuel : nat) (db : dbase) (proof : list Z) (e : nat) : res nat :=
  match fuel with
  | 0 => Fuel
  | S f =>
      match e with
      | 0 => Bug 1329
      | S step =>
          do stmt <- rget (nth_error proof step);
          if (stmt <? 0)%Z then Ok 1
          else
            do st <- rget (nth_error (db_stmts db) (Z.to_nat stmt));
            match s_type st with
            | S_f | S_e => Ok 1
            | _ => do p <- subLoop (subLen f db proof) (length (s_reqHyps st)) step;
                   Ok (e - p)
            end
      end
  end.
(* every recursive call is for an earlier step *)
Definition getSubproofLen (db : dbase) (proof : list Z) (step : nat) : res nat :=
  subLen (S (S step)) db proof (S step).

(* subproofLen, mmpfas.c:2882-2902: p as in C *)
Fixpoint spLoop (db : dbase) (proof : list Z) (p lvl : nat) : res nat :=
  match lvl with
  | 0 => Ok p
  | S l =>
      match p with
      | 0 => Bug 1821
      | S p' =>
          do stmt <- rget (nth_error proof p');
          if (stmt <? 0)%Z then spLoop db proof p' l
          else
            do st <- rget (nth_error (db_stmts db) (Z.to_nat stmt));
            match s_type st with
            | S_e | S_f => spLoop db proof p' l
            | _ => spLoop db proof p' (l + length (s_reqHyps st))
            end
      end
  end.
Definition subproofLen (db : dbase) (proof : list Z) (endStep : nat) : res nat :=
  do p <- spLoop db proof (S endStep) 1; Ok (endStep + 1 - p).

(* ---------- nmbrString primitives at list level (see NmbrModel.v) ---------- *)
Fixpoint isPrefix (s l : list Z) : bool :=
  match s, l with
  | [], _ => true
  | x :: s', y :: l' => (x =? y)%Z && isPrefix s' l'
  | _ :: _, [] => false
  end.
(* nmbrInstr, mmdata.c:1308-1323; positions count from 1, 0 is "not found" *)
Fixpoint instrGo (n i : nat) (s1 s2 : list Z) : nat :=
  match n with
  | 0 => 0
  | S n' => if isPrefix s2 (skipn i s1) then S i else instrGo n' (S i) s1 s2
  end.
Definition nmbrInstr (start : nat) (s1 s2 : list Z) : nat :=
  instrGo (length s1 + 1 - length s2 - (start - 1)) (start - 1) s1 s2.

(* ---------- nmbrSquishProof, mmdata.c:1724-1771 ---------- *)
(* the "while (1)" loop, 1746-1757.  start: matchStep + 1 *)
Fixpoint sqMatch (fuel : nat) (step start : nat) (newP sub : list Z) (found : bool)
  : res (list Z * bool) :=
  match fuel with
  | 0 => Fuel
  | S f =>
      match nmbrInstr start newP sub with
      | 0 => Ok (newP, found)
      | S m =>
          let newP' := firstn m newP ++ [zLoc (Z.of_nat step)]
                       ++ skipn (m + length sub) newP in
          sqMatch f step (S m + 2 - length sub) newP' sub true
      end
  end.

(* the loop over step; fuel: the length of the proof is enough *)
Fixpoint sqLoop (fuel : nat) (db : dbase) (step dummyStep : nat) (newP dummyP : list Z)
  : res (list Z) :=
  match fuel with
  | 0 => Fuel
  | S f =>
      if step <? length newP then
        do sl <- getSubproofLen db dummyP dummyStep;
        if sl <=? 1 then sqLoop f db (S step) (S dummyStep) newP dummyP
        else
          let sub := firstn sl (skipn (dummyStep + 1 - sl) dummyP) in
          do x <- sqMatch (S (length newP)) step (step + 2) newP sub false;
          let '(newP', found) := x in
          if found then
            let ds := dummyStep + 1 - sl in
            let dummyP' := firstn ds dummyP ++ [zLoc (Z.of_nat step)] ++ skipn (step + 1) newP' in
            sqLoop f db (S step) (S ds) newP' dummyP'
          else sqLoop f db (S step) (S dummyStep) newP' dummyP
      else Ok newP
  end.
Definition squishProof (db : dbase) (proof : list Z) : res (list Z) :=
  sqLoop (S (length proof)) db 0 0 proof proof.

(* ---------- nmbrUnsquishProof, mmdata.c:1775-1797; e = step + 1 ---------- *)
Fixpoint unsqLoop (fuel : nat) (db : dbase) (e : nat) (p : list Z) : res (list Z) :=
  match fuel with
  | 0 => Fuel
  | S f =>
      match e with
      | 0 => Ok p
      | S step =>
          do stmt <- rget (nth_error p step);
          if (-1000 <? stmt)%Z then unsqLoop f db step p
          else
            let i := Z.to_nat (-1000 - stmt) in
            do sl <- getSubproofLen db p i;
            let p' := firstn step p ++ firstn sl (skipn (i + 1 - sl) p) ++ skipn (S step) p in
            unsqLoop f db (step + sl - 1) p'
      end
  end.
Definition unsquishProof (fuel : nat) (db : dbase) (proof : list Z) : res (list Z) :=
  unsqLoop fuel db (length proof) proof.

(* ---------- display attributes ---------- *)
(* The three functions below fill their result array from right to left, one
   subproof per hypothesis; acc is the part filled so far, e = pos + 1.  fuel
   bounds the depth of the recursion. *)

(* nmbrGetIndentation, mmdata.c:1803-1842 *)
Fixpoint indLoop (rec : list Z -> res (list Z)) (db : dbase) (proof : list Z) (k e : nat)
  (acc : list Z) : res (list Z * nat) :=
  match k with
  | 0 => Ok (acc, e)
  | S k' =>
      do n <- subLen (S e) db proof e;
      do r <- rec (firstn n (skipn (e - n) proof));
      indLoop rec db proof k' (e - n) (r ++ acc)
  end.
Fixpoint getIndentation (fuel : nat) (db : dbase) (proof : list Z) (lvl : Z) : res (list Z) :=
  match fuel with
  | 0 => Fuel
  | S f =>
      let plen := length proof in
      do stmt <- (if plen =? 0 then UB else rget (nth_error proof (plen - 1)));
      if (stmt <? 0)%Z then if plen =? 1 then Ok [lvl] else Bug 1330
      else
        do st <- rget (nth_error (db_stmts db) (Z.to_nat stmt));
        match s_type st with
        | S_f | S_e => if plen =? 1 then Ok [lvl] else Bug 1331
        | S_a | S_p =>
            do x <- indLoop (fun sub => getIndentation f db sub (lvl + 1)) db proof
                      (length (s_reqHyps st)) (plen - 1) [];
            let '(acc, e) := x in
            if e =? 0 then Ok (acc ++ [lvl]) else Bug 333
        | S_other => Bug 1332
        end
  end.

(* nmbrGetEssential, mmdata.c:1848-1894.  hs: the hypotheses still to be done,
   last first *)
Fixpoint essLoop (rec : list Z -> res (list Z)) (db : dbase) (proof : list Z) (hs : list nat) (e : nat)
  (acc : list Z) : res (list Z * nat) :=
  match hs with
  | [] => Ok (acc, e)
  | h :: hs' =>
      do n <- subLen (S e) db proof e;
      do sh <- rget (nth_error (db_stmts db) h);
      do r <- (match s_type sh with
               | S_e => rec (firstn n (skipn (e - n) proof))
               | _ => Ok (repeat 0%Z n)
               end);
      essLoop rec db proof hs' (e - n) (r ++ acc)
  end.
Fixpoint getEssential (fuel : nat) (db : dbase) (proof : list Z) : res (list Z) :=
  match fuel with
  | 0 => Fuel
  | S f =>
      let plen := length proof in
      if plen =? 0 then Bug 1343 else
      do stmt <- rget (nth_error proof (plen - 1));
      if (stmt <? 0)%Z then
        if negb (plen =? 1) then Bug 1334
        else if negb (stmt =? zUnk)%Z && (-1000 <? stmt)%Z then Bug 1335
        else Ok [1%Z]
      else
        do st <- rget (nth_error (db_stmts db) (Z.to_nat stmt));
        match s_type st with
        | S_f | S_e => if plen =? 1 then Ok [1%Z] else Bug 1336
        | S_a | S_p =>
            do x <- essLoop (getEssential f db) db proof (rev (s_reqHyps st)) (plen - 1) [];
            let '(acc, e) := x in
            if e =? 0 then Ok (acc ++ [1%Z]) else Bug 1338
        | S_other => Bug 1337
        end
  end.

(* nmbrGetTargetHyp, mmdata.c:1903-1955.  For a one-step subproof there is no
   recursive call. *)
Fixpoint tgtLoop (rec : list Z -> nat -> res (list Z)) (db : dbase) (proof : list Z) (hs : list nat)
  (e : nat) (acc : list Z) : res (list Z * nat) :=
  match hs with
  | [] => Ok (acc, e)
  | h :: hs' =>
      do n <- subLen (S e) db proof e;
      do r <- (if 1 <? n then rec (firstn n (skipn (e - n) proof)) h
               else Ok [Z.of_nat h]);
      tgtLoop rec db proof hs' (e - n) (r ++ acc)
  end.
Fixpoint getTargetHyp (fuel : nat) (db : dbase) (proof : list Z) (statemNum : nat) : res (list Z) :=
  match fuel with
  | 0 => Fuel
  | S f =>
      let plen := length proof in
      do stmt <- (if plen =? 0 then UB else rget (nth_error proof (plen - 1)));
      (* nmbrSpace() leaves 0 there if statemNum is 0 *)
      let own := Z.of_nat statemNum in
      if (stmt <? 0)%Z then
        if negb (plen =? 1) then Bug 1339
        else if negb (stmt =? zUnk)%Z then Bug 1340
        else Ok [own]
      else
        do st <- rget (nth_error (db_stmts db) (Z.to_nat stmt));
        match s_type st with
        | S_f | S_e => if plen =? 1 then Ok [own] else Bug 1341
        | S_a | S_p =>
            do x <- tgtLoop (getTargetHyp f db) db proof (rev (s_reqHyps st)) (plen - 1) [];
            let '(acc, e) := x in
            if e =? 0 then Ok (acc ++ [own]) else Bug 343
        | S_other => Bug 1342
        end
  end.
