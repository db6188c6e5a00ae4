(* HenModel.v -- the "Henty filter" on repeated unifications, src/mmunif.c:1239-1359 and
   1443-1678.  No proofs here.  Deallocation is not modelled. *)
From Verif Require Import Base UniModel.
Open Scope nat_scope.

(* one substituted variable: token, start and length of its value in the scheme (an
   element of stackUnkVar[], stackUnkVarStart[], stackUnkVarLen[]; the three arrays are
   always written together) *)
Definition tri : Type := nat * nat * nat.
Definition tvar (x : tri) : nat := fst (fst x).
Definition tstart (x : tri) : nat := snd (fst x).
Definition tlen (x : tri) : nat := snd x.

Definition get {A} (l : list A) (i : nat) : res A := rget (nth_error l i).
Fixpoint put {A} (l : list A) (i : nat) (x : A) : list A :=
  match l, i with
  | [], _ => []
  | _ :: r, O => x :: r
  | a :: r, S j => a :: put r j x
  end.
(* writing outside the array *)
Definition set {A} (l : list A) (i : nat) (x : A) : res (list A) := if i <? length l then Ok (put l i x) else UB.

(* 1531-1549: a variable replaced by a variable with a smaller number is swapped with it.
   The inner loop (1541-1545) looks at the cell hentyVarStart[i] each time (not at j), so
   that only this cell changes.  i = 0, 1, ... *)
Fixpoint swapLoop (mt k i : nat) (a : list tri) (sub : list nat) : res (list tri * list nat) :=
  match k with
  | O => Ok (a, sub)
  | S k' =>
      do x <- get a i;
      if tlen x =? 1 then
        do v2 <- rd sub (tstart x);
        match v2 with
        | Some v2 =>
            if (mt <? v2) && (v2 <? tvar x) then
              do a' <- set a i (v2, tstart x, tlen x);
              do sub' <- set sub (tstart x) (tvar x);
              swapLoop mt k' (S i) a' sub'
            else swapLoop mt k' (S i) a sub
        | None => swapLoop mt k' (S i) a sub
        end
      else swapLoop mt k' (S i) a sub
  end.

(* 1578-1597, label20: rra is put into the heap; i, j as in C (they count from 1) *)
Fixpoint sift (fuel : nat) (a : list tri) (ir : nat) (rra : tri) (i j : nat) : res (list tri) :=
  match fuel with
  | O => Fuel
  | S f =>
      if j <=? ir then
        do j <- (if j <? ir then
                   do x <- get a (j - 1);
                   do y <- get a j;
                   Ok (if tvar x <? tvar y then j + 1 else j)
                 else Ok j);
        do x <- get a (j - 1);
        if tvar rra <? tvar x then
          do a' <- set a (i - 1) x;
          sift f a' ir rra j (j + j)
        else sift f a ir rra i (ir + 1)
      else set a (i - 1) rra
  end.
(* 1556-1601, label10 *)
Fixpoint heap (fuel : nat) (a : list tri) (el ir : nat) : res (list tri) :=
  match fuel with
  | O => Fuel
  | S f =>
      if 1 <? el then
        do rra <- get a (el - 2);
        do a' <- sift (S (S (length a))) a ir rra (el - 1) (el - 1 + (el - 1));
        heap f a' (el - 1) ir
      else
        do rra <- get a (ir - 1);
        do top <- get a 0;
        do a' <- set a (ir - 1) top;
        if ir - 1 =? 1 then set a' 0 rra
        else
          do a'' <- sift (S (S (length a))) a' (ir - 1) rra el (el + el);
          heap f a'' el (ir - 1)
  end.
Definition heapSort (a : list tri) : res (list tri) :=
  if length a <? 2 then Ok a else heap (2 * length a) a (length a / 2 + 1) (length a).

(* 1603-1624: the values in the order of the variables, and their new starts *)
Fixpoint collect (a : list tri) (sub : list nat) (pos : nat) : res (list nat * list nat) :=
  match a with
  | [] => Ok ([], [])
  | x :: r =>
      if tstart x + tlen x <=? length sub then
        do q <- collect r sub (pos + tlen x);
        Ok (pos :: fst q, firstn (tlen x) (skipn (tstart x) sub) ++ snd q)
      else UB
  end.

(* an entry of the filter: hentyVars, hentyVarStart, hentySubstList (hentyVarLen is kept
   too, but never looked at) *)
Definition hentry : Type := list nat * list nat * list nat.
Definition triples (s : ust) : list tri :=
  rev (combine (combine (map l_var (u_stk s)) (u_starts s)) (u_lens s)).
(* hentyNormalize, 1508-1632 *)
Definition hentyNormalize (e : uenv) (s : ust) : res hentry :=
  do r <- swapLoop (u_mt e) (length (triples s)) 0 (triples s) (unified s);
  let '(a, sub) := r in
  do a <- heapSort a;
  do q <- collect a sub 0;
  Ok (map tvar a, fst q, snd q).
(* hentyMatch, 1635-1661 *)
Definition nmbrEqb (a b : list nat) : bool := if list_eq_dec Nat.eq_dec a b then true else false.
Definition entryEqb (x y : hentry) : bool :=
  nmbrEqb (fst (fst x)) (fst (fst y)) && nmbrEqb (snd (fst x)) (snd (fst y)) && nmbrEqb (snd x) (snd y).
Definition hentyMatch (x : hentry) (filter : list hentry) : bool := existsb (entryEqb x) filter.

(* the state vector: that of unify(), and elements 12-15 (the filter) *)
Record hst := mkH { h_s : ust; h_filter : list hentry }.
Inductive hres := HNo | HTimeout | HYes (h : hst).

(* unifyH, 1449-1506; on = g_hentyFilter *)
Definition unifyH (fuel : nat) (e : uenv) (on : bool) (A B : list nat) (tc : nat) : res (hres * nat) :=
  do r <- unify fuel e A B tc;
  match fst r with
  | UNo => Ok (HNo, snd r)
  | UTimeout => Ok (HTimeout, snd r)
  | UYes s => if on then do x <- hentyNormalize e s; Ok (HYes (mkH s [x]), snd r) else Ok (HYes (mkH s []), snd r)
  end.
(* re-entry: on is the same as in the first call *)
Fixpoint unifyHLoop (k fuel : nat) (e : uenv) (on : bool) (A B : list nat) (s : ust) (filter : list hentry) (tc : nat) : res (hres * nat) :=
  match k with
  | O => Fuel
  | S k' =>
      do r <- unifyNext fuel e A B s tc;
      match fst r with
      | UNo => Ok (HNo, snd r)
      | UTimeout => Ok (HTimeout, snd r)
      | UYes s' =>
          if on then
            do x <- hentyNormalize e s';
            if hentyMatch x filter then unifyHLoop k' fuel e on A B s' filter (snd r)
            else Ok (HYes (mkH s' (filter ++ [x])), snd r)
          else Ok (HYes (mkH s' filter), snd r)
      end
  end.
Definition unifyHNext (fuel : nat) (e : uenv) (on : bool) (A B : list nat) (h : hst) (tc : nat) : res (hres * nat) :=
  unifyHLoop fuel fuel e on A B (h_s h) (h_filter h) tc.

(* uniqueUnif, 1239-1359 (the state vector is saved and restored); 1 = unique *)
Inductive uniq := QNo | QOne (h : hst) | QTimeout | QMany (h : hst).
Definition uniqueUnif (fuel : nat) (e : uenv) (on : bool) (A B : list nat) (tc : nat) : res (uniq * nat) :=
  do r <- unifyH fuel e on A B tc;
  match fst r with
  | HNo => Ok (QNo, snd r)
  | HTimeout => Ok (QTimeout, snd r)
  | HYes h =>
      do r' <- unifyHNext fuel e on A B h (snd r);
      match fst r' with
      | HNo => Ok (QOne h, snd r')
      | HTimeout => Ok (QTimeout, snd r')
      | HYes h' => Ok (QMany h', snd r')
      end
  end.

(* the calls of a user, e.g. proveFloating(), mmpfas.c:1768-1785: the answers so far,
   latest first; the trial counter may be set in between *)
Inductive historyH (e : uenv) (on : bool) (A B : list nat) : list hst -> Prop :=
| hh_first fuel tc tc' h : unifyH fuel e on A B tc = Ok (HYes h, tc') -> historyH e on A B [h]
| hh_next fuel tc tc' h h' l : historyH e on A B (h :: l) -> unifyHNext fuel e on A B h tc = Ok (HYes h', tc') -> historyH e on A B (h' :: h :: l).
Inductive allAnswersH (e : uenv) (on : bool) (A B : list nat) : list hst -> Prop :=
| ah_none fuel tc tc' : unifyH fuel e on A B tc = Ok (HNo, tc') -> allAnswersH e on A B []
| ah_some fuel tc tc' h l : historyH e on A B (h :: l) -> unifyHNext fuel e on A B h tc = Ok (HNo, tc') -> allAnswersH e on A B (h :: l).
