(* FltModel.v -- proveFloating() and quickMatchFilter(), src/mmpfas.c:1516-2013 (IMPROVE,
   and the syntax breakdowns of the web pages).  No proofs here.
   Math tokens as in UniModel.v.  Debug output, the notice about other mathboxes
   (1867-1880) and deallocation are not modelled; of the messages only the three that
   explain a failure are kept (as constructors). *)
From Verif Require Import Base VerModel ParModel SqModel UniModel HenModel.
Open Scope nat_scope.

Record fenv := mkF {
  f_db : dbase;
  f_u : uenv;                       (* what unify() knows *)
  f_n : nat;                        (* statemNum *)
  f_maxE : nat;                     (* maxEDepth *)
  f_noDist : bool;                  (* noDistinct *)
  f_override : nat;                 (* overrideFlag: 0, 1, 2 *)
  f_disc : nat -> bool;             (* getMarkupFlag(stmt, USAGE_DISCOURAGED) *)
  f_mboxFlag : bool;                (* mathboxFlag *)
  f_mboxNum : nat;                  (* prfMbox *)
  f_mboxStmt : nat;                 (* g_mathboxStmt *)
  f_mboxStart : nat;                (* g_mathboxStart[prfMbox - 1] *)
  f_limit : nat;                    (* g_userMaxProveFloat *)
  f_on : bool;                      (* g_hentyFilter *)
  f_pipDummy : nat;                 (* g_pipDummyVars *)
  f_pf : list Z;                    (* g_ProofInProgress.proof, empty outside MM-PA *)
  f_tg : list (list nat) }.         (* g_ProofInProgress.target *)

Inductive fmsg := MLimit | MLoop | MTimeout.     (* 1571-1573, 1588-1595, 1775-1776 *)
(* the static variables trials, maxDepthExceeded, and the messages printed *)
Record fst_ := mkS { fs_trials : nat; fs_mde : bool; fs_msgs : list fmsg }.
Definition note (s : fst_) (m : fmsg) : fst_ := mkS (fs_trials s) (fs_mde s) (fs_msgs s ++ [m]).

Definition isE (t : stype) : bool := match t with S_e => true | _ => false end.
Definition isAP (t : stype) : bool := match t with S_a | S_p => true | _ => false end.
Definition stmtOf (db : dbase) (n : nat) : res stmtRec := rget (nth_error (db_stmts db) n).
Definition isConst (db : dbase) (t : nat) : bool := negb (db_isvar db t).

(* quickMatchFilter, 1919-2013, with dummyVarFlag = 0.  A symbol number 0 counts as "not a
   constant" in firstSymbol, secondSymbol, lastSymbol. *)
Definition symOf (db : dbase) (t : nat) : nat := if isConst db t then t else 0.
Definition quickMatchFilter (db : dbase) (st : stmtRec) (m : list nat) : res bool :=
  if negb (isAP (s_type st)) then Ok false
  else
    match m, s_math st with
    | m0 :: mr, c0 :: cr =>
        let first := symOf db m0 in
        let second := match mr with m1 :: _ => if first =? 0 then 0 else symOf db m1 | [] => 0 end in
        let lst := symOf db (last m 0) in
        let clast := last (s_math st) 0 in
        if negb (first =? 0) && negb (first =? c0) && isConst db c0 then Ok false
        else if negb (second =? 0) &&
                match cr with c1 :: _ => negb (second =? c1) && isConst db c0 && isConst db c1 | [] => false end then Ok false
        else if negb (lst =? 0) && negb (lst =? clast) && isConst db clast then Ok false
        else Ok (forallb (fun t => negb (isConst db t) || memb t m) (s_math st))
    | _, _ => UB                                  (* g_MathToken[-1] *)
    end.

(* 1667-1691 *)
Definition avoided (E : fenv) (s : nat) (st : stmtRec) : bool :=
  ((f_override E =? 0) && f_disc E s)
  || (negb (f_mboxFlag E) && (2 <=? f_mboxNum E) && (f_mboxStmt E <? s) && (s <? f_mboxStart E))
  || (f_noDist E && negb (length (s_reqDisj st) =? 0)).
(* 1698-1735: the statement has a $e hypothesis, and either the depth is too large or some
   mandatory variable is not in the assertion *)
Fixpoint anyE (db : dbase) (hyps : list nat) : res bool :=
  match hyps with
  | [] => Ok false
  | h :: r => do sh <- stmtOf db h; if isE (s_type sh) then Ok true else anyE db r
  end.
Definition eSkip (E : fenv) (depth : nat) (st : stmtRec) : res bool :=
  do b <- anyE (f_db E) (s_reqHyps st);
  Ok (b && ((f_maxE E <? depth) || existsb (fun v => negb (memb v (s_math st))) (s_reqVars st))).

(* 1737-1764: each mandatory variable gets a dummy variable, through g_MathToken[].tmp; a
   variable that is not mandatory would get a stale value.  (Declaring the dummy variables,
   1740-1743, is not modelled.) *)
Definition dummyOf (E : fenv) (st : stmtRec) (t : nat) : res nat :=
  if db_isvar (f_db E) t then
    match indexOf t (s_reqVars st) with Some i => Ok (u_mt (f_u E) + 1 + f_pipDummy E + i) | None => UB end
  else Ok t.
Fixpoint dummies (E : fenv) (st : stmtRec) (l : list nat) : res (list nat) :=
  match l with
  | [] => Ok []
  | t :: r => do d <- dummyOf E st t; do ds <- dummies E st r; Ok (d :: ds)
  end.
Fixpoint hypSchemes (E : fenv) (st : stmtRec) (hyps : list nat) : res (list (list nat)) :=
  match hyps with
  | [] => Ok []
  | h :: r => do sh <- stmtOf (f_db E) h; do d <- dummies E st (s_math sh); do ds <- hypSchemes E st r; Ok (d :: ds)
  end.

(* 1793-1822: the hypotheses in the order of hypOrdMap; rec is the recursive call; k counts
   the hypotheses done.  Some k: number k of this order could not be proved *)
Fixpoint hypLoop (rec : list nat -> fst_ -> res (list Z * fst_)) (e : uenv) (h : ust) (schemes : list (list nat))
  (order : list nat) (k : nat) (proofs : list (list Z)) (s : fst_) : res (option nat * list (list Z) * fst_) :=
  match order with
  | [] => Ok (None, proofs, s)
  | j :: r =>
      do sch <- get schemes j;
      do x <- makeSubst e h sch;
      if snd x then Bug 1808
      else
        do q <- rec (fst x) s;
        match fst q with
        | [] => Ok (Some k, proofs, snd q)
        | _ => do proofs <- set proofs j (fst q); hypLoop rec e h schemes r (S k) proofs (snd q)
        end
  end.
(* 1840-1847 *)
Definition toFront (l : list nat) (k : nat) : res (list nat) :=
  do j <- get l k; Ok (j :: firstn k l ++ skipn (S k) l).
(* 1768-1892: r = answer of unifyH(), tc = g_unifTrialCount (it is saved and restored
   around the recursive calls).  Some p: return p; None: next statement *)
Fixpoint tryLoop (k fuel : nat) (E : fenv) (rec : list nat -> fst_ -> res (list Z * fst_)) (stmt : nat) (scheme m : list nat)
  (schemes : list (list nat)) (r : hres) (tc : nat) (order : list nat) (proofs : list (list Z)) (s : fst_) : res (option (list Z) * fst_) :=
  match k with
  | O => Fuel
  | S k' =>
      match r with
      | HNo => Ok (None, s)
      | HTimeout => Ok (None, note s MTimeout)
      | HYes h =>
          do q <- hypLoop rec (f_u E) (h_s h) schemes order 0 proofs s;
          let '(o, proofs, s) := q in
          match o with
          | Some pos =>
              if f_limit E <? fs_trials s then Ok (Some [], s)
              else
                do order <- toFront order pos;
                do r' <- unifyHNext fuel (f_u E) (f_on E) scheme m h tc;
                tryLoop k' fuel E rec stmt scheme m schemes (fst r') (snd r') order proofs s
          | None =>
              if f_disc E stmt && (f_override E =? 0) then Bug 1869
              else if f_disc E stmt && (2 <? f_override E) then Bug 1870
              else Ok (Some (concat proofs ++ [Z.of_nat stmt]), s)
          end
      end
  end.
(* 1660-1898, one statement *)
Definition tryStmt (fuel : nat) (E : fenv) (rec : list nat -> fst_ -> res (list Z * fst_)) (depth : nat) (m : list nat) (stmt : nat) (s : fst_)
  : res (option (list Z) * fst_) :=
  do st <- stmtOf (f_db E) stmt;
  do b <- quickMatchFilter (f_db E) st m;
  if negb b then Ok (None, s)
  else if avoided E stmt st then Ok (None, s)
  else
    do sk <- eSkip E depth st;
    if (sk : bool) then Ok (None, s)
    else
      do scheme <- dummies E st (s_math st);
      do schemes <- hypSchemes E st (s_reqHyps st);
      do r <- unifyH fuel (f_u E) (f_on E) scheme m 1;
      tryLoop fuel fuel E rec stmt scheme m schemes (fst r) (snd r)
        (seq 0 (length (s_reqHyps st))) (repeat [] (length (s_reqHyps st))) s.
(* 1658-1900: stmt = k, k - 1, ..., 1 *)
Fixpoint scanStmts (k fuel : nat) (E : fenv) (rec : list nat -> fst_ -> res (list Z * fst_)) (depth : nat) (m : list nat) (s : fst_)
  : res (list Z * fst_) :=
  match k with
  | O => Ok ([], s)
  | S k' =>
      do q <- tryStmt fuel E rec depth m k s;
      match fst q with
      | Some p => Ok (p, snd q)
      | None => scanStmts k' fuel E rec depth m (snd q)
      end
  end.

(* 1602-1622 *)
Fixpoint hypScan (db : dbase) (m : list nat) (hyps : list nat) : res (option nat) :=
  match hyps with
  | [] => Ok None
  | h :: r => do sh <- stmtOf db h; if nmbrEqb m (s_math sh) then Ok (Some h) else hypScan db m r
  end.
(* 1624-1651: steps k - 1, ..., 0 of the proof in progress *)
Fixpoint selfScan (db : dbase) (pf : list Z) (tg : list (list nat)) (m : list nat) (k : nat) : res (option (list Z)) :=
  match k with
  | O => Ok None
  | S i =>
      do t <- get tg i;
      if nmbrEqb m t then
        do n <- subproofLen db pf i;
        let p := firstn n (skipn (i + 1 - n) pf) in
        if existsb (Z.eqb zUnk) p then selfScan db pf tg m i else Ok (Some p)
      else selfScan db pf tg m i
  end.

(* proveFloating, 1521-1915.  left: how many levels of recursion are left before
   depth > MAX_DEPTH = 40; depth = 41 - left after depth++; the first call has left = 40 *)
Definition MAX_DEPTH : nat := 40.
Fixpoint prove (left fuel : nat) (E : fenv) (m : list nat) (s : fst_) : res (list Z * fst_) :=
  let s := if left =? MAX_DEPTH then mkS 0 false (fs_msgs s) else mkS (S (fs_trials s)) (fs_mde s) (fs_msgs s) in
  if f_limit E <? fs_trials s then Ok ([], note s MLimit)
  else if fs_mde s then Ok ([], s)
  else
    match left with
    | O => Ok ([], note (mkS (fs_trials s) true (fs_msgs s)) MLoop)
    | S left' =>
        do stn <- stmtOf (f_db E) (f_n E);
        do a <- hypScan (f_db E) m (s_reqHyps stn);
        match a with
        | Some h => Ok ([Z.of_nat h], s)
        | None =>
            do b <- hypScan (f_db E) m (s_optHyps stn);
            match b with
            | Some h => Ok ([Z.of_nat h], s)
            | None =>
                do c <- selfScan (f_db E) (f_pf E) (f_tg E) m (length (f_pf E));
                match c with
                | Some p => Ok (p, s)
                | None => scanStmts (f_n E - 1) fuel E (prove left' fuel E) (S MAX_DEPTH - left) m s
                end
            end
        end
    end.
(* the call from outside: depth = 0 *)
Definition proveFloating (fuel : nat) (E : fenv) (m : list nat) : res (list Z * list fmsg) :=
  do q <- prove MAX_DEPTH fuel E m (mkS 0 false []);
  Ok (fst q, fs_msgs (snd q)).
