(* MwModel.v -- the command MINIMIZE_WITH, src/metamath.c:4994-5534.  No proofs here.
   Messages are not modelled, apart from prntStatus; nor is /TIME.  compressProof() is
   called without "fast".  The temporary replacement of the statement's proof section and
   its restoration (5220-5251, 5323-5378) are modelled by parsing the replacement.
   The two fuels: rounds of minimizeProof(), everything else. *)
From Verif Require Import Base TokModel VerModel ParModel ExpModel ReadModel SqModel CmpModel OrdModel VstrModel LabModel MatchModel
  UniModel PfaModel FltModel AkModel MinModel TrcModel SavModel.
Open Scope nat_scope.

(* the command line, 5005-5055 *)
Record mopts := mkO {
  o_match : list nat;               (* g_fullArg[1] *)
  o_grow : bool;                    (* mayGrowFlag *)
  o_except : option (list nat);     (* the argument of /EXCEPT *)
  o_allow : list nat;               (* allowNewAxiomsMatchList *)
  o_noNew : list nat;               (* noNewAxiomsMatchList *)
  o_forbid : list nat;              (* forbidMatchList *)
  o_mbox : bool;                    (* mathboxFlag *)
  o_override : bool }.              (* overrideFlag *)

(* what does not change during the command.  n_E: as for minimizeProof() (f_n: g_proveStatement;
   f_mboxStmt: g_mathboxStmt; f_mboxNum, f_mboxStart: getMathboxNum(g_proveStatement) and the
   start of that mathbox); n_env, n_me, n_te: as parseProof(), matchesList() and traceProof()
   see the database; n_width, n_back: screen width and the text before the statement (read
   backwards); n_prev: g_wrkProofMaxSize *)
Record menvw := mkN {
  n_E : fenv;
  n_env : penv;
  n_me : menv;
  n_te : tenv;
  n_width : Z;
  n_back : list nat;
  n_prev : nat }.

(* strpbrk(g_fullArg[1], "*?~%,") != NULL, 5060-5073 *)
Definition wildcard (l : list nat) : bool := existsb (fun c => memb c [42; 63; 126; 37; 44]) l.

(* matchesList(label of k, list, '*', '?') *)
Definition labelMatches (fuel : nat) (N : menvw) (k : nat) (l : list nat) : res bool :=
  matchesList fuel (n_me N) (t_name (n_te N) k) l 42 63.

(* nmbrSquishProof() and compressProof(), 5106-5112, 5216-5220, 5292-5299: the string *)
Definition compressedText (fuel : nat) (N : menvw) (p : list Z) : res (list nat) :=
  do q <- squishProof (f_db (n_E N)) p;
  do c <- compressProofNew fuel (n_env N) (f_n (n_E N)) (n_width N) (n_back N) q;
  Ok ([40; 32] ++ joinSp (map (fun z => e_name (n_env N) (Z.to_nat z)) (fst c)) ++ [32; 41; 32] ++ snd c).

(* parseProof() with this text as the proof section, 5228-5238, 5330-5350 *)
Definition parseTrial (fuel : nat) (N : menvw) (text : list nat) : res parsed :=
  let n := f_n (n_E N) in
  let sec := 32 :: text ++ [32] in
  do st <- rget (nth_error (db_stmts (f_db (n_E N))) n);
  (* stands for outOfMemory("#99 (g_WrkProof)"), src/mmpars.c:1960-1993, which exits: malloc
     does not give more than LONG_MAX bytes *)
  if (maxLong <? Z.of_nat (wrkMax (n_prev N) st sec))%Z then Bug 99
  else
  do o <- parseProofText fuel (n_env N) n (wrkMax (n_prev N) st sec) sec [36; 46];
  let '(k, zs, ec) := o in
  do p <- (match decAll zs with
           | Some p => Ok p
           | None => if k <? 2 then Bug 2101 else Ok []
           end);
  Ok (mkParsed k p k ec).
(* ... as traceProofWork() sees the database meanwhile *)
Definition trialEnv (N : menvw) (pr : parsed) (text : list nat) : tenv :=
  let te := n_te N in let n := f_n (n_E N) in
  mkTenv (t_db te) (t_name te) (fun m => if m =? n then pr else t_parse te m) (fun m => if m =? n then (32 :: text ++ [32], [36; 46]) else t_text te m).

(* 5144-5182: is the statement skipped?  start: thisMathboxStartStmt *)
Definition skipped (fuel : nat) (N : menvw) (o : mopts) (start k : nat) : res bool :=
  let E := n_E N in
  if negb (o_mbox o) && (f_mboxStmt E <=? k) && (k <? start) then Ok true
  else
    do st <- rget (nth_error (db_stmts (f_db E)) k);
    if negb (isAP (s_type st)) then Ok true
    else
      do m <- labelMatches fuel N k (o_match o);
      if negb m then Ok true
      else
        do x <- (match o_except o with None => Ok false | Some l => labelMatches fuel N k l end);
        if (x : bool) then Ok true
        else
          do f <- (match o_forbid o with [] => Ok false | l => labelMatches fuel N k l end);
          if (f : bool) then Ok true
          else Ok (negb (o_override o) && f_disc E k).

(* 5208-5223: does the trace of k contain a statement of the /FORBID list?  (A trap in
   matchesList() is taken as no match.) *)
Definition hitsOf (fuel : nat) (N : menvw) (l : list nat) (n : nat) : bool :=
  match labelMatches fuel N n l with Ok b => b | _ => false end.
Definition forbidden (fuel : nat) (N : menvw) (o : mopts) (k : nat) : res bool :=
  match o_forbid o with
  | [] => Ok false
  | l =>
      do st <- rget (nth_error (db_stmts (f_db (n_E N))) k);
      match s_type st with
      | S_p => do x <- traceProof fuel (n_te N) k false false true (Some (hitsOf fuel N l)) None; Ok (fst (fst x))
      | _ => Ok false
      end
  end.

(* 5262-5281: no new axiom: i, i + 1, ...; c left *)
Fixpoint axiomsOk (fuel : nat) (N : menvw) (o : mopts) (old new : list nat) (c i : nat) : res bool :=
  match c with
  | O => Ok true
  | S c' =>
      do st <- rget (nth_error (db_stmts (f_db (n_E N))) i);
      match s_type st with
      | S_a =>
          do a <- rget (nth_error old i);
          if a =? chY then axiomsOk fuel N o old new c' (S i)
          else
            do al <- labelMatches fuel N i (o_allow o);
            do nn <- (if (al : bool) then labelMatches fuel N i (o_noNew o) else Ok true);
            if negb nn then axiomsOk fuel N o old new c' (S i)
            else
              do b <- rget (nth_error new i);
              if b =? chY then Ok false else axiomsOk fuel N o old new c' (S i)
      | _ => axiomsOk fuel N o old new c' (S i)
      end
  end.

Definition isDisjB (d : diag) : bool := match d with DDisjCommon _ _ _ _ | DDisjMissing _ _ _ _ _ => true | _ => false end.
(* 5323-5385: parse and verify the new proof; true: a parse error or a $d violation.
   verifyProof() does not change errorSeverity *)
Definition disjTrouble (fuel : nat) (N : menvw) (text : list nat) : res bool :=
  do pr <- parseTrial fuel N text;
  do v <- verifyProof fuel (f_db (n_E N)) (f_n (n_E N)) (pr_proof pr) (pr_sev pr) (pr_err pr);
  Ok ((1 <? pr_sev pr) || existsb isDisjB (snd (fst v))).

(* nmbrEq() *)
Definition zlistEqb (a b : list Z) : bool := if list_eq_dec Z.eq_dec a b then true else false.
(* m_s: g_ProofInProgress; m_rev: saveProofForReverting; m_len: oldCompressedLength;
   m_flags: traceProofFlags; m_changed: g_proofChangedFlag; m_status: prntStatus *)
Record mst := mkM { m_s : pip; m_rev : pip; m_len : nat; m_flags : list nat; m_changed : bool; m_status : nat }.
Definition revert (x : mst) (fl : list nat) : mst := mkM (m_rev x) (m_rev x) (m_len x) fl (m_changed x) (Nat.max 1 (m_status x)).

(* 5203-5252: the trace of the proof as it was before the command *)
Definition oldFlags (fuel : nat) (N : menvw) (x : mst) : res (list nat) :=
  match m_flags x with
  | [] =>
      do text <- compressedText fuel N (pf (m_rev x));
      do pr <- parseTrial fuel N text;
      do t <- traceProofWork fuel (trialEnv N pr text) (f_n (n_E N)) true None;
      Ok (fst t)
  | fl => Ok fl
  end.
(* 5184-5463, one statement *)
Definition oneStmt (w fuel : nat) (N : menvw) (o : mopts) (k : nat) (x : mst) : res mst :=
  do s' <- minimizeProof w fuel (n_E N) k (o_grow o) (m_s x);
  if zlistEqb (pf (m_s x)) (pf s') then Ok (mkM s' (m_rev x) (m_len x) (m_flags x) (m_changed x) (Nat.max 1 (m_status x)))
  else
    do f <- forbidden fuel N o k;
    if (f : bool) then Ok (revert x (m_flags x))
    else
      do fl <- oldFlags fuel N x;
      do t <- traceProofWork fuel (n_te N) k true None;
      do a <- axiomsOk fuel N o fl (fst t) (f_n (n_E N) - 1) 1;
      if negb a then Ok (revert x fl)
      else
        do st <- rget (nth_error (db_stmts (f_db (n_E N))) k);
        let dv := negb (length (s_reqDisj st) =? 0) in
        do text <- (if dv || negb (o_grow o) then compressedText fuel N (pf s') else Ok []);
        if negb (o_grow o) && (m_len x <? length text) then Ok (revert x fl)
        else
          do d <- (if dv then disjTrouble fuel N text else Ok false);
          if (d : bool) then Ok (revert x fl)
          else if f_disc (n_E N) k && negb (o_override o) then Bug 1126
          else Ok (mkM s' s' (if o_grow o then m_len x else length text) fl true 2).

(* 5138-5464: the statements ks *)
Fixpoint scan (w fuel : nat) (N : menvw) (o : mopts) (start : nat) (ks : list nat) (x : mst) : res mst :=
  match ks with
  | [] => Ok x
  | k :: r =>
      do b <- skipped fuel N o start k;
      do x' <- (if (b : bool) then Ok x else oneStmt w fuel N o k x);
      scan w fuel N o start r x'
  end.

(* 5075-5489: the proof, g_proofChangedFlag and prntStatus *)
Definition minimizeWith (w fuel : nat) (N : menvw) (o : mopts) (s : pip) : res (pip * bool * nat) :=
  let E := n_E N in
  do start <- (if f_mboxStmt E <? f_n E then if f_mboxNum E =? 0 then Bug 1130 else Ok (f_mboxStart E) else Ok (f_mboxStmt E));
  do text <- compressedText fuel N (pf s);
  let ks := seq 1 (f_n E - 1) in
  do x <- scan w fuel N o start ks (mkM s s (length text) [] false 0);
  if o_grow o || negb (m_changed x) || negb (wildcard (o_match o)) then Ok (m_s x, m_changed x, m_status x)
  else
    do y <- scan w fuel N o start (rev ks) (mkM s s (length text) (m_flags x) (m_changed x) (m_status x));
    if (m_len y <? m_len x) || ((m_len y =? m_len x) && (length (pf (m_s y)) <? length (pf (m_s x))))
    then Ok (m_s y, m_changed y, m_status y)
    else Ok (m_s x, m_changed y, m_status y).
