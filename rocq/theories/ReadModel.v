(* ReadModel.v -- READ and VERIFY PROOF * from the text of a source file: readInput
   (src/mmcmds.c:3669-3692) calling readRawSource, parseKeywords (SrcModel), parseLabels,
   parseMathDecl, parseStatements (LabModel, StmModel), then verifyProofs
   (src/mmcmds.c:4591-4667) calling parseProof (ParModel) and verifyProof (VerModel).
   No proofs here.  Not modelled: "$[ ... $]" inclusion (readSourceAndIncludes); the text
   below is what it returns.  With an unexpanded "$[" readRawSource reports RInclude. *)
From Verif Require Import Base TokModel LabModel SrcModel StmModel VerModel ParModel.
Open Scope nat_scope.

Inductive labErr :=
| LChar (s : nat)        (* Only letters, digits, "_", "-", and "." are allowed in labels *)
| LNotAllowed (s : nat)  (* A label isn't allowed for this statement type *)
| LTwo (s : nat)         (* A statement may have only one label *)
| LRequired (s : nat)    (* A label is required for this statement type *)
| LTail                  (* There should be no tokens after the last statement *)
| LDup (s : nat)         (* This label is declared more than once *)
| LClash (x : list nat). (* This label has the same name as the math token *)

Inductive anyErr := ERaw (e : rawErr) | EKw (e : kwErr) | ELab (e : labErr) | EStm (e : sErr).

(* ---------- parseLabels, mmpars.c:427-486: the scan ---------- *)
Definition wantsLabel (k : kind) : bool :=
  match k with K_e | K_f | K_a | K_p => true | _ => false end.
(* the label of statement n, "" if none (parseKeywords initialises labelName to "") *)
Definition scanLabel (src : list nat) (n : nat) (k : kstmt) : res (lstmt * list labErr) :=
  do s <- whiteSpace (skipn (fst (k_lab k)) src);
  match tokenLen s with
  | 0 => Ok (Build_lstmt (k_kind k) [], if wantsLabel (k_kind k) then [LRequired n] else [])
  | j =>
      let lab := firstn j s in
      do s2 <- whiteSpace (skipn j s);
      Ok (Build_lstmt (k_kind k) lab,
          (if forallb labelChar lab then [] else [LChar n]) ++
          (if wantsLabel (k_kind k) then [] else [LNotAllowed n]) ++
          (match tokenLen s2 with 0 => [] | _ => [LTwo n] end))
  end.
Fixpoint scanLabels (src : list nat) (n : nat) (ks : list kstmt) : res (list lstmt * list labErr) :=
  match ks with
  | [] => Ok ([], [])
  | k :: r => do x <- scanLabel src n k;
              do y <- scanLabels src (S n) r;
              Ok (fst x :: fst y, snd x ++ snd y)
  end.
(* "no token after the last statement", 488-495 *)
Definition tailErr (src : list nat) (dummy : section) : res (list labErr) :=
  do s <- whiteSpace (skipn (fst dummy) src);
  Ok (match tokenLen s with 0 => [] | _ => [LTail] end).

(* ---------- tokens of the math sections ---------- *)
(* the loops mmpars.c:592-597 and 1079-1091; the scan is not confined to the section *)
Definition mathOfStmt (src : list nat) (k : kstmt) : res sinp :=
  match k_kind k with
  | K_lb | K_rb => Ok (mkS (k_kind k) [])
  | _ =>
      let l := match k_math k with Some sec => skipn (fst sec) src | None => [] end in
      do r <- mathTokens (S (length l)) l;
      Ok (mkS (k_kind k) (fst r))
  end.
Fixpoint mathOfAll (src : list nat) (ks : list kstmt) : res (list sinp) :=
  match ks with
  | [] => Ok []
  | k :: r => do x <- mathOfStmt src k; do y <- mathOfAll src r; Ok (x :: y)
  end.
(* g_MathToken[] has room for potentialSymbols entries, 565-579 *)
Fixpoint declLen (ks : list kstmt) : nat :=
  match ks with
  | [] => 0
  | k :: r => (if isDecl (k_kind k) then secLen (k_math k) else 0) + declLen r
  end.
Definition potentialSymbols (ks : list kstmt) : nat := declLen ks / 2 + 2.
(* wrkNmbrPtr[] (one entry per symbol) and wrkStrPtr[] (one symbol and its NUL),
   873-877 and 1066-1075; w: wrkLen before *)
Fixpoint wrkFits (w : nat) (ks : list kstmt) (sts : list sinp) : bool :=
  match ks, sts with
  | k :: kr, i :: ir =>
      match k_kind k with
      | K_lb | K_rb | K_c | K_v => wrkFits w kr ir
      | _ =>
          let len := secLen (k_math k) in
          let w' := if w <? len then len + 100 else w in
          (length (si_toks i) <=? w') && forallb (fun t => length t <=? w') (si_toks i)
          && wrkFits w' kr ir
      end
  | _, _ => true
  end.

(* ---------- READ ---------- *)
(* what READ leaves: the statements' sections, labels, symbols, the symbol table, the
   frames, the table of assertion labels *)
Record rdb := mkR {
  rd_ks : list kstmt; rd_dummy : section; rd_lab : list lstmt; rd_sts : list sinp;
  rd_toks : list mtok; rd_out : list sout; rd_asrt : list nat; rd_all : list nat }.

(* lsort, msort: the library's qsort of labels and of symbols *)
Section Read.
  Variable lsort : list lstmt -> list nat.
  Variable msort : list (list nat) -> list nat.
  Variable minSub : nat.      (* g_minSubstLen *)

  Definition readText (src : list nat) : res (list anyErr * rdb) :=
    do r <- readSource src;
    let '(raw, kw, ks, dummy) := r in
    do ls <- scanLabels src 1 ks;
    do te <- tailErr src dummy;
    do tab <- labelTables (fst ls) (lsort (fst ls));
    let '(dups, all, asrt) := tab in
    do sts <- mathOfAll src ks;
    let toks := declTokens 1 sts in
    if potentialSymbols ks <? length toks then UB else
    do cl <- tokenClash (fst ls) all (map mt_name toks);
    if negb (wrkFits 1 ks sts) then UB else
    do s <- parseStmts (msort (map mt_name toks)) minSub sts;
    Ok (map ERaw raw ++ map EKw kw ++ map ELab (snd ls) ++ map ELab te ++
        map (fun k => ELab (LDup k)) dups ++ map (fun x => ELab (LClash x)) cl ++
        map EStm (p_err s),
        mkR ks dummy (fst ls) sts toks (p_out s) asrt all).
End Read.

(* ---------- the tables as the verifier sees them ---------- *)
Definition stypeOf (k : kind) : stype :=
  match k with K_a => S_a | K_p => S_p | K_e => S_e | K_f => S_f | _ => S_other end.
Definition toStmt (o : sout) : stmtRec :=
  mkStmt (stypeOf (o_kind o)) (o_math o) (o_reqHyps o) (o_optHyps o) (o_reqVars o)
    (map fst (o_reqDisj o)) (map fst (o_optDisj o)).
Definition dbOf (r : rdb) : dbase :=
  mkDb (tkVar (rd_toks r)) (length (rd_toks r)) (map toStmt (rd_out r)).
Definition labelAt (r : rdb) (n : nat) : list nat :=
  match lnth (rd_lab r) n with Some s => l_label s | None => [] end.
Definition envOf (find : list (label * Z) -> label -> option Z) (r : rdb) : penv :=
  mkEnv (dbOf r) (labelAt r) (map (fun k => (labelAt r k, Z.of_nat k)) (rd_asrt r)) find.

(* ---------- VERIFY PROOF * ---------- *)
(* proof section of statement n and the text after it *)
Definition proofText (src : list nat) (ks : list kstmt) (n : nat) : list nat * list nat :=
  match n with
  | 0 => ([], [])
  | S m => match nth_error ks m with
           | Some k => match k_proof k with
                       | Some sec => (secText src sec, skipn (fst sec + snd sec) src)
                       | None => ([], [])
                       end
           | None => ([], [])
           end
  end.
Fixpoint decAll (zs : list Z) : option (list pstep) :=
  match zs with
  | [] => Some []
  | z :: r => match decStep z, decAll r with Some x, Some y => Some (x :: y) | _, _ => None end
  end.
(* parseProof of every $p in order; prev: g_wrkProofMaxSize.  None: some proof is in
   /EXPLICIT format (not modelled).  An element that is no proof step is the trap 2101
   of verifyProof, which is only called if the parse returned less than 2.
   Simplification: in the C code the parsing of a proof follows the verification of the
   one before; neither looks at the other's data, except g_wrkProofMaxSize. *)
Fixpoint parseAll (fuel : nat) (env : penv) (src : list nat) (ks : list kstmt)
  (n cnt prev : nat) : res (option (list parsed)) :=
  match cnt with
  | 0 => Ok (Some [])
  | S cnt' =>
      do st <- rget (nth_error (db_stmts (e_db env)) n);
      match s_type st with
      | S_p =>
          let t := proofText src ks n in
          let max := wrkMax prev st (fst t) in
          do o <- parseText fuel env n max (fst t) (snd t);
          match o with
          | None => Ok None
          | Some (k, zs, ec) =>
              do p <- (match decAll zs with
                       | Some p => Ok p
                       | None => if k <? 2 then Bug 2101 else Ok []
                       end);
              do rest <- parseAll fuel env src ks (S n) cnt' max;
              Ok (option_map (cons (mkParsed k p k ec)) rest)
          end
      | _ => do rest <- parseAll fuel env src ks (S n) cnt' prev;
             Ok (option_map (cons (mkParsed 4 [] 4 0)) rest)
      end
  end.
Definition parsedAt (l : list parsed) (n : nat) : parsed :=
  match n with 0 => mkParsed 4 [] 4 0 | S m => nth m l (mkParsed 4 [] 4 0) end.

(* READ, then VERIFY PROOF *: the errors of READ, "All proofs in the database were
   verified" printed or not, the verifier's messages, what was read.  prev: as above *)
Definition readVerify (lsort : list lstmt -> list nat) (msort : list (list nat) -> list nat)
  (find : list (label * Z) -> label -> option Z) (minSub prev fuel : nat) (src : list nat)
  : res (option (list anyErr * bool * list (nat * diag) * rdb)) :=
  do x <- readText lsort msort minSub src;
  let '(errs, r) := x in
  let env := envOf find r in
  do ps <- parseAll fuel env src (rd_ks r) 1 (length (db_stmts (e_db env)) - 1) prev;
  match ps with
  | None => Ok None
  | Some l => do v <- verifyProofs fuel (e_db env) (parsedAt l); Ok (Some (errs, fst v, snd v, r))
  end.
