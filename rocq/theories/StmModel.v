(* StmModel.v -- parseMathDecl and parseStatements, src/mmpars.c:555-1879.
   No proofs here.
   Input: for every statement its type and the token texts of its math section
   (TokModel.mathTokens; the composition with the text is in ReadModel.v).
   Errors only add to a list and reading goes on, as in the C code. *)
From Verif Require Import Base LabModel.
Open Scope nat_scope.

Record sinp := mkS { si_kind : kind; si_toks : list (list nat) }.

(* ---------- parseMathDecl, mmpars.c:555-627 ---------- *)
(* the fields tokenName, tokenType, statement of struct mathToken_struct; the
   dynamic fields active, scope, tmp are in the state below *)
Record mtok := mkTok { mt_name : list nat; mt_var : bool; mt_stmt : nat }.

Inductive sErr :=
| EEmptyDecl (s : nat)        (* At least one math symbol should be declared *)
| ETooManyRb (s : nat)        (* Too many "$}"s *)
| EConstScope (s : nat)       (* $c in outermost scope only *)
| EDeclared (s : nat)         (* already been declared in this scope *)
| EBoth (s : nat)             (* may not be both a constant and a variable *)
| EInactive (s : nat)         (* This math symbol is not active *)
| EUndeclared (s : nat)       (* This math symbol was not declared *)
| EConstInD (s : nat)         (* Constant symbols are not allowed in a $d *)
| EFirstConst (s : nat)       (* The first symbol must be a constant *)
| EFSecond (s : nat)          (* The second symbol must be a variable in a $f *)
| EFThree (s : nat)           (* no more than two symbols in a $f *)
| EDShort (s : nat)           (* A $d requires at least two variables *)
| ENoMath (s : nat)           (* requires at least one math symbol *)
| EFShort (s : nat)           (* A $f requires two math symbols *)
| EDSame (s : nat)            (* All variables in a $d must be unique *)
| EMixed (s f : nat)          (* $f may not contain a mixture of variables *)
| ENoHyp (s : nat)            (* variable does not occur in any active hypothesis *)
| ENoF (s h : nat)            (* variable does not appear in an active $f *)
| EDupF (s h : nat)           (* already appears in the earlier active $f *)
| EMissingRb.                 (* "$}" missing at the end of the file *)

Definition isDecl (k : kind) : bool := match k with K_c | K_v => true | _ => false end.
Definition isV (k : kind) : bool := match k with K_v => true | _ => false end.

(* the symbols in order of declaration; n is the number of the first statement *)
Fixpoint declTokens (n : nat) (sts : list sinp) : list mtok :=
  match sts with
  | [] => []
  | s :: r => (if isDecl (si_kind s) then map (fun x => mkTok x (isV (si_kind s)) n) (si_toks s) else [])
              ++ declTokens (S n) r
  end.
(* "if (!j) sourceError", 622-625 *)
Fixpoint declErrs (n : nat) (sts : list sinp) : list sErr :=
  match sts with
  | [] => []
  | s :: r => (if isDecl (si_kind s) && match si_toks s with [] => true | _ => false end
               then [EEmptyDecl n] else []) ++ declErrs (S n) r
  end.

(* ---------- tables used while reading statements ---------- *)
(* g_mathKey: token numbers sorted by name (qsort, 653-655; a parameter, see
   StmSpec.mqsorted).  tk_same: mathTokenSameAs, 790-807. *)
Fixpoint sameGo (i : nat) (prevName : list nat) (prevVal : nat) (rest : list (list nat)) : list nat :=
  match rest with
  | [] => [prevVal]
  | x :: r =>
      match strcmp x prevName with
      | Eq => let v := if Nat.eqb prevVal 0 then i else prevVal in v :: sameGo (S i) x v r
      | _ => prevVal :: sameGo (S i) x 0 r
      end
  end.
Definition sameAs (names : list (list nat)) : list nat :=
  match names with [] => [] | x :: r => sameGo 1 x 0 r end.

Record tenv := mkT { tk_toks : list mtok; tk_key : list nat; tk_same : list nat; tk_maxLen : nat }.
Definition tkName (toks : list mtok) (t : nat) : list nat :=
  match nth_error toks t with Some k => mt_name k | None => [] end.
Definition mkTenv (toks : list mtok) (key : list nat) : tenv :=
  mkT toks key (sameAs (map (tkName toks) key))
    (fold_right (fun k m => Nat.max (length (mt_name k)) m) 0 toks).   (* maxSymbolLen, 877-882 *)

(* tokenType == var_: a declared variable, or a dummy for an undeclared symbol
   (number > g_mathTokens); the boundary token "$|$" (= g_mathTokens) is con_ *)
Definition tkVar (toks : list mtok) (t : nat) : bool :=
  match nth_error toks t with
  | Some k => mt_var k
  | None => negb (Nat.eqb t (length toks))
  end.

(* reverseMathKey[t] *)
Fixpoint posOf (t : nat) (l : list nat) : option nat :=
  match l with
  | [] => None
  | x :: r => if Nat.eqb x t then Some 0 else option_map S (posOf t r)
  end.

(* lowerKey / upperKey walks, 965-975 and 1082-1092 *)
Fixpoint walkDown (sa : list nat) (j lower : nat) : res nat :=
  match lower with
  | 0 => Ok 0
  | S l => do x <- rget (nth_error sa l); if Nat.eqb j x then walkDown sa j l else Ok lower
  end.
Fixpoint walkUp (sa : list nat) (j upper k : nat) : res nat :=    (* k = g_mathTokens-1-upper *)
  match k with
  | 0 => Ok upper
  | S k' => do x <- rget (nth_error sa (S upper)); if Nat.eqb j x then walkUp sa j (S upper) k' else Ok upper
  end.
(* the tokens g_mathKey[lowerKey..upperKey] *)
Definition group (T : tenv) (ki : nat) : res (list nat) :=
  do j <- rget (nth_error (tk_same T) ki);
  do lo <- walkDown (tk_same T) j ki;
  do hi <- walkUp (tk_same T) j ki (length (tk_toks T) - 1 - ki);
  Ok (firstn (S hi - lo) (skipn lo (tk_key T))).

(* bsearch with mathSrchCmp, 1073: the index in g_mathKey of some token with this name *)
Fixpoint msearch (fuel : nat) (T : tenv) (x : list nat) (l u : nat) : res (option nat) :=
  match fuel with
  | 0 => Fuel
  | S f =>
      if l <? u then
        let i := (l + u) / 2 in
        do k <- rget (nth_error (tk_key T) i);
        do tok <- rget (nth_error (tk_toks T) k);
        match strcmp x (mt_name tok) with
        | Lt => msearch f T x l i
        | Gt => msearch f T x (S i) u
        | Eq => Ok (Some i)
        end
      else Ok None
  end.

(* ---------- state of parseStatements ---------- *)
Record ventry := mkV { ve_tok : nat; ve_scope : Z; ve_flag : nat }.
Record hent := mkH { h_stmt : nat; h_vars : list nat; h_scope : Z }.
Record dent := mkD { d_a : nat; d_b : nat; d_stmt : nat; d_scope : Z }.

(* what is stored in g_Statement[]; the lists of an $a or $p *)
Record sout := mkO {
  o_kind : kind;
  o_begin : nat;                          (* beginScopeStatementNum *)
  o_scope : Z;
  o_math : list nat;
  o_reqHyps : list nat;
  o_optHyps : list nat;
  o_reqVars : list nat;
  o_optVars : list nat;
  o_reqDisj : list (nat * nat * nat);     (* A, B, Stmt *)
  o_optDisj : list (nat * nat * nat) }.
Definition bareOut (k : kind) (b : nat) (sc : Z) (m : list nat) : sout := mkO k b sc m [] [] [] [] [] [].

(* p_active p_scope p_tmp: fields of g_MathToken[].  p_v: activeVarStack[], None =
   never written; entries at and above p_vptr are stale but readable.  The other
   stacks are lists with the top first.  p_out: entry 0 unused.  p_min:
   g_minSubstLen.  Array growth by realloc is not modelled. *)
Record pst := mkP {
  p_active : nat -> bool; p_scope : nat -> Z; p_tmp : nat -> nat;
  p_c : list (nat * Z);
  p_v : nat -> option ventry; p_vptr : nat;
  p_e : list hent; p_f : list hent; p_d : list dent;
  p_cur : Z; p_begin : nat; p_undecl : nat; p_min : nat;
  p_err : list sErr;
  p_out : list sout }.

Definition upd {A} (f : nat -> A) (k : nat) (x : A) : nat -> A := fun i => if Nat.eqb i k then x else f i.
Definition err (e : sErr) (s : pst) : pst :=
  mkP (p_active s) (p_scope s) (p_tmp s) (p_c s) (p_v s) (p_vptr s) (p_e s) (p_f s) (p_d s)
      (p_cur s) (p_begin s) (p_undecl s) (p_min s) (p_err s ++ [e]) (p_out s).
Definition errIf (b : bool) (e : sErr) (s : pst) : pst := if b then err e s else s.
Definition setV (v : nat -> option ventry) (s : pst) : pst :=
  mkP (p_active s) (p_scope s) (p_tmp s) (p_c s) v (p_vptr s) (p_e s) (p_f s) (p_d s)
      (p_cur s) (p_begin s) (p_undecl s) (p_min s) (p_err s) (p_out s).

(* ---------- "${" and "$}", 908-972 ---------- *)
Fixpoint popWhile {A} (sc : A -> Z) (cur : Z) (l : list A) : list A * list A :=   (* popped, kept *)
  match l with
  | [] => ([], [])
  | x :: r => if Z.ltb (sc x) cur then ([], l)
              else let (p, k) := popWhile sc cur r in (x :: p, k)
  end.
(* the variable stack: the new pointer and the tokens made inactive *)
Fixpoint popV (v : nat -> option ventry) (cur : Z) (ptr : nat) : res (nat * list nat) :=
  match ptr with
  | 0 => Ok (0, [])
  | S p =>
      do e <- rget (v p);
      if Z.ltb (ve_scope e) cur then Ok (ptr, [])
      else do r <- popV v cur p; Ok (fst r, ve_tok e :: snd r)
  end.
Definition deact (ts : list nat) (a : nat -> bool) : nat -> bool :=
  fold_left (fun f t => upd f t false) ts a.

Definition doLb (n : nat) (s : pst) : res pst :=
  let cur := (p_cur s + 1)%Z in
  if Z.ltb 32000 cur then Bug 16       (* stands for outOfMemory("#16"), which exits (real bug numbers exceed 1000) *)
  else Ok (mkP (p_active s) (p_scope s) (p_tmp s) (p_c s) (p_v s) (p_vptr s) (p_e s) (p_f s) (p_d s)
      cur n (p_undecl s) (p_min s) (p_err s) (p_out s)).
Definition doRb (n : nat) (s : pst) : res pst :=
  let cur := p_cur s in
  let (pc, kc) := popWhile snd cur (p_c s) in
  do pv <- popV (p_v s) cur (p_vptr s);
  let ke := snd (popWhile h_scope cur (p_e s)) in
  let kf := snd (popWhile h_scope cur (p_f s)) in
  let kd := snd (popWhile d_scope cur (p_d s)) in
  let cur' := (cur - 1)%Z in
  let errs := if Z.ltb cur' 0 then [ETooManyRb n] else [] in
  do b <- (match p_begin s with
           | 0 => Ok 0
           | k => do o <- rget (nth_error (p_out s) k);
                  match o_kind o with K_lb => Ok (o_begin o) | _ => Bug 1773 end
           end);
  Ok (mkP (deact (snd pv) (deact (map fst pc) (p_active s))) (p_scope s) (p_tmp s) kc
       (p_v s) (fst pv) ke kf kd cur' b (p_undecl s) (p_min s) (p_err s ++ errs) (p_out s)).

(* ---------- "$c" and "$v", 973-1046 ---------- *)
(* one declared token, number t *)
Definition declOne (T : tenv) (n : nat) (vr : bool) (t : nat) (s : pst) : res pst :=
  do ki <- rget (posOf t (tk_key T));
  do sa <- rget (nth_error (tk_same T) ki);
  do s1 <- (if Nat.eqb sa 0 then Ok s
            else
              do g <- group T ki;
              (* 977-986: one message per conflicting active token *)
              let s1 := fold_left (fun s j => errIf (p_active s j && Z.leb (p_scope s j) (p_cur s)) (EDeclared n) s) g s in
              let k := existsb (fun j => negb (tkVar (tk_toks T) j)) g in
              let m := existsb (fun j => tkVar (tk_toks T) j) g in
              Ok (errIf ((k && tkVar (tk_toks T) t) || (m && negb (tkVar (tk_toks T) t))) (EBoth n) s1));
  let act := upd (p_active s1) t true in
  let sc := upd (p_scope s1) t (p_cur s1) in
  if vr then
    Ok (mkP act sc (upd (p_tmp s1) t (p_vptr s1)) (p_c s1)
          (upd (p_v s1) (p_vptr s1) (Some (mkV t (p_cur s1) 0))) (S (p_vptr s1))
          (p_e s1) (p_f s1) (p_d s1) (p_cur s1) (p_begin s1) (p_undecl s1) (p_min s1) (p_err s1) (p_out s1))
  else
    Ok (mkP act sc (p_tmp s1) ((t, p_cur s1) :: p_c s1) (p_v s1) (p_vptr s1)
          (p_e s1) (p_f s1) (p_d s1) (p_cur s1) (p_begin s1) (p_undecl s1) (p_min s1) (p_err s1) (p_out s1)).
Fixpoint declAll (T : tenv) (n : nat) (vr : bool) (ts : list nat) (s : pst) : res pst :=
  match ts with
  | [] => Ok s
  | t :: r => do s1 <- declOne T n vr t s; declAll T n vr r s1
  end.

(* ---------- math symbols of $d $f $e $a $p, 1047-1260 ---------- *)
(* "Prevent stray pointers later": tmp = 0 and a fictitious stack entry, 1118-1125 *)
Definition fict (t : nat) (s : pst) : pst :=
  let tmp := upd (p_tmp s) t 0 in
  if Nat.eqb (p_vptr s) 0 then
    mkP (p_active s) (p_scope s) tmp (p_c s) (upd (p_v s) 0 (Some (mkV t (p_cur s) 0))) 1
      (p_e s) (p_f s) (p_d s) (p_cur s) (p_begin s) (p_undecl s) (p_min s) (p_err s) (p_out s)
  else
    mkP (p_active s) (p_scope s) tmp (p_c s) (p_v s) (p_vptr s)
      (p_e s) (p_f s) (p_d s) (p_cur s) (p_begin s) (p_undecl s) (p_min s) (p_err s) (p_out s).
Definition setUndecl (u : nat) (s : pst) : pst :=
  mkP (p_active s) (p_scope s) (p_tmp s) (p_c s) (p_v s) (p_vptr s) (p_e s) (p_f s) (p_d s)
      (p_cur s) (p_begin s) u (p_min s) (p_err s) (p_out s).

(* the most recently declared active token of a group, 1096-1107 *)
Fixpoint pickMax (s : pst) (l : list nat) (best : nat) (maxS : Z) : nat * Z :=
  match l with
  | [] => (best, maxS)
  | j :: r =>
      if p_active s j && Z.ltb maxS (p_scope s j) then
        if Z.eqb (p_scope s j) (p_cur s) then (j, p_scope s j) else pickMax s r j (p_scope s j)
      else pickMax s r best maxS
  end.
Definition hasLen (toks : list mtok) (len : nat) : bool :=       (* symbolLenExists[len] *)
  existsb (fun k => Nat.eqb (length (mt_name k)) len) toks.

(* one symbol: its token number *)
Definition lookupTok (T : tenv) (n : nat) (x : list nat) (s : pst) : res (nat * pst) :=
  if tk_maxLen T <? length x then UB      (* symbolLenExists read outside its array *)
  else
  do f <- (if hasLen (tk_toks T) (length x)
           then msearch (S (length (tk_key T))) T x 0 (length (tk_key T)) else Ok None);
  match f with
  | Some ki =>
      do t0 <- rget (nth_error (tk_key T) ki);
      do sa <- rget (nth_error (tk_same T) ki);
      if Nat.eqb sa 0 then
        if p_active s t0 then Ok (t0, s) else Ok (t0, fict t0 (err (EInactive n) s))
      else
        do g <- group T ki;
        let (t, m) := pickMax s g t0 (-1)%Z in
        if Z.eqb m (-1) then Ok (t0, fict t0 (err (EInactive n) s)) else Ok (t, s)
  | None =>
      let u := S (p_undecl s) in
      if 100 <=? u then Bug 33        (* stands for outOfMemory("#33"), which exits *)
      else let t := length (tk_toks T) + u in Ok (t, fict t (setUndecl u (err (EUndeclared n) s)))
  end.

(* the checks on a symbol at position pos of a statement, 1189-1217 *)
Definition symErrs (T : tenv) (n : nat) (k : kind) (pos t : nat) (s : pst) : pst :=
  let con := negb (tkVar (tk_toks T) t) in
  match k with
  | K_d => errIf con (EConstInD n) s
  | _ =>
      match pos with
      | 0 => errIf (negb con) (EFirstConst n) s
      | _ => match k with
             | K_f => if Nat.eqb pos 1 then errIf con (EFSecond n) s
                      else errIf (Nat.eqb pos 2) (EFThree n) s
             | _ => s
             end
      end
  end.
Fixpoint symLoop (T : tenv) (n : nat) (k : kind) (pos : nat) (xs : list (list nat)) (s : pst)
  : res (list nat * pst) :=
  match xs with
  | [] => Ok ([], s)
  | x :: r =>
      do ts <- lookupTok T n x s;
      let (t, s1) := ts in
      do rest <- symLoop T n k (S pos) r (symErrs T n k pos t s1);
      Ok (t :: fst rest, snd rest)
  end.
Definition lenErrs (n : nat) (k : kind) (len : nat) (s : pst) : pst :=
  match k with
  | K_d => errIf (len <? 2) (EDShort n) s
  | K_f => match len with 0 => err (ENoMath n) s | _ => errIf (len <? 2) (EFShort n) s end
  | _ => errIf (Nat.eqb len 0) (ENoMath n) s
  end.

(* ---------- $d, 1285-1357 ---------- *)
Definition dmem (m n : nat) (l : list dent) : bool :=
  existsb (fun d => Nat.eqb m (d_a d) && Nat.eqb n (d_b d)) l.
(* inner loop; stops ("break") at a variable equal to p *)
Fixpoint dInner (n p : nat) (r : list nat) (s : pst) : pst :=
  match r with
  | [] => s
  | q :: r' =>
      if Nat.eqb p q then err (EDSame n) s
      else
        let m := Nat.min p q in let k := Nat.max p q in
        let s1 := if dmem m k (p_d s) then s
                  else mkP (p_active s) (p_scope s) (p_tmp s) (p_c s) (p_v s) (p_vptr s) (p_e s) (p_f s)
                         (mkD m k n (p_cur s) :: p_d s)
                         (p_cur s) (p_begin s) (p_undecl s) (p_min s) (p_err s) (p_out s) in
        dInner n p r' s1
  end.
Fixpoint dOuter (n : nat) (math : list nat) (s : pst) : pst :=
  match math with
  | [] => s
  | p :: r => dOuter n r (dInner n p r s)
  end.

(* ---------- $e and $f, 1359-1432 ---------- *)
Definition getFlag (s : pst) (t : nat) : res nat := do e <- rget (p_v s (p_tmp s t)); Ok (ve_flag e).
Definition setFlag (t f : nat) (s : pst) : pst :=
  match p_v s (p_tmp s t) with
  | Some e => setV (upd (p_v s) (p_tmp s t) (Some (mkV (ve_tok e) (ve_scope e) f))) s
  | None => s
  end.
(* variables of an expression not yet flagged, in order; flags them with f *)
Fixpoint newVars (T : tenv) (f : nat) (math : list nat) (s : pst) : res (list nat * pst) :=
  match math with
  | [] => Ok ([], s)
  | k :: r =>
      if tkVar (tk_toks T) k then
        do g <- getFlag s k;
        if Nat.eqb g 0 then
          do x <- newVars T f r (setFlag k f s); Ok (k :: fst x, snd x)
        else newVars T f r s
      else newVars T f r s
  end.
Definition clearFlags (vars : list nat) (s : pst) : pst := fold_left (fun s k => setFlag k 0 s) vars s.
Definition pushHyp (k : kind) (h : hent) (s : pst) : pst :=
  match k with
  | K_e => mkP (p_active s) (p_scope s) (p_tmp s) (p_c s) (p_v s) (p_vptr s) (h :: p_e s) (p_f s) (p_d s)
      (p_cur s) (p_begin s) (p_undecl s) (p_min s) (p_err s) (p_out s)
  | _ => mkP (p_active s) (p_scope s) (p_tmp s) (p_c s) (p_v s) (p_vptr s) (p_e s) (h :: p_f s) (p_d s)
      (p_cur s) (p_begin s) (p_undecl s) (p_min s) (p_err s) (p_out s)
  end.
Definition doHyp (T : tenv) (n : nat) (k : kind) (math : list nat) (s : pst) : res pst :=
  do x <- newVars T 1 math s;
  let s1 := clearFlags (fst x) (snd x) in
  Ok (pushHyp k (mkH n (fst x) (p_cur s1)) s1).

(* ---------- $a and $p, 1434-1722 ---------- *)
(* "Scan $e stack", 1457-1478: one variable list *)
Fixpoint eVars (vars : list nat) (s : pst) : res (list nat * pst) :=
  match vars with
  | [] => Ok ([], s)
  | k :: r =>
      do g <- getFlag s k;
      do x <- eVars r (setFlag k 1 s);
      Ok (if Nat.eqb g 0 then k :: fst x else fst x, snd x)
  end.
Fixpoint eScan (hs : list hent) (s : pst) : res (list nat * pst) :=
  match hs with
  | [] => Ok ([], s)
  | h :: r => do x <- eVars (h_vars h) s; do y <- eScan r (snd x); Ok (fst x ++ fst y, snd y)
  end.
(* the other variables of a $f with several variables (already an error), 1521-1561 *)
Fixpoint fOthers (n f : nat) (reqFlag : nat) (vars : list nat) (s : pst) : res pst :=
  match vars with
  | [] => Ok s
  | k :: r =>
      do g <- getFlag s k;
      let s1 := if Nat.eqb g 2 then setFlag k 1 s else s in
      do g1 <- getFlag s1 k;
      if negb (Nat.eqb reqFlag g1) then Ok (err (EMixed n f) s1) else fOthers n f reqFlag r s1
  end.
(* "Scan the list of $f hypotheses", 1491-1562: required, optional *)
Fixpoint fScan (n : nat) (hs : list hent) (s : pst) : res (list nat * list nat * pst) :=
  match hs with
  | [] => Ok ([], [], s)
  | h :: r =>
      match h_vars h with
      | [] => do x <- fScan n r s;
              Ok (h_stmt h :: fst (fst x), snd (fst x), snd x)
      | k :: others =>
          do g <- getFlag s k;
          let reqF := negb (Nat.eqb g 0) in
          let s1 := if reqF then setFlag k 1 s else s in
          do s2 <- fOthers n (h_stmt h) (if reqF then 1 else 0) others s1;
          do x <- fScan n r s2;
          Ok (if reqF then (h_stmt h :: fst (fst x), snd (fst x), snd x)
              else (fst (fst x), h_stmt h :: snd (fst x), snd x))
      end
  end.
(* "make sure that all variables ... appeared in some hypothesis", 1566-1588 *)
Fixpoint orphan (T : tenv) (n : nat) (math : list nat) (s : pst) : res pst :=
  match math with
  | [] => Ok s
  | k :: r =>
      if tkVar (tk_toks T) k then
        do g <- getFlag s k;
        orphan T n r (if Nat.eqb g 2 then setFlag k 1 (err (ENoHyp n) s) else s)
      else orphan T n r s
  end.
(* merge of the $e and the required $f by statement number, 1594-1613 *)
Fixpoint mergeHyps (es : list nat) : list nat -> list nat :=
  fix go (fs : list nat) : list nat :=
    match es, fs with
    | [], _ => fs
    | _, [] => es
    | e :: es', f :: fs' => if f <? e then f :: go fs' else e :: mergeHyps es' fs
    end.
(* $d pairs split, 1638-1660 *)
Fixpoint dSplit (ds : list dent) (s : pst) : res (list (nat * nat * nat) * list (nat * nat * nat)) :=
  match ds with
  | [] => Ok ([], [])
  | d :: r =>
      do ga <- getFlag s (d_a d);
      do both <- (if Nat.eqb ga 0 then Ok false
                  else do gb <- getFlag s (d_b d); Ok (negb (Nat.eqb gb 0)));
      do x <- dSplit r s;
      let p := (d_a d, d_b d, d_stmt d) in
      Ok (if (both : bool) then (p :: fst x, snd x) else (fst x, p :: snd x))
  end.
(* optional variables and clearing of the flags, 1703-1712; i from 0 up, k left *)
Fixpoint optScan (i k : nat) (s : pst) : res (list nat * pst) :=
  match k with
  | 0 => Ok ([], s)
  | S k' =>
      do e <- rget (p_v s i);
      if Nat.eqb (ve_flag e) 0 then
        do x <- optScan (S i) k' s; Ok (ve_tok e :: fst x, snd x)
      else optScan (S i) k' (setV (upd (p_v s) i (Some (mkV (ve_tok e) (ve_scope e) 0))) s)
  end.
Definition doAsrt (T : tenv) (n : nat) (k : kind) (beg : nat) (sc : Z) (math : list nat) (s : pst)
  : res (sout * pst) :=
  do x1 <- newVars T 2 math s;
  do x2 <- eScan (rev (p_e s)) (snd x1);
  let reqVars := fst x1 ++ fst x2 in
  do x3 <- fScan n (rev (p_f s)) (snd x2);
  let '(reqF, optF, s3) := x3 in
  do s4 <- orphan T n math s3;
  let reqHyps := mergeHyps (map h_stmt (rev (p_e s))) reqF in
  do ds <- dSplit (rev (p_d s)) s4;
  do x5 <- optScan 0 (p_vptr s4) s4;
  if negb (Nat.eqb (length (fst x5) + length reqVars) (p_vptr s4)) then Bug 1708
  else
    let isP := match k with K_p => true | _ => false end in
    Ok (mkO k beg sc math reqHyps (if isP then optF else []) reqVars (if isP then fst x5 else [])
          (fst ds) (if isP then snd ds else []), snd x5).

(* ---------- the final check of each $a and $p, 1746-1820 ---------- *)
Definition fVarOf (out : list sout) (h : nat) : res (option nat) :=   (* variable of a two-symbol $f *)
  do o <- rget (nth_error out h);
  Ok (match o_kind o, o_math o with K_f, [_; v] => Some v | _, _ => None end).
Fixpoint findF (out : list sout) (t : nat) (hs : list nat) : res bool :=
  match hs with
  | [] => Ok false
  | h :: r => do v <- fVarOf out h;
              match v with Some x => if Nat.eqb x t then Ok true else findF out t r | None => findF out t r end
  end.
Fixpoint needF (T : tenv) (out : list sout) (m : nat) (before : list nat) (math : list nat) (s : pst) : res pst :=
  match math with
  | [] => Ok s
  | t :: r => if tkVar (tk_toks T) t then
                do b <- findF out t before; needF T out m before r (errIf (negb b) (ENoF m m) s)
              else needF T out m before r s
  end.
(* before: the mandatory hypotheses already passed *)
Fixpoint checkHyps (T : tenv) (out : list sout) (n : nat) (before hs : list nat) (s : pst) : res pst :=
  match hs with
  | [] => do o <- rget (nth_error out n); needF T out n before (o_math o) s
  | m :: r =>
      do o <- rget (nth_error out m);
      do s1 <- (match o_kind o with
                | K_f => do v <- fVarOf out m;
                         match v with
                         | None => Ok s
                         | Some t => do b <- findF out t before; Ok (errIf b (EDupF n m) s)
                         end
                | _ => needF T out m before (o_math o) s
                end);
      checkHyps T out n (before ++ [m]) r s1
  end.

(* ---------- one statement; n its number, old: tokens declared before it ---------- *)
Definition putOut (o : sout) (s : pst) : pst :=
  mkP (p_active s) (p_scope s) (p_tmp s) (p_c s) (p_v s) (p_vptr s) (p_e s) (p_f s) (p_d s)
      (p_cur s) (p_begin s) (p_undecl s) (p_min s) (p_err s) (p_out s ++ [o]).
Definition setMin (m : nat) (s : pst) : pst :=
  mkP (p_active s) (p_scope s) (p_tmp s) (p_c s) (p_v s) (p_vptr s) (p_e s) (p_f s) (p_d s)
      (p_cur s) (p_begin s) (p_undecl s) m (p_err s) (p_out s).
Definition stepStmt (T : tenv) (n old : nat) (i : sinp) (s : pst) : res pst :=
  let beg := p_begin s in let sc := p_cur s in let k := si_kind i in
  match k with
  | K_lb => do s1 <- doLb n s; Ok (putOut (bareOut k beg sc []) s1)
  | K_rb => do s1 <- doRb n s; Ok (putOut (bareOut k beg sc []) s1)
  | K_c | K_v =>
      let ts := seq old (length (si_toks i)) in
      let s0 := errIf (match k with K_c => Z.ltb 0 (p_cur s) | _ => false end) (EConstScope n) s in
      do s1 <- declAll T n (isV k) ts s0; Ok (putOut (bareOut k beg sc ts) s1)
  | K_d =>
      do x <- symLoop T n k 0 (si_toks i) s;
      let s1 := lenErrs n k (length (fst x)) (snd x) in
      Ok (putOut (bareOut k beg sc (fst x)) (dOuter n (fst x) s1))
  | K_e | K_f =>
      do x <- symLoop T n k 0 (si_toks i) s;
      do s1 <- doHyp T n k (fst x) (lenErrs n k (length (fst x)) (snd x));
      Ok (putOut (bareOut k beg sc (fst x)) s1)
  | K_a | K_p =>
      do x <- symLoop T n k 0 (si_toks i) s;
      do y <- doAsrt T n k beg sc (fst x) (lenErrs n k (length (fst x)) (snd x));
      let s1 := putOut (fst y) (snd y) in
      let s2 := match k with
                | K_a => if negb (Nat.eqb (p_min s1) 0) && Nat.eqb (length (fst x)) 1 then setMin 0 s1 else s1
                | _ => s1 end in
      checkHyps T (p_out s2) n [] (o_reqHyps (fst y)) s2
  end.
Fixpoint stmtLoop (T : tenv) (n old : nat) (sts : list sinp) (s : pst) : res pst :=
  match sts with
  | [] => Ok s
  | i :: r =>
      do s1 <- stepStmt T n old i s;
      stmtLoop T (S n) (old + if isDecl (si_kind i) then length (si_toks i) else 0) r s1
  end.
(* entry 0 of g_Statement[] *)
Definition out0 : sout := bareOut K_c 0 0%Z [].
(* minSub: g_minSubstLen before (1 by default) *)
Definition startSt (minSub : nat) (errs : list sErr) : pst :=
  mkP (fun _ => false) (fun _ => 0%Z) (fun _ => 0) [] (fun _ => None) 0 [] [] [] 0%Z 0 0 minSub errs [out0].
(* parseMathDecl and parseStatements; key: what qsort made of 0..g_mathTokens-1 *)
Definition parseStmts (key : list nat) (minSub : nat) (sts : list sinp) : res pst :=
  let T := mkTenv (declTokens 1 sts) key in
  do s <- stmtLoop T 1 0 sts (startSt minSub (declErrs 1 sts));
  Ok (errIf (Z.ltb 0 (p_cur s)) EMissingRb s).
