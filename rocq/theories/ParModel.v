(* ParModel.v -- executable model of the proof parsers parseProof (normal format)
   and parseCompressedProof, src/mmpars.c:1887-3378.  No proofs here. *)
From Verif Require Import Base VerModel TokModel.
Open Scope Z_scope.

(* ---------- proof string codes (src/mmdata.h; mmveri.c:44-75) ---------- *)
Definition zUnk : Z := -63.                         (* -(long)'?' *)
Definition zLoc (i : Z) : Z := -1000 - i.
Definition encStep (x : pstep) : Z :=
  match x with Unk => zUnk | Loc i => zLoc (Z.of_nat i) | Stm n => Z.of_nat n end.
(* how verifyProof reads an element; other negative values are bug(2101) *)
Definition decStep (z : Z) : option pstep :=
  if z =? zUnk then Some Unk
  else if z <=? -1000 then Some (Loc (Z.to_nat (-1000 - z)))
  else if 0 <? z then Some (Stm (Z.to_nat z))
  else None.

(* ---------- environment ---------- *)
Definition label := list nat.
(* e_name: g_Statement[].labelName; e_keys: g_labelKeyBase, the labels of the $a
   and $p statements with their numbers (mmpars.c parseLabels).
   e_find: bsearch() over a table sorted by label; it returns some entry whose
   label equals the key, or NULL if there is none (ISO C 7.22.5.1); when a label
   occurs twice any of them may be returned. *)
Record penv := mkEnv {
  e_db : dbase;
  e_name : nat -> label;
  e_keys : list (label * Z);
  e_find : list (label * Z) -> label -> option Z }.

Definition entries (env : penv) (f : nat -> Z) (l : list nat) : list (label * Z) :=
  map (fun h => (e_name env h, f h)) l.

(* g_WrkProof.errorCount and returnFlag; err s: errorCount++ and
   "if (returnFlag < s) returnFlag = s" *)
Record perr := mkErr { p_flag : nat; p_count : nat }.
Definition raise (s : nat) (e : perr) : perr := mkErr (Nat.max s (p_flag e)) (S (p_count e)).
Definition atLeast (s : nat) (e : perr) : perr := mkErr (Nat.max s (p_flag e)) (p_count e).

Definition firstChar (t : label) : option nat := nth_error t 0.
Definition isTok (c : nat) (t : label) : bool :=
  match firstChar t with Some x => Nat.eqb x c | None => false end.

(* ---------- parseProof, normal format ---------- *)

(* isalnum() in the C locale, plus - _ . (mmpars.c:436-440) *)
Definition labelChar (c : nat) : bool :=
  (((48 <=? c) && (c <=? 57)) || ((65 <=? c) && (c <=? 90)) || ((97 <=? c) && (c <=? 122))
   || (c =? 45) || (c =? 95) || (c =? 46))%nat.

(* does the proof contain /EXPLICIT targets: some token but the last two is
   followed by "=" (mmpars.c:2086-2092).  In that case parseProof also
   rearranges the proof (2197-2245, 2472-2575, 2598-2723): see ExpModel.v; the
   result of parseNormal is meaningful only if this is false. *)
Fixpoint isExplicit (toks : list label) : bool :=
  match toks with
  | _ :: ((t1 :: _ :: _) as r) => isTok chEq t1 || isExplicit r
  | _ => false
  end.

(* State of the scan of the tokens (2083-2196).  ns_steps: stepSrcPtrPntr and
   localLabelFlag, last step first; ns_lf: labelFlag; ns_loc: the local labels
   added to hypAndLocLabel. *)
Record nscan := mkNscan {
  ns_steps : list (label * bool);
  ns_lf : bool;
  ns_loc : list (label * Z);
  ns_err : perr }.

Fixpoint raiseN (n s : nat) (e : perr) : perr :=
  match n with O => e | S n' => raise s (raiseN n' s e) end.

(* A colon: the token before it is a local label (2114-2195).  numSteps was
   incremented for the colon and is decreased by 2; with a single step it
   becomes -1 and the next array write is out of bounds. *)
Definition colonTok (env : penv) (n : nat) (hypTab : list (label * Z)) (prev : label) (s : nscan)
  : res nscan :=
  match ns_steps s with
  | [] => UB
  | _ :: steps' =>
      let e1 := raiseN (length (filter (fun c => negb (labelChar c)) prev)) 2 (ns_err s) in
      let e2 := match e_find env (e_keys env) prev with
                | Some j => if j <=? Z.of_nat n then raise 2 e1 else e1
                | None => e1
                end in
      match e_find env hypTab prev with
      | Some _ => Ok (mkNscan steps' true (ns_loc s) (raise 2 e2))
      | None => Ok (mkNscan steps' true
                      (ns_loc s ++ [(prev, zLoc (Z.of_nat (length steps')))]) e2)
      end
  end.

Fixpoint scanToks (env : penv) (n : nat) (hypTab : list (label * Z)) (prev : label)
  (toks : list label) (s : nscan) : res nscan :=
  match toks with
  | [] => Ok s
  | t :: r =>
      if isTok chEq t then scanToks env n hypTab t r s
      else if isTok chColon t then
        do s' <- colonTok env n hypTab prev s;
        scanToks env n hypTab t r s'
      else scanToks env n hypTab t r
             (mkNscan ((t, ns_lf s) :: ns_steps s) false (ns_loc s) (ns_err s))
  end.

(* duplicate local labels, 2248-2284.  Two labels with the same name on step 0
   read stepSrcPtrPntr[-1].  Simplification: labels of hypotheses are taken to
   be distinct (checked by READ). *)
Fixpoint dupCount (l : list (label * Z)) : nat :=
  match l with
  | [] => 0
  | (a, _) :: r =>
      ((if existsb (fun y => if list_eq_dec Nat.eq_dec a (fst y) then true else false) r then 1 else 0)
       + dupCount r)%nat
  end.
Fixpoint dupZero (l : list (label * Z)) : bool :=
  match l with
  | [] => false
  | (a, i) :: r =>
      existsb (fun y => (if list_eq_dec Nat.eq_dec a (fst y) then true else false)
                        && (i =? zLoc 0) && (snd y =? zLoc 0)) r || dupZero r
  end.

(* Build the proof string and check the RPN stack, 2299-2582.  b_cnt is
   RPNStackPtr. *)
Record nbuild := mkNbuild { b_proof : list Z; b_cnt : nat; b_err : perr }.

Definition buildStep (env : penv) (n : nat) (tab : list (label * Z)) (s : nbuild)
  (x : label * bool) : res nbuild :=
  let '(t, lf) := x in
  let step := Z.of_nat (length (b_proof s)) in
  let push z e := Ok (mkNbuild (b_proof s ++ [z]) (S (b_cnt s)) e) in
  if isTok chQ t then push zUnk (atLeast 1 (b_err s))
  else
    match e_find env tab t with
    | Some j =>
        if j <? 0 then
          let i := -1000 - j in
          if i <? 0 then Bug 1734
          else
            let e1 := if step <? i then raise 2 (b_err s) else b_err s in
            let e2 := if lf then raise 2 e1 else e1 in
            push (if step <? i then zUnk else j) e2
        else
          let e1 := if lf then raise 2 (b_err s) else b_err s in
          if j <=? 0 then Bug 1709 else push j e1
    | None =>
        match e_find env (e_keys env) t with
        | None => push zUnk (raise 2 (b_err s))
        | Some j =>
            do st <- rget (nth_error (db_stmts (e_db env)) (Z.to_nat j));
            match s_type st with
            | S_a | S_p =>
                let e1 := if Z.of_nat n <=? j then raise 2 (b_err s) else b_err s in
                let nh := length (s_reqHyps st) in
                if (b_cnt s <? nh)%nat then push zUnk (raise 3 e1)
                else Ok (mkNbuild (b_proof s ++ [j]) (S (b_cnt s - nh)) e1)
            | _ => Bug 1710
            end
        end
    end.

Fixpoint buildSteps (env : penv) (n : nat) (tab : list (label * Z)) (s : nbuild)
  (l : list (label * bool)) : res nbuild :=
  match l with
  | [] => Ok s
  | x :: r => do s' <- buildStep env n tab s x; buildSteps env n tab s' r
  end.

(* output: returnFlag (= errorSeverity), proofString, errorCount *)
Definition pout := (nat * list Z * nat)%type.

(* the RPN stack must have one entry at the end (2585-2597 and, in compressed
   proofs, 3362-3375); with no step at all stepSrcPtrPntr[-1] is read *)
Definition finish (proof : list Z) (cnt : nat) (e : perr) : res pout :=
  if Nat.eqb cnt 1 then Ok (p_flag e, proof, p_count e)
  else match proof with
       | [] => UB
       | _ => let e' := raise 3 e in Ok (p_flag e', proof, p_count e')
       end.

Definition dropLast {A : Type} (l : list A) : list A := removelast l.

(* parseProof for a proof whose first token is not "(", mmpars.c:1937-2729.
   Simplifications: message texts; working array sizes (numSteps never exceeds
   the number of tokens, which is below the allocated size). *)
Definition parseNormal (env : penv) (n : nat) (toks0 : list label) : res pout :=
  do st <- rget (nth_error (db_stmts (e_db env)) n);
  let e0 := mkErr 0 0 in
  let '(toks1, e1) := match toks0 with
                      | [] => ([[chQ]], raise 1 e0)             (* 2019-2035 *)
                      | _ => (toks0, e0)
                      end in
  let hypTab := entries env Z.of_nat (s_optHyps st) ++ entries env Z.of_nat (s_reqHyps st) in
  let '(toks2, e2) := match toks1 with                            (* 2064-2073 *)
                      | t :: r => if isTok chColon t then ([chQ] :: r, raise 2 e1) else (toks1, e1)
                      | [] => (toks1, e1)
                      end in
  let '(toks3, e3) := if isTok chColon (last toks2 [])            (* 2074-2082 *)
                      then (dropLast toks2, raise 2 e2) else (toks2, e2) in
  do s <- scanToks env n hypTab [] toks3 (mkNscan [] false [] e3);
  if dupZero (ns_loc s) then UB else
  let e4 := raiseN (dupCount (ns_loc s)) 2 (ns_err s) in
  do b <- buildSteps env n (hypTab ++ ns_loc s) (mkNbuild [] 0 e4) (rev (ns_steps s));
  finish (b_proof b) (b_cnt b) (b_err b).

(* ---------- parseCompressedProof ---------- *)

(* label list, 2937-3035: codes of the explicit labels *)
Definition labelCode (env : penv) (n : nat) (tab : list (label * Z)) (t : label) (e : perr)
  : res (Z * perr) :=
  match e_find env tab t with
  | Some j =>
      let '(j', e') := if j <? 0 then (-1000 - j, raise 1 e) else (j, e) in
      if j' <=? 0 then Bug 1713 else Ok (j', e')
  | None =>
      match e_find env (e_keys env) t with
      | None => Ok (zUnk, raise 2 e)
      | Some j =>
          do st <- rget (nth_error (db_stmts (e_db env)) (Z.to_nat j));
          match s_type st with
          | S_a | S_p => Ok (j, if Z.of_nat n <=? j then raise 2 e else e)
          | _ => Bug 1714
          end
      end
  end.

Fixpoint labelCodes (env : penv) (n : nat) (tab : list (label * Z)) (ts : list label) (e : perr)
  : res (list Z * perr) :=
  match ts with
  | [] => Ok ([], e)
  | t :: r =>
      do x <- labelCode env n tab t e;
      let '(z, e1) := x in
      do y <- labelCodes env n tab r e1;
      let '(zs, e2) := y in
      Ok (z :: zs, e2)
  end.

(* strstr(l, p) != NULL for a two-character p *)
Fixpoint hasPair2 (a b : nat) (l : list nat) : bool :=
  match l with
  | x :: ((y :: _) as r) => ((x =? a) && (y =? b))%nat || hasPair2 a b r
  | _ => false
  end.
(* old buggy compression is assumed, 3058-3080 *)
Definition bggy (text : list nat) : bool := hasPair2 85 86 text && negb (hasPair2 85 85 text).

(* working state of the character loop, 3083-3330.  c_idx = labelMapIndex,
   c_map = compressedPfLabelMap[0 .. compressedPfNumLabels-1],
   c_proof = proofString[0 .. numSteps-1], c_cnt = RPNStackPtr *)
Record cst := mkCst {
  c_idx : Z; c_map : list Z; c_proof : list Z; c_cnt : nat; c_err : perr }.

Definition maxLong : Z := 9223372036854775807.

(* hypothesis, local label reference or unknown step (3119-3126) *)
Definition isLeaf (env : penv) (z : Z) : res (option stmtRec) :=
  if z <? 0 then Ok None
  else do st <- rget (nth_error (db_stmts (e_db env)) (Z.to_nat z));
       match s_type st with S_a | S_p => Ok (Some st) | _ => Ok None end.

(* A letter, 3088-3172.  max = g_wrkProofMaxSize, the allocated size of the
   working arrays.  Result: the new state, and true if the loop goes on with the
   next character (false: the "continue" at 3158, which repeats the same
   character). *)
Definition letterStep (env : penv) (max : nat) (w : Z) (s : cst) : res (cst * bool) :=
  let i0 := c_idx s * 20 + w in
  if maxLong <? i0 then UB
  else
    let oor := Z.of_nat (length (c_map s)) <=? i0 in
    let e1 := if oor then raise 2 (c_err s) else c_err s in
    let i := if oor then 0 else i0 in
    (* an empty label map is read at index 0: never initialised *)
    do stmt <- rget (nth_error (c_map s) (Z.to_nat i));
    if (max <=? length (c_proof s))%nat then UB
    else
      do leaf <- isLeaf env stmt;
      match leaf with
      | None =>
          if (max <=? c_cnt s)%nat then UB
          else Ok (mkCst 0 (c_map s) (c_proof s ++ [stmt]) (S (c_cnt s)) e1, true)
      | Some st =>
          let nh := length (s_reqHyps st) in
          if (c_cnt s <? nh)%nat then
            if (max <=? c_cnt s)%nat then UB
            else Ok (mkCst i (c_map s) (c_proof s) (S (c_cnt s)) (raise 3 e1), false)
          else
            if (max <=? c_cnt s - nh)%nat then UB
            else Ok (mkCst 0 (c_map s) (c_proof s ++ [stmt]) (S (c_cnt s - nh)) e1, true)
      end.

(* A digit, 3174-3183 *)
Definition digitStep (bg : bool) (w : Z) (s : cst) : res cst :=
  let i := if c_idx s =? 0 then w + 1
           else c_idx s * 5 + w + 1 - (if bg then 1 else 0) in
  if maxLong <? c_idx s * 5 + w + 1 then UB
  else Ok (mkCst i (c_map s) (c_proof s) (c_cnt s) (c_err s)).

(* Z, 3185-3238 *)
Definition zStep (env : penv) (max : nat) (s : cst) : res cst :=
  let e1 := if c_idx s =? 0 then c_err s else raise 2 (c_err s) in
  if (max <=? length (c_map s))%nat then UB
  else
    let map' := c_map s ++ [-1000 - (Z.of_nat (length (c_proof s)) - 1)] in
    match rev (c_proof s) with
    | [] => Ok (mkCst 0 map' (c_proof s) (c_cnt s) (raise 2 e1))
    | stmt :: _ =>
        do leaf <- isLeaf env stmt;
        let e2 := match leaf with None => raise 2 e1 | Some _ => e1 end in
        Ok (mkCst 0 map' (c_proof s) (c_cnt s) e2)
    end.

(* '?', 3262-3289 *)
Definition qStep (max : nat) (s : cst) : res cst :=
  let e1 := if c_idx s =? 0 then c_err s else raise 2 (c_err s) in
  if (max <=? length (c_proof s))%nat || (max <=? c_cnt s)%nat then UB
  else Ok (mkCst 0 (c_map s) (c_proof s ++ [zUnk]) (S (c_cnt s)) (atLeast 1 e1)).

(* isspace() in the C locale *)
Definition isspace (c : nat) : bool := ((c =? 32) || ((9 <=? c) && (c <=? 13)))%nat.

(* the loop, 3087-3317; l is the text from the current character on.  Running
   off the text (no "$." in it) is an out-of-bounds read.  A char above 127 is
   negative on the usual platforms and indexes chrType[] below 0. *)
Fixpoint comprLoop (fuel : nat) (env : penv) (max : nat) (bg : bool) (l : list nat) (s : cst)
  : res cst :=
  match fuel with
  | O => Fuel
  | S f =>
      match l with
      | [] => UB
      | c :: r =>
          if (128 <=? c)%nat then UB
          else if ((65 <=? c) && (c <=? 84))%nat then                      (* A..T *)
            do x <- letterStep env max (Z.of_nat (c - 65)) s;
            let '(s', adv) := x in
            comprLoop f env max bg (if adv then r else l) s'
          else if ((85 <=? c) && (c <=? 89))%nat then                      (* U..Y *)
            do s' <- digitStep bg (Z.of_nat (c - 85)) s; comprLoop f env max bg r s'
          else if (c =? 90)%nat then                                        (* Z *)
            do s' <- zStep env max s; comprLoop f env max bg r s'
          else if isspace c then comprLoop f env max bg r s
          else if (c =? 36)%nat then                                        (* $ *)
            match r with
            | d :: _ =>
                if (d =? 46)%nat then Ok s
                else if ((d =? 40) || (d =? 33))%nat then
                  do l' <- whiteSpace l; comprLoop f env max bg l' s
                else comprLoop f env max bg r
                       (mkCst (c_idx s) (c_map s) (c_proof s) (c_cnt s) (raise 2 (c_err s)))
            | [] => comprLoop f env max bg r
                       (mkCst (c_idx s) (c_map s) (c_proof s) (c_cnt s) (raise 2 (c_err s)))
            end
          else if (c =? 63)%nat then                                        (* ? *)
            do s' <- qStep max s; comprLoop f env max bg r s'
          else comprLoop f env max bg r                                     (* illegal *)
                 (mkCst (c_idx s) (c_map s) (c_proof s) (c_cnt s) (raise 2 (c_err s)))
      end
  end.

(* parseCompressedProof, 2738-3378.  labels: the tokens of the label list;
   closed: was ")" found; bgtext: the text searched by the obsolete-compression
   test; text: what follows the label list. *)
Definition parseCompressed (fuel : nat) (env : penv) (n : nat) (max : nat)
  (labels : list label) (closed : bool) (bgtext text : list nat) : res pout :=
  do st <- rget (nth_error (db_stmts (e_db env)) n);
  let e1 := if closed then mkErr 0 0 else raise 3 (mkErr 0 0) in           (* 2920-2930 *)
  let tab := entries env Z.of_nat (s_optHyps st)
             ++ entries env (fun h => -1000 - Z.of_nat h) (s_reqHyps st) in
  do x <- labelCodes env n tab labels e1;
  let '(codes, e2) := x in
  let map0 := map Z.of_nat (s_reqHyps st) ++ codes in
  if (max <? length map0)%nat then UB
  else
    do s <- comprLoop fuel env max (bggy bgtext) text (mkCst 0 map0 [] 0 e2);
    let e3 := if c_idx s =? 0 then c_err s else raise 2 (c_err s) in       (* 3319-3326 *)
    match c_proof s with
    | [] =>                                                                 (* 3329-3351 *)
        if (max <? 2)%nat || (max <=? c_cnt s)%nat then UB
        else finish [zUnk] (S (c_cnt s)) (raise 1 e3)
    | _ =>
        if (max <=? length (c_proof s))%nat then UB                         (* 3353 *)
        else finish (c_proof s) (c_cnt s) e3
    end.

(* The label list, 2915-2941: tokens up to ")" or to where no token starts.
   Result: the labels with the text each starts at, was ")" found, the text
   after the list. *)
Fixpoint labelList (fuel : nat) (l : list nat)
  : res (list (label * list nat) * bool * list nat) :=
  match fuel with
  | O => Fuel
  | S f =>
      do l1 <- whiteSpace l;
      match proofTokenLen l1 with
      | O => Ok ([], false, l1)
      | k => if isTok chClose l1 then Ok ([], true, tl l1)
             else do r <- labelList f (skipn k l1);
                  let '(ls, c, e) := r in Ok ((firstn k l1, l1) :: ls, c, e)
      end
  end.

(* parseProof(statemNum), 1889-2735, from the source text.  section is the proof
   section of the statement and rest the file text after it (it begins with
   "$." when the statement was read without error).  max is g_wrkProofMaxSize
   after the allocation at 1945-1993 / 2826-2880.  Ok None: the proof is in
   /EXPLICIT format, not modelled.  Simplifications: the obsolete-compression
   text is empty (instead of a negative length) should the label list run past
   the section; fbPtr[0] == 0 is taken as an empty section with no text after. *)
Definition parseText (fuel : nat) (env : penv) (n max : nat) (section rest : list nat)
  : res (option pout) :=
  let full := section ++ rest in
  match full with
  | [] => Ok (Some (4%nat, [], O))
  | _ =>
      do l <- whiteSpace full;
      if isTok chOpen l then
        do x <- labelList (S (length l)) (tl l);
        let '(ls, closed, text) := x in
        let bg := last (map snd ls) text in
        do o <- parseCompressed fuel env n max (map fst ls) closed
                  (firstn (length bg - length rest) bg) text;
        Ok (Some o)
      else
        do x <- proofTokens (S (length l)) l;
        let '(toks, _) := x in
        if isExplicit (if isTok chColon (last toks []) then dropLast toks else toks) then Ok None
        else do o <- parseNormal env n toks; Ok (Some o)
  end.

(* g_WrkProof as verifyProofs sees it; the proof string elements are read as
   proof steps *)
Definition decodes (zs : list Z) (proof : list pstep) : Prop :=
  map decStep zs = map Some proof.

(* g_wrkProofMaxSize after the allocation at 1943-1993: prev is its value before
   (0 at start-up).  The second test, in parseCompressedProof (2826-2880), finds
   enough room. *)
Definition wrkMax (prev : nat) (st : stmtRec) (section : list nat) : nat :=
  let need := (length section + length (s_reqHyps st) + length (s_optHyps st))%nat in
  if (prev <? need)%nat then (need + 2)%nat else prev.
