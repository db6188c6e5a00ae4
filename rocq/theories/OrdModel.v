(* OrdModel.v -- executable model of the 0/1 knapsack solver and of the
   re-ordering of the explicit labels of a compressed proof, src/mmdata.c.
   No proofs here.  Simplifications: C's long is Z (no overflow: sizes are
   lengths of strings in memory); malloc failures in alloc2DMatrix are not
   modelled. *)
From Verif Require Import Base VerModel TokModel ParModel CmpModel.
Open Scope nat_scope.

(* array read at a long index; outside the array is undefined behaviour *)
Definition zget {A} (l : list A) (i : Z) : res A :=
  if (i <? 0)%Z then UB else rget (nth_error l (Z.to_nat i)).

(* ---------- knapsack01, mmdata.c:2889-2946 ---------- *)
(* one row of maxWorth, 2919-2931: prev is row witem-1; cells ws, ws+1, ... *)
Fixpoint ksRow (prev : list Z) (sz wo : Z) (ws : nat) (cells : nat) : res (list Z) :=
  match cells with
  | 0 => Ok []
  | S c =>
      do x <- (if (sz <=? Z.of_nat ws)%Z then
                 do a <- zget prev (Z.of_nat ws);
                 do b0 <- zget prev (Z.of_nat ws - sz);
                 let b := (b0 + wo)%Z in
                 Ok (if (b <? a)%Z then a else b)
               else zget prev (Z.of_nat ws));
      do r <- ksRow prev sz wo (S ws) c;
      Ok (x :: r)
  end.
(* rows 1..items, 2918-2932 *)
Fixpoint ksRows (prev : list Z) (cells : nat) (size worth : list Z) : res (list (list Z)) :=
  match size, worth with
  | [], [] => Ok []
  | s :: ss, w :: ws =>
      do row <- ksRow prev s w 0 cells;
      do r <- ksRows row cells ss ws;
      Ok (row :: r)
  | _, _ => UB
  end.
(* the included items, 2934-2944: witem counts down *)
Fixpoint ksBack (rows : list (list Z)) (size : list Z) (witem : nat) (wsize : Z) : res (list bool) :=
  match witem with
  | 0 => Ok []
  | S w =>
      do x <- (if (0 <? wsize)%Z then
                 do r1 <- rget (nth_error rows (S w));
                 do a <- zget r1 wsize;
                 do r0 <- rget (nth_error rows w);
                 do b <- zget r0 wsize;
                 Ok (negb (a =? b)%Z)
               else Ok false);
      do ws' <- (if x then do s <- rget (nth_error size w); Ok (wsize - s)%Z else Ok wsize);
      do r <- ksBack rows size w ws';
      Ok (r ++ [x])
  end.
(* items = length size.  true stands for 'y' *)
Definition knapsack01 (size worth : list Z) (maxSize : Z) : res (Z * list bool) :=
  if (maxSize <? 0)%Z then UB   (* the read maxWorth[items][maxSize], 2943 *)
  else
    let cells := S (Z.to_nat maxSize) in
    let row0 := repeat 0%Z cells in
    do rs <- ksRows row0 cells size worth;
    let rows := row0 :: rs in
    do inc <- ksBack rows size (length size) maxSize;
    do last <- rget (nth_error rows (length size));
    do a <- zget last maxSize;
    Ok (a, inc).

(* ---------- reference counts, 2086-2110 ---------- *)
Definition countZ (z : Z) (l : list Z) : nat := length (filter (Z.eqb z) l).
(* the scan of the proof: bug(1380) on a step that is not before the theorem *)
Fixpoint refScan (n : nat) (proof : list Z) : res unit :=
  match proof with
  | [] => Ok tt
  | z :: r => if (0 <? z)%Z then if (z <? Z.of_nat n)%Z then refScan n r else Bug 1380 else refScan n r
  end.
(* explRefCount; labelRefCount has entries 0..statemNum-1, entry 0 stays 0.
   Simplification: the entry is computed as the number of occurrences instead of
   by incrementing an array cell during the scan *)
Fixpoint refCounts (n : nat) (proof : list Z) (expl : list Z) : res (list nat) :=
  match expl with
  | [] => Ok []
  | z :: r =>
      if (z <? 0)%Z || (Z.of_nat n <=? z)%Z then UB
      else
        let c := if (z =? 0)%Z then 0 else countZ z proof in
        if c =? 0 then Bug 1381
        else do t <- refCounts n proof r; Ok (c :: t)
  end.

(* ---------- compressed lengths, 2113-2147 ---------- *)
(* the inner loop for one reference count i: positions are handed out, and
   numChrs of them stored in explComprLen; maxLen is updated *)
Fixpoint lenPass (nreq i : nat) (refs lens : list nat) (pos maxLen : nat) : list nat * nat * nat :=
  match refs, lens with
  | r :: rs, l :: ls =>
      if r =? i then
        let c := numChrs (nreq + pos) in
        match lenPass nreq i rs ls (S pos) (Nat.max maxLen c) with
        | (t, p, m) => (c :: t, p, m)
        end
      else match lenPass nreq i rs ls pos maxLen with (t, p, m) => (l :: t, p, m) end
  | _, _ => ([], pos, maxLen)
  end.
(* the outer loop, i counting down to 1 *)
Fixpoint lenPasses (nreq i : nat) (refs lens : list nat) (pos maxLen : nat) : list nat * nat * nat :=
  match i with
  | 0 => (lens, pos, maxLen)
  | S i' => match lenPass nreq i refs lens pos maxLen with
            | (lens', pos', max') => lenPasses nreq i' refs lens' pos' max'
            end
  end.
Definition comprLens (nreq : nat) (refs : list nat) : list nat * nat :=
  match lenPasses nreq (fold_right Nat.max 0 refs) refs (repeat 0 (length refs)) 0 0 with
  | (lens, _, m) => (lens, m)
  end.

(* ---------- filling the output, 2166-2250 ---------- *)
(* one explicit label: explList, explComprLen, explLabelLen, which do not change *)
Record item := mkItem { it_stmt : Z; it_clen : nat; it_size : Z }.

(* 2172-2186: worths at the start of a group; the flags are explUsedFlag *)
Fixpoint groupWorth (i : nat) (items : list item) (used : list bool) : res (list Z) :=
  match items, used with
  | [], _ => Ok []
  | it :: r, u :: us =>
      if it_clen it =? i then
        if u then Bug 1382 else do t <- groupWorth i r us; Ok (it_size it :: t)
      else do t <- groupWorth i r us; Ok ((-1)%Z :: t)
  | _ :: _, [] => UB
  end.
Definition groupCount (i : nat) (items : list item) : nat :=
  length (filter (fun it => it_clen it =? i) items).

(* 2211-2235: the labels chosen, the new worths and flags, how much explOffset
   grows and explUnassignedCount *)
Record scanR := mkScan { sc_out : list Z; sc_worth : list Z; sc_used : list bool; sc_off : Z; sc_un : nat }.
Fixpoint scan (i : nat) (items : list item) (inc : list bool) (worth : list Z) (used : list bool) : res scanR :=
  match items, inc, worth, used with
  | [], _, _, _ => Ok (mkScan [] [] [] 0 0)
  | it :: r, x :: xs, w :: ws, u :: us =>
      if x then
        if negb (it_clen it =? i) then Bug 1384
        else if (w =? -1)%Z then Bug 1385
        else do t <- scan i r xs ws us;
             Ok (mkScan (it_stmt it :: sc_out t) ((-1)%Z :: sc_worth t) (true :: sc_used t)
                        (it_size it + sc_off t) (sc_un t))
      else
        if (it_clen it =? i) && negb u then
          if negb (w =? it_size it)%Z then Bug 1386
          else do t <- scan i r xs ws us;
               Ok (mkScan (sc_out t) (w :: sc_worth t) (u :: sc_used t) (sc_off t) (S (sc_un t)))
        else do t <- scan i r xs ws us;
             Ok (mkScan (sc_out t) (w :: sc_worth t) (u :: sc_used t) (sc_off t) (sc_un t))
  | _, _, _, _ => UB
  end.

(* newExplList (as far as filled), explUsedFlag, explOffset *)
Record fillS := mkFill { f_out : list Z; f_used : list bool; f_off : Z }.

(* the while loop, 2187-2240; room = g_screenWidth - indentation *)
Fixpoint fillLoop (fuel : nat) (room : Z) (i : nat) (items : list item) (un : nat) (worth : list Z) (s : fillS)
  : res fillS :=
  match fuel with
  | 0 => Fuel
  | S f =>
      if un =? 0 then Ok s
      else
        let width := (room - f_off s + 1)%Z in
        do k <- knapsack01 (map it_size items) worth width;
        let (j, inc) := (k : Z * list bool) in
        if (j <? 0)%Z then Bug 1383
        else
          do t <- scan i items inc worth (f_used s);
          (* newExplList has explLabels cells *)
          if length items <? length (f_out s ++ sc_out t) then UB
          else
            let off := (f_off s + sc_off t)%Z in
            fillLoop f room i items (sc_un t) (sc_worth t)
              (mkFill (f_out s ++ sc_out t) (sc_used t) (if sc_un t =? 0 then off else 0%Z))
  end.
(* the for loop, 2171-2241: groups i, i+1, ..., i+k-1 *)
Fixpoint fillGroups (fuel : nat) (room : Z) (items : list item) (i k : nat) (s : fillS) : res fillS :=
  match k with
  | 0 => Ok s
  | S k' =>
      do w <- groupWorth i items (f_used s);
      do s' <- fillLoop fuel room i items (groupCount i items) w s;
      fillGroups fuel room items (S i) k' s'
  end.

Fixpoint mkItems (nameLen : Z -> nat) (expl : list Z) (lens : list nat) : list item :=
  match expl, lens with
  | z :: r, c :: cs => mkItem z c (Z.of_nat (nameLen z) + 1) :: mkItems nameLen r cs
  | _, _ => []
  end.

(* 2078-2262.  fuel bounds the iterations of each while loop.  n: statemNum;
   nreq: its numReqHyp; width: g_screenWidth; ind: getSourceIndentation(statemNum);
   nameLen: strlen of a statement's label.  This is the order argument of
   CmpModel.compressProof for the new algorithm. *)
Definition orderLabels (fuel : nat) (n nreq : nat) (nameLen : Z -> nat) (width : Z) (ind : nat)
  (proof : list Z) (expl : list Z) : res (list Z) :=
  do _ <- refScan n proof;
  do refs <- refCounts n proof expl;
  let (lens, maxLen) := comprLens nreq refs in
  let items := mkItems nameLen expl lens in
  let indentation := (2 + Z.of_nat ind)%Z in
  do s <- fillGroups fuel (width - indentation) items 1 maxLen
            (mkFill [] (repeat false (length expl)) 2);
  if length (f_out s) =? length expl then Ok (f_out s) else Bug 1387.

(* getSourceIndentation, mmdata.c:2984-3004.  back: the characters from the math
   section backwards, down to but not including the start of the label section.
   Simplification: the two early returns for empty sections are the empty list *)
Fixpoint indentGo (acc : nat) (back : list nat) : nat :=
  match back with
  | [] => acc
  | c :: r => if c =? 10 then acc else indentGo (if c =? 32 then S acc else 0) r
  end.
Definition sourceIndentation (back : list nat) : nat := indentGo 0 back.

(* compressProof with the new algorithm; back as above *)
Definition compressProofNew (fuel : nat) (env : penv) (n : nat) (width : Z) (back : list nat) (proof : list Z)
  : res (list Z * list nat) :=
  do st <- rget (nth_error (db_stmts (e_db env)) n);
  compressProof (orderLabels fuel n (length (s_reqHyps st)) (fun z => length (e_name env (Z.to_nat z)))
                   width (sourceIndentation back) proof)
    (e_db env) n proof.
