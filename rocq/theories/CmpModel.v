(* CmpModel.v -- executable model of compressProof, src/mmdata.c:1963-2374.
   No proofs here. *)
From Verif Require Import Base VerModel TokModel ParModel.
Open Scope nat_scope.

(* ---------- label number encoding, mmdata.c:2316-2342 ---------- *)
(* the digits U..Y of j, most significant first; the while loop at 2334-2339.
   fuel bounds the number of digits (j itself is enough) *)
Fixpoint encDigits (fuel j : nat) : list nat :=
  match fuel with
  | 0 => []
  | S f => if j =? 0 then [] else encDigits f ((j - 1) / 5) ++ [85 + (j - 1) mod 5]
  end.
(* lab counts from 0; j = lab + 1 in C *)
Definition encodeLabel (lab : nat) : list nat :=
  encDigits (lab / 20) (lab / 20) ++ [65 + lab mod 20].

(* the length computed beforehand (numchrs), 2308-2315 and 2109-2116 *)
Fixpoint countDigits (fuel i : nat) : nat :=
  match fuel with
  | 0 => 0
  | S f => if i =? 0 then 0 else S (countDigits f ((i - 1) / 5))
  end.
Definition numChrs (lab : nat) : nat := 1 + countDigits (lab / 20) (lab / 20).

(* ---------- decoding as done by the loop of parseCompressedProof
   (mmpars.c:3088-3183) on one label: digits, then a letter ---------- *)
Fixpoint decodeGo (bg : bool) (acc : Z) (l : list nat) : option Z :=
  match l with
  | [] => None
  | c :: r =>
      if (85 <=? c) && (c <=? 89) then
        decodeGo bg (if (acc =? 0)%Z then Z.of_nat (c - 85) + 1
                     else acc * 5 + Z.of_nat (c - 85) + 1 - (if bg then 1 else 0))%Z r
      else if (65 <=? c) && (c <=? 84) then
        match r with [] => Some (acc * 20 + Z.of_nat (c - 65))%Z | _ => None end
      else None
  end.
Definition decodeLabel (bg : bool) (l : list nat) : option Z := decodeGo bg 0 l.

(* ---------- label lists ---------- *)
Definition zmemb (x : Z) (l : list Z) : bool := existsb (Z.eqb x) l.
(* nmbrUnion, mmdata.c:1639-1659 *)
Fixpoint nmbrUnionGo (v m2 : list Z) : list Z :=
  match m2 with
  | [] => v
  | x :: r => if zmemb x v then nmbrUnionGo v r else nmbrUnionGo (v ++ [x]) r
  end.
Definition nmbrUnion (m1 m2 : list Z) : list Z := nmbrUnionGo m1 m2.

(* nmbrElementIn(1, l, x) - 1, mmdata.c:1617-1624; None if absent *)
Fixpoint zindex (x : Z) (l : list Z) : option nat :=
  match l with
  | [] => None
  | y :: r => if (y =? x)%Z then Some 0
              else match zindex x r with Some i => Some (S i) | None => None end
  end.

(* the split of labelList, 2037-2058: hypList, assertionList, localLabelFlags
   (as the list of flagged steps) *)
Record split := mkSplit { sp_hyps : list Z; sp_asrt : list Z; sp_flags : list nat }.
Definition splitLabel (db : dbase) (plen : nat) (s : split) (z : Z) : res split :=
  if (z <? 0)%Z then
    if (z <=? -1000)%Z then
      if (Z.of_nat plen <=? -1000 - z)%Z then Bug 345
      else Ok (mkSplit (sp_hyps s) (sp_asrt s) (sp_flags s ++ [Z.to_nat (-1000 - z)]))
    else if (z =? zUnk)%Z then Ok s else Bug 1346
  else do st <- rget (nth_error (db_stmts db) (Z.to_nat z));
       match s_type st with
       | S_a | S_p => Ok (mkSplit (sp_hyps s) (sp_asrt s ++ [z]) (sp_flags s))
       | _ => Ok (mkSplit (sp_hyps s ++ [z]) (sp_asrt s) (sp_flags s))
       end.
Fixpoint splitLabels (db : dbase) (plen : nat) (s : split) (l : list Z) : res split :=
  match l with
  | [] => Ok s
  | z :: r => do s' <- splitLabel db plen s z; splitLabels db plen s' r
  end.

Definition flagged (fl : list nat) (k : nat) : bool := existsb (Nat.eqb k) fl.
(* localList, 2062-2070, in order of declaration *)
Definition localList (fl : list nat) (plen : nat) : list Z :=
  map (fun k => zLoc (Z.of_nat k)) (filter (flagged fl) (seq 0 plen)).

(* ---------- the letters, 2278-2360 ---------- *)
(* labels = labelList at that point.  k: current step.  The output buffer growth
   and its checks are not modelled. *)
Fixpoint emitSteps (labels : list Z) (fl : list nat) (k : nat) (l : list Z) : res (list nat) :=
  match l with
  | [] => Ok []
  | z :: r =>
      if (z =? zUnk)%Z then do t <- emitSteps labels fl (S k) r; Ok (chQ :: t)
      else
        match zindex z labels with
        | None => Bug 1349
        | Some lab =>
            do t <- emitSteps labels fl (S k) r;
            Ok (encodeLabel lab ++ (if flagged fl k then [90] else []) ++ t)
        end
  end.

(* compressProof: the explicit labels in their final order and the letters.
   order: the re-ordering of the explicit labels (2078-2262); the identity for
   the old algorithm.  Simplification: in the old algorithm the hypotheses and
   assertions are kept as one list, which is what both algorithms do from 2266
   on: labelList = required hypotheses, explicit labels, local labels. *)
Definition compressProof (order : list Z -> res (list Z)) (db : dbase) (n : nat) (proof : list Z)
  : res (list Z * list nat) :=
  do st <- rget (nth_error (db_stmts db) n);
  match s_type st with
  | S_p =>
      let req := map Z.of_nat (s_reqHyps st) in
      let plen := length proof in
      let ll := nmbrUnion req proof in
      do s <- splitLabels db plen (mkSplit [] [] []) ll;
      let loc := localList (sp_flags s) plen in
      if negb (length loc =? length (sp_flags s)) then Bug 1347
      else
        do expl <- order (skipn (length (s_reqHyps st)) (sp_hyps s) ++ sp_asrt s);
        let labels := firstn (length (s_reqHyps st)) (sp_hyps s) ++ expl ++ loc in
        do t <- emitSteps labels (sp_flags s) 0 proof;
        Ok (expl, t)
  | _ => Bug 1344
  end.
