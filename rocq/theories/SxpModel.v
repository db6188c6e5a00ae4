(* SxpModel.v -- SAVE PROOF ... /EXPLICIT (with /NORMAL or /PACKED): nmbrCvtRToVString
   (src/mmdata.c:1377-1525) with explicitTargets = 1 and the stored section,
   src/metamath.c:3640-3836 without /FAST, outside the proof assistant.  The case
   explicitTargets = 0 is in NrmModel.v.  No proofs here. *)
From Verif Require Import Base VerModel TokModel ParModel SqModel OrdModel VstrModel LineModel CmdModel DateModel SavModel NrmModel.
Open Scope nat_scope.

(* "target=": g_Statement[targetHyps[step]].labelName and '=' (1470-1472, 1480-1482, 1503-1504) *)
Definition targetEq (env : penv) (tg : list Z) (step : nat) : res (list nat) :=
  do h <- rget (nth_error tg step);
  if (h <? 0)%Z || (Z.of_nat (length (db_stmts (e_db env))) <=? h)%Z then UB
  else Ok (e_name env (Z.to_nat h) ++ [chEq]).

(* the loop 1463-1508, without the space added after each piece; tg = targetHyps, the other
   arguments as in NrmModel.pieces *)
Fixpoint piecesX (env : penv) (tg proof : list Z) (step next : nat) (names : list nat) (l : list Z) : res (list (list nat)) :=
  match l with
  | [] => Ok []
  | z :: r =>
      if (z <? 0)%Z then
        do t <- (if (z <=? -1000)%Z then
                   do v <- rget (nth_error names (Z.to_nat (-1000 - z)));
                   do te <- targetEq env tg step;
                   Ok (te ++ DateModel.str (Z.of_nat v))
                 else if (z =? zUnk)%Z then
                   do te <- targetEq env tg step;
                   Ok (te ++ [chQ])
                 else Ok ([chQ; chQ] ++ DateModel.str z));
        do ts <- piecesX env tg proof (S step) next names r;
        Ok (t :: ts)
      else if (z <? 1)%Z || (Z.of_nat (length (db_stmts (e_db env))) <=? z)%Z then
        do ts <- piecesX env tg proof (S step) next names r;
        Ok (([chQ; chQ] ++ DateModel.str z) :: ts)
      else if existsb (Z.eqb (zLoc (Z.of_nat step))) proof then
        do k <- freeNumber (S (length (allLabels env))) env next;
        do te <- targetEq env tg step;
        do ts <- piecesX env tg proof (S step) (S k) (putAt step k names) r;
        Ok (((DateModel.str (Z.of_nat k) ++ [chColon]) ++ te ++ e_name env (Z.to_nat z)) :: ts)
      else
        do te <- targetEq env tg step;
        do ts <- piecesX env tg proof (S step) next names r;
        Ok ((te ++ e_name env (Z.to_nat z)) :: ts)
  end.

(* 1420-1451: maxLabelLen and maxTargetLabelLen.  A '?' sets both to 100, whatever they
   were, and its own target is not looked at. *)
Fixpoint maxLabelX (env : penv) (tg : list Z) (step m mt : nat) (l : list Z) : res (nat * nat) :=
  match l with
  | [] => Ok (m, mt)
  | z :: r =>
      let next m' :=
        do h <- rget (nth_error tg step);
        if (h <=? 0)%Z then Bug 1390
        else if (Z.of_nat (length (db_stmts (e_db env))) <=? h)%Z then UB
        else maxLabelX env tg (S step) m' (Nat.max mt (length (e_name env (Z.to_nat h)))) r in
      if (z <=? -1000)%Z then next m
      else if (z <? 1)%Z || (Z.of_nat (length (db_stmts (e_db env))) <=? z)%Z then maxLabelX env tg (S step) 100 100 r
      else next (Nat.max m (length (e_name env (Z.to_nat z))))
  end.

(* the result, for the statement own.  The pieces are copied, each with a space, into a
   string of plen * (2 + maxLabelLen + maxTargetLabelLen + 1 + maxLocalLen) characters
   (1459-1462). *)
Definition cvtX (fuel : nat) (env : penv) (own : nat) (proof : list Z) : res (list nat) :=
  let plen := length proof in
  if own =? 0 then Bug 1388
  else
    do tg <- getTargetHyp fuel (e_db env) proof own;
    do mm <- maxLabelX env tg 0 0 0 proof;
    let room := plen * (2 + fst mm + (snd mm + 1) + digitCount (S plen) plen) in
    do ts <- piecesX env tg proof 0 1 (repeat 0 plen) proof;
    if room <? length (concat ts) + length ts then UB else Ok (joinSp ts).

(* the command; packed: /PACKED given; own: the statement *)
Definition saveExplicit (packed : bool) (fuel : nat) (env : penv) (own : nat) (w : Z) (back : list nat) (p : list Z) : res (list nat) :=
  let ind := 2 + sourceIndentation back in
  do u <- unsquishProof fuel (e_db env) p;
  do q <- (if packed then squishProof (e_db env) u else Ok u);
  do s <- cvtX fuel env own q;
  let line := normalText ind s in
  do out <- printLongLine (2 * length line + 3) w line (repeat 32 ind) [32];
  section out.
