(* MatchModel.v -- matches() and matchesList(), src/mmdata.c:815-970. *)
From Verif Require Import Base VstrModel LabModel.
Open Scope nat_scope.

(* the global data consulted by the special patterns *)
Record menv := {
  e_stmts : list lstmt;             (* g_Statement[1..g_statements] *)
  e_keys : list nat;                (* g_labelKeyBase *)
  e_pink : nat -> Z;                (* g_Statement[k].pinkNumber *)
  e_changed : nat -> bool;          (* g_Statement[k].proofSectionChanged == 1 *)
  e_prove : Z                       (* g_proveStatement *)
}.

(* val(), mmvstr.c:705-729, on strings without '.', as an exact integer: digits are
   collected from the right, other characters are skipped, a minus sign anywhere
   negates.  (Simplification: the C function computes with doubles; with '.' in the
   pattern the value is not modelled: digits before and after are joined.) *)
Fixpoint valLoop (s : list nat) (v power : Z) (neg : bool) : Z :=   (* s: reversed *)
  match s with
  | [] => if neg then (- v)%Z else v
  | c :: r => if (48 <=? c) && (c <=? 57) then valLoop r (v + Z.of_nat (c - 48) * power) (10 * power) neg
              else valLoop r v power (neg || (c =? 45))
  end.
Definition val_ (s : list nat) : Z := valLoop (rev s) 0 1 false.

(* s[i]: the terminator is at length s, reading further is UB *)
Definition rd (s : list nat) (i : nat) : res nat := rget (nth_error (s ++ [0]) i).

(* "Get to first wild card character", 918-922 *)
Fixpoint scanLit (fuel : nat) (test pat : list nat) (o ppos : nat) : res nat :=
  match fuel with
  | 0 => Fuel
  | S f =>
      do p <- rd pat ppos;
      do t <- rd test ppos;
      if ((p =? t) || ((p =? o) && negb (t =? 0))) && negb (p =? 0) then scanLit f test pat o (S ppos)
      else Ok ppos
  end.
(* "Scan remainder of pattern", 935-964 *)
Fixpoint scanWild (fuel : nat) (test pat : list nat) (w o ppos tpos pctr i : nat) : res bool :=
  match fuel with
  | 0 => Fuel
  | S f =>
      do p <- rd pat (ppos + 1 + i);
      if p =? w then scanWild f test pat w o (ppos + 1 + i) (tpos + pctr + i) 0 0
      else
        do t <- rd test (tpos + pctr + i);
        if negb (p =? t) && (negb (p =? o) || (t =? 0)) then
          if t =? 0 then Ok false
          else scanWild f test pat w o ppos tpos (S pctr) 0
        else if p =? 0 then Ok true
        else scanWild f test pat w o ppos tpos pctr (S i)
  end.
(* 918-969 *)
Definition globMatch (fuel : nat) (test pat : list nat) (w o : nat) : res bool :=
  do ppos <- scanLit fuel test pat o 0;
  do p <- rd pat ppos;
  if p =? 0 then do t <- rd test ppos; Ok (t =? 0)
  else if negb (p =? w) then Ok false
  else scanWild fuel test pat w o ppos ppos 0 0.

Definition labNum (env : menv) (l : list nat) : res Z :=
  do r <- lookupLabel (e_stmts env) (e_keys env) l;
  Ok (match r with Some k => Z.of_nat k | None => (-1)%Z end).
Definition strEq (a b : list nat) : bool := match strcmp a b with Eq => true | _ => false end.

(* matches, 846-970.  Characters: '*' 42, '~' 126, '#' 35, '@' 64, '=' 61, '%' 37 *)
Definition matches (fuel : nat) (env : menv) (test pat : list nat) (w o : nat) : res bool :=
  if w =? 42 then
    let i := instr 1 pat [126] in
    if negb (i =? 0) then
      do s1 <- (if i =? 1 then Ok 1%Z else do l <- left_ pat (Z.of_nat i - 1); labNum env l);
      do s2 <- labNum env test;
      do s3 <- (if i =? length pat then Ok (Z.of_nat (length (e_stmts env)))
                else do r <- right_ pat (Z.of_nat i + 1); labNum env r);
      Ok ((1 <=? s1)%Z && (1 <=? s2)%Z && (1 <=? s3)%Z && (s1 <=? s2)%Z && (s2 <=? s3)%Z)
    else
      do p0 <- rd pat 0;
      if p0 =? 35 then
        do r <- right_ pat 2;
        let s1 := val_ r in
        if (s1 <? 1)%Z || (Z.of_nat (length (e_stmts env)) <? s1)%Z then Ok false
        else do l <- labelOf (e_stmts env) (Z.to_nat s1); Ok (strEq l test)
      else if p0 =? 64 then
        do s1 <- labNum env test;
        if (s1 <? 1)%Z then Ok false
        else do r <- right_ pat 2; Ok (e_pink env (Z.to_nat s1) =? val_ r)%Z
      else if strEq pat [61] then
        do s1 <- labNum env test; Ok (e_prove env =? s1)%Z
      else if strEq pat [37] then
        do s1 <- labNum env test;
        if (0 <? s1)%Z then
          do ty <- kindOf (e_stmts env) (Z.to_nat s1);
          Ok (match ty with K_p => e_changed env (Z.to_nat s1) | _ => false end)
        else Ok false
      else globMatch fuel test pat w o
  else globMatch fuel test pat w o.

(* matchesList, 817-842 *)
Fixpoint matchesLoop (fuel : nat) (env : menv) (test pat : list nat) (w o : nat) (i entries : nat) : res bool :=
  match entries with
  | 0 => Ok false
  | S e =>
      do p <- entry (Z.of_nat i) pat;
      do m <- matches fuel env test p w o;
      if m then Ok true else matchesLoop fuel env test pat w o (S i) e
  end.
Definition matchesList (fuel : nat) (env : menv) (test pat : list nat) (w o : nat) : res bool :=
  matchesLoop fuel env test pat w o 1 (numEntries pat).
