(* LabModel.v -- label tables: the sorting, checking and searching of labels in
   src/mmpars.c.  No proofs here.  Labels are lists of character codes. *)
From Verif Require Import Base.
Open Scope nat_scope.

Inductive kind := K_c | K_v | K_d | K_lb | K_rb | K_e | K_f | K_a | K_p.
(* the fields of struct statement_struct used here, src/mmdata.h *)
Record lstmt := { l_kind : kind; l_label : list nat }.
Definition lnth (st : list lstmt) (k : nat) : option lstmt :=
  match k with 0 => None | S k' => nth_error st k' end.   (* statements count from 1 *)
Definition labelOf (st : list lstmt) (k : nat) : res (list nat) :=
  do s <- rget (lnth st k); Ok (l_label s).
Definition kindOf (st : list lstmt) (k : nat) : res kind :=
  do s <- rget (lnth st k); Ok (l_kind s).

(* strcmp on strings without NUL (unsigned characters) *)
Fixpoint strcmp (a b : list nat) : comparison :=
  match a, b with
  | [], [] => Eq
  | [], _ => Lt
  | _, [] => Gt
  | x :: a', y :: b' => match x ?= y with Eq => strcmp a' b' | c => c end
  end.

(* qsort (library) with labelSortCmp, mmpars.c:505,3619-3623: any permutation of
   the keys that is sorted *)
Definition labLe (st : list lstmt) (i j : nat) : Prop :=
  forall a b, labelOf st i = Ok a -> labelOf st j = Ok b -> strcmp a b <> Gt.

(* skip null labels, mmpars.c:507-512 *)
Fixpoint skipNull (st : list lstmt) (keys : list nat) : res (list nat) :=
  match keys with
  | [] => Ok []
  | k :: r => do l <- labelOf st k; match l with [] => skipNull st r | _ => Ok keys end
  end.

(* duplicate check, mmpars.c:530-551: the statements for which an error is printed.
   prev: the key before, if any *)
Fixpoint dupLoop (st : list lstmt) (prev : option nat) (dupFlag : bool) (keys : list nat) : res (list nat) :=
  match keys with
  | [] => Ok []
  | k :: r =>
      do l <- labelOf st k;
      do d1 <- (if dupFlag then
                  match prev with
                  | None => UB
                  | Some p => do lp <- labelOf st p; Ok (match strcmp l lp with Eq => true | _ => false end)
                  end
                else Ok false);
      do d2 <- match r with
               | [] => Ok d1
               | n :: _ => do ln <- labelOf st n; Ok (match strcmp l ln with Eq => true | _ => d1 end)
               end;
      do rest <- dupLoop st (Some k) d2 r;
      Ok (if d2 then k :: rest else rest)
  end.

(* drop the hypotheses, mmpars.c:1838-1848 *)
Fixpoint filterHyps (st : list lstmt) (keys : list nat) : res (list nat) :=
  match keys with
  | [] => Ok []
  | k :: r => do ty <- kindOf st k; do rest <- filterHyps st r;
              Ok (match ty with K_e | K_f => rest | _ => k :: rest end)
  end.

(* bsearch (library): the usual binary search between l and u; cmp: labelSrchCmp,
   mmpars.c:3626-3629.  Returns the key. *)
Fixpoint bsearch (fuel : nat) (st : list lstmt) (keys : list nat) (key : list nat) (l u : nat) : res (option nat) :=
  match fuel with
  | 0 => Fuel
  | S f =>
      if l <? u then
        let i := (l + u) / 2 in
        do k <- rget (nth_error keys i);
        do lab <- labelOf st k;
        match strcmp key lab with
        | Lt => bsearch f st keys key l i
        | Gt => bsearch f st keys key (S i) u
        | Eq => Ok (Some k)
        end
      else Ok None
  end.

(* lookupLabel, mmpars.c:3602-3616; keys: g_labelKeyBase after reading the database.
   None is the result -1. *)
Definition lookupLabel (st : list lstmt) (keys : list nat) (label : list nat) : res (option nat) :=
  do r <- bsearch (S (length keys)) st keys label 0 (length keys);
  match r with
  | None => Ok None
  | Some k => do ty <- kindOf st k; match ty with K_a | K_p => Ok (Some k) | _ => Bug 1718 end
  end.

(* the check that no label is also a math token, mmpars.c:664-695: tokens whose name is
   a label (keys: before the hypotheses are dropped) *)
Fixpoint tokenClash (st : list lstmt) (keys : list nat) (tokens : list (list nat)) : res (list (list nat)) :=
  match tokens with
  | [] => Ok []
  | t :: r => do f <- bsearch (S (length keys)) st keys t 0 (length keys);
              do rest <- tokenClash st keys r;
              Ok (match f with Some _ => t :: rest | None => rest end)
  end.

(* parseLabels from the sorting on, and the later filtering: sorted is what qsort
   made of 1..n.  Returns the statements reported as duplicates and the tables. *)
Definition labelTables (st : list lstmt) (sorted : list nat) : res (list nat * list nat * list nat) :=
  do all <- skipNull st sorted;
  do dups <- dupLoop st None false all;
  do asrt <- filterHyps st all;
  Ok (dups, all, asrt).
