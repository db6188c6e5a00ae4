(* UniModel.v -- unification in the proof assistant, src/mmunif.c.  No proofs here.
   Math tokens are numbers; mt = g_mathTokens, the token used as end mark and separator;
   tokens above mt are unknown ("work") variables.  An nmbrString is the list of its
   elements; reading at its length gives the terminator -1 (None), beyond that is UB.
   stackUnkVar.. arrays are lists, stack top first, of stackTop + 1 entries (the rest of
   the arrays is stale and never used).  g_MathToken[].tmp is a Boolean: on the stack or
   not (-1); its value as a position is not used by unify().  Debug output and
   deallocation are not modelled. *)
From Verif Require Import Base.
Open Scope nat_scope.

Record uenv := mkUenv {
  u_mt : nat;                       (* g_mathTokens *)
  u_min : nat;                      (* g_minSubstLen *)
  u_max : nat;                      (* g_userMaxUnifTrials *)
  u_con : nat -> bool;              (* tokenType == con_ *)
  u_name : nat -> list nat;         (* tokenName *)
  u_axioms : list (list nat) }.     (* math strings of the $a statements *)

Record level := mkLevel {
  l_var : nat;                      (* stackUnkVar[i] *)
  l_starts : list nat;              (* stackSaveUnkVarStart[i] *)
  l_lens : list nat;                (* stackSaveUnkVarLen[i] *)
  l_A : list nat;                   (* stackSaveSchemeA[i] *)
  l_B : list nat }.                 (* stackSaveSchemeB[i] *)
Record ust := mkU {
  u_A : list nat; u_B : list nat; u_p : nat;
  u_stk : list level; u_starts : list nat; u_lens : list nat;
  u_tmp : nat -> bool; u_tc : nat }. (* u_tc = g_unifTrialCount *)

Definition rd (l : list nat) (i : nat) : res (option nat) :=
  match nth_error l i with
  | Some t => Ok (Some t)
  | None => if i =? length l then Ok None else UB
  end.
Definition setTmp (f : nat -> bool) (x : nat) (b : bool) : nat -> bool := fun t => if t =? x then b else f t.
Definition isTok (o : option nat) (t : nat) : bool := match o with Some x => x =? t | None => false end.
Definition unk (e : uenv) (o : option nat) : bool := match o with Some x => u_mt e <? x | None => false end.
Definition sameTok (a b : option nat) : bool :=
  match a, b with Some x, Some y => x =? y | None, None => true | _, _ => false end.

(* nmbrElementIn with start k, mmdata.c:1617-1624; positions count from 1; start 0
   reads the header cell in front of the string *)
Fixpoint findAt (x : nat) (l : list nat) (i : nat) : option nat :=
  match l with [] => None | t :: r => if t =? x then Some i else findAt x r (S i) end.
Definition elemFrom (l : list nat) (k x : nat) : res (option nat) :=
  match k with
  | O => UB
  | S i => if i <=? length l then Ok (findAt x (skipn i l) k) else UB
  end.

(* ---------- tests that reject a substitution ---------- *)
(* 787-801 and the four copies below it: the brackets of one kind *)
Fixpoint unpaired (op cl : nat -> bool) (l : list nat) (n : nat) : bool :=
  match l with
  | [] => negb (n =? 0)
  | t :: r => if op t then unpaired op cl r (S n)
              else if cl t then match n with O => true | S m => unpaired op cl r m end
              else unpaired op cl r n
  end.
Definition isName (e : uenv) (s : list nat) (t : nat) : bool := if list_eq_dec Nat.eq_dec (u_name e t) s then true else false.
Definition mismatch (e : uenv) (l : list nat) : bool :=
  unpaired (isName e [40]) (isName e [41]) l 0          (* ( ) *)
  || unpaired (isName e [123]) (isName e [125]) l 0     (* { } *)
  || unpaired (isName e [91]) (isName e [93]) l 0       (* [ ] *)
  || unpaired (isName e [60; 46]) (isName e [62; 46]) l 0   (* <. >. *)
  || unpaired (isName e [91; 95]) (isName e [93; 95]) l 0.  (* [_ ]_ *)
(* 765-895: bracketMatchOn unless some $a has a mismatch (the scan and its message are
   made once, on first use) *)
Definition bracketReject (e : uenv) (w : list nat) : bool := negb (existsb (mismatch e) (u_axioms e)) && mismatch e w.
(* 380-411 (tables) and 899-929 *)
Definition firstConst (e : uenv) (t : nat) : bool := existsb (fun a => (2 <=? length a) && isTok (nth_error a 1) t) (u_axioms e).
Definition oneConst (e : uenv) (t : nat) : bool := existsb (fun a => (length a =? 2) && isTok (nth_error a 1) t) (u_axioms e).
Definition lastConst (e : uenv) (t : nat) : bool :=
  existsb (fun a => (2 <=? length a) && isTok (nth_error a (length a - 1)) t) (u_axioms e).
Definition impossible (e : uenv) (w : list nat) : bool :=
  match w with
  | [] => false
  | t :: _ =>
      (0 <? u_min e) &&
      ((u_con e t && (negb (firstConst e t) || ((length w =? 1) && negb (oneConst e t)))) ||
       (u_con e (last w 0) && negb (lastConst e (last w 0))))
  end.
Definition reject (e : uenv) (w : list nat) : bool := bracketReject e w || impossible e w.

(* ---------- replacing all occurrences of a variable, 931-1002 ---------- *)
(* one stacked assignment, when the occurrence at position k (from 1) is replaced by j
   tokens *)
Definition adj (j k : nat) (x : nat * nat) : nat * nat :=
  if k <=? fst x then (fst x + j - 1, snd x)
  else if k <=? fst x + snd x then (fst x, snd x + j - 1)
  else x.
(* q = p + 1 (p itself is -1 for a moment if j = 0) *)
Fixpoint subLoop (fuel : nat) (flag : bool) (x : nat) (w : list nat) (l : list nat) (k q : nat) (ss : list (nat * nat))
  : res (list nat * nat * list (nat * nat)) :=
  match fuel with
  | O => Fuel
  | S f =>
      do r <- elemFrom l k x;
      match r with
      | None => Ok (l, q, ss)
      | Some k =>
          let j := length w in
          let here := flag && (k <=? q) in
          let ss := if here && (k <? q) then map (adj j k) ss else ss in
          let q := if here then q + j - 1 else q in
          subLoop f flag x w (firstn (k - 1) l ++ w ++ skipn k l) (k + j - 1) q ss
      end
  end.
Definition doSubst (flag : bool) (x : nat) (w : list nat) (s : ust) : res ust :=
  do a <- subLoop (S (length (u_A s))) flag x w (u_A s) 1 (u_p s + 1) (combine (u_starts s) (u_lens s));
  let '(A, q, ss) := a in
  do b <- subLoop (S (length (u_B s))) (negb flag) x w (u_B s) 1 q ss;
  let '(B, q, ss) := b in
  Ok (mkU A B q (u_stk s) (map fst ss) (map snd ss) (u_tmp s) (u_tc s)).

(* ---------- the labels of unify() ---------- *)
Inductive uout := UScan (s : ust) | UBack (s : ust) | USwitch (s : ust) | UDone (s : ust) | UAbort (code : nat) (tc : nat).

(* 558-561 *)
Fixpoint scanLoop (fuel : nat) (A B : list nat) (p : nat) : res nat :=
  match fuel with
  | O => Fuel
  | S f =>
      do a <- rd A p;
      do b <- rd B p;
      if sameTok a b then
        match a with
        | None => UB
        | Some _ => do n <- rd A (S p); match n with None => Ok p | Some _ => scanLoop f A B (S p) end
        end
      else Ok p
  end.
(* 623-711 (schBUnk, schAUnk; flag = schemeAFlag) and 713-1012 (substitute);
   cap = unkVarsLen, the size of the stack arrays *)
Definition side (e : uenv) (cap : nat) (flag : bool) (x : nat) (s : ust) : res uout :=
  do s <-
    (if u_tmp s x then Ok s
     else if length (u_stk s) <? cap then
       let ss := u_p s :: u_starts s in
       let ns := u_min e :: u_lens s in
       Ok (mkU (u_A s) (u_B s) (u_p s) (mkLevel x ss ns (u_A s) (u_B s) :: u_stk s) ss ns (setTmp (u_tmp s) x true) (u_tc s))
     else UB);
  match u_stk s, u_lens s with
  | top :: rest, n :: _ =>
      if negb (l_var top =? x) then Bug (if flag then 1904 else 1903)
      else
        let w := firstn n (skipn (u_p s) (if flag then u_B s else u_A s)) in
        if existsb (Nat.eqb x) w then Ok (UBack s)
        else if isTok (hd_error w) (u_mt e) then
          Ok (UBack (mkU (u_A s) (u_B s) (u_p s) rest (tl (u_starts s)) (tl (u_lens s)) (setTmp (u_tmp s) x false) (u_tc s)))
        else if reject e w then Ok (UBack s)
        else do s' <- doSubst flag x w s; Ok (UScan s')
  | _, _ => UB
  end.
(* scan, 552-622 *)
Definition scanStep (e : uenv) (cap : nat) (s : ust) : res uout :=
  do p <- scanLoop (S (length (u_A s))) (u_A s) (u_B s) (u_p s);
  let s := mkU (u_A s) (u_B s) p (u_stk s) (u_starts s) (u_lens s) (u_tmp s) (u_tc s) in
  do a <- rd (u_A s) p;
  do b <- rd (u_B s) p;
  let go :=
    match a, b with
    | Some x, Some y =>
        if (u_mt e <? y) && (u_mt e <? x) then
          if negb (u_tmp s y) then side e cap true x s
          else if u_tmp s x then Bug 1902
          else side e cap false y s
        else if u_mt e <? y then side e cap false y s
        else if u_mt e <? x then side e cap true x s
        else Ok (UBack s)
    | Some x, None => if u_mt e <? x then side e cap true x s else Ok (UBack s)
    | None, Some y => if u_mt e <? y then side e cap false y s else Ok (UBack s)
    | None, None => Ok (UBack s)
    end in
  if isTok a (u_mt e) || isTok b (u_mt e) then
    if sameTok a b then
      do n <- rd (u_A s) (S p);
      match n with None => Ok (UDone s) | Some _ => go end
    else if negb (unk e a) && negb (unk e b) then Ok (UBack s) else go
  else go.
(* backtrack, 1014-1039 *)
Definition backStep (e : uenv) (s : ust) : res uout :=
  match u_stk s with
  | [] => Ok (UAbort 0 (u_tc s))
  | top :: rest =>
      let tc := if 0 <? u_tc s then u_tc s + 1 else u_tc s in
      if (0 <? u_tc s) && (u_max e <? tc) then Ok (UAbort 2 tc)
      else
        match l_lens top, l_starts top with
        | n :: ns, p :: _ =>
            Ok (USwitch (mkU (l_A top) (l_B top) p (mkLevel (l_var top) (l_starts top) (S n :: ns) (l_A top) (l_B top) :: rest)
                             (l_starts top) (u_lens s) (u_tmp s) tc))
        | _, _ => UB
        end
  end.
(* element p - 1 + n; position -1 is the header cell *)
Definition rdEnd (l : list nat) (p n : nat) : res (option nat) := match p + n with O => UB | S i => rd l i end.
(* switchVarToB, 1040-1097 *)
Definition switchStep (e : uenv) (s : ust) : res uout :=
  match u_stk s with
  | [] => UB
  | top :: rest =>
      let x := l_var top in
      let p := u_p s in
      match l_lens top with
      | [] => UB
      | n :: ns =>
          let s := mkU (u_A s) (u_B s) p (u_stk s) (u_starts s) (l_lens top) (u_tmp s) (u_tc s) in
          let pop t := Ok (UBack (mkU (u_A s) (u_B s) p rest (tl (u_starts s)) (tl (u_lens s)) t (u_tc s))) in
          do a <- rd (u_A s) p;
          if isTok a x then
            do c <- rdEnd (u_B s) p n;
            if isTok c (u_mt e) then
              let t := setTmp (u_tmp s) x false in
              do b <- rd (u_B s) p;
              match b with
              | Some y =>
                  if u_mt e <? y then
                    if t y then Bug 1905
                    else Ok (USwitch (mkU (u_A s) (u_B s) p
                                          (mkLevel y (l_starts top) (u_min e :: ns) (l_A top) (l_B top) :: rest)
                                          (u_starts s) (u_lens s) (setTmp t y true) (u_tc s)))
                  else pop t
              | None => pop t
              end
            else Ok (UScan s)
          else
            do c <- rdEnd (u_A s) p n;
            if isTok c (u_mt e) then pop (setTmp (u_tmp s) x false) else Ok (UScan s)
      end
  end.
Definition ustep (e : uenv) (cap : nat) (o : uout) : res uout :=
  match o with
  | UScan s => scanStep e cap s
  | UBack s => backStep e s
  | USwitch s => switchStep e s
  | _ => Ok o
  end.
Fixpoint urun (fuel : nat) (e : uenv) (cap : nat) (o : uout) : res uout :=
  match o with
  | UDone _ | UAbort _ _ => Ok o
  | _ => match fuel with
         | O => Fuel
         | S f => do o' <- ustep e cap o; urun f e cap o'
         end
  end.

(* ---------- unify(), 284-1180 ---------- *)
(* the list of unknown variables, 417-461; 461 counts those of schemeA (not modelled) *)
Fixpoint unkVars (e : uenv) (l : list nat) (acc : list nat) : list nat :=
  match l with
  | [] => acc
  | t :: r => unkVars e r (if (u_mt e <? t) && negb (existsb (Nat.eqb t) acc) then acc ++ [t] else acc)
  end.
Definition unkCount (e : uenv) (A B : list nat) : nat := length (unkVars e B (unkVars e A [])).
(* 349-370 *)
Definition clash (e : uenv) (a b : nat) : bool := u_con e a && u_con e b && negb (a =? b).
Definition quickNo (e : uenv) (A B : list nat) : res bool :=
  match A, B with
  | a :: _, b :: _ => Ok (clash e a b || clash e (last A 0) (last B 0))
  | _, _ => UB
  end.
Inductive ures := UNo | UTimeout | UYes (s : ust).
Definition finish (o : uout) : res (ures * nat) :=
  match o with
  | UDone s => Ok (UYes s, u_tc s)
  | UAbort c tc => Ok (if c =? 0 then UNo else UTimeout, tc)
  | _ => UB
  end.
(* first call; tc = g_unifTrialCount *)
Definition unify (fuel : nat) (e : uenv) (A B : list nat) (tc : nat) : res (ures * nat) :=
  do q <- quickNo e A B;
  if (q : bool) then Ok (UNo, tc)
  else
    do o <- urun fuel e (unkCount e A B) (UScan (mkU (A ++ [u_mt e]) (B ++ [u_mt e]) 0 [] [] [] (fun _ => false) tc));
    finish o.
(* re-entry (reEntryFlag = 1) with the state left by the previous call: only the stack
   is used, tmp is set again from it, 531-540 *)
Definition unifyNext (fuel : nat) (e : uenv) (A B : list nat) (s : ust) (tc : nat) : res (ures * nat) :=
  do q <- quickNo e A B;
  if (q : bool) then Ok (UNo, tc)
  else
    do o <- urun fuel e (unkCount e A B)
      (UBack (mkU (u_A s) (u_B s) 0 (u_stk s) (u_starts s) (u_lens s)
                  (fun t => existsb (fun l => l_var l =? t) (u_stk s)) tc));
    finish o.
(* the result, 1101: schA without the end mark *)
Definition unified (s : ust) : list nat := firstn (length (u_A s) - 1) (u_A s).

(* ---------- makeSubstUnif(), 162-282 ---------- *)
Fixpoint lookup (stk : list level) (ss ns : list nat) (t : nat) : option (nat * nat) :=
  match stk, ss, ns with
  | l :: stk', s :: ss', n :: ns' =>
      match lookup stk' ss' ns' t with
      | Some r => Some r
      | None => if l_var l =? t then Some (s, n) else None
      end
  | _, _, _ => None
  end.
Fixpoint makeSubst (e : uenv) (s : ust) (l : list nat) : res (list nat * bool) :=
  match l with
  | [] => Ok ([], false)
  | t :: r =>
      do x <-
        (if u_con e t then Ok ([t], false)
         else if u_mt e <? t then
           match lookup (u_stk s) (u_starts s) (u_lens s) t with
           | Some (a, n) => if a + n <=? length (unified s) then Ok (firstn n (skipn a (unified s)), false) else UB
           | None => Ok ([t], true)
           end
         else Ok ([t], false));
      do y <- makeSubst e s r;
      Ok (fst x ++ fst y, snd x || snd y)
  end.

(* ---------- the calls of a user, e.g. replaceStatement(), mmpfas.c:508-526 ---------- *)
(* the answers so far, latest first: the first call, then re-entries; the trial counter
   may be set in between *)
Inductive history (e : uenv) (A B : list nat) : list ust -> Prop :=
| hist_first fuel tc tc' s : unify fuel e A B tc = Ok (UYes s, tc') -> history e A B [s]
| hist_next fuel tc tc' s s' h : history e A B (s :: h) -> unifyNext fuel e A B s tc = Ok (UYes s', tc') -> history e A B (s' :: s :: h).
(* all answers: the next call says that there are no more *)
Inductive allAnswers (e : uenv) (A B : list nat) : list ust -> Prop :=
| all_none fuel tc tc' : unify fuel e A B tc = Ok (UNo, tc') -> allAnswers e A B []
| all_some fuel tc tc' s h : history e A B (s :: h) -> unifyNext fuel e A B s tc = Ok (UNo, tc') -> allAnswers e A B (s :: h).
(* what makeSubstUnif() makes of an expression *)
Definition gives (e : uenv) (s : ust) (l w : list nat) : Prop := exists b, makeSubst e s l = Ok (w, b).

(* ---------- what unify() needs to know about its arguments ---------- *)
(* 284-300; the callers compare single expressions, or the same number of expressions
   joined by separators (mmpfas.c:2285-2326), each beginning with a constant *)
Record okInput (e : uenv) (A B : list nat) : Prop := {
  ok_A : A <> []; ok_B : B <> [];
  ok_con : forall t, u_con e t = true -> t <= u_mt e;
  ok_cnt : count_occ Nat.eq_dec A (u_mt e) = count_occ Nat.eq_dec B (u_mt e);
  ok_min : u_min e <= 1;
  ok_hd : 1 <= u_min e \/ (forall x, hd_error A = Some x \/ hd_error B = Some x -> x <= u_mt e) }.
