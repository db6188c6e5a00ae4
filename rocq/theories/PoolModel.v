(* PoolModel.v -- the memory pools and nmbrString assignment: src/mmdata.c:371-660 and
   979-1135, 1177-1209.  No proofs here.
   A block has an abstract name instead of an address (names are never used again; the
   program does not compare or reuse addresses).  Its contents are the list of the
   elements before the -1 (copying itself is NmbModel.v).  w: sizeof(nmbrString),
   grow: MEM_POOL_GROW, absMax: poolAbsoluteMax, maxTemp: M_MAX_ALLOC_STACK.
   Whether malloc succeeds is decided by oracles that are part of the state.
   Not modelled: pntrStrings (the same code with another element size,
   mmdata.c:2440-2590), the debug counters db2, db3 and the db9 output. *)
From Verif Require Import Base.
Open Scope Z_scope.

(* outOfMemory (mmdata.c:706-730): message, then exit(1); also bug(1303), bug(1304) and
   bug(1362), which are directly followed by it *)
Definition oom {A} : res A := Bug 0.

Section Pool.
  Variables (w absMax : Z) (grow maxTemp : nat).

  (* hidden elements -1, -2, -3 and the contents *)
  Record block := mkBk { k_act : Z; k_alloc : Z; k_loc : Z; k_data : list Z }.
  Record pool := mkPool {
    p_heap : nat -> option block;      (* what malloc has handed out *)
    p_next : nat;                      (* next unused name *)
    p_free : list nat;                 (* memFreePool[0 .. memFreePoolSize-1] *)
    p_freeMax : nat; p_freeOk : bool;  (* memFreePoolMax; is memFreePool an array of that size? *)
    p_used : list nat;                 (* memUsedPool[0 .. memUsedPoolSize-1] *)
    p_usedMax : nat;
    p_total : Z;                       (* poolTotalFree *)
    p_mal : list bool;                 (* results of the coming malloc calls; then always true *)
    p_malP : list bool }.              (* the same for the malloc in memFreePoolPurge *)
  Definition setHeap p h := mkPool h (p_next p) (p_free p) (p_freeMax p) (p_freeOk p) (p_used p) (p_usedMax p) (p_total p) (p_mal p) (p_malP p).
  Definition setFree p f := mkPool (p_heap p) (p_next p) f (p_freeMax p) (p_freeOk p) (p_used p) (p_usedMax p) (p_total p) (p_mal p) (p_malP p).
  Definition setFreeMax p m ok := mkPool (p_heap p) (p_next p) (p_free p) m ok (p_used p) (p_usedMax p) (p_total p) (p_mal p) (p_malP p).
  Definition setUsed p u := mkPool (p_heap p) (p_next p) (p_free p) (p_freeMax p) (p_freeOk p) u (p_usedMax p) (p_total p) (p_mal p) (p_malP p).
  Definition setUsedMax p m := mkPool (p_heap p) (p_next p) (p_free p) (p_freeMax p) (p_freeOk p) (p_used p) m (p_total p) (p_mal p) (p_malP p).
  Definition addTotal p d := mkPool (p_heap p) (p_next p) (p_free p) (p_freeMax p) (p_freeOk p) (p_used p) (p_usedMax p) (p_total p + d) (p_mal p) (p_malP p).
  Definition setMal p m := mkPool (p_heap p) (p_next p) (p_free p) (p_freeMax p) (p_freeOk p) (p_used p) (p_usedMax p) (p_total p) m (p_malP p).
  Definition setMalP p m := mkPool (p_heap p) (p_next p) (p_free p) (p_freeMax p) (p_freeOk p) (p_used p) (p_usedMax p) (p_total p) (p_mal p) m.

  Definition get (p : pool) (a : nat) : res block := rget (p_heap p a).       (* a dead name is UB *)
  Definition upd (h : nat -> option block) (a : nat) (b : option block) : nat -> option block :=
    fun x => if Nat.eqb x a then b else h x.
  Definition put (p : pool) (a : nat) (b : block) : pool := setHeap p (upd (p_heap p) a (Some b)).
  Definition free (p : pool) (a : nat) : res pool :=                            (* free(): twice is UB *)
    do _ <- get p a; Ok (setHeap p (upd (p_heap p) a None)).
  (* does the next malloc or realloc succeed? *)
  Definition ask (p : pool) : bool * pool :=
    match p_mal p with [] => (true, p) | x :: r => (x, setMal p r) end.
  (* malloc of a block with its header set: actual = allocated = size, not in the used pool *)
  Definition mallocB (p : pool) (size : Z) : option nat * pool :=
    let '(ok, p) := ask p in
    if ok then (Some (p_next p),
                mkPool (upd (p_heap p) (p_next p) (Some (mkBk size size (-1) []))) (S (p_next p)) (p_free p) (p_freeMax p) (p_freeOk p)
                  (p_used p) (p_usedMax p) (p_total p) (p_mal p) (p_malP p))
    else (None, p).

  (* memFreePoolPurge, 620-645 *)
  Fixpoint purgeLoop (fuel : nat) (untilOK : bool) (p : pool) : res (pool * bool) :=     (* true: returned early *)
    match fuel with
    | O => Fuel
    | S f =>
        match p_free p with
        | [] => Ok (p, false)
        | _ => let n := (length (p_free p) - 1)%nat in
               do a <- rget (nth_error (p_free p) n);
               do b <- get p a;
               do p <- free (addTotal (setFree p (firstn n (p_free p))) (- k_alloc b)) a;
               if untilOK && (p_total p <=? absMax) then Ok (p, true) else purgeLoop f untilOK p
        end
    end.
  Definition memFreePoolPurge (untilOK : bool) (p : pool) : res pool :=
    do x <- purgeLoop (S (length (p_free p))) untilOK p;
    let '(p, early) := x in
    if early then Ok p
    else if Nat.eqb (p_freeMax p) grow then Ok p
    else match p_malP p with
         | [] => Ok (setFreeMax p grow true)
         | ok :: r => Ok (setMalP (setFreeMax p grow ok) r)         (* the result is not checked *)
         end.

  (* "Increase size of used pool", 482-498 and 576-596, and entry of the block *)
  Definition enterUsed (p : pool) (a : nat) : res pool :=
    do p <- (if (p_usedMax p <=? length (p_used p))%nat then
               let '(ok, p) := ask p in
               if ok : bool then Ok (setUsedMax p (p_usedMax p + grow)) else oom
             else Ok p);
    if (p_usedMax p <=? length (p_used p))%nat then UB
    else do b <- get p a;
         Ok (setUsed (put p a (mkBk (k_act b) (k_alloc b) (Z.of_nat (length (p_used p))) (k_data b))) (p_used p ++ [a])).
  (* poolMalloc, 422-503 *)
  Definition mallocPurge (p : pool) (size : Z) : res (pool * nat) :=
    match mallocB p size with
    | (Some a, p) => Ok (p, a)
    | (None, p) =>
        do p <- memFreePoolPurge false p;
        match mallocB p size with
        | (Some a, p) => Ok (p, a)
        | (None, _) => oom
        end
    end.
  Definition poolMalloc (p : pool) (size : Z) : res (pool * nat) :=
    do p <- (if absMax <? p_total p then memFreePoolPurge true p else Ok p);
    match p_free p with
    | [] => match mallocB p size with (Some a, p) => Ok (p, a) | (None, _) => oom end
    | _ =>
        let n := (length (p_free p) - 1)%nat in
        do a <- rget (nth_error (p_free p) n);
        do b <- get p a;
        let p := addTotal (setFree p (firstn n (p_free p))) (- k_alloc b) in
        if size <=? k_alloc b then
          let p := put p a (mkBk size (k_alloc b) (-1) []) in       (* old contents are not used *)
          if size =? k_alloc b then Ok (p, a)
          else do p <- enterUsed (addTotal p (k_alloc b - size)) a; Ok (p, a)
        else do p <- free p a; mallocPurge p size
    end.
  (* poolFixedMalloc, 373-419; realloc to a smaller size keeps the name *)
  Definition poolFixedMalloc (p : pool) (size : Z) : res (pool * nat) :=
    match p_free p with
    | [] => match mallocB p size with (Some a, p) => Ok (p, a) | (None, _) => oom end
    | _ =>
        let n := (length (p_free p) - 1)%nat in
        do a <- rget (nth_error (p_free p) n);
        do b <- get p a;
        let p := addTotal (setFree p (firstn n (p_free p))) (- k_alloc b) in
        if size <=? k_alloc b then Ok (put p a (mkBk size size (-1) []), a)
        else do p <- free p a; mallocPurge p size
    end.
  (* poolFree, 506-562 *)
  Definition setNth (l : list nat) (k x : nat) : list nat := firstn k l ++ x :: skipn (S k) l.
  Definition leaveUsed (p : pool) (b : block) : res pool :=
    if 0 <=? k_loc b then
      let p := addTotal p (k_act b - k_alloc b) in
      let k := Z.to_nat (k_loc b) in
      match p_used p with
      | [] => UB
      | _ =>
          let n := (length (p_used p) - 1)%nat in
          if (k <? n)%nat then
            do z <- rget (nth_error (p_used p) n);
            do bz <- get p z;
            Ok (setUsed (put p z (mkBk (k_act bz) (k_alloc bz) (k_loc b) (k_data bz))) (setNth (firstn n (p_used p)) k z))
          else Ok (setUsed p (firstn n (p_used p)))
      end
    else Ok p.
  Definition poolFree (p : pool) (a : nat) : res pool :=
    do b <- get p a;
    do p <- leaveUsed p b;
    do p <- (if (p_freeMax p <=? length (p_free p))%nat then
               let '(ok, p) := ask p in
               if ok : bool then Ok (setFreeMax p (p_freeMax p + grow) true) else oom
             else Ok p);
    if (p_freeMax p <=? length (p_free p))%nat || negb (p_freeOk p) then UB
    else do b <- get p a;
         Ok (addTotal (setFree (put p a (mkBk (k_act b) (k_alloc b) (-2) (k_data b))) (p_free p ++ [a])) (k_alloc b)).
  (* addToUsedPool, 565-604 *)
  Definition addToUsedPool (p : pool) (a : nat) : res pool :=
    do b <- get p a;
    if k_act b =? k_alloc b then Bug 1305
    else do p <- enterUsed p a; Ok (addTotal p (k_alloc b - k_act b)).
  (* getPoolStats, 648-667: freeAlloc, usedAlloc, usedActual *)
  Fixpoint sumUp (p : pool) (f : block -> Z) (l : list nat) : res Z :=
    match l with [] => Ok 0 | a :: r => do b <- get p a; do s <- sumUp p f r; Ok (f b + s) end.
  Definition getPoolStats (p : pool) : res (Z * Z * Z) :=
    do x <- sumUp p k_alloc (p_free p);
    do y <- sumUp p (fun b => k_alloc b - k_act b) (p_used p);
    do z <- sumUp p (fun b => 12 + k_act b) (p_used p);
    Ok (x, y, z).

  (* ---------- nmbrStrings: None is NULL_NMBRSTRING ---------- *)
  (* nmbrLen, nmbrAllocLen, 1178-1191 *)
  Definition nmbrLen (p : pool) (s : option nat) : res Z :=
    match s with None => Ok 0 | Some a => do b <- get p a; Ok (Z.quot (k_act b - w) w) end.
  Definition nmbrAllocLen (p : pool) (s : option nat) : res Z :=
    match s with None => Ok 0 | Some a => do b <- get p a; Ok (Z.quot (k_alloc b - w) w) end.
  (* nmbrZapLen, 1201-1209, after the caller has written -1 at position n *)
  Definition nmbrZapLen (p : pool) (a : nat) (n : nat) : res pool :=
    do b <- get p a;
    let size := (Z.of_nat n + 1) * w in
    let p := if k_loc b =? -1 then p else addTotal p (k_act b - size) in
    Ok (put p a (mkBk size (k_alloc b) (k_loc b) (firstn n (k_data b)))).
  (* nmbrCpy(t, s): writing beyond the allocated size is UB *)
  Definition copy (p : pool) (t s : nat) : res pool :=
    do bs <- get p s; do bt <- get p t;
    if k_alloc bt <? (Z.of_nat (length (k_data bs)) + 1) * w then UB
    else Ok (put p t (mkBk (k_act bt) (k_alloc bt) (k_loc bt) (k_data bs))).
  (* "Memory pool handling", 1056-1079 and 1092-1113 *)
  Definition takeSize (p : pool) (t s : nat) (bugNo : nat) : res pool :=
    do bt <- get p t; do bs <- get p s;
    let diff := k_act bt - k_act bs in
    let p := put p t (mkBk (k_act bs) (k_alloc bt) (k_loc bt) (k_data bt)) in
    if negb (k_act bs =? k_alloc bt) then
      if k_alloc bt <? k_act bs then Bug bugNo
      else if k_loc bt =? -1 then addToUsedPool p t else Ok (addTotal p diff)
    else if negb (k_loc bt =? -1) then Ok (addTotal p diff) else Ok p.
  (* nmbrLet without the final nmbrTempAlloc(0), 1038-1131 *)
  Definition nmbrLet (p : pool) (target source : option nat) : res (pool * option nat) :=
    do sl <- nmbrLen p source;
    do tal <- nmbrAllocLen p target;
    match target, source with
    | Some t, Some s =>
        if tal =? 0 then
          if sl =? 0 then Ok (p, target)
          else do x <- poolMalloc p ((sl + 1) * w); do p <- copy (fst x) (snd x) s; Ok (p, Some (snd x))
        else if sl =? 0 then do p <- poolFree p t; Ok (p, None)
        else if sl <=? tal then do p <- copy p t s; do p <- takeSize p t s 1325; Ok (p, target)
        else do p <- poolFree p t;
             do x <- poolMalloc p ((sl + 1) * w * 2);
             do p <- copy (fst x) (snd x) s;
             do p <- takeSize p (snd x) s 1326;
             Ok (p, Some (snd x))
    | Some t, None => if tal =? 0 then Ok (p, target) else do p <- poolFree p t; Ok (p, None)
    | None, Some s => if sl =? 0 then Ok (p, target)
                      else do x <- poolMalloc p ((sl + 1) * w); do p <- copy (fst x) (snd x) s; Ok (p, Some (snd x))
    | None, None => Ok (p, target)
    end.

  (* ---------- a program that uses them ---------- *)
  Record mach := mkM { m_pool : pool; m_vars : nat -> option nat;
    m_temps : list nat;            (* nmbrTempAllocStack[0 .. g_nmbrTempAllocStackTop-1] *)
    m_start : nat;                 (* g_nmbrStartTempAllocStack *)
    m_saves : list nat }.          (* its values saved by enclosing functions *)
  (* the program start *)
  Definition pool0 (mal malP : list bool) : pool := mkPool (fun _ => None) 0 [] 0 false [] 0 0 mal malP.
  Definition mach0 mal malP : mach := mkM (pool0 mal malP) (fun _ => None) [] 0 [].
  (* nmbrTempAlloc(0), 1000-1008 *)
  Fixpoint freeTemps (fuel : nat) (p : pool) (ts : list nat) (start : nat) : res (pool * list nat) :=
    if Nat.eqb (length ts) start then Ok (p, ts)
    else match fuel with
         | O => Fuel
         | S f => match ts with
                  | [] => UB
                  | _ => let n := (length ts - 1)%nat in
                         do a <- rget (nth_error ts n); do p <- poolFree p a; freeTemps f p (firstn n ts) start
                  end
         end.
  Definition setVar (v : nat -> option nat) (x : nat) (a : option nat) : nat -> option nat :=
    fun y => if Nat.eqb y x then a else v y.
  Definition fill (p : pool) (a : nat) (l : list Z) : res pool :=
    do b <- get p a;
    if k_alloc b <? (Z.of_nat (length l) + 1) * w then UB
    else Ok (put p a (mkBk (k_act b) (k_alloc b) (k_loc b) l)).

  Inductive source := SVar (x : nat) | STemp (k : nat) | SNull.
  Inductive cmd :=
  | CTemp (l : list Z)             (* a function returning a temporary string l: nmbrTempAlloc(length + 1) *)
  | CLet (x : nat) (s : source)    (* nmbrLet(&x, s) *)
  | CZapTemp (k n : nat) | CZapVar (x n : nat)
  | CMake (x : nat)                (* return nmbrMakeTempAlloc(x): the local variable ends *)
  | CEnter | CLeave                (* save/set and restore g_nmbrStartTempAllocStack *)
  | CFixed (x : nat) (l : list Z)  (* x = poolFixedMalloc(length + 1 elements), filled *)
  | CFree (x : nat)                (* poolFree(x); x = NULL_NMBRSTRING *)
  | CPurge.                        (* memFreePoolPurge(0) *)
  Definition lookup (m : mach) (s : source) : res (option nat) :=
    match s with
    | SVar x => Ok (m_vars m x)
    | STemp k => do a <- rget (nth_error (m_temps m) k); Ok (Some a)
    | SNull => Ok None
    end.
  Definition exec (m : mach) (c : cmd) : res mach :=
    match c with
    | CTemp l =>
        if (maxTemp - 1 <=? length (m_temps m))%nat then oom
        else do x <- poolMalloc (m_pool m) ((Z.of_nat (length l) + 1) * w);
             do p <- fill (fst x) (snd x) l;
             Ok (mkM p (m_vars m) (m_temps m ++ [snd x]) (m_start m) (m_saves m))
    | CLet x s =>
        do a <- lookup m s;
        do r <- nmbrLet (m_pool m) (m_vars m x) a;
        do q <- freeTemps (length (m_temps m)) (fst r) (m_temps m) (m_start m);
        Ok (mkM (fst q) (setVar (m_vars m) x (snd r)) (snd q) (m_start m) (m_saves m))
    | CZapTemp k n => do a <- rget (nth_error (m_temps m) k); do p <- nmbrZapLen (m_pool m) a n;
                      Ok (mkM p (m_vars m) (m_temps m) (m_start m) (m_saves m))
    | CZapVar x n => do a <- rget (m_vars m x); do p <- nmbrZapLen (m_pool m) a n;
                     Ok (mkM p (m_vars m) (m_temps m) (m_start m) (m_saves m))
    | CMake x =>
        if (maxTemp - 1 <=? length (m_temps m))%nat then oom      (* bug(1368) *)
        else match m_vars m x with
             | None => Ok m
             | Some a =>
                 do b <- get (m_pool m) a;
                 Ok (mkM (m_pool m) (setVar (m_vars m) x None)
                      (match k_data b with [] => m_temps m | _ => m_temps m ++ [a] end) (m_start m) (m_saves m))
             end
    | CEnter => Ok (mkM (m_pool m) (m_vars m) (m_temps m) (length (m_temps m)) (m_start m :: m_saves m))
    | CLeave => match m_saves m with [] => UB | s :: r => Ok (mkM (m_pool m) (m_vars m) (m_temps m) s r) end
    | CFixed x l => do r <- poolFixedMalloc (m_pool m) ((Z.of_nat (length l) + 1) * w);
                    do p <- fill (fst r) (snd r) l;
                    Ok (mkM p (setVar (m_vars m) x (Some (snd r))) (m_temps m) (m_start m) (m_saves m))
    | CFree x => do a <- rget (m_vars m x); do p <- poolFree (m_pool m) a;
                 Ok (mkM p (setVar (m_vars m) x None) (m_temps m) (m_start m) (m_saves m))
    | CPurge => do p <- memFreePoolPurge false (m_pool m); Ok (mkM p (m_vars m) (m_temps m) (m_start m) (m_saves m))
    end.
  Fixpoint execs (m : mach) (cs : list cmd) : res mach :=
    match cs with [] => Ok m | c :: r => do m <- exec m c; execs m r end.
End Pool.
