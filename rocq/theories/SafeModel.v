(* SafeModel.v -- fSafeOpen: src/mminou.c:1084-1213 (the unix branch), and writing to the
   file it opens.  No proofs here.
   A directory maps names (lists of characters) to files.  Each change of the directory is
   atomic; the result of the function is the list of the successive states, newest first,
   so that every element of the list is a state in which the program may be stopped.
   dirW: may names be added to, removed from or changed in the directory?  Neither rename()
   nor remove() is checked by the code.  Only modes "r", "w" and "d" are used by the
   callers; other modes (bug(1510)) are left out. *)
From Verif Require Import Base.
Open Scope nat_scope.

Record file := mkFile { f_read : bool; f_write : bool; f_data : list nat }.
Definition name := list nat.
Definition dir := name -> option file.
Fixpoint nameEqb (x y : name) : bool :=
  match x, y with [], [] => true | a :: x, b :: y => Nat.eqb a b && nameEqb x y | _, _ => false end.
Definition bind (d : dir) (n : name) (f : option file) : dir := fun m => if nameEqb m n then f else d m.
Inductive mode := ModeR | ModeW | ModeD.

Section Safe.
  Variable dirW : bool.
  (* fopen(n, "r") succeeds *)
  Definition canRead (d : dir) (n : name) : bool := match d n with Some f => f_read f | None => false end.
  (* rename(old, new), remove(n): no effect if not permitted *)
  Definition rename (d : dir) (old new : name) : dir :=
    match d old with Some f => if dirW then bind (bind d old None) new (Some f) else d | None => d end.
  Definition remove (d : dir) (n : name) : dir := if dirW then bind d n None else d.
  (* fopen(n, "w"): None if it fails *)
  Definition openW (d : dir) (n : name) : option dir :=
    match d n with
    | Some f => if f_write f then Some (bind d n (Some (mkFile (f_read f) true []))) else None
    | None => if dirW then Some (bind d n (Some (mkFile true true []))) else None
    end.
  (* a block of output reaches the file *)
  Definition append (d : dir) (n : name) (x : list nat) : dir :=
    match d n with Some f => bind d n (Some (mkFile (f_read f) (f_write f) (f_data f ++ x))) | None => d end.

  Definition trace := (list dir)%type.                      (* earlier states, newest first *)
  (* cat(prefix, str(v), postfix) for v = 1 .. 9: prefix is the name and "~", postfix is empty *)
  Definition bak (fn : name) (v : nat) : name := fn ++ [126; 48 + v].
  Definition VERSIONS := 9.
  (* 1143-1150: last version before a gap *)
  Fixpoint scan (d : dir) (fn : name) (v todo last : nat) : nat :=
    match todo with
    | O => last
    | S k => if canRead d (bak fn v) then scan d fn (S v) k v else last
    end.
  (* 1163-1170 *)
  Fixpoint shiftUp (d : dir) (tr : trace) (fn : name) (v : nat) : dir * trace :=
    match v with
    | O => (d, tr)
    | S k => if canRead d (bak fn v) then let d' := rename d (bak fn v) (bak fn (v + 1)) in shiftUp d' (d :: tr) fn k
             else shiftUp d tr fn k
    end.
  (* 1103-1179: make room for the new file *)
  Definition backup (d : dir) (fn : name) : dir * trace :=
    if canRead d fn then
      let '(d, tr) :=
        if canRead d (bak fn 1) then
          let last := scan d fn 1 VERSIONS 0 in
          let '(d, tr, last) := if Nat.eqb last VERSIONS then (if canRead d (bak fn VERSIONS) then (remove d (bak fn VERSIONS), [d], last - 1) else (d, [], last - 1))
                                else (d, [], last) in
          shiftUp d tr fn last
        else (d, []) in
      (rename d fn (bak fn 1), d :: tr)
    else (d, []).
  (* fSafeOpen; the flag tells whether a file was opened *)
  Definition fSafeOpen (d : dir) (fn : name) (m : mode) (noVersioning : bool) : dir * trace * bool :=
    match m with
    | ModeR => (d, [], canRead d fn)
    | ModeW =>
        let '(d, tr) := if noVersioning then (d, []) else backup d fn in
        match openW d fn with Some d' => (d', d :: tr, true) | None => (d, tr, false) end
    | ModeD =>
        let '(d, tr) := if noVersioning then (d, []) else backup d fn in
        if noVersioning then (remove d fn, d :: tr, false) else (d, tr, false)
    end.
  (* the caller writes its output in blocks *)
  Fixpoint output (d : dir) (tr : trace) (fn : name) (blocks : list (list nat)) : dir * trace :=
    match blocks with [] => (d, tr) | x :: r => output (append d fn x) (d :: tr) fn r end.
  Definition save (d : dir) (fn : name) (m : mode) (noVersioning : bool) (blocks : list (list nat)) : dir * trace :=
    let '(d, tr, opened) := fSafeOpen d fn m noVersioning in
    if (opened : bool) then match m with ModeW => output d tr fn blocks | _ => (d, tr) end else (d, tr).
  (* the states in which the program may be stopped; the first one is the final state *)
  Definition states (d : dir) (fn : name) (m : mode) (noVersioning : bool) (blocks : list (list nat)) : list dir :=
    let '(d, tr) := save d fn m noVersioning blocks in d :: tr.
End Safe.
