(* PoolSpec.v -- what a program using nmbrStrings relies on: variables hold values. *)
From Verif Require Import Base PoolModel.
Open Scope Z_scope.

(* a variable is NULL_NMBRSTRING or holds an allocated string; temporary results are a
   list; an assignment discards the temporary results above start *)
Record astate := mkA { a_vars : nat -> option (list Z); a_temps : list (list Z); a_start : nat; a_saves : list nat }.
Definition astart : astate := mkA (fun _ => None) [] 0 [].
Definition avar (f : nat -> option (list Z)) (x : nat) (v : option (list Z)) : nat -> option (list Z) :=
  fun y => if Nat.eqb y x then v else f y.
Definition value (v : option (list Z)) : list Z := match v with Some l => l | None => [] end.
Definition stored (l : list Z) : option (list Z) := match l with [] => None | _ => Some l end.
Definition replace (l : list (list Z)) (k : nat) (x : list Z) : list (list Z) := firstn k l ++ x :: skipn (S k) l.
Definition asource (a : astate) (s : source) : option (list Z) :=
  match s with
  | SVar x => Some (value (a_vars a x))
  | STemp k => nth_error (a_temps a) k
  | SNull => Some []
  end.
(* None: the program breaks the rules of the interface *)
Definition astep (a : astate) (c : cmd) : option astate :=
  match c with
  | CTemp l => Some (mkA (a_vars a) (a_temps a ++ [l]) (a_start a) (a_saves a))
  | CLet x s => match asource a s with
                | Some l => Some (mkA (avar (a_vars a) x (stored l)) (firstn (a_start a) (a_temps a)) (a_start a) (a_saves a))
                | None => None
                end
  | CZapTemp k n => match nth_error (a_temps a) k with
                    | Some l => if (n <=? length l)%nat
                                then Some (mkA (a_vars a) (replace (a_temps a) k (firstn n l)) (a_start a) (a_saves a)) else None
                    | None => None
                    end
  | CZapVar x n => match a_vars a x with
                   | Some l => if (n <=? length l)%nat
                               then Some (mkA (avar (a_vars a) x (Some (firstn n l))) (a_temps a) (a_start a) (a_saves a)) else None
                   | None => None
                   end
  | CMake x => match a_vars a x with
               | None => Some a
               | Some [] => None
               | Some l => Some (mkA (avar (a_vars a) x None) (a_temps a ++ [l]) (a_start a) (a_saves a))
               end
  | CEnter => Some (mkA (a_vars a) (a_temps a) (length (a_temps a)) (a_start a :: a_saves a))
  | CLeave => match a_saves a with [] => None | s :: r => Some (mkA (a_vars a) (a_temps a) s r) end
  | CFixed x l => match a_vars a x, l with
                  | None, _ :: _ => Some (mkA (avar (a_vars a) x (Some l)) (a_temps a) (a_start a) (a_saves a))
                  | _, _ => None
                  end
  | CFree x => match a_vars a x with
               | Some _ => Some (mkA (avar (a_vars a) x None) (a_temps a) (a_start a) (a_saves a))
               | None => None
               end
  | CPurge => Some a
  end.
Fixpoint asteps (a : astate) (cs : list cmd) : option astate :=
  match cs with [] => Some a | c :: r => match astep a c with Some a => asteps a r | None => None end end.

(* the machine's variables and temporary strings have these values *)
Definition contents (p : pool) (s : nat) : option (list Z) := option_map k_data (p_heap p s).
Record holds (m : mach) (a : astate) : Prop := mkHolds {
  h_vars : forall x, match m_vars m x with None => a_vars a x = None
                                          | Some s => contents (m_pool m) s = a_vars a x /\ a_vars a x <> None end;
  h_temps : map (contents (m_pool m)) (m_temps m) = map Some (a_temps a);
  h_start : m_start m = a_start a;
  h_saves : m_saves m = a_saves a }.
(* the blocks in use by the program *)
Definition inUse (m : mach) (s : nat) : Prop := (exists x, m_vars m x = Some s) \/ In s (m_temps m).
(* no block is used twice, or used and free; nothing is lost *)
Record noSharing (m : mach) : Prop := mkNS {
  n_vars : forall x y s, m_vars m x = Some s -> m_vars m y = Some s -> x = y;
  n_temps : NoDup (m_temps m);
  n_var_temp : forall x s, m_vars m x = Some s -> ~ In s (m_temps m);
  n_free : forall s, inUse m s -> ~ In s (p_free (m_pool m));
  n_free_once : NoDup (p_free (m_pool m));
  n_leak : forall s, p_heap (m_pool m) s <> None <-> inUse m s \/ In s (p_free (m_pool m)) }.
(* memory can run out only when malloc says so or too many temporary strings are pending *)
Definition mayRunOut (maxTemp : nat) (cs : list cmd) (mal : list bool) : Prop :=
  In false mal \/ exists cs1 cs2 a1, cs = cs1 ++ cs2 /\ asteps astart cs1 = Some a1 /\ (maxTemp - 1 <= length (a_temps a1))%nat.
