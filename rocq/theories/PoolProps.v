(* PoolProps.v -- C42: the memory pools. *)
From Verif Require Import Base PoolModel PoolSpec PoolMach.
Open Scope Z_scope.

(* For every program that keeps to the interface (asteps is defined), every element size,
   purge limit and growth step, and every answer of malloc outside memFreePoolPurge: the
   pools never misbehave (UB and the bug checks are distinct outcomes); every variable and
   temporary string has the value the program gave it; no block is in use twice, or in use
   and free, or lost; the total kept equals the sum over the pools; and the program stops
   for lack of memory only if malloc said so or the stack of temporary strings is full. *)
Theorem C42_pools_hold_values : forall w absMax grow maxTemp cs mal malP a', 0 < w -> (0 < grow)%nat ->
  Forall (eq true) malP -> asteps astart cs = Some a' ->
  (execs w absMax grow maxTemp (mach0 mal malP) cs = oom /\ mayRunOut maxTemp cs mal) \/
  exists m, execs w absMax grow maxTemp (mach0 mal malP) cs = Ok m /\ holds m a' /\ noSharing m /\
    exists x y z, getPoolStats (m_pool m) = Ok (x, y, z) /\ p_total (m_pool m) = x + y.
Proof. exact program_ok. Qed.

(* a program with reuse of a freed block, growth, a nested function and a purge, with the
   program's constants: it runs, and one malloc of it may fail and be retried *)
Definition prog : list cmd :=
  [CTemp [1; 2; 3]; CLet 0 (STemp 0); CTemp [7]; CLet 1 (STemp 0); CLet 1 (SVar 0); CEnter; CFixed 2 [5; 6]; CMake 2; CLeave;
   CZapTemp 0 1; CLet 3 (STemp 0); CZapVar 0 2; CLet 1 SNull; CTemp [9]; CLet 4 (STemp 0); CFree 3; CPurge].
Example C42_case : exists a, asteps astart prog = Some a /\ a_vars a 0%nat = Some [1; 2] /\ a_vars a 1%nat = None /\
  a_vars a 4%nat = Some [9] /\ a_temps a = [] /\
  (exists m, execs 4 1000000 1000 1000 (mach0 [] []) prog = Ok m /\
     option_map (contents (m_pool m)) (m_vars m 0%nat) = Some (Some [1; 2]) /\ length (p_used (m_pool m)) = 1%nat /\
     getPoolStats (m_pool m) = Ok (0, 4, 20)).
Proof.
  eexists. split; [vm_compute; reflexivity|]. repeat (split; [vm_compute; reflexivity|]).
  eexists. split; [vm_compute; reflexivity|]. repeat split; vm_compute; reflexivity.
Qed.
Example C42_case_oom : execs 4 1000000 1000 1000 (mach0 [true; false] []) [CTemp [1]; CTemp [2]] = oom.
Proof. vm_compute. reflexivity. Qed.

(* The malloc in memFreePoolPurge is not checked.  If it fails, the next poolFree writes
   through the null pointer. *)
Definition lots (n : nat) : list cmd := concat (map (fun x => [CFixed x [1]]) (seq 0 n)) ++ concat (map (fun x => [CFree x]) (seq 0 n)).
Theorem C42_purge_malloc_failure_refuted :
  ~ (forall cs malP a', asteps astart cs = Some a' ->
     execs 4 1000000 2 1000 (mach0 [] malP) cs = oom \/ exists m, execs 4 1000000 2 1000 (mach0 [] malP) cs = Ok m).
Proof.
  intros H. specialize (H (lots 3 ++ [CPurge; CFixed 0 [1]; CFree 0]) [false]).
  specialize (H _ eq_refl). destruct H as [H|[m H]]; vm_compute in H; discriminate H.
Qed.

Print Assumptions C42_pools_hold_values.
Print Assumptions C42_purge_malloc_failure_refuted.
