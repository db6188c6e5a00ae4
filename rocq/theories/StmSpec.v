(* StmSpec.v -- scopes and frames as the Metamath language defines them (Metamath
   book, sec. 4.2), over the statements and their symbols' names.  Contains no
   function of the reader. *)
From Verif Require Import Base LabModel StmModel.
From Coq Require Import Permutation Sorted.
Open Scope nat_scope.
Notation name := (list nat).

(* what qsort guarantees for the table of symbols *)
Definition mqsorted (names : list name) (key : list nat) : Prop :=
  Permutation key (seq 0 (length names)) /\
  Sorted (fun i j => forall a b, nth_error names i = Some a -> nth_error names j = Some b ->
            strcmp a b <> Gt) key.

Section Spec.
  Variable sts : list sinp.

  (* statement number n (from 1) *)
  Definition stAt (n : nat) (i : sinp) : Prop := 0 < n /\ nth_error sts (n - 1) = Some i.
  Definition kindAt (n : nat) (k : kind) : Prop := exists i, stAt n i /\ si_kind i = k.
  Definition hasTok (n : nat) (x : name) : Prop := exists i, stAt n i /\ In x (si_toks i).
  Definition toksAt (n : nat) (l : list name) : Prop := exists i, stAt n i /\ si_toks i = l.

  (* nesting depth just before statement n *)
  Fixpoint balance (l : list sinp) : Z :=
    match l with
    | [] => 0
    | i :: r => ((match si_kind i with K_lb => 1 | K_rb => -1 | _ => 0 end) + balance r)%Z
    end.
  Definition depth (n : nat) : Z := balance (firstn (n - 1) sts).

  (* what statement h declares or states is in force at statement s: s comes later and
     the block of h has not been closed in between *)
  Definition inScope (h s : nat) : Prop :=
    0 < h < s /\ forall t, h < t <= s -> (depth h <= depth t)%Z.

  (* h declares x as a variable (vr = true) or a constant *)
  Definition declares (h : nat) (x : name) (vr : bool) : Prop :=
    kindAt h (if vr then K_v else K_c) /\ hasTok h x.
  (* x is an active variable (constant) at statement s *)
  Definition visible (x : name) (vr : bool) (s : nat) : Prop :=
    exists h, declares h x vr /\ inScope h s.

  (* ---- frames ---- *)
  (* x is a mandatory variable of assertion s *)
  Definition mandVar (s : nat) (x : name) : Prop :=
    visible x true s /\
    (hasTok s x \/ exists e, kindAt e K_e /\ inScope e s /\ hasTok e x).
  Definition mandHyp (s h : nat) : Prop :=
    inScope h s /\
    (kindAt h K_e \/ kindAt h K_f /\ exists c x, toksAt h [c; x] /\ mandVar s x).
  Definition optHyp (s h : nat) : Prop :=
    inScope h s /\ kindAt h K_f /\ exists c x, toksAt h [c; x] /\ ~ mandVar s x.
  (* x and y must be distinct at s *)
  Definition disjAt (s : nat) (x y : name) : Prop :=
    x <> y /\ exists d, kindAt d K_d /\ inScope d s /\ hasTok d x /\ hasTok d y.

  (* ---- legal statements ---- *)
  (* names newly declared by statement n: distinct, not in force already, and never
     both a constant and a variable anywhere *)
  Definition newNames (n : nat) (vr : bool) (xs : list name) : Prop :=
    NoDup xs /\ forall x, In x xs ->
      (forall v, ~ visible x v n) /\ (forall h v, declares h x v -> v = vr).
  Definition mathOK (n : nat) (xs : list name) : Prop :=
    exists c r, xs = c :: r /\ visible c false n /\ forall x, In x r -> exists v, visible x v n.
  (* f is an $f for variable x in force at s *)
  Definition floats (s f : nat) (x : name) : Prop :=
    inScope f s /\ kindAt f K_f /\ exists c, toksAt f [c; x].
  Definition asrtOK (n : nat) : Prop :=
    (* every variable has an $f in force; for an $e, one before the $e *)
    (forall x, hasTok n x -> visible x true n -> exists f, floats n f x) /\
    (forall e x, kindAt e K_e -> inScope e n -> hasTok e x -> visible x true n ->
       exists f, f < e /\ floats n f x) /\
    (* mandatory variables have only one $f *)
    (forall x f g, mandVar n x -> floats n f x -> floats n g x -> f = g).
  Definition legalStmt (n : nat) (i : sinp) : Prop :=
    match si_kind i with
    | K_lb => True
    | K_rb => (0 < depth n)%Z
    | K_c => (depth n = 0)%Z /\ si_toks i <> [] /\ newNames n false (si_toks i)
    | K_v => si_toks i <> [] /\ newNames n true (si_toks i)
    | K_d => 2 <= length (si_toks i) /\ NoDup (si_toks i) /\
             forall x, In x (si_toks i) -> visible x true n
    | K_f => exists c x, si_toks i = [c; x] /\ visible c false n /\ visible x true n
    | K_e => mathOK n (si_toks i)
    | K_a | K_p => mathOK n (si_toks i) /\ asrtOK n
    end.
  (* the databases this program accepts *)
  Definition legal : Prop :=
    (forall n i, stAt n i -> legalStmt n i) /\ depth (S (length sts)) = 0%Z.

  (* The language asks for more (Metamath book, p. 94 and sec. 4.2.4): every variable
     of every $e has an $f in force, and at most one $f for a variable is in force. *)
  Definition strict : Prop :=
    legal /\
    (forall e x, kindAt e K_e -> hasTok e x -> visible x true e -> exists f, floats e f x) /\
    (forall f g x, kindAt f K_f -> floats f g x -> ~ exists c, toksAt f [c; x]).

  (* ---- what the reader leaves behind ---- *)
  Variable toks : list mtok.
  (* token t is the declaration of x in force at statement n *)
  Definition denotes (t : nat) (x : name) (n : nat) : Prop :=
    exists k, nth_error toks t = Some k /\ mt_name k = x /\ inScope (mt_stmt k) n.
  Definition nameOf (t : nat) (x : name) : Prop :=
    exists k, nth_error toks t = Some k /\ mt_name k = x.

  (* the frame stored for assertion n is the one the language defines *)
  Record goodFrame (n : nat) (o : sout) : Prop := {
    gf_vars : forall x, mandVar n x <-> exists t, In t (o_reqVars o) /\ denotes t x n;
    gf_vars_nodup : NoDup (o_reqVars o);
    gf_vars_den : forall t, In t (o_reqVars o) -> exists x, denotes t x n;
    gf_hyps : forall h, In h (o_reqHyps o) <-> mandHyp n h;
    gf_hyps_sorted : StronglySorted lt (o_reqHyps o);
    gf_disj : forall x y, (mandVar n x /\ mandVar n y /\ disjAt n x y) <->
      exists a b d, In (a, b, d) (o_reqDisj o) /\ denotes a x n /\ denotes b y n \/
                    In (a, b, d) (o_reqDisj o) /\ denotes a y n /\ denotes b x n;
    gf_disj_ord : forall a b d, In (a, b, d) (o_reqDisj o) \/ In (a, b, d) (o_optDisj o) ->
      a < b /\ (exists x, denotes a x n) /\ (exists y, denotes b y n);
    (* only for $p *)
    gf_opt : o_kind o = K_p ->
      (forall h, In h (o_optHyps o) <-> optHyp n h) /\ StronglySorted lt (o_optHyps o) /\
      (forall x, visible x true n /\ ~ mandVar n x <-> exists t, In t (o_optVars o) /\ denotes t x n) /\
      (forall x y, disjAt n x y /\ ~ (mandVar n x /\ mandVar n y) <->
        exists a b d, In (a, b, d) (o_optDisj o) /\ denotes a x n /\ denotes b y n \/
                      In (a, b, d) (o_optDisj o) /\ denotes a y n /\ denotes b x n) }.

  (* what is stored for statement n *)
  Definition goodOut (n : nat) (i : sinp) (o : sout) : Prop :=
    o_kind o = si_kind i /\
    match si_kind i with
    | K_lb | K_rb => o_math o = []
    | K_c | K_v => Forall2 nameOf (o_math o) (si_toks i) /\
        forall t, In t (o_math o) -> exists k, nth_error toks t = Some k /\ mt_stmt k = n
    | _ => Forall2 (fun t x => denotes t x n) (o_math o) (si_toks i)
    end /\
    match si_kind i with K_a | K_p => goodFrame n o | _ => True end.
End Spec.
