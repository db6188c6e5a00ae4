(* ReadExample.v -- a small database as text, with one qsort and bsearch the C library
   might have; used to show that the theorems of ReadProps.v apply. *)
From Verif Require Import Base LabModel LabSpec LabProofs StmModel StmSpec VerModel ParModel ReadModel.
From Coq Require Import Permutation Sorted String Ascii.
Open Scope nat_scope.

Section Sort.
  Variable le : nat -> nat -> bool.
  Fixpoint ins (k : nat) (l : list nat) : list nat :=
    match l with
    | [] => [k]
    | x :: r => if le k x then k :: x :: r else x :: ins k r
    end.
  Definition isort (l : list nat) : list nat := fold_right ins [] l.
  Lemma ins_perm k l : Permutation (ins k l) (k :: l).
  Proof.
    induction l as [|x l IH]; cbn; [reflexivity|]. destruct (le k x); [reflexivity|].
    rewrite IH. apply perm_swap.
  Qed.
  Lemma isort_perm l : Permutation (isort l) l.
  Proof. induction l as [|x l IH]; cbn; [reflexivity|]. now rewrite ins_perm, IH. Qed.
  Variable R : nat -> nat -> Prop.
  Hypothesis L1 : forall a b, le a b = true -> R a b.
  Hypothesis L2 : forall a b, le a b = false -> R b a.
  Lemma ins_sorted k l : Sorted R l -> Sorted R (ins k l).
  Proof.
    induction 1 as [|x l S IH H]; cbn; [repeat constructor|]. destruct (le k x) eqn:E.
    - constructor; [now constructor|]. constructor. auto.
    - constructor; [exact IH|]. destruct l as [|y l]; cbn; [constructor; auto|].
      destruct (le k y); constructor; auto. now inversion H.
  Qed.
  Lemma isort_sorted l : Sorted R (isort l).
  Proof. induction l; cbn; [constructor|]. now apply ins_sorted. Qed.
End Sort.
Definition strLe (a b : list nat) : bool := match strcmp a b with Gt => false | _ => true end.
Lemma strLe_t a b : strLe a b = true -> strcmp a b <> Gt.
Proof. unfold strLe. destruct (strcmp a b); congruence. Qed.
Lemma strLe_f a b : strLe a b = false -> strcmp b a <> Gt.
Proof. unfold strLe. rewrite (strcmp_opp a b). destruct (strcmp a b); cbn; congruence. Qed.

(* an ISO C qsort and bsearch *)
Definition exLsort (st : list lstmt) : list nat :=
  isort (fun i j => strLe (lab st i) (lab st j)) (seq 1 (List.length st)).
Definition exMsort (names : list (list nat)) : list nat :=
  isort (fun i j => strLe (nth i names []) (nth j names [])) (seq 0 (List.length names)).
Definition exFind (tab : list (label * Z)) (l : label) : option Z :=
  match find (fun e => if list_eq_dec Nat.eq_dec (fst e) l then true else false) tab with
  | Some e => Some (snd e)
  | None => None
  end.
Lemma exLsort_ok st : qsorted st (exLsort st).
Proof.
  split; [apply isort_perm|]. apply isort_sorted; intros i j H a b HA HB; unfold labelOf in *;
  (destruct (lnth st i) as [si|] eqn:Ei; [|discriminate]); (destruct (lnth st j) as [sj|] eqn:Ej; [|discriminate]);
  cbn in HA, HB; apply Ok_inj in HA, HB; subst; unfold lab in H; rewrite Ei, Ej in H; [now apply strLe_t|now apply strLe_f].
Qed.
Lemma exMsort_ok names : mqsorted names (exMsort names).
Proof.
  split; [apply isort_perm|]. apply isort_sorted; intros i j H a b HA HB; apply (nth_error_nth _ _ []) in HA, HB; subst;
  [now apply strLe_t|now apply strLe_f].
Qed.
Lemma exFind_some tab l j : exFind tab l = Some j -> In (l, j) tab.
Proof.
  unfold exFind. match goal with |- context [find ?f tab] => destruct (find f tab) as [e|] eqn:E end; [|discriminate]. intros [= <-]. apply find_some in E. destruct E as [E1 E2].
  destruct (list_eq_dec Nat.eq_dec (fst e) l) as [<-|]; [|discriminate]. now destruct e.
Qed.
Lemma exFind_none tab l : exFind tab l = None -> forall j, ~ In (l, j) tab.
Proof.
  unfold exFind. match goal with |- context [find ?f tab] => destruct (find f tab) as [e|] eqn:E end; [discriminate|]. intros _ j H. pose proof (find_none _ _ E _ H) as Q. cbn [fst] in Q.
  destruct (list_eq_dec Nat.eq_dec l l) as [|N]; [discriminate|now elim N].
Qed.

Definition codes (s : string) : list nat := map nat_of_ascii (list_ascii_of_string s).
Definition nl := String (ascii_of_nat 10) EmptyString.
Definition exText : list nat := codes (
  "$( a small database $)" ++ nl ++
  "$c wff |- ( ) -> $.  $v p q $." ++ nl ++
  "wp $f wff p $.  wq $f wff q $." ++ nl ++
  "wi $a wff ( p -> q ) $." ++ nl ++
  "${ mp1 $e |- p $.  mp2 $e |- ( p -> q ) $.  mp $a |- q $. $}" ++ nl ++
  "${ h1 $e |- p $. h2 $e |- ( p -> ( p -> q ) ) $." ++ nl ++
  "   th $p |- q $= wp wq h1 wp wp wq wi h1 h2 mp mp $. $}" ++ nl ++
  "${ $v r $.  wr $f wff r $.  $d p r $.  k1 $e |- p $.  k2 $e |- ( p -> ( p -> r ) ) $." ++ nl ++
  "   th2 $p |- r $= ( th ) ABCDE $. $}" ++ nl)%string.
Definition exBad : list nat := codes "$ca$.$cb$.$cc$.$cd$.$ce$.$cf$. "%string.
