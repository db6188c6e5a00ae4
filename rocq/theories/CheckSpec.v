(* CheckSpec.v -- what it means that the proof written in a $p statement is a correct proof
   (Metamath book, sec. 4.2.5): labels in reverse Polish notation, evaluated on a stack of
   expressions over the names of the text.  No function of the program is used. *)
From Verif Require Import Base LabModel StmModel TokSpec SrcSpec StmSpec ReadSpec.
From Coq Require Import Sorted.
Open Scope nat_scope.

Section Check.
  Variable items : list item.
  Variable sts : list sinp.

  (* x is the label of statement n *)
  Definition isLabel (n : nat) (x : name) : Prop :=
    exists i, 0 < n /\ nth_error items (n - 1) = Some i /\ words (it_lab i) [x].
  (* the mandatory hypotheses of a in the order of the text *)
  Definition mandHyps (a : nat) (hs : list nat) : Prop :=
    (forall h, In h hs <-> mandHyp sts a h) /\ StronglySorted lt hs.

  (* one step of a proof of statement n: what it does to the stack (top first).
     A hypothesis in force at n is pushed; an assertion before n takes instances of its
     mandatory hypotheses off the stack (the last on top) and puts the instance of
     its expression there, the substitution respecting the $d's. *)
  Inductive stepOf (n : nat) (l : name) : list (list name) -> list (list name) -> Prop :=
  | so_hyp h e S :
      isLabel h l -> kindAt sts h K_e \/ kindAt sts h K_f -> inScope sts h n -> toksAt sts h e ->
      stepOf n l S (e :: S)
  | so_app a hs es sg e e' S :
      isLabel a l -> kindAt sts a K_a \/ kindAt sts a K_p -> a < n -> mandHyps a hs ->
      Forall2 (fun h x => exists m, toksAt sts h m /\ instance sts sg m x) hs es ->
      (forall x y, mandVar sts a x -> mandVar sts a y -> disjAt sts a x y ->
         forall u v, In u (sg x) -> In v (sg y) -> isVar sts u -> isVar sts v -> disjAt sts n u v) ->
      toksAt sts a e -> instance sts sg e e' ->
      stepOf n l (rev es ++ S) (e' :: S).

  Inductive runOf (n : nat) : list name -> list (list name) -> list (list name) -> Prop :=
  | ro_nil S : runOf n [] S S
  | ro_step l ls S S1 S2 : stepOf n l S S1 -> runOf n ls S1 S2 -> runOf n (l :: ls) S S2.

  (* the proof section of $p statement n is a list of labels that proves n *)
  Definition provedByText (n : nat) : Prop :=
    exists i ls e, 0 < n /\ nth_error items (n - 1) = Some i /\ words (it_proof i) ls /\
      toksAt sts n e /\ runOf n ls [] [e].

  (* ---- the compressed format (Metamath book, Appendix B) ---- *)

  (* the upper-case letters of a text, white space and comments skipped *)
  Inductive lettersOf : list nat -> list nat -> Prop :=
  | lo_nil : lettersOf [] []
  | lo_space c r x : (9 <= c /\ c <= 13) \/ c = 32 -> lettersOf r x -> lettersOf (c :: r) x
  | lo_comment body r x : commentText body -> lettersOf r x ->
      lettersOf (dollar :: 40 :: body ++ dollar :: 41 :: r) x
  | lo_letter c r x : 65 <= c <= 90 -> lettersOf r x -> lettersOf (c :: r) (c :: x).

  (* numbers from 1 on: digits U..Y (1 to 5) in base 5, the last a letter A..T (1 to 20) in
     base 20; Z is a mark *)
  Inductive number : nat -> list nat -> nat -> Prop :=
  | nu_last acc d : d < 20 -> number acc [65 + d] (20 * acc + d + 1)
  | nu_digit acc d r i : d < 5 -> number (5 * acc + d + 1) r i -> number acc (85 + d :: r) i.
  Inductive code := Num (i : nat) | Mark.
  Inductive codes : list nat -> list code -> Prop :=
  | co_nil : codes [] []
  | co_num t i r cs : number 0 t i -> codes r cs -> codes (t ++ r) (Num i :: cs)
  | co_mark r cs : codes r cs -> codes (90 :: r) (Mark :: cs).

  (* stack; expressions saved by marks; was the last step the use of an assertion? *)
  Definition cstate : Type := list (list name) * list (list name) * bool.
  (* one code of a proof of n with mandatory hypotheses hs and label list ls *)
  Inductive codeStep (n : nat) (hs : list nat) (ls : list name) : code -> cstate -> cstate -> Prop :=
  | cs_mand i h e q sv b :
      nth_error hs i = Some h -> toksAt sts h e ->
      codeStep n hs ls (Num (S i)) (q, sv, b) (e :: q, sv, false)
  | cs_hyp i h l q q1 sv b :
      nth_error ls i = Some l -> isLabel h l -> kindAt sts h K_e \/ kindAt sts h K_f -> stepOf n l q q1 ->
      codeStep n hs ls (Num (S (length hs + i))) (q, sv, b) (q1, sv, false)
  | cs_app i a l q q1 sv b :
      nth_error ls i = Some l -> isLabel a l -> kindAt sts a K_a \/ kindAt sts a K_p -> stepOf n l q q1 ->
      codeStep n hs ls (Num (S (length hs + i))) (q, sv, b) (q1, sv, true)
  | cs_again i e q sv b :
      nth_error sv i = Some e ->
      codeStep n hs ls (Num (S (length hs + length ls + i))) (q, sv, b) (e :: q, sv, false)
  | cs_mark e q sv :
      codeStep n hs ls Mark (e :: q, sv, true) (e :: q, sv ++ [e], true).
  Inductive codeRun (n : nat) (hs : list nat) (ls : list name) : list code -> cstate -> cstate -> Prop :=
  | cr_nil s : codeRun n hs ls [] s s
  | cr_step c cs s s1 s2 : codeStep n hs ls c s s1 -> codeRun n hs ls cs s1 s2 -> codeRun n hs ls (c :: cs) s s2.

  Definition pairIn (a b : nat) (l : list nat) : Prop := exists p q, l = p ++ a :: b :: q.

  (* the proof section of $p statement n is "( labels ) letters" and proves n.  The labels are
     those of assertions before n and of hypotheses in force at n that are not mandatory.  A
     section with "UV" somewhere but without "UU" in the letters is read by an obsolete rule
     and is not counted. *)
  Definition provedCompressed (n : nat) : Prop :=
    exists i w a b ls x cs hs e sv f, 0 < n /\ nth_error items (n - 1) = Some i /\
      it_proof i = w ++ 40 :: a ++ 41 :: b /\ words w [] /\ words a ls /\ lettersOf b x /\ codes x cs /\
      (~ pairIn 85 86 (it_proof i) \/ pairIn 85 85 b) /\
      (forall l, In l ls -> exists h, isLabel h l /\
         (h < n /\ (kindAt sts h K_a \/ kindAt sts h K_p) \/
          inScope sts h n /\ (kindAt sts h K_e \/ kindAt sts h K_f) /\ ~ mandHyp sts n h)) /\
      mandHyps n hs /\ toksAt sts n e /\ codeRun n hs ls cs ([], [], false) ([e], sv, f).

  (* the two layouts above, whether or not what is written proves anything: label words, or
     label words in parentheses followed by letters; no "?" and no other format *)
  Definition labelWords (ls : list name) : Prop := Forall (fun t => Forall labelSym t) ls.
  Definition listLayout (p : list nat) : Prop := exists ls, words p ls /\ labelWords ls.
  Definition packedLayout (p : list nat) : Prop :=
    exists w a b ls x, p = w ++ 40 :: a ++ 41 :: b /\ words w [] /\ words a ls /\ labelWords ls /\ lettersOf b x /\
      (~ pairIn 85 86 p \/ pairIn 85 85 b).

  (* the proof written in $p statement n proves it *)
  Definition proofCorrect (n : nat) : Prop := provedByText n \/ provedCompressed n.
End Check.
