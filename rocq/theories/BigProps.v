(* BigProps.v -- C22: big-number step counts are exact. *)
From Verif Require Import Base VstrModel BigModel BigSpec BigProofs.
Open Scope nat_scope.
Theorem C22_bigAdd_exact : forall s1 s2, digits s1 -> digits s2 ->
  exists t, bigAdd s1 s2 = Ok t /\ canonical t /\ value t = (value s1 + value s2)%Z.
Proof. exact bigAdd_ok. Qed.
Print Assumptions C22_bigAdd_exact.
Theorem C22_bigSub_exact : forall s1 s2, digits s1 -> digits s2 -> (value s2 <= value s1)%Z ->
  exists t, bigSub s1 s2 = Ok t /\ canonical t /\ value t = (value s1 - value s2)%Z.
Proof. exact bigSub_ok. Qed.
Print Assumptions C22_bigSub_exact.
(* a number has one canonical digit string, so the results are determined *)
Theorem C22_canonical_unique : forall s t, canonical s -> canonical t -> value s = value t -> s = t.
Proof. exact value_inj. Qed.
Print Assumptions C22_canonical_unique.
(* 1234 + 977 = 2211; 1000 - 999 = 1; 5 - 5 = "" *)
Example C22_example : bigAdd [49;50;51;52] [57;55;55] = Ok [50;50;49;49] /\
  bigSub [49;48;48;48] [57;57;57] = Ok [49] /\ bigSub [53] [53] = Ok [].
Proof. repeat split. Qed.
