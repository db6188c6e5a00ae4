(* DateProps.v -- C27: dates. *)
From Coq Require Import NArith.
From Verif Require Import Base VstrSpec FatlSpec DateModel DateSpec DateProofs.
Open Scope Z_scope.

(* buildDate writes the date, and parseDate reads it back. *)
Theorem C27_round_trip : forall d m y, day d m -> 100 <= y < 2 ^ 53 ->
  exists s, buildDate d m y = Ok s /\ written s d m y /\ parseDate s = Ok (false, d, m, y).
Proof. exact build_parse. Qed.
(* A date is written in only one way. *)
Theorem C27_unique : forall s s' d m y, written s d m y -> written s' d m y -> s = s'.
Proof. exact written_inj. Qed.
(* The format check of date fields accepts exactly the dates written that way with a year
   of at least three digits, and never fails on strings of at most 18 characters. *)
Theorem C27_check_exact : forall s, isStr s -> (formatOk s = Ok true <-> exists d m y, written s d m y /\ 100 <= y).
Proof. exact format_exact. Qed.
Theorem C27_check_total : forall s, isStr s -> (length s <= 18)%nat -> exists b, formatOk s = Ok b.
Proof. exact format_total. Qed.
(* compareDates agrees with the calendar, a missing date coming first; this is a total order. *)
Theorem C27_compare : forall s1 s2 v1 v2, field s1 v1 -> field s2 v2 ->
  (compareDates s1 s2 = Ok (-1) /\ before v1 v2) \/ (compareDates s1 s2 = Ok 0 /\ v1 = v2) \/ (compareDates s1 s2 = Ok 1 /\ before v2 v1).
Proof. exact compare_ok. Qed.
Theorem C27_order : (forall v, ~ before v v) /\ (forall a b c, before a b -> before b c -> before a c).
Proof. exact (conj before_irrefl before_trans). Qed.
(* The most recent date is one of the three fields, and none of them is later. *)
Theorem C27_most_recent : forall a b c va vb vc, field a va -> field b vb -> field c vc ->
  exists s v, mostRecent a b c = Ok s /\ field s v /\ In (s, v) [(a, va); (b, vb); (c, vc)] /\
    ~ before v va /\ ~ before v vb /\ ~ before v vc.
Proof. exact mostRecent_ok. Qed.
(* date() writes a date in the same form; going back day by day skips no date. *)
Theorem C27_today : forall d m y, day d m -> 1000 <= y <= 2 ^ 63 - 1 -> exists s, date d m y = Ok s /\ written s d m y.
Proof. exact date_ok. Qed.
Theorem C27_day_before : forall d m y, day d m -> let '(d', m', y') := decrement d m y in
  day d' m' /\ earlier d' m' y' d m y /\
  forall d2 m2 y2, day d2 m2 -> earlier d2 m2 y2 d m y -> (d2, m2, y2) = (d', m', y') \/ earlier d2 m2 y2 d' m' y'.
Proof. exact decrement_ok. Qed.

(* The error flag of parseDate does not mean a valid date: an unknown month is read as
   January ("5-Foo-2010"), and the format check accepts day 99 ("99-Feb-2010"). *)
Definition foo : list nat := [53; 45; 70; 111; 111; 45; 50; 48; 49; 48]%nat.
Definition day99 : list nat := [57; 57; 45; 70; 101; 98; 45; 50; 48; 49; 48]%nat.
Theorem C27_unknown_month_refuted :
  ~ (forall s d m y, isStr s -> parseDate s = Ok (false, d, m, y) -> exists y', written s d m y').
Proof.
  intros H. destruct (H foo 5 1 2010) as (y' & _ & _ & _ & ds & ms & ys & E & D & M & Y).
  - repeat constructor.
  - reflexivity.
  - cbn in M. injection M as <-. pose proof (FatlProofs.decimal_unique [53%nat] ds (Z.to_N 5)) as U.
    assert (isDecimal (Z.to_N 5) [53%nat]) as D5 by (split; [discriminate|split; [repeat constructor|split; [reflexivity|discriminate]]]).
    rewrite <- (U D5 D) in E. discriminate E.
Qed.
Theorem C27_check_day_refuted :
  ~ (forall s, isStr s -> formatOk s = Ok true -> exists e d m y, parseDate s = Ok (e, d, m, y) /\ day d m).
Proof.
  intros H. destruct (H day99) as (e & d & m & y & E & [D _]); [repeat constructor|reflexivity|].
  assert (parseDate day99 = Ok (true, 99, 2, 2010)) as P by reflexivity. rewrite P in E. injection E as <- <- <- <-. lia.
Qed.

(* concrete cases: 31-Dec-1999 and 1-Jan-2000 *)
Definition a31 : list nat := [51; 49; 45; 68; 101; 99; 45; 49; 57; 57; 57]%nat.
Definition a1 : list nat := [49; 45; 74; 97; 110; 45; 50; 48; 48; 48]%nat.
Example C27_case : field a31 (Some (31, 12, 1999)) /\ field a1 (Some (1, 1, 2000)) /\
  buildDate 31 12 1999 = Ok a31 /\ parseDate a1 = Ok (false, 1, 1, 2000) /\ compareDates a31 a1 = Ok (-1) /\
  mostRecent a31 [] a1 = Ok a1 /\ decrement 1 1 2000 = (31, 12, 1999) /\ formatOk [49; 45; 74; 97; 110; 45; 57; 57]%nat = Ok false.
Proof.
  assert (forall n l, n = Z.to_N (Z.of_N n) -> isDecimal n l -> isDecimal (Z.to_N (Z.of_N n)) l) as X by (intros n l <-; auto).
  split; [|split; [|repeat split; vm_compute; reflexivity]].
  - split; [|split; [split; lia|lia]]. split; [lia|]. split; [lia|]. split; [lia|].
    exists [51; 49]%nat, [68; 101; 99]%nat, [49; 57; 57; 57]%nat. split; [reflexivity|].
    split; [split; [discriminate|split; [repeat constructor|split; [reflexivity|discriminate]]]|]. split; [reflexivity|].
    split; [discriminate|split; [repeat constructor|split; [reflexivity|discriminate]]].
  - split; [|split; [split; lia|lia]]. split; [lia|]. split; [lia|]. split; [lia|].
    exists [49]%nat, [74; 97; 110]%nat, [50; 48; 48; 48]%nat. split; [reflexivity|].
    split; [split; [discriminate|split; [repeat constructor|split; [reflexivity|discriminate]]]|]. split; [reflexivity|].
    split; [discriminate|split; [repeat constructor|split; [reflexivity|discriminate]]].
Qed.

Print Assumptions C27_round_trip.
Print Assumptions C27_unique.
Print Assumptions C27_check_exact.
Print Assumptions C27_check_total.
Print Assumptions C27_compare.
Print Assumptions C27_order.
Print Assumptions C27_most_recent.
Print Assumptions C27_today.
Print Assumptions C27_day_before.
Print Assumptions C27_unknown_month_refuted.
Print Assumptions C27_check_day_refuted.
