(* DateSpec.v -- dates as users write them. *)
From Coq Require Import NArith.
From Verif Require Import Base FatlSpec.
Open Scope Z_scope.

Definition monthNames : list (list nat) :=
  [[74; 97; 110]; [70; 101; 98]; [77; 97; 114]; [65; 112; 114]; [77; 97; 121]; [74; 117; 110];
   [74; 117; 108]; [65; 117; 103]; [83; 101; 112]; [79; 99; 116]; [78; 111; 118]; [68; 101; 99]]%nat.
(* s is the date d-Mmm-y, in decimal without leading zeros *)
Definition written (s : list nat) (d m y : Z) : Prop :=
  0 <= d <= 2 ^ 63 - 1 /\ 1 <= m <= 12 /\ 0 <= y <= 2 ^ 63 - 1 /\
  exists ds ms ys, s = ds ++ [45%nat] ++ ms ++ [45%nat] ++ ys /\
    isDecimal (Z.to_N d) ds /\ nth_error monthNames (Z.to_nat (m - 1)) = Some ms /\ isDecimal (Z.to_N y) ys.
(* a day of the calendar, up to the length of its month *)
Definition day (d m : Z) : Prop := 1 <= d <= 31 /\ 1 <= m <= 12.
Definition earlier (d1 m1 y1 d2 m2 y2 : Z) : Prop :=
  y1 < y2 \/ (y1 = y2 /\ (m1 < m2 \/ (m1 = m2 /\ d1 < d2))).
(* a date field of a comment: missing, or a date *)
Definition field (s : list nat) (v : option (Z * Z * Z)) : Prop :=
  match v with
  | None => s = []
  | Some (d, m, y) => written s d m y /\ day d m /\ 100 <= y < 2 ^ 53
  end.
(* a missing date is before any other *)
Definition before (a b : option (Z * Z * Z)) : Prop :=
  match a, b with
  | None, Some _ => True
  | Some (d1, m1, y1), Some (d2, m2, y2) => earlier d1 m1 y1 d2 m2 y2
  | _, None => False
  end.
