(* MbxSpec.v -- mathboxes as the documentation describes them. *)
From Verif Require Import Base VstrSpec.
Open Scope nat_scope.

(* "Mathbox for " *)
Definition heading : list nat := [77; 97; 116; 104; 98; 111; 120; 32; 102; 111; 114; 32].
(* the text before a label has a mathbox heading; the last one is followed, on its line,
   by the name of the user *)
Definition opens (s : list nat) : Prop := exists p, occurs heading s p.
Definition headed (s u : list nat) : Prop := exists a b, s = a ++ heading ++ u ++ 10 :: b /\ ~ In 10 u /\
  forall q, occurs heading s q -> q <= length a + 1.
Definition section (sects : list (list nat)) (k : nat) (s : list nat) : Prop := 1 <= k /\ nth_error sects (k - 1) = Some s.
(* statement k is in the mathbox of user u that begins with statement h: h is after the
   statement mb ("mathbox") and not after k, is headed, and no later statement up to k is *)
Definition inBox (sects : list (list nat)) (mb k h : nat) (u : list nat) : Prop :=
  mb < h <= k /\ (exists s, section sects h s /\ headed s u) /\
  forall j s, h < j <= k -> section sects j s -> ~ opens s.
Definition inNone (sects : list (list nat)) (mb k : nat) : Prop :=
  forall j s, mb < j <= k -> section sects j s -> ~ opens s.
(* each last heading is ended by a line feed *)
Definition lines (sects : list (list nat)) (mb : nat) : Prop :=
  forall k s, mb < k -> section sects k s -> opens s -> exists u, headed s u.
