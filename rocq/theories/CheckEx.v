(* CheckEx.v -- splitting a concrete text into words and letters, for the examples. *)
From Verif Require Import Base LabModel StmModel TokSpec SrcSpec StmSpec ReadSpec CheckSpec.
Open Scope nat_scope.

Definition grb (c : nat) : bool := (33 <=? c) && (c <=? 126).
Lemma grb_spec c : grb c = true <-> graphic c.
Proof. unfold grb, graphic. rewrite andb_true_iff, !Nat.leb_le. tauto. Qed.
Lemma grb_no c : grb c = false -> ~ graphic c.
Proof. intros E G. apply grb_spec in G. congruence. Qed.
Fixpoint spl (l : list nat) : list name :=
  match l with
  | [] => []
  | c :: r => if grb c then
                match r with
                | d :: _ => if grb d then match spl r with t :: ts => (c :: t) :: ts | [] => [[c]] end else [c] :: spl r
                | [] => [[c]]
                end
              else spl r
  end.
Lemma spl_words : forall l, ~ In dollar l -> words l (spl l).
Proof.
  induction l as [|c l IH]; intros N; [constructor|]. specialize (IH (fun I => N (or_intror I))). cbn [spl].
  destruct (grb c) eqn:GC; [|now constructor; [apply grb_no|]]. apply grb_spec in GC.
  assert (TC : tokenText [c]) by (constructor; [exact GC| |constructor]; intros ->; apply N; now left).
  destruct l as [|d l]; [apply (w_word [c] [] []); [discriminate|exact TC|exact I|constructor]|].
  destruct (grb d) eqn:GD; [|apply (w_word [c] (d :: l)); [discriminate|exact TC|left; now apply grb_no|exact IH]].
  apply grb_spec in GD. remember (d :: l) as l0 eqn:El. destruct IH as [|e r xs G W|body r xs C W|t r xs NE T TE W].
  - discriminate.
  - injection El as -> ->. contradiction.
  - exfalso. apply N. right. left. reflexivity.
  - rewrite app_comm_cons. constructor; [discriminate| |exact TE|exact W]. constructor; [exact GC| |exact T]. intros ->. apply N. now left.
Qed.
Definition symb (c : nat) : bool :=
  (48 <=? c) && (c <=? 57) || (65 <=? c) && (c <=? 90) || (97 <=? c) && (c <=? 122) || (c =? 45) || (c =? 95) || (c =? 46).
Lemma symb_spec c : symb c = true -> labelSym c.
Proof. unfold symb, labelSym. rewrite !orb_true_iff, !andb_true_iff, !Nat.leb_le, !Nat.eqb_eq. lia. Qed.
Lemma syms_ok ls : forallb (forallb symb) ls = true -> labelWords ls.
Proof.
  intros E. unfold labelWords. apply Forall_forall. intros t I. apply Forall_forall. intros c Ic. apply symb_spec.
  rewrite forallb_forall in E. specialize (E t I). rewrite forallb_forall in E. auto.
Qed.
Definition noDollar (l : list nat) : bool := forallb (fun c => negb (c =? dollar)) l.
Lemma noDollar_ok l : noDollar l = true -> ~ In dollar l.
Proof. unfold noDollar. rewrite forallb_forall. intros E I. specialize (E _ I). now rewrite Nat.eqb_refl in E. Qed.
Lemma list_layout l : noDollar l = true -> forallb (forallb symb) (spl l) = true -> listLayout l.
Proof. intros A B. exists (spl l). split; [apply spl_words; now apply noDollar_ok|now apply syms_ok]. Qed.
Fixpoint upTo (c : nat) (l : list nat) : list nat * list nat :=
  match l with
  | [] => ([], [])
  | d :: r => if d =? c then ([], r) else let '(a, b) := upTo c r in (d :: a, b)
  end.
Definition okLetter (c : nat) : bool := (9 <=? c) && (c <=? 13) || (c =? 32) || (65 <=? c) && (c <=? 90).
Fixpoint letters (l : list nat) : list nat := match l with [] => [] | c :: r => if 65 <=? c then c :: letters r else letters r end.
Lemma letters_ok l : forallb okLetter l = true -> lettersOf l (letters l).
Proof.
  induction l as [|c l IH]; [constructor|]. cbn [forallb letters]. intros E. apply andb_true_iff in E. destruct E as [E1 E2]. specialize (IH E2).
  unfold okLetter in E1. rewrite !orb_true_iff, !andb_true_iff, !Nat.leb_le, !Nat.eqb_eq in E1.
  destruct (Nat.leb_spec 65 c); constructor; auto; lia.
Qed.
Fixpoint pairb (a b : nat) (l : list nat) : bool :=
  match l with x :: (y :: _) as r => (x =? a) && (y =? b) || pairb a b r | _ => false end.
Lemma pairb_ok a b l : pairb a b l = false -> ~ pairIn a b l.
Proof.
  intros E (p & q & ->). induction p as [|x p IH].
  - cbn in E. now rewrite !Nat.eqb_refl in E.
  - apply IH. cbn [app] in E. destruct p as [|y p]; cbn [app] in *; (change (pairb a b (x :: ?l)) with ((x =? a) && false || pairb a b l) in E || idtac);
      cbn [pairb] in E; apply orb_false_iff in E; exact (proj2 E).
Qed.
Lemma packed_layout w a b : noDollar w = true -> spl w = [] -> noDollar a = true -> forallb (forallb symb) (spl a) = true ->
  forallb okLetter b = true -> pairb 85 86 (w ++ 40 :: a ++ 41 :: b) = false -> packedLayout (w ++ 40 :: a ++ 41 :: b).
Proof.
  intros A B C D E F. exists w, a, b, (spl a), (letters b). split; [reflexivity|]. split; [rewrite <- B; apply spl_words; now apply noDollar_ok|].
  split; [apply spl_words; now apply noDollar_ok|]. split; [now apply syms_ok|]. split; [now apply letters_ok|]. left. now apply pairb_ok.
Qed.
