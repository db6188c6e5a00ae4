(* LineProps.v -- C39 (printLongLine) and C44 for the text SAVE PROOF stores. *)
From Coq Require Import String List.
From Verif Require Import Base MMSpec VerModel VerSpec VerExample TokModel ParModel ParSpec ParExample SqModel CmpModel CmpSpec CmpProofs CmpRound
  OrdModel OrdProps ParWit ParProps SqProps VstrModel VstrSpec LineModel LineSpec LineProofs LineText SavModel LineCmp SavProofs.
Import ListNotations.
Open Scope nat_scope.

Ltac isstr := apply Forall_forall; let c := fresh in let H := fresh in intros c H; vm_compute in H;
  repeat (destruct H as [<-|H]; [lia|]); destruct H.

(* ---------------- C39 ---------------- *)
(* On a screen of width 4 or more, printLongLine stops and either hits trap 1516
   (possible only if a break character other than a space occurs) or prints each line
   of the text as lines obtained by breaking it at allowed places only, continuation
   lines beginning with the given start; no line is longer than the screen, except
   when the text has an unbreakable run that is too long for it.  In the HTML style the
   text is the given one with spaces in quotations protected (printed as spaces). *)
Theorem C39_lines : forall fuel w line start brk, (4 <= w)%Z -> isStr line -> isStr start -> stylesOk start brk -> ~ In 3 brk ->
  (2 * len line + 2 < Z.of_nat fuel)%Z ->
  (printLongLine fuel w line start brk = Bug 1516 /\ exists c, In c line /\ breakChar (breaksOf brk) c /\ c <> 32) \/
  exists text ls lss,
    (if hdIs 34 brk then protects line text else text = line) /\
    linesOf text ls /\
    Forall2 (wrapped (breaksOf brk) (hdIs 1 brk) (startOf w start) (postOf start) (minRun w start brk) true) ls lss /\
    printLongLine fuel w line start brk = Ok (map (map unquote) (concat lss)) /\
    Forall2 (fun l r => forall x, In x r -> widthOk w start brk l x) ls lss.
Proof. exact pll_ok. Qed.

(* With a start of blanks, every non-blank character is printed once and in order. *)
Theorem C39_no_character_lost : forall fuel w line start brk out, (4 <= w)%Z -> isStr line -> ~ In 3 line -> ~ In 3 brk ->
  Forall (fun c => c = 32) start -> (2 * len line + 2 < Z.of_nat fuel)%Z ->
  printLongLine fuel w line start brk = Ok out -> ink (joinNl out) = ink line.
Proof. exact pll_ink. Qed.

(* When lines can be broken at spaces only, no trap is reached and the words printed
   are the words of the text. *)
Theorem C39_words : forall fuel w line start brk, (4 <= w)%Z -> isStr line -> ~ In 3 line -> ~ In 3 brk ->
  Forall (fun c => c = 32) start -> brk <> [] -> hdIs 38 brk = false ->
  (forall c, In c line -> breakChar (breaksOf brk) c -> c = 32) -> (2 * len line + 2 < Z.of_nat fuel)%Z ->
  exists out, printLongLine fuel w line start brk = Ok out /\ words (joinNl out) = words line.
Proof. exact pll_words. Qed.

(* If every unbreakable run of the text fits on a continuation line, no line printed is
   longer than the screen. *)
Theorem C39_width : forall fuel w line start brk out, (4 <= w)%Z -> isStr line -> isStr start -> stylesOk start brk -> ~ In 3 brk ->
  (2 * len line + 2 < Z.of_nat fuel)%Z ->
  (forall text ls l r, (if hdIs 34 brk then protects line text else text = line) -> linesOf text ls -> In l ls ->
     unbreakable (breaksOf brk) l r -> (len r + len (startOf w start) + reserved start brk <= w)%Z) ->
  printLongLine fuel w line start brk = Ok out -> forall x, In x out -> (len x <= w)%Z.
Proof.
  intros fuel w line start brk out W HL HS SO N3 FU HR E x Ix.
  destruct (pll_ok fuel w line start brk W HL HS SO N3 FU) as [[B _]|[text [ls [lss [T [L [_ [B F]]]]]]]]; [congruence|].
  rewrite B in E. apply Ok_inj in E. subst out. apply in_map_iff in Ix. destruct Ix as [y [<- Iy]].
  unfold len. rewrite map_length. fold (len y). apply in_concat in Iy. destruct Iy as [r [Ir Iy]].
  assert (G : exists l, In l ls /\ widthOk w start brk l y).
  { clear -F Ir Iy. induction F as [|a b la lb Q F IH]; [destruct Ir|]. destruct Ir as [->|Ir].
    - exists a. split; [left; reflexivity|apply Q, Iy].
    - destruct (IH Ir) as [l [I X]]. exists l. split; [right; exact I|exact X]. }
  destruct G as [l [Il [X|[u [U [X _]]]]]]; [exact X|]. specialize (HR text ls l u T L Il U). lia.
Qed.

(* A compressed proof is laid out so that it is read back as the same labels and
   letters; the text ends in " $." (metamath.c:3812 relies on that). *)
Theorem C39_compressed : forall fuel w ind names letters, (4 <= w)%Z -> Forall okName names -> okLetters letters ->
  (2 * len (proofText ind names letters) + 2 < Z.of_nat fuel)%Z ->
  exists out sec tx, printLongLine fuel w (proofText ind names letters) (repeat 32 ind) [38; 32] = Ok out /\
    joinNl out = sec ++ [36; 46] /\ laidOut names letters sec tx /\
    ((5 <= w)%Z -> 0 < ind -> exists K, sec = K ++ [32]).
Proof. exact pll_compressed. Qed.

(* What does not hold: after one unbreakable run that is too long, later lines, which
   could be broken, exceed the screen too (the width is raised for the rest of the line). *)
Theorem C39_later_lines_refuted : exists fuel w line start brk out a b,
  (4 <= w)%Z /\ isStr line /\ printLongLine fuel w line start brk = Ok out /\
  In (a ++ 32 :: b) out /\ In 32 brk /\ 2 < length a /\ (w < len (a ++ 32%nat :: b))%Z /\
  forall r, unbreakable brk (a ++ 32 :: b) r -> (len r + len start <= w)%Z.
Proof.
  exists 200, 10%Z, (codes "aa bb ccccccccccccccc dd ee ff gg hh ii jj kk"), (codes "  "), [32].
  exists [codes "aa bb"; codes "ccccccccccccccc"; codes "  dd ee ff gg"; codes "  hh ii jj kk"].
  exists (codes "  dd ee"), (codes "ff gg").
  split; [lia|]. split; [isstr|]. split; [vm_compute; reflexivity|].
  split; [right; right; left; reflexivity|]. split; [left; reflexivity|]. split; [simpl; lia|]. split; [vm_compute; reflexivity|].
  intros r [[u [v E]] N]. change (len (codes "  ")) with 2%Z. unfold len.
  assert (G : length r <= 3); [|lia]. destruct (le_lt_dec (length r) 3) as [H|H]; [exact H|exfalso].
  assert (N' : ~ In 32 r). { intros I. apply (N 32 I). unfold breakChar. simpl. auto. }
  destruct r as [|c1 [|c2 [|c3 [|c4 r]]]]; simpl in H; try lia.
  vm_compute in E.
  do 14 (destruct u as [|? u]; cbn [app] in E;
    [solve [try discriminate; injection E; intros; subst; apply N'; simpl; tauto]|try discriminate; injection E as _ E]);
  destruct u; discriminate.
Qed.

(* SET WIDTH accepts 3 (metamath.c:6009); the tilde style then traps. *)
Theorem C39_width_3_refuted : exists line, printLongLine 100 3 line [126] [32] = Bug 1524.
Proof. exists (codes "ab cd ef"). vm_compute. reflexivity. Qed.
(* trap 1516 with a break character other than a space *)
Theorem C39_bug1516_refuted : exists line, isStr line /\ printLongLine 100 10 line [] [32; 47] = Bug 1516.
Proof. exists (codes "/abcdefghijkl"). split; [isstr|]. vm_compute. reflexivity. Qed.

(* ---------------- C44 ---------------- *)
(* The command from the parsed proof to the stored section: it reaches no trap, and the
   stored section, followed by "$.", is read back as a proof with the same validity,
   incomplete exactly when the original was (but see C11 for the last hypothesis). *)
Theorem C44_saved_section_partial : forall env n st p w back, (5 <= w)%Z ->
  wf_db (e_db env) -> wf_env env -> uniq_env env -> stmtAt (e_db env) n st -> s_type st = S_p ->
  goodProof (e_db env) n st p ->
  (forall h, In h (s_reqHyps st) \/ In h (s_optHyps st) -> h < n) ->
  (forall m sm, stmtAt (e_db env) m sm -> labelled sm ->
     (Z.of_nat (length (e_name env m)) <= w - Z.of_nat (sourceIndentation back) - 2)%Z) ->
  exists bound q sec names letters tx,
    (forall fuel, bound < fuel -> saveCompressed fuel env n w back (map encStep p) = Ok sec) /\
    laidOut names letters sec tx /\
    goodProof (e_db env) n st q /\ (validProof (e_db env) st q <-> validProof (e_db env) st p) /\
    forall rest prev fuel,
      (Z.of_nat (wrkMax prev st sec) <= maxLong)%Z -> length (sec ++ chDollar :: chDot :: rest) < fuel ->
      (length (s_reqHyps st) + length names + numLoc q <= 120 \/ hasPair2 85 85 tx = true \/ hasPair2 85 86 sec = false) ->
      exists k, parseText fuel env n (wrkMax prev st sec) sec (chDollar :: chDot :: rest) =
        Ok (Some (k, map encStep q, 0)) /\ (k = 1 /\ In Unk p \/ k = 0 /\ ~ In Unk p).
Proof. exact saved. Qed.

(* ---------------- examples ---------------- *)
Example ex_C39_wrap : printLongLine 200 12 (codes "the quick brown fox  jumps") (codes "  ") [32] =
  Ok [codes "the quick"; codes "  brown fox "; codes "  jumps"].
Proof. vm_compute. reflexivity. Qed.
Example ex_C39_html : printLongLine 100 20 (codes "<A HREF=""a b c d e"">x y z</A>") (codes " ") [34] =
  Ok [codes "<A"; codes " HREF=""a b c d e"">x"; codes " y z</A>"].
Proof. vm_compute. reflexivity. Qed.
Example ex_C39_tilde : printLongLine 100 12 (codes "aa bb cc dd ee ff") [126] [32] = Ok [codes "aa bb cc dd~"; codes " ee ff"].
Proof. vm_compute. reflexivity. Qed.
Example ex_C39_app := C39_words 200 12 (codes "the quick brown fox  jumps") (codes "  ") [32]
  ltac:(lia) ltac:(isstr) ltac:(vm_compute; lia) ltac:(vm_compute; lia)
  ltac:(repeat constructor) ltac:(discriminate) eq_refl
  ltac:(intros c _ [H|[]]; congruence) ltac:(vm_compute; reflexivity).
Example ex_C39_compr : printLongLine 200 12 (proofText 2 [codes "wtt2"; codes "mp"] (codes "ABCDEFGHIJKLMN")) (codes "  ") [38; 32] =
  Ok [codes "  ( wtt2 mp"; codes "  ) ABCDEFGH"; codes "  IJKLMN $."].
Proof. vm_compute. reflexivity. Qed.
Example ex_C44_saved := C44_saved_section_partial ex_env 7 _ ex_p 79%Z [] ltac:(lia) ex_db_wf ex_env_wf ex_env_uniq
  eq_refl eq_refl ex_p_good ex_hyps_before ex_names_short.
Example ex_C44_section : saveCompressed 100 ex_env 7 79 [] (map encStep ex_p) =
  Ok (10 :: codes "  ( " ++ joinSp (map (e_name ex_env) [3; 4; 5]) ++ codes " ) AABZDBC ").
Proof. vm_compute. reflexivity. Qed.

Print Assumptions C39_lines.
Print Assumptions C39_no_character_lost.
Print Assumptions C39_words.
Print Assumptions C39_width.
Print Assumptions C39_compressed.
Print Assumptions C39_later_lines_refuted.
Print Assumptions C39_width_3_refuted.
Print Assumptions C39_bug1516_refuted.
Print Assumptions C44_saved_section_partial.
