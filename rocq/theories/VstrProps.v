(* VstrProps.v -- the string library: substrings (C18), search (C19),
   comma-separated lists (C20), edit (C21). *)
From Verif Require Import Base VstrModel VstrSpec VstrProofs VstrEdit.
From Coq Require Import String Ascii.
Open Scope nat_scope.

Definition chars (s : string) : list nat := map nat_of_ascii (list_ascii_of_string s).

(* ---------------- C18 ---------------- *)
(* Positions count from 1; character i of substr s a b is character a + i - 1
   of s, as long as that is not after b. *)
Theorem C18_substring : forall s a b i, 1 <= a ->
  nth_error (substr s a b) i = if a + i <=? b then nth_error s (a + i - 1) else None.
Proof. exact substring_spec. Qed.

Theorem C18_left_right_mid_seg : forall s, isStr s ->
  (forall n, left_ s (Z.of_nat n) = Ok (substr s 1 n)) /\
  (forall n, 1 <= n <= List.length s + 1 -> right_ s (Z.of_nat n) = Ok (substr s n (List.length s))) /\
  (forall a b, 1 <= a <= List.length s + 1 -> seg s (Z.of_nat a) (Z.of_nat b) = Ok (substr s a b)) /\
  (forall a n, 1 <= a <= List.length s + 1 -> mid s (Z.of_nat a) (Z.of_nat n) = Ok (substr s a (a + n - 1))).
Proof.
  exact (fun s H => conj (fun n => left_ok s n H) (conj (fun n => right_ok s n H) (conj (fun a b => seg_ok s a b H)
    (fun a n => mid_seg s a n H)))).
Qed.

Theorem C18_left_right_join : forall s n l r, isStr s -> n <= List.length s ->
  left_ s (Z.of_nat n) = Ok l -> right_ s (Z.of_nat (n + 1)) = Ok r -> l ++ r = s.
Proof. exact left_right. Qed.

(* positions below 1 are taken as 1, a negative length as 0 *)
Theorem C18_clamps : forall s start len, isStr s ->
  ((start < 1)%Z -> mid s start len = mid s 1 len /\ forall stop, seg s start stop = seg s 1 stop) /\
  ((len < 0)%Z -> (start <= Z.of_nat (List.length s) + 1)%Z -> mid s start len = Ok []).
Proof. exact clamp_ok. Qed.

(* Outside the documented range the code reads beyond the string. *)
Theorem C18_beyond_undefined : forall s start len,
  (Z.of_nat (List.length s) + 1 < start)%Z -> (0 < len \/ Z.of_nat (List.length s) + 2 < start)%Z ->
  mid s start len = UB.
Proof. exact mid_beyond. Qed.

Example C18_example : isStr (chars "abcdef") /\ left_ (chars "abcdef") 2 = Ok (chars "ab") /\
  right_ (chars "abcdef") 5 = Ok (chars "ef") /\ mid (chars "abcdef") 3 2 = Ok (chars "cd") /\
  seg (chars "abcdef") 2 5 = Ok (chars "bcde") /\ right_ (chars "abcdef") 7 = Ok [] /\
  mid (chars "abcdef") 5 10 = Ok (chars "ef").
Proof. split; [unfold isStr, chars; simpl; repeat constructor; lia|repeat split]. Qed.

Print Assumptions C18_substring.
Print Assumptions C18_left_right_mid_seg.
Print Assumptions C18_left_right_join.
Print Assumptions C18_clamps.
Print Assumptions C18_beyond_undefined.

(* ---------------- C19 ---------------- *)
(* The property as stated fails for the empty pattern: instr does not return the
   start position but the position after the end, and rinstr does not stop. *)
Theorem C19_empty_pattern_refuted :
  (forall start s, instr start s [] = List.length s + 1) /\
  (forall s, occurs [] s 1) /\
  (forall fuel s, rinstr fuel s [] = Fuel).
Proof. exact (conj instr_empty (conj occurs_nil rinstr_empty)). Qed.

Theorem C19_instr_partial : forall start s m, m <> [] ->
  (instr start s m = 0 /\ forall q, (start <= Z.of_nat q)%Z -> ~ occurs m s q) \/
  (exists q, instr start s m = q /\ occurs m s q /\ (start <= Z.of_nat q)%Z /\
     forall q', (start <= Z.of_nat q')%Z -> occurs m s q' -> q <= q').
Proof. exact instr_ok. Qed.

Theorem C19_rinstr_partial : forall s m fuel, m <> [] -> List.length s + 1 < fuel ->
  exists r, rinstr fuel s m = Ok r /\
    ((r = 0 /\ forall q, ~ occurs m s q) \/ (occurs m s r /\ forall q, occurs m s q -> q <= r)).
Proof. exact rinstr_ok. Qed.

Example C19_example : instr 1 (chars "abaaab") (chars "aa") = 3 /\ instr 4 (chars "abaaab") (chars "aa") = 4 /\
  instr 5 (chars "abaaab") (chars "aa") = 0 /\ rinstr 9 (chars "abaaab") (chars "aa") = Ok 4.
Proof. repeat split. Qed.

Print Assumptions C19_empty_pattern_refuted.
Print Assumptions C19_instr_partial.
Print Assumptions C19_rinstr_partial.

(* ---------------- C20 ---------------- *)
(* fields s are the pieces between the commas: none contains a comma and joining
   them with commas gives s back *)
Theorem C20_fields : forall s,
  List.concat (map (fun f => f ++ [44]) (fields s)) = s ++ [44] /\ (forall f, In f (fields s) -> ~ In 44 f).
Proof. exact fields_ok. Qed.

Theorem C20_lists : forall s, isStr s ->
  (s <> [] -> numEntries s = List.length (fields s)) /\ numEntries [] = 0 /\
  (forall k, entry (Z.of_nat k + 1) s = Ok (nth k (fields s) [])) /\
  (forall e, (e < 1)%Z -> entry e s = Ok []) /\
  (forall k, entryPosition (Z.of_nat k + 1) s =
     match nth_error (fields s) k with Some (_ :: _) => fieldStart s k | _ => 0 end) /\
  (forall expr,
    (lookup expr s = 0 /\ ~ In expr (fields s)) \/
    (exists k, lookup expr s = k + 1 /\ nth_error (fields s) k = Some expr /\
       forall j, j < k -> nth_error (fields s) j <> Some expr)).
Proof.
  exact (fun s H => conj (numEntries_ok s) (conj eq_refl (conj (fun k => entry_ok s k H)
    (conj (entry_low s) (conj (entryPosition_ok s) (fun e => lookup_ok e s)))))).
Qed.

(* fieldStart is where the field is: *)
Theorem C20_field_start : forall s k f, nth_error (fields s) k = Some f ->
  substr s (fieldStart s k) (fieldStart s k + List.length f - 1) = f.
Proof. exact fieldStart_sub. Qed.

Example C20_example : numEntries (chars "ab,,c,") = 4 /\ entry 1 (chars "ab,,c,") = Ok (chars "ab") /\
  entry 3 (chars "ab,,c,") = Ok (chars "c") /\ entry 4 (chars "ab,,c,") = Ok [] /\
  entryPosition 3 (chars "ab,,c,") = 5 /\ entryPosition 2 (chars "ab,,c,") = 0 /\
  lookup (chars "c") (chars "ab,,c,c") = 3 /\ lookup (chars "a") (chars "ab,,c") = 0 /\ lookup [] (chars "ab,,") = 2.
Proof. repeat split. Qed.

Print Assumptions C20_fields.
Print Assumptions C20_lists.
Print Assumptions C20_field_start.

(* ---------------- C21 ---------------- *)
(* Without TAB and UNTAB (flags 1024, 2048): every flag word does what the flags
   say, and nothing is written outside the string's own space. *)
Theorem C21_edit_partial : forall s w fuel, isStr s -> flag w 10 = false -> flag w 11 = false ->
  edit fuel s w [] = Ok (editSpec w s).
Proof. exact edit_ok. Qed.

(* single flags, spelled out *)
Theorem C21_single_flags : forall s fuel, isStr s ->
  edit fuel s 0 [] = Ok s /\
  edit fuel s 2 [] = Ok (filter (fun c => negb (oneOf [32; 9] c)) s) /\
  edit fuel s 8 [] = Ok (dropWhile (oneOf [32; 9]) s) /\
  edit fuel s 16 [] = Ok (squeeze s) /\
  edit fuel s 32 [] = Ok (map toUpper s) /\
  edit fuel s 128 [] = Ok (dropEnd (oneOf [32; 9]) s) /\
  edit fuel s 512 [] = Ok (map toLower s) /\
  edit fuel s 16384 [] = Ok (dropEnd (oneOf [32; 9; 10]) s).
Proof. exact single_flags. Qed.

(* UNTAB alone: correct as long as tabs are rare enough *)
Theorem C21_untab_partial : forall s g fuel, isStr s -> List.length g = 6 * List.length s + 6 -> ~ In 9 g ->
  8 * tabs s <= 6 * List.length s + 7 -> List.length s + 8 * tabs s < fuel ->
  edit fuel s 2048 g = Ok (expand s 0).
Proof. exact edit_untab_ok. Qed.

(* The full property fails.  Untabbing four tabs writes behind the buffer, whatever
   the buffer contained; TAB overflows on any one tab; TAB reads before the buffer
   if a line starts with eight blanks; RUBOUT is not discarded by flag 4. *)
Theorem C21_refuted :
  (forall g fuel, List.length g = 30 -> 100 <= fuel -> edit fuel [9; 9; 9; 9] 2048 g = UB) /\
  edit 100 [9] 1024 [] = UB /\
  edit 100 (repeat 32 9) 1024 [] = UB /\
  edit 100 [127] 4 [] = Ok [127].
Proof. exact edit_bad. Qed.

Example C21_example :
  flag 188 10 = false /\ flag 188 11 = false /\
  edit 1 (chars "  a  b   ") 188 [] = Ok (chars "A B") /\
  edit 1 (chars "x ""a B"" [y") 354 [] = Ok (chars "X""a B""(Y") /\
  edit 50 (97 :: 9 :: chars "b") 2048 (repeat 7 24) = Ok (chars "a       b").
Proof. repeat split; vm_compute; reflexivity. Qed.

Print Assumptions C21_edit_partial.
Print Assumptions C21_single_flags.
Print Assumptions C21_untab_partial.
Print Assumptions C21_refuted.
