(* CmdProps.v -- C41, C49, C50: keywords, command lines, recognising commands. *)
From Coq Require Import String Ascii.
From Verif Require Import Base VstrModel VstrSpec CmdModel CmdSpec CmdProofs.
Open Scope nat_scope.
Definition chars (s : string) : list nat := map nat_of_ascii (list_ascii_of_string s).

(* ---------------- C41 ---------------- *)
(* ks: the allowed keywords; cl: the list as the program writes it, "K1|K2|...", possibly
   with a default "<d>" at the end; an argument given in the command line is resolved as
   CmdSpec.resolves says: equal to a keyword, or a prefix of exactly one.  (In the program
   the lists contain no empty keyword, no bar inside a keyword, none begins with "<".) *)
Theorem C41_abbreviation : forall ks cl d queryMode a answer, wfKws ks -> kwList ks cl d -> isStr a ->
  exists v, resolves (shown ks) a v /\
    getKeyword cl queryMode (Some a) answer =
    Ok (match v with Accept k => Keyword k | Unknown => Expected (shown ks) | Several l => Ambiguous l end).
Proof.
  intros ks cl d qm a ans W L Ha. destruct (resolve_total (shown ks) a) as [v R].
  exists v. split; [exact R|]. exact (given_ok ks cl d qm a ans v W L Ha R).
Qed.
(* in words: accepted keywords are those *)
Theorem C41_accepted_iff : forall ks cl d queryMode a answer k, wfKws ks -> kwList ks cl d -> isStr a ->
  (getKeyword cl queryMode (Some a) answer = Ok (Keyword k) <->
   (In k (shown ks) /\ k = map toUpper a) \/
   (~ In (map toUpper a) (shown ks) /\ filter (isPrefix (map toUpper a)) (shown ks) = [k])).
Proof.
  intros ks cl d qm a ans k W L Ha. split.
  - intros E. destruct (resolve_total (shown ks) a) as [v R].
    rewrite (given_ok ks cl d qm a ans v W L Ha R) in E. apply Ok_inj in E.
    destruct R as [H|k' H1 H2|H|k1 k2 r H1 H2]; cbn in E; try discriminate; injection E as <-; auto.
  - intros [[H1 ->]|[H1 H2]].
    + exact (given_ok ks cl d qm a ans _ W L Ha (res_exact _ _ H1)).
    + exact (given_ok ks cl d qm a ans _ W L Ha (res_unique _ _ _ H1 H2)).
Qed.
(* without an argument: no argument if that is allowed and nobody was asked before;
   otherwise the answer (or the default) is used as if given -- except "nothing" *)
Theorem C41_prompt : forall ks cl d queryMode answer, wfKws ks -> kwList ks cl d ->
  getKeyword cl queryMode None answer =
  if negb (seqb (last (shown ks) []) sNothing) || queryMode then
    let a := if List.length ks =? 1 then d else match answer with [] => d | _ => answer end in
    if seqb a sNothing then Ok Nothing else getKeyword cl queryMode (Some a) answer
  else Ok Nothing.
Proof. exact prompt_ok. Qed.
(* The exception is a defect: the answer "nothing" is taken as "no argument" also where an
   argument is required ("$" not among the choices). *)
Theorem C41_prompt_nothing_refuted :
  ~ (forall ks cl d queryMode answer, wfKws ks -> kwList ks cl d -> ~ In [36] ks -> d <> sNothing ->
       getKeyword cl queryMode None answer <> Ok Nothing).
Proof.
  intros H. apply (H [chars "PROOF"; chars "LABELS"] (chars "PROOF|LABELS") [] false (chars "nothing")).
  - split; [discriminate|]. intros k [<-|[<-|[]]]; (split; [cbv; repeat constructor|]; split; [discriminate|];
      split; [cbv; intuition discriminate|discriminate]).
  - apply kwPlain.
  - cbv. intuition discriminate.
  - discriminate.
  - vm_compute. reflexivity.
Qed.
Definition kws : list (list nat) := [chars "PROOF"; chars "PROOF_SIZE"; chars "LABELS"; chars "LAST"; chars "$"].
Example kws_wf : wfKws kws /\ kwList kws (chars "PROOF|PROOF_SIZE|LABELS|LAST|$|<$>") sNothing.
Proof.
  split; [split; [discriminate|]|exact (kwNothing kws)].
  intros k Hk. repeat (destruct Hk as [<-|Hk];
    [split; [cbv; repeat constructor|]; split; [discriminate|]; split; [cbv; intuition discriminate|discriminate]|]).
  destruct Hk.
Qed.
Example kws_cases : forall f, f = (fun s => getKeyword (chars "PROOF|PROOF_SIZE|LABELS|LAST|$|<$>") false (Some (chars s)) []) ->
  f "proof"%string = Ok (Keyword (chars "PROOF")) /\ f "lab"%string = Ok (Keyword (chars "LABELS")) /\
  f "la"%string = Ok (Ambiguous [chars "LABELS"; chars "LAST"]) /\ f "pro"%string = Ok (Ambiguous [chars "PROOF"; chars "PROOF_SIZE"]) /\
  f "x"%string = Ok (Expected (shown kws)) /\ f "proof_"%string = Ok (Keyword (chars "PROOF_SIZE")).
Proof. intros f ->. repeat split. Qed.
Print Assumptions C41_abbreviation.
Print Assumptions C41_accepted_iff.
Print Assumptions C41_prompt.
Print Assumptions C41_prompt_nothing_refuted.

(* ---------------- C49 ---------------- *)
(* Every line that is not a comment is a sequence of pieces, and its arguments, with their
   columns, are those of the pieces. *)
Theorem C49_split_total : forall tools promptLen line, isStr line -> hd 0 line <> 33 ->
  exists ps, wfPieces tools ps /\ render ps = line /\
    parseCommandLine tools promptLen line = Ok (map (fun x => (fst x + promptLen, snd x)) (arguments 1 ps)).
Proof. exact split_total. Qed.
(* for every way of reading a line as pieces (so there is only one way as to the arguments) *)
Theorem C49_split : forall tools promptLen ps, isStr (render ps) -> wfPieces tools ps -> hd 0 (render ps) <> 33 ->
  parseCommandLine tools promptLen (render ps) = Ok (map (fun x => (fst x + promptLen, snd x)) (arguments 1 ps)).
Proof. exact split_ok. Qed.
Theorem C49_comment : forall tools promptLen r, parseCommandLine tools promptLen (33 :: r) = Ok [].
Proof. exact comment_line. Qed.
(* any list of arguments, none using both quotes, can be written so that it is read back *)
Theorem C49_quote_roundtrip : forall tools promptLen l, (forall a, In a l -> isStr a /\ ~ (In 39 a /\ In 34 a)) ->
  exists r, parseCommandLine tools promptLen (quoteAll l) = Ok r /\ map snd r = l.
Proof. exact quote_roundtrip. Qed.
Example C49_case : parseCommandLine false 4 (chars "show proof a/all 'x y'=""z") =
  Ok [(5, chars "show"); (10, chars "proof"); (16, chars "a"); (17, chars "/"); (18, chars "all"); (23, chars "x y");
      (27, chars "="); (29, chars "z")].
Proof. vm_compute. reflexivity. Qed.
Print Assumptions C49_split_total.
Print Assumptions C49_split.
Print Assumptions C49_comment.
Print Assumptions C49_quote_roundtrip.

(* ---------------- C50 ---------------- *)
(* A command is recognised exactly if the arguments begin with its words, also when
   arguments contain spaces. *)
Theorem C50_command_match : forall args ws, ws <> [] -> (forall w, In w ws -> ~ In 32 w) ->
  exists b, cmdMatches args (joinSpace ws) = Ok b /\ (b = true <-> firstn (List.length ws) args = ws).
Proof. exact cmdMatches_ok. Qed.
(* A switch is found exactly if "/" and the switch follow each other; the first one counts. *)
Theorem C50_switch : forall args sw, ~ In 32 sw ->
  let at_ n := nth_error args n = Some [47] /\ nth_error args (n + 1) = Some sw in
  (switchPos args sw = Ok 0 /\ forall n, ~ at_ n) \/
  (exists n, switchPos args sw = Ok (n + 1) /\ at_ n /\ forall m, at_ m -> n <= m).
Proof. exact switchPos_ok. Qed.
Example C50_case : cmdMatches [chars "SHOW"; chars "PROOF"; chars "a b"] (chars "SHOW PROOF") = Ok true /\
  cmdMatches [chars "SHOW PROOF"; chars ""] (chars "SHOW PROOF") = Ok false /\
  switchPos [chars "DISPLAY"; chars "PROOF"; chars "/"; chars "UNKNOWN"; chars "/"; chars "START_STEP"; chars "="; chars "10"]
    (chars "START_STEP") = Ok 5.
Proof. vm_compute. repeat split. Qed.
Print Assumptions C50_command_match.
Print Assumptions C50_switch.
