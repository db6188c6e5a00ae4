# Formal model of metamath-exe in Rocq/Coq 8.16.1 — design

The source is /repo (metamath/metamath-exe). Nothing is compiled or run; the
model is written by reading the C text.  Every model definition carries a
comment citing the C file and lines it models, and says where it simplifies.

## Conventions

* `theories/Base.v`: the outcome type `res A := Ok a | Bug n | UB | Fuel`.
  `Bug n` is the C call `bug(n)` (internal consistency trap, aborts the program),
  `UB` is undefined behaviour (out-of-bounds access, read of uninitialised data,
  signed overflow, where the model tracks it), `Fuel` is "the loop did not stop
  within the given fuel".  No theorem treats `Fuel` as success.
* C `long` is `Z` (or `nat` where the value is provably a non-negative index);
  overflow is modelled only where a property is about it, and then explicitly.
* `nmbrString` (−1-terminated `long` array with a stored length) is `list Z` or
  `list nat`; the terminator is implicit.  C strings are lists of character
  codes without NUL.
* Global state (`g_Statement`, `g_MathToken`, `g_WrkProof`, …) becomes records
  passed explicitly.
* Error messages become constructors of a diagnostic type; the model keeps which
  message is printed, and whether, but not the text layout.
* File layout per area: `XModel.v` (executable model, no proofs),
  `XSpec.v` (small independent specification), `XProofs.v` (lemmas),
  `XProps.v` (only the property theorems, each `exact`-ing a lemma, with
  `Print Assumptions` and a non-vacuity `Example`).
* When the unchanged code violates a property, the theorem is
  `…_refuted : exists witness, …` and the strongest true variant is proved beside it.

## Plan per property

| id | what is modelled (file) | how it is proved |
|----|------------------|------------------|
| C01–C05 | `verifyProof`, `assignVar` (back-tracking matcher with p/q/v state, ambiguity re-entry, $d scan) over an abstract statement table | independent Metamath spec (frames, substitution, provability as an inductive predicate); loop invariant for the matcher; soundness and completeness of the search; stack invariant for the step loop |
| C06 | `verifyProofs` summary flag (VerModel) | refuted by a witness; the truthful variant proved |
| C07–C09, C43 | `parseProof` normal format, `parseCompressedProof` (ParModel) | invariant over the token loop; measure for termination; C08 is an induction over statement numbers of the whole database |
| C10 | label number encoder/decoder (CmpModel, ParModel) | arithmetic induction |
| C11, C44 | `compressProof`, both label orders, + `parseCompressedProof` (CmpModel, OrdModel, ParModel) | round trip over the step list with a label-map invariant; refuted beyond 120 labels |
| C12 | the compressed parser with array bounds and 64-bit accumulator explicit (ParModel) | refuted with witnesses; safe sub-language proved |
| C13–C15, C45 | `nmbrSquishProof`, `nmbrUnsquishProof`, `nmbrGetSubproofLen`, `subproofLen`, indentation/essential/target (SqModel) | proof trees and their RPN serialisation |
| C16, C17 | `matches`, `matchesList` (MatchModel) | relational glob spec |
| C18–C21 | mmvstr.c (VstrModel) | list lemmas; `edit` with explicit buffer size |
| C22 | `bigAdd`, `bigSub` (BigModel) | value of digit strings |
| C23, C24 | `knapsack01`, reference counting, code lengths, label layout loop (OrdModel) | dynamic-programming invariant; exchange argument for the weighted length; non-termination witness for over-long labels |
| C25, C26 | `processUndoStack` and the session commands that call it (UndoModel) | refinement to (past, present, future) history |
| C27 | dates (DateModel) | arithmetic, 64-bit overflow explicit |
| C28 | mmfatl.c (FatlModel) | buffer invariant over push histories |
| C29 | sorted label/token tables, bsearch (LabModel) | binary search invariant; qsort by its contract |
| C30 | white space and token scanning (TokModel) | relational grammar of blanks and tokens |
| C31, C32 | `parseMathDecl`, `parseStatements` (StmModel) | simulation with an independent scope-stack reader; error-free iff legal |
| C33, C34 | nmbrString functions (NmbModel) | cell-level model, list specs |
| C35 | `addSubProof`, `deleteSubProof`, `assignStatement`, `initStep`, `getParentStep`, `getKnownSubProofs`, `getIndepKnownSteps`, DELETE STEP, DELETE FLOATING_HYPOTHESES (PfaModel) | proof trees; each operation = replacing one subtree; invariant over histories |
| C51 | `expandProof`, EXPAND (PfaModel) | each pass replaces the last use; measure = number of uses weighted; result = grafted tree; validity by substitution lemma |
| C53 | the whole chain READ, VERIFY PROOF * (ReadModel: readRawSource, parseKeywords, parseLabels, parseMathDecl, parseStatements, parseProof, verifyProof put together; not `$[ $]` inclusion, not /EXPLICIT proofs) | sections are followed by their keyword (invariant of the keyword loop), their tokens are the words of ReadSpec; the tables left by an error-free read satisfy the assumptions of C06; token derivations are translated to derivations over names, by induction on statements |
| C54 | the same chain up to parseStatements (ReadModel); language of source files in TidySpec (white space, comments, characters), ReadSpec (labels), StmSpec (scoping) | rawScan reports nothing iff each stretch between keywords is tidy (induction on the stretch, both directions); then C48, the label and symbol tables (C30), C32 and the size lemma put together |
| C55 | readVerify (ReadModel) from the file text; proof texts in CheckSpec (labels, letters, stack of expressions over names) | names to symbol numbers and back (CheckTok, CheckBack): a run over names is a run of MMSpec over numbers; parser completeness and inversion for both layouts (CheckPar, CheckCmp, CheckParBack); verifier completeness C08 and soundness C06; fuel and working-array bounds over all statements (CheckMain) |
| C36, C52 | `unify`, `makeSubstUnif` (UniModel) | state invariant of the back-tracking search over all its labels; lexicographic termination; for patterns against known steps an invariant "the solution is still ahead" |
| C37 | `traceUsage`, `traceProofWork`, `traceProof` (TrcModel) | reachability (transitive closure) |
| C38, C46–C48 | `readFileToString` clean-up, `readRawSource`, `parseKeywords`, `writeSourceToBuffer` (SrcModel) | partition of the text, concatenation of slices |
| C39, C44 | `printLongLine` (LineModel), `SAVE PROOF /COMPRESSED` (SavModel) | inductive spec of allowed breaks; ink and words preserved; composition with the compressed round trip |
| C56 | `nmbrCvtRToVString` (not /EXPLICIT) and the section stored by SAVE PROOF /NORMAL, /PACKED (NrmModel) | token list of the text; local labels fresh; simulation by the normal-format parser (C43), line breaking (C39), squish/unsquish (C13–C15); bound of the text against the allocated string |
| C57–C59 | `getNextInclusion`, `readInclude`, `readSourceAndIncludes` (IncModel) | inductive description of the expansion (IncSpec: Expands, Flat); simulation of the scanning loop by induction on it; the expansion of an expansion is itself; termination by (names not yet seen, text left); literal witnesses for internal error, out-of-bounds scan and prefix names |
| C60 | `unifyH`, `hentyNormalize`, `hentyAdd`, `uniqueUnif` (HenModel) | entries of the filter are normal forms: equal entries have the same instances; behind the filtered answers stands a complete list of unfiltered ones (induction on the history) |
| C61 | `proveFloating`, `quickMatchFilter` (FltModel) | induction on the depth; each level by the list of filtered unifications (C60, C52) and the hypotheses in the order tried; failure without message refutes an inductively defined derivability (FltSpec) |
| C62 | `replaceStatement`, `proveByReplacement` (RepModel) | one invariant over the positions already matched (the substitutions compose to one substitution); backtracking terminates by the order of trial steps and the well-founded order of unifications (C52, C60); refuted for searchMethod 1 with variables only in $e by a witness |
| C63 | `assignKnownSteps`, `assignKnownSubProofs` (AkModel) | each unification is a matching of known strings, hence has at most one answer when every variable has a $f hypothesis; induction over the proof tree with the stack of the loop as context; substitution keeps expressions "plain" (bracket counts) |
| C64 | `checkStmtMatch`, `minimizeProof` (MinModel) | each round puts in what C62 says `replaceStatement` found and C63 says `assignKnownSteps` fills in; the proof in progress stays complete (invariant); without MAY_GROW the length decreases; with it, the steps read from the last to the first as binary digits (0: already the statement) decrease while the length is bounded |
| C65 | `parseProof` for /EXPLICIT proofs: targets, rearrangement of hypotheses, renumbering and moving of local references (ExpModel) | stack of segments as invariant of the build, each segment a complete subproof whatever is below it; the hypotheses found by target are a permutation; exchanging a reference with the later subproof keeps the run, and the size of what stands at the first forward reference decreases (termination) |
| C66 | `nmbrCvtRToVString` with targets, `nmbrGetTargetHyp` and the section stored by SAVE PROOF /EXPLICIT (SxpModel) | the pieces are those of C56 with targets; they are an explicit proof in the sense of C65, by induction on the proof tree with references as leaves; then C65, line breaking (C39), bound of the text against the allocated string |
| C67 | READ and VERIFY PROOF * with proofs in all formats (RvxModel, ExpModel) | the converse direction for ExpModel: invariant of the build with the trees of the steps made as it goes (ExsBuild), no error raised; the moves permute the steps (ExpMove); then as C53 |
| C68 | the command MINIMIZE_WITH (MwModel, metamath.c:4994-5534), on top of MinModel, TrcModel, CmpModel, ExpModel, VerModel, MatchModel | invariant of the two scans (`Good`): the proof is `kept` (C64), each new step comes from a permitted statement, no needed logical axiom is new; the saved text reads back as the proof (C51 and the compressed-format round trip); after the $d check it is valid, since proveFloating adds only statements about syntax (MwVal) |
| C69 | autoUnify, makeSubstAll, interactiveUnify(Step), replaceDummyVar, checkMStringMatch initProofStruct and the commands UNIFY, LET, ASSIGN, DELETE STEP, INITIALIZE STEP/USER/ALL (AuModel, mmpfas.c:1493-1515, 2410-2880, 3120-3153, metamath.c:4175-4492, 5575-5634, 5699-5755), on top of UniModel/HenModel, MinModel, PfaModel | `linked`: the proof is a tree, and its targets and sources are instances of the statements (inductive `fits`); kept by every substitution, assignment and deletion; each round of autoUnify with a change lowers the number of different unknowns, so it ends; all unified and no `?` gives `complete` and `shows` by induction on the tree; sessions by induction on the commands; INITIALIZE and PROVE of an existing proof: `linked` is the same as a condition on each node (`nodeOk`), which initStep restores at its step and keeps elsewhere, and assignKnownSubProofs (C63) gives at all finished steps |
| C70 | parseMathTokens and its use by LET (LetModel, mmpars.c:4544-4814, metamath.c:4346-4355), on the symbol table of StmModel and the scanner of TokModel | a separate description of what a text means (tokens between blanks, each split into longest names and `$n`, LetSpec); induction on the token, then on the text; readings are unique, which gives the converse; names of symbols with blanks are such a text |
| C71 | IMPROVE STEP and IMPROVE ALL with the search / 1 (ImpModel, metamath.c:4690-5000), on top of FltModel (proveFloating), AkModel (assignKnownSteps) and AuModel | at one step: proveFloating answers with a proof of the target (C61), put in place of the unfinished part it keeps `linked`, and assignKnownSteps (C63) gives the new steps what they show; IMPROVE ALL by induction on the steps left to look at; sessions of C69 with these commands |
| C72 | whole MM-PA sessions: the commands of C69 and C71, DELETE ALL, DELETE FLOATING_HYPOTHESES (PfaModel), EXPAND (its rebuilding of the proof), UNDO, REDO, SET UNDO and SAVE (UndoModel with P := pip) (SesSpec; metamath.c:4127-4172, 5643-5692, 3795-3801, 6083-6098) | the stack is a linear history (C25), so the current proof is the first or one that a command left; `linked` is kept by each command; what UNDO does not restore (g_pipDummyVars) is a witness by computation |
| C73 | getStepNum, getRelStepNums, getStatementNum (mmcmds.c:5465-5777), with edit, val, str, nmbrGetEssential and matchesList from the models of C21, C57, C15, C17 (ArgModel) | the two scans pick the n-th element of the list of unknown essential steps (or its reverse); a text has at most one reading; loop invariant for the search of statements; duplicates excluded by C29 |
| C74 | assignMathboxInfo, getMathboxLoc, getMathboxNum, getMathboxUser, inDiffMathboxes (mmwtex.c:5556-5665) and the notice of ASSIGN (metamath.c:4494-4505), with instr and seg of C23 (MbxModel); lookupLabel's result (C29) is an argument | the scan's list of (statement, user) is sorted and has exactly the headed statements; the linear search finds the last start not after the statement |
| C40 | `fSafeOpen` over a file-system map with crash points (SafeModel) | invariant after every rename, over any history of saves |
| C41, C49, C50 | `parseCommandLine`, keyword part of `getFullArg`, `cmdMatches`, `switchPos` (CmdModel) | prefix spec |
| C42 | pool allocator, nmbrString assignment, temporary stack (PoolModel) | refinement of any operation history to a map from variables to values |

Status of each is in MANIFEST.json; what the refuted theorems found is in their notes.

## Trusted base

* Coq 8.16.1's kernel (and `vm_compute`, used for concrete witnesses).
* Axioms: none.  `Print Assumptions` stands beneath every property theorem and
  prints "Closed under the global context" for every one of them.  (Loading ssreflect's
  prelude through the standard library makes `coqchk` list seven `Under_rel` constants
  of Coq's own ssreflect library; no theorem uses them.)
* The reading of the C code into the model.  Every definition cites the lines it
  models.  Library functions are taken by contract: `qsort` returns a sorted
  permutation, `bsearch` finds an element of a sorted array, `rename` is atomic, `malloc`
  returns fresh memory or NULL, `strlen/strcpy/memcpy/strcmp` as in the C standard.
* C integers are unbounded unless the comment of the definition says otherwise
  (64-bit overflow is explicit in the compressed parser and the dates).

### Modelled

mmveri.c (verifier: all but the message layout and `cleanWrkProof`); mmpars.c:30-425,
427-1879 from token lists, 1887-3378, 3664-3819, 4821-5053 and 5459-6047 (inclusion), 5075-5179, the
label tables; mmdata.c pools, nmbrStrings, proof-tree functions, compressProof, matches,
knapsack, dates; mmvstr.c strings functions; mmfatl.c; mmcmds.c traceUsage, traceProof,
traceProofWork, bigAdd, bigSub, getStepNum, getRelStepNums, getStatementNum; mmwtex.c:5556-5665 (mathboxes); mmcmdl.c command splitting, keyword matching; mminou.c
fSafeOpen, readFileToString; mmpfas.c undo stack, subproofLen, proof surgery, EXPAND; proveFloating, quickMatchFilter, replaceStatement, proveByReplacement, assignKnownSteps, assignKnownSubProofs, checkStmtMatch, minimizeProof; mmunif.c unify, unifyH, uniqueUnif, makeSubstUnif.

### Not modelled

mmwtex.c except the mathbox functions of C74 (HTML/LaTeX output), mmword.c (file comparison), the help texts, the interactive
command loop of metamath.c except where a property names a command, the mathbox switches of the commands, markup checking, `pntrString` pools (same code as
nmbrString pools with another element size), terminal scrolling.
