{"id": "C01", "title": "Proof verification is sound", "statement": "If VERIFY PROOF processes a $p statement and the proof check returns status 0 (complete) and reports no error, then the statement's expression is derivable, in the sense of the Metamath language definition (substitution into assertions with satisfied hypotheses and disjoint-variable conditions), from the statement's own hypotheses and the assertions its proof references.", "quantifier": "every database state, every proof string accepted by the proof parser, every statement", "why_tests_cant": "soundness ranges over all proofs and all databases; a test suite can only exhibit finitely many invalid proofs that happen to be rejected", "anchors": ["src/mmveri.c:verifyProof", "src/mmveri.c:assignVar"]}
{"id": "C02", "title": "Proof verification is complete", "statement": "If a proof is a correct derivation of the statement (every step's hypotheses unify and every disjoint-variable condition holds), VERIFY PROOF returns status 0 and reports no error.", "quantifier": "every well-formed database and every correct proof", "why_tests_cant": "the back-tracking matcher could reject or mis-assign on shapes no test contains", "anchors": ["src/mmveri.c:verifyProof", "src/mmveri.c:assignVar"]}
{"id": "C03", "title": "A step's unifier is exactly the substitution", "statement": "Whenever the step matcher succeeds with all hypotheses known, the assignment it computes maps each hypothesis of the referenced assertion onto the corresponding stack entry token for token, no variable is assigned a hypothesis separator, and the step result is the referenced assertion under that assignment; when it reports \"cannot be unified\" no such assignment exists.", "quantifier": "every list of hypotheses and every list of instances, of any length", "why_tests_cant": "back-tracking search over unbounded token strings", "anchors": ["src/mmveri.c:assignVar"]}
{"id": "C04", "title": "Ambiguous unification is always detected", "statement": "When the step matcher succeeds, it reports \"not unique\" (or, with unknown hypotheses, returns an unknown result) if and only if a second, different assignment also matches.", "quantifier": "every scheme and instance", "why_tests_cant": "needs a proof that the resumed search is exhaustive although it skips the last variable", "anchors": ["src/mmveri.c:assignVar"]}
{"id": "C05", "title": "Disjoint-variable violations are always reported", "statement": "At a proof step the verifier reports a $d violation if and only if some disjoint pair of the referenced assertion is substituted with expressions that share a variable, or that contain two variables without a $d (in either order, mandatory or optional) on the statement being proved.", "quantifier": "every pair list, every substitution, every $d list of the statement being proved", "why_tests_cant": "the scan uses start-position speedups over two separate lists; correctness depends on list ordering for all lists", "anchors": ["src/mmveri.c:assignVar"]}
{"id": "C06", "title": "The 'all proofs verified' message is truthful", "statement": "If VERIFY PROOF * prints \"All proofs in the database were verified\", no error was reported for any $p statement in that run.", "quantifier": "every database", "why_tests_cant": "it is a statement about every error path of the verifier being reflected in the summary", "anchors": ["src/mmcmds.c:verifyProofs", "src/mmveri.c:verifyProof", "src/mmveri.c:assignVar"]}
{"id": "C07", "title": "Incomplete proofs are never accepted", "statement": "A proof containing an unknown step '?' is never reported with status 0, whether it is in normal or compressed format.", "quantifier": "every proof containing '?' in any position", "why_tests_cant": "all positions and all contexts", "anchors": ["src/mmpars.c:parseProof", "src/mmpars.c:parseCompressedProof", "src/mmveri.c:verifyProof"]}
{"id": "C08", "title": "No circular or forward reference in accepted proofs", "statement": "If the proof parser returns a status below 2 for statement n, every assertion referenced in the proof has a statement number smaller than n, so verifying all $p statements without error makes each of them a consequence of the $a statements alone.", "quantifier": "every database and every proof text", "why_tests_cant": "global induction over the whole database", "anchors": ["src/mmpars.c:parseProof", "src/mmpars.c:parseCompressedProof", "src/mmcmds.c:verifyProofs"]}
{"id": "C09", "title": "Parsed proofs have a balanced RPN stack", "statement": "If the proof parser returns status 0 or 1, running the resulting proof string never pops an empty stack and ends with exactly one entry, and every local label reference points to an earlier step that is not itself a reference.", "quantifier": "every proof text in normal or compressed format", "why_tests_cant": "all token sequences", "anchors": ["src/mmpars.c:parseProof", "src/mmpars.c:parseCompressedProof"]}
{"id": "C10", "title": "Compressed label numbers round-trip", "statement": "For every label number n, decoding the letters produced for n yields n, different numbers have different encodings, no encoding is a proper prefix of another, and every string of digits U-Y followed by a letter A-T is the encoding of some number.", "quantifier": "all natural numbers; all strings over A..Y", "why_tests_cant": "unbounded numbers; the published algorithm was wrong for years because small cases passed", "anchors": ["src/mmdata.c:compressProof", "src/mmpars.c:parseCompressedProof"]}
{"id": "C11", "title": "Compressed proofs round-trip", "statement": "Parsing the compressed form produced for a proof (parenthesised label list and letter string) yields exactly the same proof step sequence, including local label references and unknown steps, with status 0 or 1 and no error.", "quantifier": "every well-formed packed proof of every statement, every label set", "why_tests_cant": "depends on label ordering, implicit hypotheses, local label numbering and the obsolete-compression heuristic for all proofs", "anchors": ["src/mmdata.c:compressProof", "src/mmpars.c:parseCompressedProof"]}
{"id": "C12", "title": "Compressed-proof parsing is memory safe on malformed input", "statement": "Whatever bytes appear in a compressed proof, parsing it only reads and writes inside its working arrays and does not overflow the label accumulator.", "quantifier": "every byte string in the proof section", "why_tests_cant": "adversarial inputs; error recovery paths", "anchors": ["src/mmpars.c:parseCompressedProof"]}
{"id": "C13", "title": "Packing and unpacking proofs are inverse", "statement": "Unpacking (SAVE PROOF /NORMAL) the packed form of a proof without local references returns the original proof, so packing never changes what is proved.", "quantifier": "every well-formed proof of any size", "why_tests_cant": "repeated-subproof replacement interacts with renumbering for arbitrary proofs", "anchors": ["src/mmdata.c:nmbrSquishProof", "src/mmdata.c:nmbrUnsquishProof"]}
{"id": "C14", "title": "Subproof length is exact", "statement": "For every step of a well-formed proof the computed subproof length is the length of the unique complete subproof ending at that step, and the two implementations agree.", "quantifier": "every well-formed proof and step", "why_tests_cant": "unbounded nesting", "anchors": ["src/mmdata.c:nmbrGetSubproofLen", "src/mmpfas.c:subproofLen"]}
{"id": "C15", "title": "Proof display attributes describe the proof tree", "statement": "The indentation level of a step equals its depth in the proof tree, the target hypothesis of a step is the hypothesis of its parent that it proves, and a step is flagged essential exactly when no ancestor step proves a $f hypothesis.", "quantifier": "every well-formed proof", "why_tests_cant": "unbounded trees", "anchors": ["src/mmdata.c:nmbrGetIndentation", "src/mmdata.c:nmbrGetEssential", "src/mmdata.c:nmbrGetTargetHyp"]}
{"id": "C16", "title": "Wildcard label matching has glob semantics", "statement": "A label without wildcard characters matches a pattern if and only if the pattern can be turned into the label by replacing each '*' with some string and each '?' with one character.", "quantifier": "all labels and patterns", "why_tests_cant": "greedy matching without back-tracking over earlier stars must be right for all strings", "anchors": ["src/mmdata.c:matches"]}
{"id": "C17", "title": "Pattern lists are unions", "statement": "A label matches a comma-separated pattern list if and only if it matches one of the entries.", "quantifier": "all labels and lists", "why_tests_cant": "all list shapes, including empty entries", "anchors": ["src/mmdata.c:matchesList", "src/mmvstr.c:entry", "src/mmvstr.c:numEntries"]}
{"id": "C18", "title": "Substring functions obey their specification", "statement": "left, right, mid and seg return the specified 1-based substring for every in-range position; left(s,n) followed by right(s,n+1) is s; reading never starts beyond the terminator for documented arguments.", "quantifier": "all strings and integer positions", "why_tests_cant": "boundary positions for all lengths", "anchors": ["src/mmvstr.c:left", "src/mmvstr.c:right", "src/mmvstr.c:mid", "src/mmvstr.c:seg"]}
{"id": "C19", "title": "Substring search finds the first or last occurrence", "statement": "instr returns the smallest position not before the start at which the pattern occurs, 0 if there is none; rinstr returns the largest such position and terminates.", "quantifier": "all strings, patterns and starts", "why_tests_cant": "overlapping occurrences and empty patterns", "anchors": ["src/mmvstr.c:instr", "src/mmvstr.c:rinstr"]}
{"id": "C20", "title": "Comma-separated list functions are consistent", "statement": "numEntries, entry, entryPosition and lookup agree with splitting the string at commas: entry(k) is the k-th field, lookup finds the first equal field, entryPosition is where the field starts.", "quantifier": "all strings and positions", "why_tests_cant": "all strings including empty fields and trailing commas", "anchors": ["src/mmvstr.c:entry", "src/mmvstr.c:lookup", "src/mmvstr.c:numEntries", "src/mmvstr.c:entryPosition"]}
{"id": "C21", "title": "String editing does what its flags say and stays in its buffer", "statement": "edit() with each flag combination yields the string described by the flags (discard, trim, case conversion, blank reduction) and never writes past the buffer it allocated.", "quantifier": "all strings and flag words", "why_tests_cant": "buffer bounds for all strings", "anchors": ["src/mmvstr.c:edit"]}
{"id": "C22", "title": "Big-number step counts are exact", "statement": "bigAdd and bigSub on decimal digit strings return the digits of the exact sum and (for minuend at least subtrahend) difference without leading zeros.", "quantifier": "all digit strings of any length, including empty ones and leading zeros", "why_tests_cant": "unbounded numbers and carries", "anchors": ["src/mmcmds.c:bigAdd", "src/mmcmds.c:bigSub"]}
{"id": "C23", "title": "The knapsack solver is optimal", "statement": "knapsack01 returns the maximum total worth over all subsets of items that fit, and the items it marks included fit and attain that worth.", "quantifier": "all item counts, positive sizes, worths and capacities", "why_tests_cant": "exponentially many subsets", "anchors": ["src/mmdata.c:knapsack01"]}
{"id": "C24", "title": "Compressed-proof label ordering is a permutation and terminates", "statement": "When writing a compressed proof, the re-ordered explicit label list contains exactly the labels used, each once, and the layout loop terminates.", "quantifier": "all label sets, reference counts, label lengths, screen widths and indentations", "why_tests_cant": "depends on the knapsack layout for all label lengths", "anchors": ["src/mmdata.c:compressProof", "src/mmdata.c:knapsack01"]}
{"id": "C25", "title": "Undo and redo implement a linear history", "statement": "For every sequence of proof-assistant commands, UNDO restores the state before the most recent not-undone command (within the stack limit), REDO reverses UNDO, a new command discards the redo branch, and no internal consistency trap fires.", "quantifier": "all command histories and stack sizes", "why_tests_cant": "unbounded histories with overflow of the stack", "anchors": ["src/mmpfas.c:processUndoStack"]}
{"id": "C26", "title": "Exit-without-save status is conservative", "statement": "If the undo stack reports 'proof not changed', the current proof equals the proof present on entry.", "quantifier": "all command histories including resizing and overflow", "why_tests_cant": "unbounded histories", "anchors": ["src/mmpfas.c:processUndoStack"]}
{"id": "C27", "title": "Date handling is consistent", "statement": "Writing a date and reading it back returns the same day, month and year for every valid date; the format check of date fields accepts exactly the dates in canonical form; comparison is a total order agreeing with chronological order (a missing date first); the most recent of a statement's dates is chosen; stepping back day by day misses no date.", "quantifier": "all valid dates and years", "why_tests_cant": "all dates", "anchors": ["src/mmdata.c:parseDate", "src/mmdata.c:buildDate", "src/mmdata.c:compareDates"]}
{"id": "C28", "title": "Fatal error messages never overflow their buffer", "statement": "For every sequence of formats and arguments the fatal-error buffer stays NUL-terminated inside its bounds, contains the formatted text if it fits and otherwise its prefix followed by the ellipsis.", "quantifier": "all format strings and argument lists, all push sequences", "why_tests_cant": "all lengths around the limit and any sequence of appends", "anchors": ["src/mmfatl.c:appendText", "src/mmfatl.c:handleText", "src/mmfatl.c:handleSubstitution", "src/mmfatl.c:fatalErrorPush"]}
{"id": "C29", "title": "Label lookup is exact", "statement": "Looking up a label by binary search returns the statement with that label if there is one and 'not found' otherwise.", "quantifier": "all label tables and labels", "why_tests_cant": "all table sizes and orders", "anchors": ["src/mmpars.c:lookupLabel", "src/mmpars.c:labelSrchCmp"]}
{"id": "C30", "title": "Tokenisation partitions the source", "statement": "Repeatedly skipping white space (including comments) and taking a token consumes the source text completely, tokens contain no white space, and skipped text contains only white space and comments.", "quantifier": "all source texts", "why_tests_cant": "all byte strings", "anchors": ["src/mmpars.c:whiteSpaceLen", "src/mmpars.c:tokenLen", "src/mmpars.c:rawTokenLen", "src/mmpars.c:proofTokenLen"]}
{"id": "C31", "title": "Frames follow the language definition", "statement": "After a database is read without error, the mandatory hypotheses of every assertion are exactly the active $e and the active $f of variables occurring in the assertion or its active $e, in database order, and mandatory/optional $d pairs are exactly the active pairs split by whether both variables are mandatory.", "quantifier": "all databases", "why_tests_cant": "all scopings and orders", "anchors": ["src/mmpars.c:parseStatements"]}
{"id": "C32", "title": "Scoping is enforced", "statement": "A database read without error declares every symbol before use, uses variables only where they are active, gives every active variable of an assertion exactly one active $f, and closes every block it opens.", "quantifier": "all databases", "why_tests_cant": "all nestings", "anchors": ["src/mmpars.c:parseMathDecl", "src/mmpars.c:parseStatements"]}
{"id": "C33", "title": "Set operations on token lists", "statement": "nmbrUnion, nmbrIntersection, nmbrSetMinus and nmbrExtractVars return exactly the specified elements in the documented order without introducing duplicates.", "quantifier": "all token lists", "why_tests_cant": "all lists", "anchors": ["src/mmdata.c:nmbrUnion", "src/mmdata.c:nmbrIntersection", "src/mmdata.c:nmbrSetMinus", "src/mmdata.c:nmbrExtractVars"]}
{"id": "C34", "title": "Number-string slicing and search", "statement": "nmbrLeft, nmbrRight, nmbrSeg, nmbrMid, nmbrInstr and nmbrEq behave as list slicing, first-occurrence search and equality.", "quantifier": "all number strings and positions", "why_tests_cant": "all lengths", "anchors": ["src/mmdata.c:nmbrSeg", "src/mmdata.c:nmbrMid", "src/mmdata.c:nmbrLeft", "src/mmdata.c:nmbrRight", "src/mmdata.c:nmbrInstr", "src/mmdata.c:nmbrRevInstr"]}
{"id": "C35", "title": "Proof-assistant subproof surgery preserves well-formedness", "statement": "Deleting a subproof replaces exactly that subproof by one unknown step, and replacing an unknown step by a subproof yields a proof of the same statement; both keep the proof well formed and leave all other steps unchanged.", "quantifier": "all proofs in progress and steps", "why_tests_cant": "all trees and positions", "anchors": ["src/mmpfas.c:addSubProof", "src/mmpfas.c:deleteSubProof", "src/mmpfas.c:getParentStep"]}
{"id": "C36", "title": "Unification in the proof assistant is sound", "statement": "If unify() succeeds, on the first call or on re-entry, applying the computed substitution to both schemes gives the same expression; only unknowns are replaced and no replaced unknown occurs in any value. Every call terminates, and repeated re-entry comes to an end: there are finitely many answers.", "quantifier": "all schemes and unification states", "why_tests_cant": "unbounded back-tracking over equation-like strings", "anchors": ["src/mmunif.c:unify", "src/mmunif.c:makeSubstUnif"]}
{"id": "C37", "title": "Usage tracing is transitive closure", "statement": "SHOW USAGE /RECURSIVE marks exactly the statements whose proofs depend, directly or through other theorems, on the given statement; SHOW TRACE_BACK marks exactly those it depends on.", "quantifier": "all databases and statements", "why_tests_cant": "unbounded dependency graphs", "anchors": ["src/mmcmds.c:traceUsage", "src/mmcmds.c:traceProofWork"]}
{"id": "C38", "title": "Writing an unmodified database reproduces it", "statement": "WRITE SOURCE without reformatting after READ writes exactly the bytes that were read.", "quantifier": "all source texts", "why_tests_cant": "all byte strings", "anchors": ["src/mmpars.c:outputStatement", "src/mmpars.c:parseKeywords", "src/mmcmds.c:writeSource"]}
{"id": "C39", "title": "Line wrapping loses no text", "statement": "Printing a long line breaks it only at allowed places, never drops or duplicates a non-blank character, and no produced line exceeds the screen width unless the text has an unbreakable run too long for a continuation line. A compressed proof printed this way is read back as the same labels and letters.", "quantifier": "all lines, widths and break characters", "why_tests_cant": "all lengths", "anchors": ["src/mminou.c:printLongLine", "src/mminou.c:print2"]}
{"id": "C40", "title": "Overwriting output files keeps the previous version", "statement": "Opening an existing file for output renames the existing file to its ~1 backup and shifts older backups, so that a crash at any point loses no previously written version among the most recent nine.", "quantifier": "all file-system states and crash points", "why_tests_cant": "crash points between renames", "anchors": ["src/mminou.c:fSafeOpen"]}
{"id": "C41", "title": "Command abbreviations resolve uniquely", "statement": "An abbreviated command keyword is accepted only if it is a prefix of exactly one allowed keyword (or equals one), and is then expanded to it.", "quantifier": "all keyword tables and user inputs", "why_tests_cant": "all prefixes and tables", "anchors": ["src/mmcmdl.c:getFullArg"]}
{"id": "C42", "title": "Number strings keep their values; memory pool accounting is exact", "statement": "After any sequence of allocations, assignments, truncations, temporary results and frees that keeps to the interface, every number-string variable holds exactly the value last assigned to it, no block is handed out twice or lost, the reported free/used pool totals equal the space actually held in the pools, and the program stops for lack of memory only when malloc fails or too many temporaries are pending.", "quantifier": "all programs using number strings, all malloc behaviours", "why_tests_cant": "unbounded histories", "anchors": ["src/mmdata.c:poolMalloc", "src/mmdata.c:poolFree", "src/mmdata.c:addToUsedPool", "src/mmdata.c:getPoolStats", "src/mmdata.c:nmbrLet", "src/mmdata.c:nmbrTempAlloc", "src/mmdata.c:memFreePoolPurge", "src/mmdata.c:nmbrZapLen", "src/mmdata.c:nmbrMakeTempAlloc"]}
{"id": "C43", "title": "Proof parsing terminates without internal traps", "statement": "Parsing the proof text of any $p statement, in normal or compressed format and however malformed, terminates, and never ends in the program's internal-bug trap.", "quantifier": "every proof text, every label table built by READ, every size of the working arrays", "why_tests_cant": "error recovery loops (RPN underflow repeats the same character) on every byte string", "anchors": ["src/mmpars.c:parseProof", "src/mmpars.c:parseCompressedProof", "src/mmpars.c:whiteSpaceLen"]}
{"id": "C44", "title": "Re-saving a proof in compressed form preserves it", "statement": "Saving a proof with SAVE PROOF .../COMPRESSED (unpack, pack, compress, lay out) and reading the result back gives, without error messages, a proof that is valid exactly when the saved proof was, and marked incomplete exactly when the saved proof contained an unknown step.", "quantifier": "every statement, every proof accepted by the parser, every white-space layout and label order", "why_tests_cant": "composition of four transformations over arbitrary proofs", "anchors": ["src/metamath.c:command", "src/mmdata.c:nmbrUnsquishProof", "src/mmdata.c:nmbrSquishProof", "src/mmcmds.c:compressProof", "src/mmpars.c:parseCompressedProof"]}
{"id": "C45", "title": "Packing shares every repeated subproof", "statement": "After a proof is packed (saved in PACKED or COMPRESSED form), no two of its steps are the roots of equal subproofs of more than one step: every repeated multi-step subproof is stored once and referred to afterwards.", "quantifier": "all proofs", "why_tests_cant": "all proof trees", "anchors": ["src/mmdata.c:nmbrSquishProof"]}
{"id": "C46", "title": "File text is the file's lines", "statement": "READ sees the file's characters unchanged except that CR LF and lone CR count as line ends and a missing last line end is added.", "quantifier": "all file contents", "why_tests_cant": "all byte strings", "anchors": ["src/mminou.c:readFileToString"]}
{"id": "C47", "title": "The statement table never overflows", "statement": "Reading a source text never writes outside the statement table, whose size is computed by a preliminary scan of the same text.", "quantifier": "all source texts", "why_tests_cant": "the two scans must agree on every text", "anchors": ["src/mmpars.c:readRawSource", "src/mmpars.c:parseKeywords"]}
{"id": "C48", "title": "An error-free source is a sequence of well-formed statements", "statement": "If no error is reported by the two scanning passes, the source is a sequence of statements, each with label text, keyword, math text and proof text as the language prescribes, with keywords surrounded by white space and no stray keyword or unclosed comment, and the statement table lists exactly those statements with exactly those texts.", "quantifier": "all source texts", "why_tests_cant": "all byte strings", "anchors": ["src/mmpars.c:readRawSource", "src/mmpars.c:parseKeywords"]}
{"id": "C49", "title": "Command lines are split into arguments faithfully", "statement": "Every command line is split into words, one-character tokens '/' and '=', and quoted arguments, in order and with the right columns, and nothing else; any list of arguments none of which uses both kinds of quotes can be written with quotes and is read back unchanged.", "quantifier": "all lines and argument lists, inside and outside the text tools", "why_tests_cant": "all strings", "anchors": ["src/mmcmdl.c:parseCommandLine"]}
{"id": "C50", "title": "Commands and switches are recognised exactly", "statement": "A command is recognised exactly if the argument list begins with its words, even if arguments contain spaces; a switch is found exactly if '/' and its name follow each other, and its first position is reported.", "quantifier": "all argument lists, commands and switches", "why_tests_cant": "all argument lists", "anchors": ["src/mmcmdl.c:cmdMatches", "src/mmcmdl.c:switchPos"]}
{"id": "C51", "title": "EXPAND replaces a theorem by its proof", "statement": "Expanding theorems in a proof terminates and gives the proof tree in which every use of each named theorem is replaced by that theorem's proof, with its hypotheses replaced by the proofs supplied at that use; the result uses none of the named theorems, uses only statements used before or in the inserted proofs, and is a valid proof of the same statement when the proof and the inserted proofs (without dummy variables) are valid.", "quantifier": "all databases, proofs, packed or not, and sets of theorems", "why_tests_cant": "nested uses inside the inserted proofs, all trees", "anchors": ["src/mmpfas.c:expandProof", "src/metamath.c:EXPAND"]}
{"id": "C52", "title": "Matching a pattern against a known step misses nothing", "statement": "If the second expression has no unknown variables, the answers returned by unify() and its re-entries, up to the call that reports no more, are exactly the substitutions that turn the first expression into the second with non-empty (unless empty substitutions are allowed), separator-free values whose brackets match and whose end constants can begin or end an expression of the database; each is answered once; in particular it reports failure at once only if there is no such substitution.", "quantifier": "all patterns, known expressions, databases and call sequences", "why_tests_cant": "back-tracking over all ways to split the expression; unbounded sequences of re-entries", "anchors": ["src/mmunif.c:unify", "src/mmunif.c:makeSubstUnif"]}
{"id": "C53", "title": "A silent READ and VERIFY PROOF * means the file is proved", "statement": "If READ of a file and then VERIFY PROOF * report no error, then the text of the file is a sequence of statements in proper form (keywords between white space, sections of words and comments, one label for each hypothesis and assertion, all different and different from the symbols), the statements obey the scoping rules of the language, and every $p statement follows, in the calculus of the Metamath language over the names in the text (substitution of expressions for variables, $d restrictions), from the hypotheses in force and from $a statements and earlier $p statements that follow themselves. If READ finds no error in characters and keywords, its symbol tables are large enough.", "quantifier": "all source texts without inclusions and without /EXPLICIT proofs, all conforming qsort and bsearch functions", "why_tests_cant": "soundness of the whole chain from text to verdict for every file", "anchors": ["src/mmcmds.c:verifyProofs", "src/mmcmds.c:readInput", "src/mmpars.c:readRawSource", "src/mmpars.c:parseKeywords", "src/mmpars.c:parseLabels", "src/mmpars.c:parseMathDecl", "src/mmpars.c:parseStatements", "src/mmpars.c:parseProof", "src/mmveri.c:verifyProof"]}
{"id": "C54", "title": "READ accepts exactly the source files of the language", "statement": "READ reports no error if and only if the text consists of words, comments and keywords separated by white space over the printable characters, in the order the statements require, each hypothesis and assertion has one legal label, no label occurs twice or is a symbol, nothing follows the last statement, the statements obey the scoping rules of the language, and blocks are nested at most 32000 deep; the statements READ stores are then those of the text.", "quantifier": "all source texts (after inclusion of files), all conforming qsort functions", "why_tests_cant": "equality of an infinite set of accepted texts with the language definition", "anchors": ["src/mmcmds.c:readInput", "src/mmpars.c:readRawSource", "src/mmpars.c:parseKeywords", "src/mmpars.c:parseLabels", "src/mmpars.c:parseMathDecl", "src/mmpars.c:parseStatements"]}
{"id": "C55", "title": "READ and VERIFY PROOF * accept exactly the files with correct proofs", "statement": "For a file of the language (C54) whose proofs are written as lists of labels or in compressed format, READ followed by VERIFY PROOF * gives no message and prints that all proofs were verified if and only if the proof text of each $p statement, evaluated on a stack of expressions as the Metamath book says, ends with the statement's expression alone on the stack. So no correct proof is rejected and no wrong one accepted.", "quantifier": "all source texts in the language, all proof texts in the two layouts, all conforming qsort and bsearch functions", "why_tests_cant": "completeness and soundness over all texts; a test can only try some proofs", "anchors": ["src/mmpars.c:parseProof", "src/mmpars.c:parseCompressedProof", "src/mmveri.c:verifyProof", "src/mmcmds.c:verifyProofs", "src/mmcmds.c:readInput"]}
{"id": "C56", "title": "SAVE PROOF /NORMAL and /PACKED: the saved proof is the same proof", "statement": "After SAVE PROOF /NORMAL or /PACKED of a proof without errors, the text stored in the source is read back without error as a proof with the same proof tree (unpacked for /NORMAL, packed with local labels for /PACKED): the same validity, incomplete exactly if the original is. Local labels are numbers that are not labels of the database. The only other outcome is a buffer overrun while the text is made; it needs a statement label that is a number, or an unknown step together with a label of more than 100 characters, and does occur in those cases.", "quantifier": "all databases, all statements and error-free proofs (with unknown steps and shared subproofs), all screen widths from 5, all indentations", "why_tests_cant": "a test saves some proofs; the round trip must hold for every proof and every set of labels", "anchors": ["src/mmdata.c:nmbrCvtRToVString", "src/metamath.c:command (SAVE PROOF)", "src/mmpars.c:parseProof", "src/mminou.c:printLongLine"]}
{"id": "C57", "title": "File inclusion inserts each file once, where it is first included", "statement": "For a main file and included files made of words, comments, commands $[ name $] and the marks Begin/End/Skip that earlier readings leave, where every named file exists, is not the main file, and regions left by an earlier reading contain nothing left to expand: READ produces a text in which each command is replaced by the named file's text between Begin and End marks at its first inclusion and by a Skip mark later; its words outside comments are exactly those of the files with each file inserted once; the reported length is the length of the text.", "quantifier": "all sets of files, all inclusion graphs (cyclic ones included), all white space", "why_tests_cant": "a test tries some inclusion graphs; nesting and cycles are unbounded", "anchors": ["src/mmpars.c:getNextInclusion", "src/mmpars.c:readInclude", "src/mmpars.c:readSourceAndIncludes"]}
{"id": "C58", "title": "A written source with its inclusion marks reads back unchanged", "statement": "The text obtained by reading a source with inclusions, saved as one file and read again under the same name, gives the same text again, whatever has become of the other files.", "quantifier": "all sets of files and inclusion graphs", "why_tests_cant": "idempotence over all inclusion structures", "anchors": ["src/mmpars.c:getNextInclusion", "src/mmpars.c:readInclude", "src/mmpars.c:readSourceAndIncludes"]}
{"id": "C59", "title": "Inclusion always ends with a text or an error message", "statement": "Whatever the files contain (cycles, self-inclusion, broken marks), reading ends, without internal error and without reading outside the buffer, with a text or with an error message.", "quantifier": "all finite sets of files with arbitrary contents", "why_tests_cant": "termination and memory safety for all contents", "anchors": ["src/mmpars.c:getNextInclusion", "src/mmpars.c:readInclude", "src/mmpars.c:readSourceAndIncludes"]}
{"id": "C60", "title": "The filter on repeated unifications loses nothing", "statement": "With the filter on repeated unifications switched on (the default), every unification offered is a unifier; the offered ones are taken from those of the unfiltered search, and each one left out has the same instances as one that is offered; a known step is still matched in every plausible way; each call ends without internal error and there are finitely many; when the assistant concludes that exactly one unification is possible, a known step has exactly one plausible match, and when it says more than one, there are two different ones.", "quantifier": "all pairs of expressions with unknowns, all databases, filter on or off", "why_tests_cant": "the set of unifications grows without bound; equality up to renaming of unknowns must be recognised correctly for all of them", "anchors": ["src/mmunif.c:unifyH", "src/mmunif.c:hentyNormalize", "src/mmunif.c:hentyNormalizeTest", "src/mmunif.c:hentyAdd", "src/mmunif.c:uniqueUnif"]}
{"id": "C61", "title": "The search for proofs without new variables is sound and misses nothing silently", "statement": "IMPROVE (proving a step from the hypotheses in force, finished parts of the proof, and earlier statements): the search always ends without internal error; a proof it returns is a proof of exactly the expression asked for from usable earlier statements (not discouraged, not of another mathbox, not with $d if excluded), and obeys the rules of the language; if it returns none and prints no message about a limit, there is no proof of the kind searched for; the preliminary test of statements rejects none that matches.", "quantifier": "all databases, all expressions, all proofs in progress, all settings of the limits", "why_tests_cant": "the search space is unbounded, and completeness is a statement about all proofs", "anchors": ["src/mmpfas.c:proveFloating", "src/mmpfas.c:quickMatchFilter"]}
{"id": "C62", "title": "A step is proved from a given statement only correctly", "statement": "REPLACE, IMPROVE (search for a matching statement) and MINIMIZE_WITH: looking for a proof of a step that ends in a given earlier statement, with the statement's hypotheses proved by hypotheses in force, by steps already in the proof (independent of the step, or within its own proof) or anew, always ends without internal error; what is returned ends in that statement and proves exactly the target of the step; it has no unproved parts unless only the step's own proof was searched; if statements with $d requirements are excluded it obeys the rules of the language.", "quantifier": "all databases, all proofs in progress with unknown steps, all steps, all earlier statements, all search options", "why_tests_cant": "the backtracking search over unifications, steps and postponed hypotheses has unboundedly many histories; an error shows only for particular orders of failures", "anchors": ["src/mmpfas.c:replaceStatement", "src/mmpfas.c:proveByReplacement"]}
{"id": "C63", "title": "Known steps get exactly the expressions they prove", "statement": "When the assistant fills in the expressions of the steps of a subproof without unknown steps (or of all such subproofs of the proof in progress), it ends without internal error; either it complains, or each step's source, and each target but the subproof's own, becomes exactly the expression the step proves by the rules of the language; nothing else in the proof in progress changes.  In a database in which no statement violates the assistant's own plausibility rules for substitutions, it never complains.", "quantifier": "all databases, all proofs in progress, all finished subproofs that prove something", "why_tests_cant": "unbounded proof sizes and substitutions; the uniqueness of each unification must hold for every statement", "anchors": ["src/mmpfas.c:assignKnownSteps", "src/mmpfas.c:assignKnownSubProofs"]}
{"id": "C64", "title": "MINIMIZE_WITH keeps a complete proof complete", "statement": "Trying a statement on a complete proof in progress (MINIMIZE_WITH) ends after at most as many rounds as the proof has steps, without internal error; the result is again a complete proof of the same expression by the rules of the language ($d requirements aside), each step having as target exactly what it proves; its steps are steps of the old proof, hypotheses of the statement being proved or earlier statements; it is shorter or unchanged.  With MAY_GROW it also ends, with the same guarantees except the length.  The preliminary symbol tests never exclude a match.", "quantifier": "all plain databases (no statement violating the plausibility rules for substitutions), all complete proofs in progress, all earlier assertions", "why_tests_cant": "depends on unbounded proofs and on termination of an open-ended loop", "anchors": ["src/mmpfas.c:minimizeProof", "src/mmpfas.c:checkStmtMatch"]}
{"id": "C65", "title": "/EXPLICIT proofs are read as what they say", "statement": "A proof whose steps carry targets (label:target=name) is read, without error or internal error and in finite time, as a proof string denoting the tree obtained by giving each hypothesis of a used assertion the subproof whose target is that hypothesis's label, in whatever order the subproofs are written, local labels standing for the subproof they were declared on; it is reported as incomplete exactly if a step is '?'.", "quantifier": "all label tables, all statements, all lists of steps with targets and local labels", "why_tests_cant": "depends on unbounded proofs, on every order of the hypotheses at every step and on termination of an open-ended loop moving subproofs", "anchors": ["src/mmpars.c:parseProof", "src/mmpars.c:subproofLen"]}
{"id": "C66", "title": "SAVE PROOF /EXPLICIT keeps the proof", "statement": "From an acceptable proof, on a screen of width 5 or more, SAVE PROOF /EXPLICIT (with or without /PACKED) stores a section which, followed by '$.', is read back without error as a proof with the same tree, reported as incomplete exactly if the original has a '?'. The only other outcome is that the text overruns the string allocated for it, which needs a label that is a number or a '?' together with a label of more than 100 characters.", "quantifier": "all databases, label tables, acceptable proofs, screen widths of 5 or more, source indentations and texts after the proof", "why_tests_cant": "depends on every proof shape and label table, on where lines are broken, and on the bound for the allocated string", "anchors": ["src/mmdata.c:nmbrCvtRToVString", "src/mmdata.c:nmbrGetTargetHyp", "src/metamath.c:command (SAVE PROOF)", "src/mmpars.c:parseProof"]}
{"id": "C67", "title": "The verdict of VERIFY PROOF * holds for proofs in all formats", "statement": "Whatever a proof section contains, in normal, packed, compressed or /EXPLICIT format: if it is read with status 0 or 1, the proof string is a well-formed proof with references only to earlier assertions and the statement's own hypotheses, and status 0 means no '?' and no error. If READ of a file and VERIFY PROOF * then report nothing, every $p statement of the file follows from its $a statements, in whatever format the proofs are.", "quantifier": "all source texts, all proof sections, all screen and buffer sizes, any qsort and bsearch as ISO C allows", "why_tests_cant": "quantifies over all source texts and all malformed /EXPLICIT proofs: missing or stray targets, labels on the wrong steps, hypotheses in any order", "anchors": ["src/mmpars.c:parseProof", "src/mmcmds.c:verifyProofs", "src/mmveri.c:verifyProof"]}
{"id": "C68", "title": "MINIMIZE_WITH keeps a valid proof valid and brings in only what it may", "statement": "MINIMIZE_WITH with any lists and options, on a complete proof: the result is a complete proof of the same statement; if the proof was valid, $d requirements included, it stays valid. Without /MAY_GROW the compressed proof is not longer than before and the proof is unchanged or has fewer steps. Every statement used was used before, or is a hypothesis of the statement being proved, an earlier statement about syntax, or an earlier assertion matched by the list of statements to try, not by /EXCEPT, not a discouraged one (without /OVERRIDE), not in another mathbox (without /INCLUDE_MATHBOXES), and neither it nor anything it depends on is in the /FORBID list. The new proof depends on no logical $a statement on which the old one did not depend, unless /ALLOW_NEW_AXIOMS lists it and /NO_NEW_AXIOMS_FROM does not.", "quantifier": "all databases of the usual kind ($e hypotheses logical, $f hypotheses not, syntax statements proved from syntax statements), all complete proofs, all lists and options", "why_tests_cant": "the trial statements, the order of the two scans and the reversions make unboundedly many histories; a missed reversion shows only for particular combinations", "anchors": ["src/metamath.c:command", "src/mmpfas.c:minimizeProof", "src/mmcmds.c:traceProofWork"]}
{"id": "C69", "title": "The congratulations of the proof assistant are true", "statement": "In MM-PA, after PROVE of an unknown proof (or of an existing one, complete or not, whose finished parts show something under substitutions the assistant would try) and any commands UNIFY (STEP, ALL, INTERACTIVE), LET STEP, LET VARIABLE, ASSIGN (NO_UNIFY too), DELETE STEP, INITIALIZE STEP and INITIALIZE USER, and INITIALIZE ALL where the finished parts show something, in any order with any choices of the user, the next such command ends without an internal error. At any time the proof in progress is a tree for the statement being proved, in which every step's expression is an instance of its statement under a substitution that also gives its hypotheses. Automatic unification only substitutes expressions for unknowns, the same everywhere; it changes nothing if everything is unified. When the program prints CONGRATULATIONS, the proof has no unknown step, every step is unified, and it shows the statement to be proved: VERIFY PROOF can then report $d violations only, and if there are none the proof is valid. Conversely if nothing is left to do, automatic unification says so.", "quantifier": "all databases, statements, sessions (commands, choices, strings entered), dummy variables and unification budgets", "why_tests_cant": "the sessions and the strings with unknowns are unbounded; that automatic unification ends needs a measure", "anchors": ["src/mmpfas.c:autoUnify", "src/mmpfas.c:makeSubstAll", "src/mmpfas.c:interactiveUnify", "src/mmpfas.c:replaceDummyVar", "src/mmpfas.c:assignStatement", "src/metamath.c:command", "src/mmpfas.c:initProofStruct", "src/mmpfas.c:initStep", "src/mmpfas.c:assignKnownSubProofs"]}
{"id": "C70", "title": "A math text typed by the user is understood or refused", "statement": "The text given to LET STEP or LET VARIABLE is divided at blanks (white space and comments) into tokens, and each token into symbols: each time the longest name of a declared symbol, or else $<number> for a dummy variable. A name stands for the symbol in force at the statement being proved, the innermost one. If any part is not such a symbol, one message is printed and LET is refused; otherwise its argument is exactly these symbols, and without '$' in the text nothing is lost: their names together are the text without blanks. The names of symbols in force and dummies, separated by blanks, are read back as the same symbols. New dummies are declared, so no symbol number is outside the table. Every text is answered, except \"$!\" without a newline (internal error), a comment ending in '$' and huge dummy numbers (undefined). Not true: that everything typed is used (a text is cut at a '$' that starts no token) and that only symbols and $1, $2, ... are accepted ($0 is the separator token).", "quantifier": "all texts, symbol tables with any number of equal names, statements and scopes", "why_tests_cant": "texts and symbol tables are unbounded; greedy splitting needs all names considered", "anchors": ["src/mmpars.c:parseMathTokens", "src/mmpfas.c:declareDummyVars", "src/metamath.c:command"]}
{"id": "C71", "title": "IMPROVE adds only proofs of what is displayed", "statement": "IMPROVE STEP n and IMPROVE ALL (with the search / 1), in any proof in progress whose finished parts show what is displayed for them (as when all is unified), end without an internal error. The proof changes only where an unfinished part ends at a step whose displayed expression has no unknowns: that part is replaced by a finished proof of this expression which uses only statements that may be used, and copies of finished parts of the same proof; all other steps, their expressions and the user's entries stay. If there is no message and nothing is changed there is no such proof within the limits of the search. Every step remains an instance of its statement. In sessions of any length with ASSIGN, LET, UNIFY, DELETE STEP, INITIALIZE and IMPROVE in any order, the congratulations are printed only if the proof is complete: it shows the statement to be proved, and VERIFY PROOF can object only to $d violations. In a plain database IMPROVE ALL of a unified proof leaves it unified, and congratulates if and only if no unknown step is left; it does nothing to a complete proof.", "quantifier": "all databases with properly floated variables, proofs in progress, histories of commands, options (depth, / NO_DISTINCT, / OVERRIDE, / INCLUDE_MATHBOXES)", "why_tests_cant": "proofs in progress and histories are unbounded; the search is recursive and uses the proof being changed", "anchors": ["src/metamath.c:command (IMPROVE)", "src/mmpfas.c:proveFloating", "src/mmpfas.c:assignKnownSteps", "src/mmpfas.c:addSubProof", "src/mmpfas.c:deleteSubProof", "src/mmpfas.c:checkDummyVarIsolation"]}
{"id": "C72", "title": "UNDO and REDO anywhere in a session are harmless", "statement": "In a session with MM-PA, of any length, with PROVE, ASSIGN, LET, UNIFY, DELETE STEP, ALL and FLOATING_HYPOTHESES, INITIALIZE, IMPROVE, EXPAND, UNDO, REDO, SET UNDO and SAVE in any order: the proof on display is the one the undo stack holds as current; each sensible command ends without an internal error; the proof is always a tree of the statement to be proved in which every step is an instance of its statement; the congratulations are printed only if it is complete, and VERIFY PROOF can then object only to $d violations; and any number of changes (within the limit of SET UNDO) followed by as many UNDOs gives back the same proof. Not true of the program: that after UNDO the session continues as if the undone command had not been given. The number of working variables in use is not restored; after INITIALIZE ALL and UNDO, ASSIGN may introduce as new a working variable that is in use elsewhere in the proof, so that the commands which would have finished the proof no longer do.", "quantifier": "all databases with properly floated variables, all histories of commands, undo limits and prior sessions", "why_tests_cant": "histories are unbounded, and the damage shows only for particular orders of commands", "anchors": ["src/mmpfas.c:processUndoStack", "src/mmpfas.c:g_pipDummyVars", "src/metamath.c:command (UNDO, REDO, DELETE, INITIALIZE, EXPAND)"]}
{"id": "C73", "title": "Step and statement arguments designate what they say", "statement": "The step argument of ASSIGN, LET, IMPROVE and REPLACE: nn is step nn if the proof has one; FIRST, LAST, +n, -n (abbreviated, in either case) are the first, last, n-th after the first and n-th before the last of the unknown essential steps; ALL is accepted only where it makes sense; anything else, and a step that does not exist, is refused with a message, and a message is printed only then. The offset that SHOW NEW_PROOF / UNKNOWN shows beside an unknown step, typed back, designates that step. The statement argument of PROVE, ASSIGN, REPLACE and SHOW SOURCE, with or without wildcards, designates the one statement in range, of the right kind and (if asked for) in scope that fits; if there is none or there are several, the command is refused, and the reason given is true.", "quantifier": "all databases, proofs in progress, argument texts (steps: up to 15 characters) and flags", "why_tests_cant": "proofs, label sets and argument texts are unbounded, and a wrong step is a silently wrong proof", "anchors": ["src/mmcmds.c:getStepNum", "src/mmcmds.c:getRelStepNums", "src/mmcmds.c:getStatementNum"]}
{"id": "C74", "title": "A statement belongs to the mathbox whose heading precedes it", "statement": "After the statement labelled mathbox, a statement belongs to the mathbox of the last preceding label section (its own included) with a 'Mathbox for ' heading; the user is the text after the last such heading, up to the end of its line. The program reports exactly that user, '' for a statement in no mathbox, and the recorded last statement of a mathbox is its last. Two statements are said to be in different mathboxes iff each is in one and these differ. ASSIGN of an earlier statement announces 'is in the mathbox for X' iff it is in another mathbox, and X is its user. Not so in two cases, both proved: a heading after which the label section has no line feed stops the program (bug 2350), and ASSIGN of a statement between mathbox and the first heading in the proof of a later one reads before the start of an array.", "quantifier": "all databases (label sections of any length and number) and all statements", "why_tests_cant": "databases are unbounded; empty mathboxes and several headings in one section are rare in tests", "anchors": ["src/mmwtex.c:getMathboxLoc", "src/mmwtex.c:getMathboxNum", "src/mmwtex.c:getMathboxUser", "src/mmwtex.c:inDiffMathboxes", "src/metamath.c:4494"]}
