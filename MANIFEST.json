{
 "claims": [
  {
   "property": "C01",
   "status": "proved",
   "theorems": [
    "C01_verify_sound"
   ],
   "note": "Soundness of verifyProof against MMSpec.derivable, for every well-formed database and every proof string with backward local references. That the hypotheses used are the statement's own is C08."
  },
  {
   "property": "C02",
   "status": "proved",
   "theorems": [
    "C02_verify_decides",
    "C02_valid_accepted",
    "C02_derivable_accepted"
   ],
   "note": "Well-formed proofs are processed without trap/UB/non-termination and accepted iff valid; derivable statements have accepted proofs when every assertion variable has a $f."
  },
  {
   "property": "C03",
   "status": "proved",
   "theorems": [
    "C03_unifier_exact"
   ],
   "note": ""
  },
  {
   "property": "C04",
   "status": "proved",
   "theorems": [
    "C04_ambiguity_detected",
    "C04_ambiguity_unknown"
   ],
   "note": ""
  },
  {
   "property": "C05",
   "status": "proved",
   "theorems": [
    "C05_disj_reported"
   ],
   "note": "Messages are printed only while the proof has no earlier error (errorCount = 0), as in the code."
  },
  {
   "property": "C06",
   "status": "partial",
   "theorems": [
    "C06_message_truthful_refuted",
    "C06_clean_run_truthful",
    "C06_never_after_unify_failure",
    "C06_clean_run_text"
   ],
   "note": "The stated property is false of the code: only 'cannot be unified' raises the status, so $d violations, ambiguous unification and a wrong final result still end in 'All proofs ... verified'. Witness proved; the variant 'message printed and no error message => every proof valid' is proved, also from the proof texts (non-/EXPLICIT formats)."
  },
  {
   "property": "C07",
   "status": "proved",
   "theorems": [
    "C07_incomplete_not_accepted",
    "C07_unknown_token",
    "C07_unknown_letter",
    "C07_parsed_unknown_not_verified"
   ],
   "note": "A '?' in the text gives parser status >= 1 (normal: any token starting with '?'; compressed: any '?' among the letters not preceded by a comment), and a proof string with an unknown step is never given status 0 by the verifier. /EXPLICIT normal format is not modelled."
  },
  {
   "property": "C08",
   "status": "proved",
   "theorems": [
    "C08_all_follow_from_axioms",
    "C08_text_follows_from_axioms",
    "C09_parsed_good"
   ],
   "note": "gp_ref of goodProof is the no-forward-reference part; the whole-database induction is stated for the proof texts. /EXPLICIT normal format is not modelled."
  },
  {
   "property": "C09",
   "status": "proved",
   "theorems": [
    "C09_parsed_good"
   ],
   "note": "goodProof in ParSpec.v spells out the guarantee. /EXPLICIT normal format is not modelled. A local label on a '?' step may be referenced."
  },
  {
   "property": "C10",
   "status": "proved",
   "theorems": [
    "C10_label_codec",
    "C10_parser_reads"
   ],
   "note": ""
  },
  {
   "property": "C11",
   "status": "partial",
   "theorems": [
    "C11_roundtrip_refuted",
    "C11_labelled_unknown_refuted",
    "C11_roundtrip_partial",
    "C11_roundtrip_unbroken_partial",
    "C11_new_order_partial"
   ],
   "note": "False as stated: a statement with more than 120 mandatory hypotheses can have its compressed proof read back as a different proof (obsolete-compression guess), and a local label on '?' is lost. Proved for every other case: all layouts if at most 120 labels, or 'UU' occurs, or 'UV' does not occur; one-line letters if at most 120 mandatory hypotheses."
  },
  {
   "property": "C12",
   "status": "partial",
   "theorems": [
    "C12_stack_overflow_refuted",
    "C12_uninitialised_refuted",
    "C12_overflow_refuted",
    "C12_safe_partial"
   ],
   "note": "False as stated, three witnesses; a large safe sub-language is proved free of out-of-bounds accesses and overflow."
  },
  {
   "property": "C13",
   "status": "proved",
   "theorems": [
    "C13_pack_unpack",
    "C13_unpack_repack",
    "C13_same_tree"
   ],
   "note": "Packing/unpacking inverse, tree and validity preserved. All accepted proofs."
  },
  {
   "property": "C14",
   "status": "proved",
   "theorems": [
    "C14_subproof_length"
   ],
   "note": "Both implementations return the length of the unique complete subproof."
  },
  {
   "property": "C15",
   "status": "proved",
   "theorems": [
    "C15_display"
   ],
   "note": "Depth, target hypothesis and essential flag for every step."
  },
  {
   "property": "C16",
   "status": "proved",
   "theorems": [
    "C16_matches_glob",
    "C16_range",
    "C16_statement_number",
    "C16_page_number",
    "C16_prove_statement",
    "C16_changed",
    "C16_star_in_string_refuted"
   ],
   "note": "Glob semantics proved for strings without the wildcard character (the stated property); the special label patterns ~ # @ = % proved too (numbers with a decimal point not modelled). Refuted beyond the stated range: a string containing the wildcard character itself."
  },
  {
   "property": "C17",
   "status": "proved",
   "theorems": [
    "C17_list_union"
   ],
   "note": "Includes totality of matches() for every pattern, special or not."
  },
  {
   "property": "C18",
   "status": "proved",
   "theorems": [
    "C18_substring",
    "C18_left_right_mid_seg",
    "C18_left_right_join",
    "C18_clamps",
    "C18_beyond_undefined"
   ],
   "note": "Positions beyond length+1 are outside the documented range and proved to read beyond the string."
  },
  {
   "property": "C19",
   "status": "partial",
   "theorems": [
    "C19_empty_pattern_refuted",
    "C19_instr_partial",
    "C19_rinstr_partial"
   ],
   "note": "Fully proved for non-empty patterns. For the empty pattern the code violates the property (refuted): instr returns length+1 and rinstr never stops."
  },
  {
   "property": "C20",
   "status": "proved",
   "theorems": [
    "C20_fields",
    "C20_lists",
    "C20_field_start"
   ],
   "note": "numEntries of the empty list is 0 (special case of the code)."
  },
  {
   "property": "C21",
   "status": "partial",
   "theorems": [
    "C21_edit_partial",
    "C21_single_flags",
    "C21_untab_partial",
    "C21_refuted"
   ],
   "note": "All flag words without TAB/UNTAB proved; UNTAB proved when tabs are rare enough; refuted: UNTAB and TAB leave the buffer, RUBOUT is not discarded."
  },
  {
   "property": "C22",
   "status": "proved",
   "theorems": [
    "C22_bigAdd_exact",
    "C22_bigSub_exact",
    "C22_canonical_unique"
   ],
   "note": "The canonical form of zero is the empty string."
  },
  {
   "property": "C23",
   "status": "proved",
   "theorems": [
    "C23_knapsack_optimal",
    "C23_zero_size_refuted"
   ],
   "note": "Sizes must be positive, as they are for the only caller (label length + 1); for an item of size 0 the marked items need not attain the worth returned (C23_zero_size_refuted)."
  },
  {
   "property": "C24",
   "status": "partial",
   "theorems": [
    "C24_label_order_partial",
    "C24_long_label_refuted"
   ],
   "note": "Proved when every label fits on a line of its own; also that no other order needs fewer letters. Termination is false in general: with a label longer than screen width - indentation - 2 the loop runs for ever (C24_long_label_refuted)."
  },
  {
   "property": "C25",
   "status": "proved",
   "theorems": [
    "C25_linear_history",
    "C25_undo_restores",
    "C25_undo_answer",
    "C25_redo_reverses",
    "C25_edit_discards_redo",
    "C25_exit_ok",
    "C25_set_outside_ok"
   ],
   "note": "processUndoStack at cell level, every sequence of session commands, from every stack state between sessions; memory exhaustion by a huge SET UNDO is not modelled"
  },
  {
   "property": "C26",
   "status": "proved",
   "theorems": [
    "C26_status_sound",
    "C26_exit_sound",
    "C26_exit_sound_saveOther_refuted"
   ],
   "note": "status reported by the stack is sound; EXIT without warning loses nothing if SAVE PROOF of another statement is not used in the session; with it the claim is refuted (it clears g_proofChanged, metamath.c:3795)"
  },
  {
   "property": "C27",
   "status": "proved",
   "theorems": [
    "C27_round_trip",
    "C27_unique",
    "C27_check_exact",
    "C27_check_total",
    "C27_compare",
    "C27_order",
    "C27_most_recent",
    "C27_today",
    "C27_day_before",
    "C27_unknown_month_refuted",
    "C27_check_day_refuted"
   ],
   "note": "parseDate, buildDate, compareDates, the format check and most-recent choice of getContrib, date(), and the day-by-day scan. Doubles are taken as exact. Refuted: parseDate reads an unknown month as January without error; the format check ignores the day range."
  },
  {
   "property": "C28",
   "status": "proved",
   "theorems": [
    "C28_text_exists",
    "C28_text_unique",
    "C28_buffer",
    "C28_exit_at",
    "C28_unsigned"
   ],
   "note": "Whole of mmfatl.c: buffer never overrun (UB is a distinct outcome), text = concatenated expansions or its prefix plus ellipsis, return flags exact, printed text ends in a line feed, decimal conversion fits its array for every integer width, location prefix of fatalErrorExitAt. Memory corruption by other code not modelled."
  },
  {
   "property": "C29",
   "status": "proved",
   "theorems": [
    "C29_label_lookup"
   ],
   "note": "qsort is specified by its contract (sorted permutation), bsearch modelled as binary search; duplicate report, label/token clash report and lookups proved exact."
  },
  {
   "property": "C30",
   "status": "proved",
   "theorems": [
    "C30_white_space_is_blanks",
    "C30_white_space_unique",
    "C30_math_tokens_partition",
    "C30_math_tokens_unique",
    "C30_tokens_have_no_white_space",
    "C30_proof_tokens_partition",
    "C30_proof_tokens_unique",
    "C30_token_loops_terminate",
    "C30_white_space_ub_refuted",
    "C30_white_space_trap_refuted"
   ],
   "note": "whiteSpaceLen, tokenLen, proofTokenLen and the math/proof token loops. The two malformed file endings where the code misbehaves (comment ending in $ at end of file: read past the buffer; $! without newline: trap 1716) are characterised exactly and exhibited."
  },
  {
   "property": "C31",
   "status": "proved",
   "theorems": [
    "C31_frames_follow_the_language",
    "C31_mandatory_hypotheses"
   ],
   "note": "Reader of declarations and statements (parseMathDecl, parseStatements) over token lists; the composition with the text is ReadModel (in progress)."
  },
  {
   "property": "C32",
   "status": "proved",
   "theorems": [
    "C32_error_free_iff_legal",
    "C32_scoping",
    "C32_duplicate_float_reported_refuted",
    "C32_missing_float_of_e_reported_refuted",
    "C32_undeclared_symbol_is_reported_refuted",
    "C32_reader_never_traps_refuted"
   ],
   "note": "Error-free read iff legal (scoping rules + nesting at most 32000). The refuted theorems record where the program is laxer than the language and where malformed input reaches UB or an internal trap."
  },
  {
   "property": "C33",
   "status": "proved",
   "theorems": [
    "C33_union",
    "C33_intersection",
    "C33_set_minus",
    "C33_extract_vars",
    "C33_first_occurrences",
    "C33_element_in"
   ],
   "note": "Cell-level model of number strings. nmbrUnion keeps duplicates that its first argument already has."
  },
  {
   "property": "C34",
   "status": "partial",
   "theorems": [
    "C34_slicing",
    "C34_building",
    "C34_equality",
    "C34_search",
    "C34_reverse_search",
    "C34_left_beyond_end_refuted",
    "C34_beyond_end_ub_refuted"
   ],
   "note": "Proved for all in-range arguments; false out of range (witnesses: stored length differs from the contents; start beyond the end is undefined)."
  },
  {
   "property": "C35",
   "status": "proved",
   "theorems": [
    "C35_delete_subproof",
    "C35_add_subproof",
    "C35_replace_subproof",
    "C35_replace_keeps_valid",
    "C35_delete_add_back",
    "C35_delete_step",
    "C35_delete_floating",
    "C35_assign_assertion",
    "C35_assign_hypothesis",
    "C35_parent",
    "C35_parent_of_last",
    "C35_known",
    "C35_independent_known",
    "C35_history",
    "C35_delete_step_range_refuted"
   ],
   "note": "addSubProof, deleteSubProof, their composition, DELETE STEP, DELETE FLOATING_HYPOTHESES, assignStatement/initStep, getParentStep, getKnownSubProofs, getIndepKnownSteps; exact effect on proof and target/source/user strings, and an invariant over all histories. DELETE STEP with a number beyond the last step + 1 reads outside the array (refuted theorem); this is outside the claim, which is about steps of the proof."
  },
  {
   "property": "C36",
   "status": "proved",
   "theorems": [
    "C36_unify_sound",
    "C36_unify_same",
    "C36_unify_ends",
    "C36_answers_end",
    "C36_separators_refuted",
    "C36_empty_front_refuted"
   ],
   "note": "unify() and makeSubstUnif() with the real stack, saved schemes, position adjustment and filters; first call and every re-entry; termination, no bug() 1902-1905, no out-of-string read. Precondition okInput is what the callers provide (equal number of separators, non-empty schemes, g_minSubstLen 0 or 1, with 0 only if no scheme begins with an unknown); both _refuted witnesses show it is needed. C36_answers_end: finitely many answers."
  },
  {
   "property": "C37",
   "status": "proved",
   "theorems": [
    "C37_usage_recursive",
    "C37_usage_direct_sound",
    "C37_usage_direct_hypothesis",
    "C37_usage_direct_partial",
    "C37_readable_database",
    "C37_trace_back",
    "C37_trace_back_listed",
    "C37_usage_direct_refuted",
    "C37_usage_bug_refuted",
    "C37_essential_packed_refuted"
   ],
   "note": "SHOW USAGE/RECURSIVE and SHOW TRACE_BACK exact. Beyond the stated property: SHOW USAGE without /RECURSIVE is exact only for proofs without comments (a comment with ')' in a compressed label list hides a use), traps with bug(217) on an unclosed label list (both refuted with witnesses), and /ESSENTIAL is relative to the stored packed proof."
  },
  {
   "property": "C38",
   "status": "proved",
   "theorems": [
    "C38_write_source_reproduces",
    "C38_statements_partition_source",
    "C38_reading_inverts_writing",
    "C38_erroneous_source_differs_refuted"
   ],
   "note": "For every source text without error from parseKeywords; includes ($[ $]) are expanded before and not modelled; the file write itself is not modelled. For a source with errors the output can differ (witness)."
  },
  {
   "property": "C39",
   "status": "proved",
   "theorems": [
    "C39_lines",
    "C39_no_character_lost",
    "C39_words",
    "C39_width",
    "C39_compressed",
    "C39_later_lines_refuted",
    "C39_width_3_refuted",
    "C39_bug1516_refuted"
   ],
   "note": "Widths of 4 or more. Refuted variants: later, breakable lines also exceed the width after one over-long word; SET WIDTH 3 traps in the tilde style; a non-space break character at the start of a line traps (1516)."
  },
  {
   "property": "C40",
   "status": "proved",
   "theorems": [
    "C40_any_stop",
    "C40_finished",
    "C40_history",
    "C40_no_versions",
    "C40_fixed_directory_refuted",
    "C40_unreadable_refuted"
   ],
   "note": "fSafeOpen as the list of directory states between atomic renames; any stop point; any history of finished and stopped saves keeps at least the nine newest versions in order. Needs a directory that may be changed and readable versions: both needs are shown by refutations (rename() results are not checked)."
  },
  {
   "property": "C41",
   "status": "proved",
   "theorems": [
    "C41_abbreviation",
    "C41_accepted_iff",
    "C41_prompt",
    "C41_prompt_nothing_refuted"
   ],
   "note": "keyword lists of getFullArg, arguments given in the command line and answers to prompts; typing \"nothing\" at a prompt is taken as no argument even where one is required (refuted)"
  },
  {
   "property": "C42",
   "status": "proved",
   "theorems": [
    "C42_pools_hold_values",
    "C42_purge_malloc_failure_refuted"
   ],
   "note": "Any program of nmbrString operations (temporary results, assignment, zapping, make-temp, nested scopes, fixed allocation, free, purge) under any malloc behaviour outside memFreePoolPurge. The unchecked malloc inside memFreePoolPurge is shown to break it (refuted). pntrStrings (same code, other element size) not modelled."
  },
  {
   "property": "C43",
   "status": "proved",
   "theorems": [
    "C43_parser_total"
   ],
   "note": "UB (the C12 cases) is a separate outcome: the theorem excludes non-termination and bug() traps. /EXPLICIT format is outside the model."
  },
  {
   "property": "C44",
   "status": "partial",
   "theorems": [
    "C44_save_compressed_partial",
    "C44_save_new_order_partial",
    "C44_saved_section_partial"
   ],
   "note": "Composed from the parsed proof to the stored section (unpack, pack, compress, label order, line breaking) and read back. Missing: statements for which C11 fails (more than 120 label numbers and a layout that hides UU but shows UV)."
  },
  {
   "property": "C45",
   "status": "proved",
   "theorems": [
    "C45_packing_shares_all",
    "C45_pack_unpacked"
   ],
   "note": "In the proof string produced by nmbrSquishProof no two non-reference steps prove equal expanded subproofs of more than one step, for every acceptable proof (unpacked first, as SAVE does) and every well-formed tree."
  },
  {
   "property": "C46",
   "status": "proved",
   "theorems": [
    "C46_file_text",
    "C46_lines_unique",
    "C46_unix_text_unchanged",
    "C46_empty_file_ub_refuted"
   ],
   "note": "Text without NUL. An empty file makes readFileToString read the byte before its buffer (witness)."
  },
  {
   "property": "C47",
   "status": "partial",
   "theorems": [
    "C47_statement_array",
    "C47_statement_array_overflow_refuted"
   ],
   "note": "Proved for texts without raw-scan errors and for all texts without \"$$\"; false in general: a text with \"$$(\" overflows the array (witness)."
  },
  {
   "property": "C48",
   "status": "proved",
   "theorems": [
    "C48_error_free_source",
    "C38_reading_inverts_writing"
   ],
   "note": ""
  },
  {
   "property": "C49",
   "status": "proved",
   "theorems": [
    "C49_split_total",
    "C49_split",
    "C49_comment",
    "C49_quote_roundtrip"
   ],
   "note": ""
  },
  {
   "property": "C50",
   "status": "proved",
   "theorems": [
    "C50_command_match",
    "C50_switch"
   ],
   "note": ""
  },
  {
   "property": "C51",
   "status": "proved",
   "theorems": [
    "C51_expand",
    "C51_expand_all"
   ],
   "note": "expandProof and the loop of EXPAND. Validity of the result needs a source proof that is complete and has no dummy variables (otherwise unknown steps are left, as documented)."
  },
  {
   "property": "C52",
   "status": "proved",
   "theorems": [
    "C52_match_complete",
    "C52_match_sound",
    "C52_match_no",
    "C52_match_once"
   ],
   "note": "second scheme without unknowns; answers over all re-entries up to \"no more\" are exactly the matches whose values pass the independent spec of the bracket and first/last-constant filters. C52_match_once: no match is answered twice."
  },
  {
   "property": "C53",
   "status": "proved",
   "theorems": [
    "C53_silent_run_proves_the_file",
    "C53_words_unique",
    "C53_silent_read",
    "C53_symbol_tables_fit",
    "C53_symbol_table_overflow_refuted"
   ],
   "note": "End to end, from the text of the file: error-free READ and VERIFY PROOF * imply that the text is well formed and each $p is a theorem over the names in the text (ReadSpec.theorem). Not modelled: $[ $] inclusion, /EXPLICIT proofs (result None). C53_symbol_table_overflow_refuted: with keyword errors before, g_MathToken[] can be overrun."
  },
  {
   "property": "C54",
   "status": "proved",
   "theorems": [
    "C54_read_accepts_exactly_the_language",
    "C54_statements_are_those_of_the_text",
    "C54_error_free_source_iff_tidy"
   ],
   "note": "both directions, for every text without inclusions (\"$[\" unexpanded is an error in the model, as it is in readRawSource); the nesting limit of 32000 is the code's own (mmpars.c:912)"
  },
  {
   "property": "C55",
   "status": "proved",
   "theorems": [
    "C55_correct_proofs_are_accepted",
    "C55_accepted_proofs_are_correct",
    "C55_verified_iff_proofs_correct"
   ],
   "note": "A proof is either a list of labels or a compressed proof (CheckSpec: evaluation on a stack of expressions over the names of the text, no function of the program). For the converse the proof sections are in one of those two layouts (no '?', no local labels, no /EXPLICIT); a compressed section with UV but no UU in the letters is read by an obsolete rule and excluded."
  },
  {
   "property": "C56",
   "status": "proved",
   "theorems": [
    "C56_saved_section_reads_back",
    "C56_local_labels_new",
    "C56_numeric_labels_refuted",
    "C56_long_label_refuted"
   ],
   "note": "SAVE PROOF /NORMAL and /PACKED (nmbrCvtRToVString without /EXPLICIT, printLongLine, the stored section) composed with parseProof. The buffer overrun is a distinct outcome, shown to need a numeric label or '?' with a label over 100 characters; both witnesses proved."
  },
  {
   "property": "C57",
   "status": "proved",
   "theorems": [
    "C57_includes_expanded"
   ],
   "note": "Conditions of the statement are the constructors of Expands (IncSpec)."
  },
  {
   "property": "C58",
   "status": "partial",
   "theorems": [
    "C58_expanded_source_reads_back_partial",
    "C58_prefix_names_refuted"
   ],
   "note": "Proved when no included name is a proper beginning of another; otherwise false of the code (strncmp with the length of the End name): witness proved."
  },
  {
   "property": "C59",
   "status": "partial",
   "theorems": [
    "C59_inclusion_terminates_partial",
    "C59_self_inclusion_refuted",
    "C59_begin_at_end_refuted",
    "C59_command_in_region_refuted",
    "C59_identical_copy_refuted"
   ],
   "note": "Termination proved for all contents. The rest is false of the code: witnesses for internal error 1765, for scans behind the end of the buffer, for a dropped command, and for a spurious mismatch warning."
  },
  {
   "property": "C60",
   "status": "proved",
   "theorems": [
    "C60_answers_sound",
    "C60_same_entry",
    "C60_nothing_lost",
    "C60_match_complete",
    "C60_ends",
    "C60_unique",
    "C60_unique_general",
    "C60_many"
   ],
   "note": "HenModel models unifyH, hentyNormalize, hentyAdd and uniqueUnif on top of UniModel. The inner loop of hentyNormalize, which always uses the outer index, is modelled as written; it only weakens the filter."
  },
  {
   "property": "C61",
   "status": "proved",
   "theorems": [
    "C61_ends",
    "C61_sound",
    "C61_valid",
    "C61_complete",
    "C61_filter"
   ],
   "note": "FltModel models proveFloating and quickMatchFilter (dummyVarFlag = 0), built on HenModel. Completeness is relative to FltSpec.derivable_at: statements with $e hypotheses only up to the depth given by the user and without new variables, and only plausible substitutions. C61_valid needs /NO_DISTINCT, since the search does not check $d."
  },
  {
   "property": "C62",
   "status": "partial",
   "theorems": [
    "C62_ends_partial",
    "C62_sound_partial",
    "C62_reuses_partial",
    "C62_valid_partial",
    "C62_all_partial",
    "C62_replace_refuted"
   ],
   "note": "RepModel models replaceStatement() and proveByReplacement() (dummyVarFlag = 0) completely, built on HenModel, FltModel and PfaModel. Proved for searchMethod 0 (MINIMIZE_WITH, IMPROVE without /SEARCH 2..3) without restriction, and for searchMethod 1 when the statement has no variable that occurs only in its $e hypotheses. Otherwise false of the code: C62_replace_refuted is a database and a proof in progress where REPLACE returns a sequence that does not prove the step (re-entry flags and state vectors left by one unification of the assertion are used with the next one); the C62 result would be rejected by VERIFY PROOF. C62_valid needs statements with $d excluded, since the search does not check $d. C62_reuses_partial: when hypotheses may not be proved anew, each $e hypothesis is proved by a part of the proof in progress or by a hypothesis in force."
  },
  {
   "property": "C63",
   "status": "proved",
   "theorems": [
    "C63_known_steps",
    "C63_known_subproofs",
    "C63_plain",
    "C63_no_complaint",
    "C63_valid_shows",
    "C63_one_value",
    "C63_never_complains_refuted"
   ],
   "note": "The property says: right expressions or a complaint. That a correct proof never draws the complaint is refuted outside \"plain\" databases (a hypothesis `wff (` while all axioms have matching brackets)."
  },
  {
   "property": "C64",
   "status": "proved",
   "theorems": [
    "C64_minimize",
    "C64_may_grow",
    "C64_symbols"
   ],
   "note": "$d requirements are not part of the claim: MINIMIZE_WITH checks them separately (metamath.c), not modelled. Complete proofs only; MINIMIZE_WITH on a proof with unknown steps is outside the claim. K is a bound on the fuel of the unifier, whose existence is part of the theorem (termination)."
  },
  {
   "property": "C65",
   "status": "proved",
   "theorems": [
    "C65_explicit",
    "C65_explicit_text",
    "C65_missing_target_refuted",
    "C65_label_on_reference_refuted"
   ],
   "note": "Correct proofs. For incorrect ones two findings: a step without target makes the parser write to a string literal; a local label declared on a reference can lead to bug(1738) after the error message. K bounds the number of moves of subproofs (termination is part of the theorem)."
  },
  {
   "property": "C66",
   "status": "proved",
   "theorems": [
    "C66_saved_explicit_reads_back",
    "C66_long_label_refuted"
   ],
   "note": "Statements are numbered from 1 (fromOne); hypotheses of an assertion have different labels (hypLabels). Finding: with a '?' the string for the text is allocated for labels of 100 characters."
  },
  {
   "property": "C67",
   "status": "proved",
   "theorems": [
    "C67_parsed_good",
    "C67_silent_run_proves_the_file",
    "C67_other_formats"
   ],
   "note": "C67_parsed_good needs different labels for the hypotheses of an assertion (hypLabels), which READ guarantees and C67_silent_run_proves_the_file does not assume."
  },
  {
   "property": "C68",
   "status": "proved",
   "theorems": [
    "C68_keeps",
    "C68_only_permitted",
    "C68_no_new_axioms",
    "C68_valid",
    "C68_only_disj"
   ],
   "note": "Hypotheses: worldOk (the tables agree and are as left by READ), tablesOk (each label fits on a line; at most 120 mandatory hypotheses, as more might make a text look like the obsolete compressed format), separated/syntaxFree/syntaxProofs (logic and syntax are separate, as in set.mm). Statements brought in to prove $f hypotheses are outside the users lists in the code too: the theorem says syntax statement. K bounds the fuel."
  },
  {
   "property": "C69",
   "status": "proved",
   "theorems": [
    "C69_auto_unify",
    "C69_says_so",
    "C69_ends",
    "C69_linked",
    "C69_congratulations",
    "C69_verifies",
    "C69_prove",
    "C69_parts",
    "C69_initialize_refuted"
   ],
   "note": "auOk: the database is as left by READ and the tables agree. sensible: strings entered contain no separator ($0 typed by the user becomes one: then nothing is claimed) and for LET STEP are not empty; DELETE STEP beyond the end is C35; INITIALIZE ALL only if the finished parts show something (true in plain databases if all is unified, C69_parts). Without this the congratulations may be false: C69_initialize_refuted is a session where a wrong assignment, INITIALIZE ALL (which complains and makes the targets equal to the sources) and UNIFY ALL end in false congratulations. Of interactiveUnify the weights are not modelled: the user picks any answer or none. getStepNum and getStatementNum are not modelled."
  },
  {
   "property": "C70",
   "status": "proved",
   "theorems": [
    "C70_reads",
    "C70_complete",
    "C70_messages",
    "C70_nothing_lost",
    "C70_printed_is_read",
    "C70_rest_ignored_refuted",
    "C70_boundary_refuted"
   ],
   "note": "tablesOk: g_mathKey is sorted by name and the names are math tokens, as READ leaves them; endStatement and scope of a symbol are parameters. From 2^53 on dummy numbers are taken as undefined. malloc failures and the wording of messages are not modelled. The two refuted theorems show which readings of the claim are false of the program."
  },
  {
   "property": "C71",
   "status": "proved",
   "theorems": [
    "C71_parts",
    "C71_step",
    "C71_improve_step",
    "C71_all",
    "C71_complete",
    "C71_linked",
    "C71_congratulations",
    "C71_verifies"
   ],
   "note": "goal E m and auOk E as in C69; plainDb as in C63: each expression of the database, after its type code, is one that the assistant would substitute for a variable, and no variable is written as a bracket. IMPROVE in a session is asked for when the finished parts show what is displayed (C71_parts: follows from all being unified) and without a complaint by assignKnownSteps. IMPROVE / 2 and / 3 (proveByReplacement, C62) are not part of the sessions; messages other than the congratulations are not modelled."
  },
  {
   "property": "C72",
   "status": "proved",
   "theorems": [
    "C72_linked",
    "C72_ends",
    "C72_congratulations",
    "C72_verifies",
    "C72_back",
    "C72_undo_exact_refuted"
   ],
   "note": "Commands that change the proof push it (C25 model); one that leaves it alone may or may not push, which covers the exits of each command. INITIALIZE ALL, EXPAND and IMPROVE under the conditions of C69 and C71 (finished parts show something, no complaint); plainDb and goal as there. REPLACE, IMPROVE / 2 and / 3 and MINIMIZE_WITH (C62, C64, C68) are not among the commands. C72_undo_exact_refuted: the part of the claim that is false of the program."
  },
  {
   "property": "C73",
   "status": "proved",
   "theorems": [
    "C73_step_argument",
    "C73_one_reading",
    "C73_shown_offsets",
    "C73_statement_argument"
   ],
   "note": "Step texts of at most 15 characters (exact as doubles; a number outside the range of long is undefined behaviour in the code). Texts of the messages not modelled, only which is printed. Patterns as in C16/C17: labels without '*'. The empty argument, which can be typed as '', counts as FIRST."
  },
  {
   "property": "C74",
   "status": "proved",
   "theorems": [
    "C74_mathboxes",
    "C74_one_box",
    "C74_no_mathbox_label",
    "C74_notice",
    "C74_notice_refuted",
    "C74_unended_heading_refuted"
   ],
   "note": "The label sections are byte lists; the statement labelled mathbox is an argument (its lookup is C29). The caching of the result in globals (reset by ERASE) and the allocation of the arrays are not modelled. The two refuted cases are part of the statement."
  }
 ]
}