{
 "claims": [
  {
   "property": "C01",
   "status": "proved",
   "theorems": [
    "C01_rows_are_independent_sets",
    "C01_views_read_the_same_rows",
    "C01_two_dimensional",
    "C01_one_dimensional",
    "C01_resize"
   ],
   "note": "block-level rows against sets, for three-, two- and one-dimensional sets, the views, and resize; out-of-range unchecked access is UB and excluded by the hypotheses"
  },
  {
   "property": "C02",
   "status": "proved",
   "theorems": [
    "C02_ones_enumerates_members",
    "C02_ones_any_blocks"
   ],
   "note": "all block counts, incl. the any-block variant"
  },
  {
   "property": "C03",
   "status": "partial",
   "theorems": [
    "C03_compact_distance_set_refuted",
    "C03_compact_is_a_no_op_up_to_32_states",
    "C03_compact_exactly_partial"
   ],
   "note": "Refuted (element in two rows survives). Proved exactly which elements disappear, for all sets: the function compares blocks by their number in the whole set, so it hides elements within a row and misses rows; with at most 32 elements per row it changes nothing."
  },
  {
   "property": "C04",
   "status": "proved",
   "theorems": [
    "C04_word_symbols",
    "C04_ascii_symbols"
   ],
   "note": "Unicode lower-casing and decomposition tables are parameters; exact result for ASCII"
  },
  {
   "property": "C05",
   "status": "partial",
   "theorems": [
    "C05_class_matches_listed",
    "C05_negated_class_letters_partial",
    "C05_negated_class_symbols",
    "C05_negated_class_refuted"
   ],
   "note": "plain classes exact; negated classes exact on letters; negated punctuation and word end are matched iff listed (refutation)"
  },
  {
   "property": "C06",
   "status": "proved",
   "theorems": [
    "C06_load_wordlist"
   ],
   "note": ""
  },
  {
   "property": "C07",
   "status": "partial",
   "theorems": [
    "C07_branching_patterns_partial",
    "C07_runs_partial",
    "C07_sewn_partial",
    "C07_substring_of_repetition_refuted",
    "C07_substring_of_one_letter_refuted",
    "C07_unbounded_group_refuted",
    "C07_compiled_language_partial",
    "C07_compiled_language_refuted"
   ],
   "note": "for patterns of classes, repeated classes, (nested) alternatives whose branches end in a class and (nested) groups repeated a limited number of times (Flat.branching), and for sequences of classes and substrings of two or more classes, and patterns sewn together at non-empty classes from both kinds and from patterns with one group of two or more characters, without repetitions in it, repeated without bound, with no side condition but size; for well-formed patterns whose optimisation is harmless (executable side condition optimize_safe); refuted in general, also for unbounded groups with repetitions in them and substrings of one letter or of repetitions"
  },
  {
   "property": "C08",
   "status": "partial",
   "theorems": [
    "C08_construction_partial",
    "C08_construction_refuted",
    "C08_construction_unsound"
   ],
   "note": "proved for all well_formed patterns; refuted (both directions) outside"
  },
  {
   "property": "C09",
   "status": "proved",
   "theorems": [
    "C09_closure_is_reachability",
    "C09_applies_to_patterns"
   ],
   "note": ""
  },
  {
   "property": "C10",
   "status": "partial",
   "theorems": [
    "C10_branching_patterns_partial",
    "C10_runs_partial",
    "C10_sewn_partial",
    "C10_optimisation_preserves_partial",
    "C10_prune_preserves_partial",
    "C10_collapse_preserves_partial",
    "C10_optimisation_refuted",
    "C10_optimisation_unsound"
   ],
   "note": "each pass preserves acceptance under executable local conditions, which are proved for patterns of classes, repeated classes, (nested) alternatives whose branches end in a class and (nested) groups repeated a limited number of times (Flat.branching), and for sequences of classes and substrings of two or more classes, and patterns sewn together at non-empty classes from both kinds and from patterns with one group of two or more characters, without repetitions in it, repeated without bound; refuted without, in both directions"
  },
  {
   "property": "C11",
   "status": "partial",
   "theorems": [
    "C11_branching_patterns_compile_partial",
    "C11_runs_compile_partial",
    "C11_sewn_compile_partial",
    "C11_no_panic_partial",
    "C11_no_panic_refuted",
    "C11_anagram_panics",
    "C11_text_refuted"
   ],
   "note": "no panic under the conditions of C07, so for all patterns of classes, repeated classes, (nested) alternatives whose branches end in a class and (nested) groups repeated a limited number of times (Flat.branching), and for sequences of classes and substrings of two or more classes; refuted in general"
  },
  {
   "property": "C12",
   "status": "partial",
   "theorems": [
    "C12_in_bounds_refuted",
    "C12_in_bounds_refuted_small",
    "C12_in_bounds_partial"
   ],
   "note": "in bounds for well-formed patterns below 16384 states (construction, closure); refuted by x{n}, n>=16382, and by (a?|b?) followed by 26 letters"
  },
  {
   "property": "C13",
   "status": "partial",
   "theorems": [
    "C13_repetition_bounds_partial",
    "C13_reversed_bounds_refuted"
   ],
   "note": "exact for ordered bounds and well-formed bodies; reversed bounds are not rejected (refutation)"
  },
  {
   "property": "C14",
   "status": "partial",
   "theorems": [
    "C14_subset_terms",
    "C14_operators_parse",
    "C14_subset_text",
    "C14_superset_text",
    "C14_substring_text"
   ],
   "note": "language level for all terms (through parse_term), and from query text to language for words of letters; through the compiler only under the conditions of C07"
  },
  {
   "property": "C15",
   "status": "proved",
   "theorems": [
    "C15_fuzzy_matches_within_distance"
   ],
   "note": "about the compiled automaton, after any other words processed by the same matcher"
  },
  {
   "property": "C16",
   "status": "partial",
   "theorems": [
    "C16_found_exactly_partial",
    "C16_distance_complete_refuted"
   ],
   "note": "false as stated (ab !1 misses \"a\", abcd !2 misses \"ad\"); proved exactly which strings are found: one edit per symbol, an insertion only in front of a kept or changed symbol"
  },
  {
   "property": "C17",
   "status": "proved",
   "theorems": [
    "C17_fuzz_monotone",
    "C17_fuzz_zero_exact"
   ],
   "note": ""
  },
  {
   "property": "C18",
   "status": "proved",
   "theorems": [
    "C18_ignored_symbols_invisible",
    "C18_phrases_accepted_alike",
    "C18_phrases_reported_alike"
   ],
   "note": "per word for all matchers and histories; for phrases: accepted alike always, reported alike unless the optimiser gives up, but for the phrase lost according to C24"
  },
  {
   "property": "C19",
   "status": "partial",
   "theorems": [
    "C19_minimal_distance_refuted",
    "C19_cumulative_distance_partial"
   ],
   "note": "false as stated (witness a* !1 on \"a\"); proved: the levels up to f together are exactly the states reachable with at most f edits"
  },
  {
   "property": "C20",
   "status": "proved",
   "theorems": [
    "C20_prefix_cache_invisible"
   ],
   "note": ""
  },
  {
   "property": "C21",
   "status": "partial",
   "theorems": [
    "C21_single_words_exact",
    "C21_single_word_queries_exact"
   ],
   "note": "exact order and multiplicity, whatever the optimiser does; two-word and longer searches need a wordlist sorted by tranche (loaded lists are, C48); single-word queries without any hypothesis"
  },
  {
   "property": "C22",
   "status": "proved",
   "theorems": [
    "C22_dead_words_useless"
   ],
   "note": ""
  },
  {
   "property": "C23",
   "status": "partial",
   "theorems": [
    "C23_acceptance_by_options",
    "C23_gave_up_refuted",
    "C23_reported_phrases_sound_partial",
    "C23_words_and_lengths",
    "C23_zero_words_refuted"
   ],
   "note": "for every limit and deadline sequence, provided the optimiser does not give up; false otherwise (refutation with 26 expressions), but words, lengths and single words are right in any case (C23_words_and_lengths); #words 0 still reports single words (refutation)"
  },
  {
   "property": "C24",
   "status": "partial",
   "theorems": [
    "C24_complete_but_one_partial",
    "C24_phrases_of_two_words_complete_partial",
    "C24_last_match_refuted"
   ],
   "note": "at most one accepted phrase is not reported, and it is a single word repeated; false as stated (the query aa over the wordlist \"a\" loses \"a a\")"
  },
  {
   "property": "C25",
   "status": "proved",
   "theorems": [
    "C25_no_result_twice"
   ],
   "note": "for sorted wordlists, whether or not the optimiser gives up"
  },
  {
   "property": "C26",
   "status": "proved",
   "theorems": [
    "C26_report_order",
    "C26_phase_by_phase"
   ],
   "note": "exactly when the optimiser does not give up (C26_report_order); when it does, phase by phase and in order of positions all the same, whichever phrases are reported (C26_phase_by_phase)"
  },
  {
   "property": "C27",
   "status": "proved",
   "theorems": [
    "C27_result_limit_exact"
   ],
   "note": "for sorted wordlists, whether or not the optimiser gives up"
  },
  {
   "property": "C28",
   "status": "proved",
   "theorems": [
    "C28_deadlines_do_not_change_results"
   ],
   "note": "for sorted wordlists, whether or not the optimiser gives up"
  },
  {
   "property": "C29",
   "status": "proved",
   "theorems": [
    "C29_evaluation_terminates",
    "C29_complete_is_final",
    "C29_small_queries_never_give_up"
   ],
   "note": "termination, determinism, only one Complete, for all queries over sorted wordlists; small queries never make the optimiser give up"
  },
  {
   "property": "C30",
   "status": "proved",
   "theorems": [
    "C30_optimised_matcher_exact",
    "C30_no_useful_word_dropped",
    "C30_optimisation_never_fails"
   ],
   "note": "for every matcher of a compiled expression after any number of optimisations; word lists given by a predicate on the words left"
  },
  {
   "property": "C31",
   "status": "proved",
   "theorems": [
    "C31_filtered_phases_hopeless"
   ],
   "note": ""
  },
  {
   "property": "C32",
   "status": "partial",
   "theorems": [
    "C32_min_tranche_always_zero_partial",
    "C32_min_tranche_refuted"
   ],
   "note": "false as stated: min_tranche is always 0 (refutation and exact theorem)"
  },
  {
   "property": "C33",
   "status": "partial",
   "theorems": [
    "C33_progress_panics_exactly_partial",
    "C33_progress_refuted"
   ],
   "note": "false as stated: exact condition proved (empty wordlist, or every phase of size 1); float logarithms are parameters"
  },
  {
   "property": "C34",
   "status": "proved",
   "theorems": [
    "C34_sorted_wordlists_never_panic",
    "C34_unsorted_wordlist_panics"
   ],
   "note": "for all queries over sorted wordlists; an unsorted wordlist panics (witness)"
  },
  {
   "property": "C35",
   "status": "proved",
   "theorems": [
    "C35_anagram_exact",
    "C35_anagram_text"
   ],
   "note": "A <bank> block on its own: all expanded expressions together accept exactly the permutations of the bank."
  },
  {
   "property": "C36",
   "status": "proved",
   "theorems": [
    "C36_superanagram_exact",
    "C36_subanagram_exact",
    "C36_transadd_exact",
    "C36_transdelete_exact",
    "C36_superanagram_text",
    "C36_subanagram_text",
    "C36_transadd_text",
    "C36_transdelete_text",
    "C36_sum_wraps",
    "C36_transadd_sum"
   ],
   "note": "The four other kinds, each stated with permutations; deleting more letters than there are is capped by the parser. With the sum of <word+n> made in 64 bits (Expand64.v): the same whenever n + the length is below 2^64, in both profiles; otherwise the release profile wraps and no word fits"
  },
  {
   "property": "C37",
   "status": "proved",
   "theorems": [
    "C37_expansion_loses_nothing",
    "C37_expressions_expand_separately"
   ],
   "note": "For every expression with blocks anywhere: expansion succeeds, keeps the options and every expanded expression accepts every string the original denotes."
  },
  {
   "property": "C38",
   "status": "partial",
   "theorems": [
    "C38_no_false_positives_refuted",
    "C38_single_block_exact_partial"
   ],
   "note": "False in general (refuted by <ab><ab> accepting aabb); proved for a single block between parts of fixed length."
  },
  {
   "property": "C39",
   "status": "partial",
   "theorems": [
    "C39_no_block_left_refuted",
    "C39_only_repeated_blocks_are_left",
    "C39_text_refuted"
   ],
   "note": "The property is false of the code and refuted (<ab>*, also as text); the exact characterisation (only blocks inside repetitions are left) is proved."
  },
  {
   "property": "C40",
   "status": "proved",
   "theorems": [
    "C40_options_detected",
    "C40_expansion_keeps_options"
   ],
   "note": "Iff, for every expression and every set of requested options."
  },
  {
   "property": "C41",
   "status": "partial",
   "theorems": [
    "C41_same_expression_refuted",
    "C41_parses_again_refuted",
    "C41_same_language_refuted",
    "C41_empty_class_refuted",
    "C41_printing_never_fails",
    "C41_parsed_round_trip_partial",
    "C41_round_trip_partial",
    "C41_written_round_trip_partial"
   ],
   "note": "false as stated: four refutations (the expression changes, the text may not parse, the language may change for one-part substrings and empty classes). Proved: printing never fails after parsing; for all expressions without these shapes (printable / reprints) the printed text parses, with the same language and the same options, and prints the same again"
  },
  {
   "property": "C42",
   "status": "partial",
   "theorems": [
    "C42_block_comment_refuted",
    "C42_empty_comment_refuted",
    "C42_line_comments_are_ignored_partial",
    "C42_comments_below_macros_partial",
    "C42_ends_refuted",
    "C42_wordlist_refuted",
    "C42_macros_reach_comments_refuted"
   ],
   "note": "false for /*...*/, for empty comments, for lines below #wordlist and for lines that end in the character of the mark or in a mark (refuted); all other line comments are proved to be ignored, on every line above a word list, also below definitions of macros (which are expanded in line and comment); names of macros are proved to hold no slash or dash"
  },
  {
   "property": "C43",
   "status": "partial",
   "theorems": [
    "C43_defaults",
    "C43_documented_limit_refuted",
    "C43_one_more_line",
    "C43_blank",
    "C43_limit",
    "C43_words",
    "C43_dictionary",
    "C43_quiet",
    "C43_wordlist",
    "C43_words_follow",
    "C43_white_space"
   ],
   "note": "composition of lines, each pragma, word lists, defaults (10 words, 300 results) proved; the documented default of 100 results is refuted"
  },
  {
   "property": "C44",
   "status": "proved",
   "theorems": [
    "C44_macros_are_substituted",
    "C44_expansion_is_unique",
    "C44_names_and_values"
   ],
   "note": "a line means what it says after substitution, which is unique; names are a letter, then letters, digits, underscores and spaces, values printable ASCII"
  },
  {
   "property": "C45",
   "status": "partial",
   "theorems": [
    "C45_cli_prints",
    "C45_cli_ignores_pragmas",
    "C45_limit_refuted",
    "C45_words_refuted"
   ],
   "note": "false: the tool overrides both limits (two refutations); proved exactly what it prints and that it depends only on the expressions and #wordlist"
  },
  {
   "property": "C46",
   "status": "partial",
   "theorems": [
    "C46_session_gauge",
    "C46_gauge_after_all",
    "C46_balanced_if_regular",
    "C46_gauge_at_any_time",
    "C46_parse_error_refuted",
    "C46_lost_client_refuted"
   ],
   "note": "false: a parse error or a lost client leaves the gauge too high (refutations); proved for all interleavings: the gauge at the end is the number of requests and sessions that did not end regularly, and it is never negative"
  },
  {
   "property": "C47",
   "status": "proved",
   "theorems": [
    "C47_http_body",
    "C47_http_returns",
    "C47_answered",
    "C47_parse_errors",
    "C47_plaintext_cap"
   ],
   "note": "for every server whose wordlists are sorted and named differently, as loaded ones are (C48_loaded_in_order); JSON encoding of a phrase is a parameter"
  },
  {
   "property": "C48",
   "status": "partial",
   "theorems": [
    "C48_loading",
    "C48_loaded_is_used",
    "C48_unknown_is_default",
    "C48_no_default_panics",
    "C48_wordlist_download",
    "C48_request_words",
    "C48_shipped_wordlists_refuted",
    "C48_loaded_in_order"
   ],
   "note": "selection and fallback proved, loading of the directory too; without a list called default every query that names no loaded list panics - the shipped wordlists have none (refutation)"
  },
  {
   "property": "C49",
   "status": "partial",
   "theorems": [
    "C49_selectable_names",
    "C49_any_name_refuted",
    "C49_text_not_selected_refuted"
   ],
   "note": "the property is false: refuted by the shipped wordlist npl-allwords2; the exact set of names that can be selected is proved"
  },
  {
   "property": "C50",
   "status": "partial",
   "theorems": [
    "C50_panics_only_by_numbers",
    "C50_macro_numbers_refuted",
    "C50_parsing_terminates",
    "C50_never_panics_refuted",
    "C50_never_panics_partial",
    "C50_sums_fit",
    "C50_sum_panics_refuted"
   ],
   "note": "false as stated: numbers above 64 bits panic (refuted, also by macros that put digits together), and with overflow checks so does <word+n> when n + the length of the word leaves 64 bits (refuted). Proved: termination for all texts; nothing else panics, for all texts, with macros, in both profiles (C50_sums_fit), and errors carry the number of a line"
  },
  {
   "property": "C51",
   "status": "proved",
   "theorems": [
    "C51_plain_word"
   ],
   "note": ""
  },
  {
   "property": "C52",
   "status": "proved",
   "theorems": [
    "C52_conversation",
    "C52_websocket_matches",
    "C52_complete_session",
    "C52_parse_error"
   ],
   "note": "for every server as in C47; the texts of status and log messages are not modelled"
  },
  {
   "property": "C53",
   "status": "partial",
   "theorems": [
    "C53_runnable",
    "C53_empty_query_refuted"
   ],
   "note": "false: the empty query panics (refutation), also <ab>* (C11); exact condition proved"
  },
  {
   "property": "C54",
   "status": "proved",
   "theorems": [
    "C54_total_counter"
   ],
   "note": ""
  },
  {
   "property": "C55",
   "status": "partial",
   "theorems": [
    "C55_branching_queries_exact",
    "C55_simple_queries_exact",
    "C55_default_options",
    "C55_branching_phrases_partial",
    "C55_simple_phrases_partial"
   ],
   "note": "exact for one word at a time without any side condition but pattern size; for phrases up to the lost repetition of C24 and under no-give-up"
  },
  {
   "property": "C56",
   "status": "proved",
   "theorems": [
    "C56_plain_word",
    "C56_anagram",
    "C56_superanagram",
    "C56_subanagram",
    "C56_transadd",
    "C56_transdelete",
    "C56_subset",
    "C56_substring",
    "C56_superset"
   ],
   "note": "for words, anagram blocks, subsets, supersets and substrings of letters on their own"
  },
  {
   "property": "C57",
   "status": "partial",
   "theorems": [
    "C57_script_means",
    "C57_pattern_means",
    "C57_query_means",
    "C57_prints_partial"
   ],
   "note": "parsing: exact for the whole pattern grammar and whole texts with comments, macros, pragmas in either case, #quiet and #wordlist (numbers below 2^64, negated classes of letters only, see C05); anagram blocks beside other things: nothing lost, but see C38; to the printed lines only for patterns of classes, repeated classes, (nested) alternatives whose branches end in a class and (nested) groups repeated a limited number of times (Flat.branching), and for sequences of classes and substrings of two or more classes, and patterns sewn together at non-empty classes from both kinds and from patterns with one group of two or more characters, without repetitions in it, repeated without bound"
  },
  {
   "property": "C58",
   "status": "proved",
   "theorems": [
    "C58_timeouts_bounded",
    "C58_passed_deadline_stalls",
    "C58_sessions_end"
   ],
   "note": "timeouts_bounded: for all wordlists sorted by tranche and all deadlines not yet passed at the start of their call; passed_deadline_stalls: the hypothesis is needed (a deadline that has already passed makes no progress at all in the word phase); sessions_end: the same for websocket sessions, up to the panics of the progress report (C33)."
  },
  {
   "property": "C59",
   "status": "partial",
   "theorems": [
    "C59_arrived",
    "C59_shows_what_passes",
    "C59_arrival_order_partial",
    "C59_unticked_refuted",
    "C59_text_shown",
    "C59_white_space",
    "C59_nothing_before_a_query"
   ],
   "note": "false as stated: a new match unticks the sort box without restoring the order (refuted). Proved for all histories: the matches shown, sorting by score, order of arrival when the box was never ticked or was unticked by the user. While the filter is not a regular expression the list is stale (hypothesis)"
  },
  {
   "property": "C60",
   "status": "partial",
   "theorems": [
    "C60_page_query",
    "C60_settings",
    "C60_error_line_refuted",
    "C60_hyphen_refuted",
    "C60_macro_refuted"
   ],
   "note": "false as stated: error lines are off by three, a wordlist name with a hyphen or digit makes every query an error, a macro can break the #wordlist line (refuted). Proved otherwise for all inputs, also that the settings are exact when numbers are below 2^64"
  },
  {
   "property": "C61",
   "status": "proved",
   "theorems": [
    "C61_copy",
    "C61_copied_words"
   ],
   "note": "matches with newlines, separators or white space at the ends excluded by hypothesis"
  },
  {
   "property": "C62",
   "status": "proved",
   "theorems": [
    "C62_page_has_matches",
    "C62_status",
    "C62_page_shows_answer"
   ],
   "note": "composition of C52, C59"
  },
  {
   "property": "C63",
   "status": "proved",
   "theorems": [
    "C63_announced",
    "C63_menu",
    "C63_selected"
   ],
   "note": ""
  },
  {
   "property": "C64",
   "status": "proved",
   "theorems": [
    "C64_metrics"
   ],
   "note": "counters as unbounded numbers (64-bit wrap-around not modelled)"
  },
  {
   "property": "C65",
   "status": "partial",
   "theorems": [
    "C65_command_line_partial",
    "C65_server_partial"
   ],
   "note": "for queries of patterns of symbols, classes, dots, numbers, alternatives ending in a symbol, repeated symbols and boundedly repeated groups, or symbols and runs of symbols, or one anagram block between parts of fixed length; #words, #limit, #dict and blank lines. Phrases of several words unless the optimiser gives up after 100 passes (then wrong phrases are possible, see C23/C24), and but for at most one repetition of a single word (C24). Texts may have comments, macros, pragmas and #wordlist. Missing: the other patterns (false for many, see C07-C11)"
  },
  {
   "property": "C66",
   "status": "partial",
   "theorems": [
    "C66_definition_partial",
    "C66_one_letter_name_refuted"
   ],
   "note": "false for names of one letter followed by a space (the name then includes the space); proved otherwise, after any text, for printable values without a separator or a comment in them"
  },
  {
   "property": "C67",
   "status": "proved",
   "theorems": [
    "C67_link_holds_query",
    "C67_link_is_plain",
    "C67_links_differ",
    "C67_examples",
    "C67_other_address_refuted"
   ],
   "note": "for texts without lone surrogates; refuted only for addresses not made by the page"
  },
  {
   "property": "C68",
   "status": "partial",
   "theorems": [
    "C68_google_partial",
    "C68_wikipedia_partial",
    "C68_crossword_partial",
    "C68_ampersand_refuted",
    "C68_slash_refuted"
   ],
   "note": "false: encodeURI leaves & # + / ?; the exact set of matches for which it holds is proved"
  },
  {
   "property": "C69",
   "status": "proved",
   "theorems": [
    "C69_get",
    "C69_damaged",
    "C69_encoded_component",
    "C69_exactly",
    "C69_encode_uri_refuted"
   ],
   "note": "both directions; with encodeURI instead of encodeURIComponent it is refuted"
  },
  {
   "property": "C70",
   "status": "partial",
   "theorems": [
    "C70_post_partial",
    "C70_reply",
    "C70_panics",
    "C70_not_utf8_refuted",
    "C70_long_refuted"
   ],
   "note": "false for bodies that are not UTF-8 (the handler panics) and for longer ones (the page is returned); exact sets of requests proved"
  },
  {
   "property": "C71",
   "status": "partial",
   "theorems": [
    "C71_names_partial",
    "C71_download",
    "C71_space_refuted",
    "C71_encoded_refuted"
   ],
   "note": "false for names with characters that must be encoded in an address; exact set of names proved"
  },
  {
   "property": "C72",
   "status": "proved",
   "theorems": [
    "C72_separators",
    "C72_semicolons"
   ],
   "note": ""
  },
  {
   "property": "C73",
   "status": "proved",
   "theorems": [
    "C73_json",
    "C73_page_reads",
    "C73_any_layout",
    "C73_only_json",
    "C73_body"
   ],
   "note": ""
  },
  {
   "property": "C74",
   "status": "partial",
   "theorems": [
    "C74_progress_part_of_whole",
    "C74_word_progress_monotone_partial",
    "C74_progress_refuted"
   ],
   "note": "Refuted at the beginning of the search for phrases (100 percent, then 0: the logarithm of 0 becomes the largest u32). Proved for every history: part of a whole, at most 100 percent; while single words are looked at exactly the words looked at, never going back. Missing: nothing true remains for phrases, where the estimate of every step goes through floats (abstract estimator)."
  },
  {
   "property": "C75",
   "status": "partial",
   "theorems": [
    "C75_accesses_in_bounds_refuted",
    "C75_rows_partial",
    "C75_elements_partial"
   ],
   "note": "Refuted: safe methods use get_unchecked without a check (row past the end, element past the last block). Proved exactly which rows and elements of a three-dimensional set leave the allocation, and what the others alias. C12 is the same for the sets of the compiler; the matcher works on masks of the same size."
  },
  {
   "property": "C76",
   "status": "proved",
   "theorems": [
    "C76_search_tables"
   ],
   "note": "Shapes of all tables, classes and rows as an invariant of all histories of calls: word matching, insertion of tables, removal of states, phrase search. With the exact conditions of C75 for three-dimensional sets. The sets of the compiler are C12."
  },
  {
   "property": "C77",
   "status": "partial",
   "theorems": [
    "C77_listed_exactly",
    "C77_first_lists",
    "C77_order_of_words_invisible",
    "C77_values_ascend",
    "C77_spelling_refuted",
    "C77_one_word_refuted"
   ],
   "note": "Which forms are listed, their order, number, spelling and values exactly, for all inputs with positive counts for which there is a list; values for every function that falls like the logarithm (floating point is not modelled); independent of the order of words but for the spelling. Refuted: there is no list if one form is left (division by zero); the spelling depends on the order. The other two lists (after Wiktionary, after titles) likewise, but for the order of forms with equal points."
  },
  {
   "property": "C78",
   "status": "partial",
   "theorems": [
    "C78_canonical_forms",
    "C78_canonical_of_canonical",
    "C78_ascii_words",
    "C78_ligatures",
    "C78_digit_refuted"
   ],
   "note": "Shape of all canonical forms; exact for ASCII words; idempotent but for forms with digits. Refuted for words with characters that decompose into digits."
  },
  {
   "property": "C79",
   "status": "partial",
   "theorems": [
    "C79_uses_counted",
    "C79_spelling_chosen",
    "C79_order_of_articles_refuted",
    "C79_digit_refuted"
   ],
   "note": "Exact numbers of uses for every canonical form that is its own canonical form, one spelling each, and which one, for all divisions into files. Refuted: the spelling and so the points depend on the order of articles; forms with digits lose their uses."
  },
  {
   "property": "C80",
   "status": "proved",
   "theorems": [
    "C80_frequent_words_listed"
   ],
   "note": "255 uses in bodies or 85 in titles, through counting, merging and weighing, for every run that ends with a list."
  },
  {
   "property": "C81",
   "status": "partial",
   "theorems": [
    "C81_words_kept",
    "C81_cut_at_white_space",
    "C81_dash_refuted",
    "C81_bodies_cut"
   ],
   "note": "strip_word and strip_body exactly, for all texts. Refuted: a word with the dash U+2013 in it is dropped, not rewritten."
  },
  {
   "property": "C82",
   "status": "proved",
   "theorems": [
    "C82_list_is_read",
    "C82_lists_are_such",
    "C82_symbols_of_canonical_form"
   ],
   "note": "For lists whose values are below 2^32 and whose words have no digits; the lists that are made are such. Symbols of ASCII words."
  },
  {
   "property": "C83",
   "status": "partial",
   "theorems": [
    "C83_examples_understood",
    "C83_examples_answered",
    "C83_examples_served",
    "C83_helloworld",
    "C83_smiles",
    "C83_substring",
    "C83_states",
    "C83_pasta",
    "C83_second_example_refuted"
   ],
   "note": "All examples but one, to the phrases reported (phrases of several words as in C65: but for one repetition of a single word, unless the optimiser gives up), with what five of them ask for in plain terms. Refuted for the second example of the page, whose anagram block stands beside a part of variable length: a phrase is reported that does not fit."
  },
  {
   "property": "C84",
   "status": "partial",
   "theorems": [
    "C84_dictionary",
    "C84_words_with_digits_refuted"
   ],
   "note": "Exact lines of the dictionary, for all entries. Refuted: all words without a canonical form (with digits, or other letters) share one line, so that the first of them hides the others."
  },
  {
   "property": "C85",
   "status": "partial",
   "theorems": [
    "C85_number",
    "C85_if_regular",
    "C85_told",
    "C85_stale_refuted"
   ],
   "note": "false as stated (refuted): sessions that failed or panicked are counted for ever. Proved for all histories of fewer than 2^64 requests and sessions: it is the number of the others that run together with those that failed; it is as stated if none failed"
  }
 ]
}