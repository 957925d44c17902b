{"id": "C01", "title": "Bitset rows are independent finite sets", "statement": "A bitset of outer size (a, b) and inner size n behaves as a*b independent finite subsets of [0, n): inserting, removing, clearing, uniting, intersecting, subtracting or copying through one row changes exactly the addressed elements of that row and leaves every other row alone, and contains/is_empty/is_subset/equality answer as for the sets.", "quantifier": "all sizes, rows, indices in range and operation sequences", "why_tests_cant": "The block/offset arithmetic must hold for every size (including multiples of 32 and non-multiples) and every row pair; tests use three fixed shapes.", "anchors": ["noodle/src/bitset.rs: BitSet::new", "noodle/src/bitset.rs: Index::slice", "noodle/src/bitset.rs: BitSetRefMut::*"]}
{"id": "C02", "title": "Iterating a bitset yields exactly its members, ascending, once each", "statement": "ones() enumerates precisely the indices contained in the set, in strictly increasing order, for every block count.", "quantifier": "all block arrays", "why_tests_cant": "The lowest-set-bit loop must be right for all 2^32 blocks and every number of blocks.", "anchors": ["noodle/src/bitset.rs: Ones::next"]}
{"id": "C03", "title": "Distance compaction removes dominated entries", "statement": "compact_distance_set(index) removes every [index][y'][z] for which some [index][y][z] with y<y' is present, and nothing else.", "quantifier": "all 3-D bitsets and indices", "why_tests_cant": "The index arithmetic is only right for some shapes; a test on one shape says nothing.", "anchors": ["noodle/src/bitset.rs: BitSet::compact_distance_set"]}
{"id": "C04", "title": "Word normalisation lands in the 28-symbol alphabet and always ends with a word end", "statement": "For every text, the symbol sequence of a word is non-empty, contains only the 28 symbols a-z, punctuation, word-end, and its last symbol is word-end; ASCII letters map case-insensitively to their letter, spaces and underscores to word-end, all other ASCII to punctuation.", "quantifier": "all input texts (any Unicode normalisation function)", "why_tests_cant": "Ranges over all strings.", "anchors": ["noodle/src/words.rs: Word::new", "noodle/src/words.rs: Char::from"]}
{"id": "C05", "title": "Character classes match exactly the listed characters", "statement": "[..] matches exactly the listed characters and ranges; [^..] matches no listed character and every unlisted letter.", "quantifier": "all class bodies", "why_tests_cant": "2^28 classes; only a handful can be tested.", "anchors": ["noodle/src/parser.rs: parse_term (Rule::class)", "noodle/src/words.rs: CharBitset::from_range", "noodle/src/words.rs: CharBitset::invert"]}
{"id": "C06", "title": "Loading a wordlist keeps exactly the admissible lines, sorted", "statement": "The loaded list is sorted, contains one entry per input line that is not a one-letter word (other than I and a) and has no digit, with the score column honoured, and nothing else; tranche numbers are assigned by position and grow by one after each batch, with non-lowercase words bumped by one.", "quantifier": "all files (sequences of lines)", "why_tests_cant": "Ranges over all files.", "anchors": ["noodle/src/words.rs: load_wordlist"]}
{"id": "C07", "title": "A compiled expression accepts exactly the strings of its regular expression", "statement": "For every expression AST and every symbol string, the compiled and optimised automaton accepts the string (followed by any number of word ends) iff the string is in the language the expression denotes.", "quantifier": "all expression ASTs, all strings", "why_tests_cant": "Both the set of patterns and the set of strings are infinite.", "anchors": ["noodle/src/expression.rs: Expression::from_ast", "noodle/src/expression.rs: build_states", "noodle/src/expression.rs: optimize_states"]}
{"id": "C08", "title": "Thompson construction is language-preserving", "statement": "Before optimisation the automaton built for an AST accepts exactly the language of the AST (sequence, alternatives, repetition, substring).", "quantifier": "all ASTs, all strings", "why_tests_cant": "Infinite patterns and strings; nesting-dependent defects only show on particular shapes.", "anchors": ["noodle/src/expression.rs: build_states"]}
{"id": "C09", "title": "Epsilon closure is exactly reflexive-transitive reachability", "statement": "After closure every state's epsilon set is exactly the set of states reachable by zero or more epsilon edges, and closure terminates.", "quantifier": "all automata", "why_tests_cant": "All graphs.", "anchors": ["noodle/src/expression.rs: epsilon_transitive_closure"]}
{"id": "C10", "title": "Automaton optimisation preserves the language", "statement": "Pruning equivalent epsilon states and collapsing epsilon/char pairs never changes the set of accepted strings.", "quantifier": "all automata reachable from compiled expressions, all strings", "why_tests_cant": "Depends on index bookkeeping that only breaks for particular interleavings of deletions.", "anchors": ["noodle/src/expression.rs: prune_epsilon_pairs", "noodle/src/expression.rs: collapse_epsilon_char_pairs"]}
{"id": "C11", "title": "Compiling a parsed expression never panics", "statement": "Every expression that the parser accepts can be compiled: no assertion failure, arithmetic underflow, index panic or unreachable!().", "quantifier": "all accepted expressions", "why_tests_cant": "Panics only on particular shapes out of infinitely many.", "anchors": ["noodle/src/expression.rs: from_ast", "noodle/src/expression.rs: prune_epsilon_pairs", "noodle/src/parser.rs: expand_expressions"]}
{"id": "C12", "title": "Compilation stays inside its fixed-size scratch sets", "statement": "While an expression is compiled, every unchecked bitset access stays inside the allocated blocks.", "quantifier": "all expressions of any size", "why_tests_cant": "The scratch capacity is 16384; the violating inputs are large and undefined behaviour is not reliably observable.", "anchors": ["noodle/src/expression.rs: MAX_SET_SIZE", "noodle/src/bitset.rs: get_unchecked"]}
{"id": "C13", "title": "Repetition bounds are honoured", "statement": "x{n}, x{n,}, x{,m}, x{n,m}, x?, x*, x+ match exactly between the stated numbers of copies of x; n>m is rejected.", "quantifier": "all bounds, terms and strings", "why_tests_cant": "All numeric bounds.", "anchors": ["noodle/src/expression.rs: build_states (Repetition)", "noodle/src/parser.rs: parse_term"]}
{"id": "C14", "title": "Substring, subset and superset operators", "statement": "(t1..tn:^) matches the concatenation of consecutive terms; (t1..tn:-) matches exactly the subsequences of terms; (t1..tn:+) matches exactly the strings with the terms in order and arbitrary symbols between.", "quantifier": "all term lists and strings", "why_tests_cant": "All term lists.", "anchors": ["noodle/src/expression.rs: build_states (Substring)", "noodle/src/parser.rs: parse_term (subset, superset, substring)"]}
{"id": "C15", "title": "Fuzzy matches are within the requested edit distance", "statement": "Every string accepted with fuzz k is within Levenshtein distance k of a string the expression matches exactly.", "quantifier": "all automata, strings and k", "why_tests_cant": "Infinite.", "anchors": ["noodle/src/expression.rs: fill_transition_table"]}
{"id": "C16", "title": "Every string within the edit distance is found", "statement": "Every string within Levenshtein distance k of the language is accepted with fuzz k.", "quantifier": "all automata, strings and k", "why_tests_cant": "Misses appear only for particular positions of insertions.", "anchors": ["noodle/src/expression.rs: fill_transition_table"]}
{"id": "C17", "title": "More fuzz never loses matches", "statement": "Anything accepted with fuzz k is accepted with fuzz k+1, and fuzz 0 is exact matching.", "quantifier": "all automata, strings, k", "why_tests_cant": "Infinite.", "anchors": ["noodle/src/expression.rs: fill_transition_table"]}
{"id": "C18", "title": "Ignored symbols are invisible", "statement": "When an expression does not use explicit boundaries (punctuation), the outcome on a phrase depends only on its symbols other than word-end (punctuation).", "quantifier": "all automata, phrases, options", "why_tests_cant": "All phrases.", "anchors": ["noodle/src/expression.rs: fill_transition_table"]}
{"id": "C19", "title": "Transition table rows hold the minimal distance only", "statement": "If a state is reachable at fuzz f from a row, the same entry is unset at fuzz f+1.", "quantifier": "all automata, words", "why_tests_cant": "The documented invariant must hold for all words.", "anchors": ["noodle/src/expression.rs: fill_transition_table (doc comment)"]}
{"id": "C20", "title": "Prefix caching is invisible", "statement": "Processing a wordlist with the shared-prefix table gives, for every word, the same table and verdict as evaluating that word from scratch, for every order of words and every place where evaluation stopped early.", "quantifier": "all automata, all word sequences, all interruption points", "why_tests_cant": "Depends on the whole history of previously processed words.", "anchors": ["noodle/src/matcher.rs: WordMatcher::next_single_word"]}
{"id": "C21", "title": "Single-word results are exactly the words matching every expression, in list order", "statement": "The one-word results are the subsequence of the input wordlist consisting of the words accepted by all expressions, each reported once per occurrence.", "quantifier": "all expression lists, wordlists", "why_tests_cant": "All wordlists and expression lists.", "anchors": ["noodle/src/query.rs: next_within_deadline (Word phase)", "noodle/src/matcher.rs: next_single_word"]}
{"id": "C22", "title": "Words discarded as dead can never be part of a match", "statement": "A word that is not kept alive by an expression cannot occur in any phrase (at any position) that the expression accepts.", "quantifier": "all automata, words, phrases", "why_tests_cant": "All phrases.", "anchors": ["noodle/src/matcher.rs: next_single_word", "noodle/src/expression.rs: fill_transition_table (early return)"]}
{"id": "C23", "title": "Phrase results are sound", "statement": "Every reported phrase consists of words of the input list, has at most the configured number of words, and is accepted by every expression.", "quantifier": "all expressions, wordlists, limits, schedules", "why_tests_cant": "All wordlists and phrases.", "anchors": ["noodle/src/query.rs: next_within_deadline (Phrase phase)"]}
{"id": "C24", "title": "Phrase search is complete", "statement": "With no result limit, every phrase of up to the configured number of words that every expression accepts is reported.", "quantifier": "all expressions, wordlists, limits", "why_tests_cant": "A missing result is only visible against an independent enumeration.", "anchors": ["noodle/src/query.rs: next_within_deadline"]}
{"id": "C25", "title": "No phrase is reported twice", "statement": "Each sequence of wordlist positions is reported at most once.", "quantifier": "all inputs", "why_tests_cant": "All inputs.", "anchors": ["noodle/src/query.rs: next_within_deadline"]}
{"id": "C26", "title": "Report order", "statement": "Phrases are reported phase by phase in order of estimated search size (length, rarest tranche), and inside a phase in lexicographic order of wordlist position; single words come first.", "quantifier": "all inputs", "why_tests_cant": "All inputs.", "anchors": ["noodle/src/query.rs: search_queue.sort_by_key"]}
{"id": "C27", "title": "The result limit is exact", "statement": "At most `limit` results are reported, the reported ones are a prefix of the unlimited run, and after the limit is reached the next response is Complete.", "quantifier": "all limits, inputs", "why_tests_cant": "All runs.", "anchors": ["noodle/src/query.rs: results_limit"]}
{"id": "C28", "title": "Deadlines do not change results", "statement": "For every sequence of deadlines, dropping Timeout responses leaves a prefix of the responses of an uninterrupted run; an expired deadline never loses or duplicates a match.", "quantifier": "all deadline schedules (every point at which the clock may expire)", "why_tests_cant": "Exponentially many interleavings of clock expiry with search progress.", "anchors": ["noodle/src/query.rs: next_within_deadline", "noodle/src/matcher.rs: next_single_word"]}
{"id": "C29", "title": "Evaluation terminates and Complete is final", "statement": "Every call returns, an uninterrupted run yields finitely many responses, the last being Complete; afterwards the iterator yields nothing.", "quantifier": "all inputs", "why_tests_cant": "Termination quantifies over all inputs.", "anchors": ["noodle/src/query.rs: Iterator for QueryEvaluator"]}
{"id": "C30", "title": "Search-space optimisation is invisible", "statement": "Eliding dead and redundant automaton states and shrinking the wordlist and equivalence classes never changes which phrases (within the searched depths) are accepted.", "quantifier": "all transition tables, wordlists, search queues", "why_tests_cant": "All tables.", "anchors": ["noodle/src/matcher.rs: optimize_for_wordlist"]}
{"id": "C31", "title": "Search-phase filtering only removes hopeless phases", "statement": "A (depth, tranche) phase removed by the filter contains no matching phrase.", "quantifier": "all tables, queues", "why_tests_cant": "All tables.", "anchors": ["noodle/src/matcher.rs: filter_search_phases"]}
{"id": "C32", "title": "Rarity metadata of word classes is the minimum tranche", "statement": "The min_tranche of an equivalence class equals the minimum tranche over its words.", "quantifier": "all wordlists", "why_tests_cant": "All wordlists.", "anchors": ["noodle/src/matcher.rs: WordClass::add_word"]}
{"id": "C33", "title": "Progress reporting never panics", "statement": "progress() may be called at any time between responses without a panic.", "quantifier": "all evaluator states", "why_tests_cant": "All reachable states.", "anchors": ["noodle/src/query.rs: progress", "noodle/src/matcher.rs: progress"]}
{"id": "C34", "title": "Sorted wordlists never trip the tranche assertion", "statement": "For wordlists sorted by tranche the transition to phrase search never panics; index arithmetic over tranches stays in range.", "quantifier": "all sorted wordlists", "why_tests_cant": "All wordlists.", "anchors": ["noodle/src/query.rs: next_within_deadline (tranches)"]}
{"id": "C35", "title": "Standard anagrams", "statement": "<bank> matches exactly the permutations of the bank (all expanded expressions together).", "quantifier": "all banks, all strings", "why_tests_cant": "Factorially many strings.", "anchors": ["noodle/src/parser.rs: expand_expressions", "noodle/src/parser.rs: ast_for_anagram"]}
{"id": "C36", "title": "Super-, sub-, trans-add and trans-delete anagrams", "statement": "<b+>, <b->, <b+n>, <b-n> match exactly the letter strings that contain the bank, are contained in it, contain it with exactly n more letters, or use exactly all but n of its letters.", "quantifier": "all banks, n, strings", "why_tests_cant": "Factorially many strings.", "anchors": ["noodle/src/parser.rs: ast_for_anagram"]}
{"id": "C37", "title": "Anagram expansion has no false negatives", "statement": "For an expression containing any number of anagram blocks, every string matched by the expression (with true anagram semantics) satisfies every expanded expression.", "quantifier": "all ASTs, strings", "why_tests_cant": "All ASTs.", "anchors": ["noodle/src/parser.rs: expand_expressions"]}
{"id": "C38", "title": "Anagram expansion has no false positives", "statement": "Conversely a string satisfying every expanded expression matches the expression with true anagram semantics.", "quantifier": "all ASTs, strings", "why_tests_cant": "Needs a search over split points.", "anchors": ["noodle/src/parser.rs: expand_expressions"]}
{"id": "C39", "title": "Expansion leaves no anagram block behind", "statement": "After query parsing no expression contains an anagram block.", "quantifier": "all accepted queries", "why_tests_cant": "All ASTs.", "anchors": ["noodle/src/parser.rs: expand_expressions (visit)"]}
{"id": "C40", "title": "Explicit-boundary detection", "statement": "Word boundaries (punctuation) are significant for an expression iff it asks for it with !_ (!') or mentions the word-end (punctuation) symbol anywhere.", "quantifier": "all expressions", "why_tests_cant": "All ASTs.", "anchors": ["noodle/src/parser.rs: detect_options", "noodle/src/parser.rs: parse_options"]}
{"id": "C41", "title": "Printing and re-parsing an expression is the identity", "statement": "Displaying an expression and parsing the text again gives the same expression.", "quantifier": "all expressions produced by the parser", "why_tests_cant": "All ASTs.", "anchors": ["noodle/src/parser.rs: Display for Ast", "noodle/src/noodle_grammar.pest: expression"]}
{"id": "C42", "title": "Comments are ignored", "statement": "// and /*..*/ comments do not change the meaning of a line.", "quantifier": "all lines", "why_tests_cant": "All lines.", "anchors": ["noodle/src/noodle_grammar.pest: COMMENT"]}
{"id": "C43", "title": "Query lines, pragmas and defaults", "statement": "Each line (newline or semicolon separated) is a pragma, macro, expression or blank; the last pragma of a kind wins; everything after #wordlist is a word; absent pragmas default to 10 words and the documented number of results.", "quantifier": "all query texts", "why_tests_cant": "All texts.", "anchors": ["noodle/src/parser.rs: QueryAst::new_from_str", "noodle/src/query.rs: from_ast"]}
{"id": "C44", "title": "Macros are substituted in definition order", "statement": "A later line is parsed after replacing every occurrence of each macro name by its value, in definition order.", "quantifier": "all macro tables, lines", "why_tests_cant": "All texts.", "anchors": ["noodle/src/parser.rs: QueryAst::new_from_str"]}
{"id": "C45", "title": "Pragmas are honoured by the command-line tool", "statement": "#limit and #words in a query are respected by the CLI.", "quantifier": "all queries, CLI options", "why_tests_cant": "All queries.", "anchors": ["noodle-cli/src/main.rs: main"]}
{"id": "C46", "title": "The active-query gauge is balanced", "statement": "After every websocket session or HTTP request has ended the active-query gauge is back to its previous value.", "quantifier": "all session histories", "why_tests_cant": "All failure points of a session.", "anchors": ["noodle-webapp/src/main.rs: run_websocket", "noodle-webapp/src/main.rs: run_query_sync"]}
{"id": "C47", "title": "HTTP bodies list exactly the matches", "statement": "The HTTP response lists the evaluator's matches in order, one per line, followed by a timeout line iff the deadline expired; plaintext queries without #limit are capped at 15.", "quantifier": "all queries, deadlines", "why_tests_cant": "All runs.", "anchors": ["noodle-webapp/src/main.rs: run_query_sync"]}
{"id": "C48", "title": "Unknown dictionaries fall back to the default", "statement": "Selecting a dictionary that is not loaded uses the default wordlist; a loaded one is used verbatim.", "quantifier": "all dictionary names", "why_tests_cant": "All names.", "anchors": ["noodle-webapp/src/main.rs: words"]}
{"id": "C49", "title": "Every wordlist can be selected by name", "statement": "#dict NAME selects the wordlist called NAME, for every wordlist name the server lists.", "quantifier": "all names", "why_tests_cant": "All names.", "anchors": ["noodle/src/noodle_grammar.pest: pragma_dict", "noodle/src/parser.rs: QueryAst::new_from_str", "noodle-webapp/src/main.rs: words"]}
{"id": "C50", "title": "Parsing always returns", "statement": "Parsing a query text of any content terminates and returns a query or an error naming one of its lines; it never panics.", "quantifier": "all texts", "why_tests_cant": "All texts, including deeply nested and malformed ones.", "anchors": ["noodle/src/parser.rs: QueryAst::new_from_str", "noodle/src/noodle_grammar.pest: query"]}
{"id": "C51", "title": "A plain word asks for itself", "statement": "A query consisting of a word of letters has one expression, without options, matched by exactly that word (case-insensitively).", "quantifier": "all words", "why_tests_cant": "All words.", "anchors": ["noodle/src/parser.rs: QueryAst::new_from_str"]}
{"id": "C52", "title": "Websocket sessions send the matches in order", "statement": "The matches sent in a session are the first matches of the uninterrupted evaluation of the query, in order and without gaps; if completion is announced, all of them were sent.", "quantifier": "all queries, wordlists, clients (failing sends, disconnects), clocks", "why_tests_cant": "All clients and deadlines.", "anchors": ["noodle-webapp/src/main.rs: run_websocket"]}
{"id": "C53", "title": "Accepted queries can be run", "statement": "A query text that is accepted by the parser can be evaluated: building the evaluator does not panic.", "quantifier": "all query texts", "why_tests_cant": "All texts.", "anchors": ["noodle/src/query.rs: from_ast", "noodle/src/query.rs: new"]}
{"id": "C54", "title": "The query counter counts every query", "statement": "The total-query counter equals the number of HTTP requests plus websocket sessions in which the client sent a message, however they are interleaved or end.", "quantifier": "all histories of the server", "why_tests_cant": "All interleavings and failure points.", "anchors": ["noodle-webapp/src/main.rs: run_websocket", "noodle-webapp/src/main.rs: run_query_sync", "noodle-webapp/src/main.rs: get_metrics"]}
{"id": "C55", "title": "Queries of patterns with simple alternatives report exactly the fitting words", "statement": "For a query all of whose patterns are made of single symbols, classes, repetitions of these, and alternatives each of which ends in a symbol, evaluation without deadline reports exactly the words (phrases) whose text fits every pattern within its number of edits, in the order of the list.", "quantifier": "all such patterns, options, wordlists", "why_tests_cant": "All patterns and wordlists.", "anchors": ["noodle/src/query.rs: QueryEvaluator", "noodle/src/expression.rs: from_ast"]}
{"id": "C56", "title": "From query text to printed lines", "statement": "The command-line tool, asked one word at a time for a word, an anagram block <p>, <p+>, <p->, <p+n>, <p-n> or a subset (p:-), prints one line for each word of the list that is (is an anagram of, ...) it, in the order of the list, and nothing else.", "quantifier": "all words p, numbers n, wordlists", "why_tests_cant": "All texts and wordlists; involves every layer of the program.", "anchors": ["noodle-cli/src/main.rs: main", "noodle/src/parser.rs: QueryAst::new_from_str", "noodle/src/query.rs: QueryEvaluator"]}
{"id": "C57", "title": "Texts mean what the manual says", "statement": "For every pattern of the documented syntax (letters, ', _, ., numbers, classes, anagram blocks, groups with alternatives, the three operators, all repetitions, nested arbitrarily and with spaces) followed by any options !_ !' !n, parsing its text yields an expression for exactly the strings the pattern stands for, with exactly the options asked for or implied; a query of several lines of patterns and pragmas has all of them as expressions and the last value of every pragma.", "quantifier": "all patterns, all ways to write them, all strings", "why_tests_cant": "Infinitely many patterns; precedence, spacing and ordered choice interact.", "anchors": ["noodle/src/parser.rs: parse_term", "noodle/src/parser.rs: parse_options", "noodle/src/parser.rs: QueryAst::new_from_str", "noodle/src/noodle_grammar.pest: expression"]}
{"id": "C58", "title": "Unexpired deadlines make progress", "statement": "A call whose deadline has not passed when it begins either returns a result or advances the search, so only a bounded number of such calls can time out (one per word of the list for single-word queries) and repeated calls reach the end with the complete results; a websocket session with a waiting client ends.", "quantifier": "all queries, wordlists, sequences of deadlines", "why_tests_cant": "All sequences of deadlines; the bound must hold for every schedule of the clock.", "anchors": ["noodle/src/query.rs: next_within_deadline", "noodle/src/matcher.rs: next_single_word", "noodle-webapp/src/main.rs: run_websocket"]}
{"id": "C59", "title": "The page shows the matches that pass the filter", "statement": "Whatever the user does and in whatever order messages arrive: the page shows exactly the matches received for the current query that pass the filter, each once, sorted by score if the box is ticked (matches with equal scores in order of arrival) and in order of arrival otherwise.", "quantifier": "all histories of user actions and messages, all filters and scores", "why_tests_cant": "All interleavings of clicks, keystrokes and messages.", "anchors": ["noodle-webapp/static/index.html: rebuildOutput", "noodle-webapp/static/index.html: ws.onmessage"]}
{"id": "C60", "title": "The page sends the query that was typed", "statement": "The text the page sends asks for the expressions in the input field; its settings win over those of the form, which hold otherwise; a custom word list replaces the words; errors name the line of the input field.", "quantifier": "all inputs, form values and custom word lists", "why_tests_cant": "All texts.", "anchors": ["noodle-webapp/static/index.html: submit", "noodle/src/parser.rs: QueryAst::new_from_str"]}
{"id": "C61", "title": "Copying the results keeps them", "statement": "Copy from Results puts exactly the matches shown into the custom word list, one to a line in the order shown, and the next query is about these words.", "quantifier": "all histories, all matches", "why_tests_cant": "All histories.", "anchors": ["noodle-webapp/static/index.html: copyWordlist", "noodle/src/parser.rs: QueryAst::new_from_str"]}
{"id": "C62", "title": "From the question to the page", "statement": "After a query has been submitted the page shows the first matches of its evaluation, in order; when the status says that it is complete, all of them; the status line shows the last status message.", "quantifier": "all queries, servers, clients, numbers of messages delivered", "why_tests_cant": "All points at which a session can be observed.", "anchors": ["noodle-webapp/static/index.html: ws.onmessage", "noodle-webapp/src/main.rs: run_websocket"]}
{"id": "C63", "title": "The menu offers every wordlist", "statement": "The menu of the page has every wordlist of the server once with its size, longest first; at first the one called default is selected, or a longest one.", "quantifier": "all sets of wordlists and orders of the map", "why_tests_cant": "All sets of wordlists.", "anchors": ["noodle-webapp/src/main.rs: get_wordlist_js", "noodle-webapp/static/index.html: WORDLISTS"]}
{"id": "C64", "title": "Metrics report the counters", "statement": "At any time of any history the metrics report the gauge of active queries, the number of queries so far and the size of every wordlist, one line each.", "quantifier": "all histories of the server", "why_tests_cant": "All interleavings.", "anchors": ["noodle-webapp/src/main.rs: get_metrics"]}
{"id": "C65", "title": "From the query to the phrases", "statement": "Whatever a query says, the command-line tool, an HTTP request and a websocket session report the same phrases: those of up to the allowed number of words of the chosen wordlist whose text fits every pattern of the query, each once, the single words first in the order of the wordlist, and as many as are asked for.", "quantifier": "all query texts, wordlists, numbers of words and results, deadlines and clients", "why_tests_cant": "All texts, wordlists and phrases, through parser, compiler, search and both applications.", "anchors": ["noodle-webapp/src/main.rs: run_query_sync", "noodle-webapp/src/main.rs: run_websocket", "noodle-cli/src/main.rs: main", "noodle/src/parser.rs: parse_query", "noodle/src/query.rs: QueryEvaluator"]}
{"id": "C66", "title": "A definition gives the name its value", "statement": "A line NAME = VALUE, with or without spaces around the = and with or without a comment, makes every later occurrence of NAME stand for VALUE and changes nothing else.", "quantifier": "all names, values, spacing, comments, and texts before it", "why_tests_cant": "All texts; precise spacing rules of the generated parser.", "anchors": ["noodle/src/noodle_grammar.pest: macro_define", "noodle/src/parser.rs: QueryAst::new_from_str"]}
{"id": "C67", "title": "The address of the page holds the query", "statement": "After a query has been submitted the address of the page is a link without spaces or other characters that end a link in a text; opening it puts exactly that query into the input field; different queries have different links; the link of an example leads to the query shown.", "quantifier": "all query texts", "why_tests_cant": "All Unicode texts.", "anchors": ["noodle-webapp/static/index.html: submit", "noodle-webapp/static/index.html: encodeURI", "noodle-webapp/static/index.html: a.example"]}
{"id": "C68", "title": "The links beside a match look that match up", "statement": "The links to Google, Wikipedia and crossword-solver.io beside a match ask these sites about the whole text of the match.", "quantifier": "all matches", "why_tests_cant": "All Unicode texts.", "anchors": ["noodle-webapp/static/index.html: ws.onmessage"]}
{"id": "C69", "title": "GET /query answers the query in its address", "statement": "GET /query/Q, where Q is a query percent-encoded in any way, is answered as the plaintext reply to that query, and no other request is.", "quantifier": "all queries, all ways to encode them, all requests", "why_tests_cant": "All texts and encodings.", "anchors": ["noodle-webapp/src/main.rs: main", "noodle-webapp/src/main.rs: run_query_sync"]}
{"id": "C70", "title": "POST /query answers the query in its body", "statement": "POST /query is answered as the reply to the query in the body if it is UTF-8 and at most 64 kB, and refused otherwise; the server survives every body.", "quantifier": "all requests", "why_tests_cant": "All byte sequences.", "anchors": ["noodle-webapp/src/main.rs: main", "noodle-webapp/src/main.rs: run_query_sync"]}
{"id": "C71", "title": "Every wordlist can be downloaded", "statement": "GET /wordlist/NAME returns the words of the wordlist called NAME, one on each line, for every wordlist of the server.", "quantifier": "all sets of wordlists, all names", "why_tests_cant": "All names.", "anchors": ["noodle-webapp/src/main.rs: main", "noodle-webapp/src/main.rs: get_wordlist"]}
{"id": "C72", "title": "Newlines and semicolons separate lines alike", "statement": "Replacing newlines of a query text by semicolons or the other way round, or changing the spaces at the beginning of lines, does not change the result of parsing it, be it a query, an error with its line, or a panic.", "quantifier": "all query texts", "why_tests_cant": "All texts, also with macros, comments and wordlists.", "anchors": ["noodle/src/parser.rs: QueryAst::new_from_str", "noodle/src/noodle_grammar.pest: query"]}
{"id": "C73", "title": "Messages can be read back", "statement": "Every message of a session and every line of a non-plaintext reply is a JSON object from which the page (or any reader of JSON) gets exactly the status, the log line, or the texts and scores of the words of the match, whatever characters the words hold.", "quantifier": "all messages, all matches", "why_tests_cant": "All Unicode texts and numbers.", "anchors": ["noodle-webapp/src/main.rs: Response", "noodle-webapp/src/main.rs: flatten_phrase", "noodle/src/words.rs: Word", "noodle-webapp/static/index.html: ws.onmessage"]}
{"id": "C74", "title": "Progress is part of a whole and does not go back", "statement": "While a query is answered progress() never reports more than the whole nor more than 100 percent, its percentage is that of its two numbers, and it does not go back.", "quantifier": "all queries, wordlists, histories of calls with any deadlines, builds with and without overflow checks", "why_tests_cant": "All histories; saturating float conversions.", "anchors": ["noodle/src/query.rs: progress"]}
{"id": "C75", "title": "No access outside of a bit set", "statement": "No method of a bit set that can be called without unsafe reads or writes memory outside of the set, whatever row or element it is asked for.", "quantifier": "all sizes, all programs, all indices", "why_tests_cant": "All indices; undefined behaviour may go unnoticed.", "anchors": ["noodle/src/bitset.rs: slice", "noodle/src/bitset.rs: contains", "noodle/src/bitset.rs: insert", "noodle/src/bitset.rs: remove"]}
{"id": "C76", "title": "A search stays inside its tables", "statement": "Whatever calls have been made, the tables and rows a search holds have a set for every state of the automaton in use and every number of edits up to the limit, and these hold states of this automaton only, so the unchecked accesses of the search stay inside its allocations, also after states have been removed.", "quantifier": "all queries, wordlists, limits, histories of calls with any deadlines", "why_tests_cant": "All histories; undefined behaviour may go unnoticed.", "anchors": ["noodle/src/matcher.rs: PhraseMatcher", "noodle/src/matcher.rs: WordMatcher", "noodle/src/query.rs: QueryEvaluator"]}
{"id": "C77", "title": "The generated list has exactly the words that deserve it", "statement": "Of the words counted in Wiktionary, titles (three times) and bodies the generator lists exactly the canonical forms whose uses are worth at least the cutoff, each once, most points first, with values that ascend from 0 to 10^6; it does not matter in which order the words were counted; there is a list for every input.", "quantifier": "all counts of all words, cutoffs", "why_tests_cant": "All dictionaries of counts; the three passes share their tallies.", "anchors": ["listgen/listgen.py: create_wordlist", "listgen/listgen.py: Wordlist.dump_final"]}
{"id": "C78", "title": "Canonical forms are canonical", "statement": "The canonical form of a word consists of ASCII characters, begins and ends with a small letter, is empty for words with digits, and is its own canonical form.", "quantifier": "all words, all behaviours of the Unicode tables on other characters", "why_tests_cant": "All Unicode texts.", "anchors": ["listgen/listgen.py: canonicalize"]}
{"id": "C79", "title": "Counts are exact however articles are divided", "statement": "However articles are divided into files and in whatever order they are read, the counts say for each canonical form how often words of this form occur in titles and bodies, under one spelling: the first in the titles, or in the bodies, or the canonical form itself unless that one is used more than 100 times as often.", "quantifier": "all sets of articles, all divisions into files and orders", "why_tests_cant": "All articles and orders of glob.", "anchors": ["listgen/listgen.py: extract_word_frequency", "listgen/listgen.py: word_frequency"]}
{"id": "C80", "title": "Frequent words are listed", "statement": "Every canonical form that occurs often enough in the articles is in the list, once.", "quantifier": "all dumps of Wikipedia and Wiktionary", "why_tests_cant": "All dumps; four programs and their files in between.", "anchors": ["listgen/listgen.py: main", "listgen/listgen.py: create_wordlist", "listgen/listgen.py: word_frequency"]}
{"id": "C81", "title": "What is counted as a word", "statement": "A text between white space counts as what is left of it between its first and last word character, if it has a letter and nothing but word characters and / - , . & ' in what is left, no underscore, no www. and no domain; a dash U+2013 counts as a hyphen; a body is cut before its second Retrieved.", "quantifier": "all texts and bodies", "why_tests_cant": "Regular expressions over all texts.", "anchors": ["listgen/listgen.py: strip_word", "listgen/listgen.py: strip_body", "listgen/listgen.py: canonicalize"]}
{"id": "C82", "title": "Noodle reads the generated list", "statement": "Every line of the generated list becomes a word of Noodle with its text, value and the letters of its canonical form, unless it is a single letter other than I and a.", "quantifier": "all generated lists", "why_tests_cant": "All lists.", "anchors": ["listgen/listgen.py: Wordlist.dump_final", "noodle/src/words.rs: load_wordlist"]}
{"id": "C83", "title": "The examples of the page find what they describe", "statement": "For every wordlist the example queries of the page, of its help and of the README report exactly the words and phrases they describe: helloworld the phrases of these letters, <smiles>; .*ss.* the anagrams of smiles with a double s, STATE+ the chains of abbreviations of states, and so on.", "quantifier": "all wordlists, numbers of words and results, all examples", "why_tests_cant": "All wordlists; the documented examples go through every layer.", "anchors": ["noodle-webapp/static/index.html: a.example", "README.md", "noodle_help.md", "noodle/src/parser.rs: QueryAst::new_from_str", "noodle/src/query.rs: QueryEvaluator"]}
{"id": "C84", "title": "Dictionary words weigh what the dictionary says", "statement": "Every canonical form that the dictionary mentions is one line of the first list, with the greatest of its scores (1000 for the word of an entry, 50 for a form of one word that is its own canonical form) under the first of its spellings; other words are not there.", "quantifier": "all dictionaries", "why_tests_cant": "All entries in any order.", "anchors": ["listgen/listgen.py: wiktionary_wordlist", "listgen/listgen.py: Wordlist.add_word", "listgen/listgen.py: Wordlist.dump"]}
{"id": "C85", "title": "A session is told how many others are running", "statement": "The first status of a session, Running query (N other(s) active), gives as N the number of the other requests and sessions that have begun and are still running when its query is counted.", "quantifier": "all numbers of requests and sessions, all interleavings of their steps, all ways in which they end", "why_tests_cant": "The number depends on the order of the steps of all clients and on how the earlier ones ended.", "anchors": ["noodle-webapp/src/main.rs: run_websocket", "noodle-webapp/src/main.rs: run_query_sync", "noodle-webapp/src/main.rs: ACTIVE_QUERIES"]}
