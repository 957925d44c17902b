# Formal model of zbanks/noodle in Rocq (Coq 8.16.1)

Source read: `/repo` at the pinned commit (rust). Nothing is built or run; every
definition of the model cites the file and lines it models.

## Shape of the model

Standard library only, no axioms, no functors or module types.

* Panics, undefined behaviour (out-of-range `get_unchecked`) and exhausted fuel are explicit
  values (`Base.v`): `Ok a`, `Panic`, `UB`, `OutOfFuel`. Where a function recurses without a
  structural argument it takes fuel, and the fuel given is proved to suffice (C09, C29, C50).
* Build profiles: functions whose arithmetic may overflow take a flag `ovf` (overflow checked or
  wrapping); theorems hold for both values.
* `Bitset.v` models `bitset.rs` on lists of 32-bit blocks. Higher layers use sets represented by
  one `N` bit mask (`Base.v`) and carry the number of blocks of an allocation where an index may
  leave it; `BitsetProofs.v` (C01, C02) shows that rows of blocks behave as such sets.
* Time: a deadline is `None` or `Some k`, "the clock has passed at the k-th look". Theorems about
  deadlines quantify over all sequences of them.
* Text is a list of Unicode code points (`N`).

### Model files

| file | models |
|---|---|
| `Bitset.v` | `bitset.rs`, all of it except iterator adaptors and `Debug` |
| `Words.v` | `words.rs`: `Char`, `CharBitset`, `Word::new`, `load_wordlist`, `Tranche` |
| `Ast.v` | `parser.rs` AST types, sets of character classes |
| `Nfa.v` | `expression.rs` 6-436: `build_states`, epsilon closure, pruning, collapsing, `from_ast` |
| `Fill.v` | `expression.rs` 438-589: `fill_transition_table`, `char_transitions` |
| `Matcher.v` | `matcher.rs`: `WordMatcher`, classes of words, `optimize_for_wordlist`, `filter_search_phases` |
| `Query.v`, `Progress.v` | `query.rs`: `QueryEvaluator`, all phases, deadlines, limits, `progress` |
| `Expand.v` | `parser.rs`: anagram expansion, option detection |
| `Grammar.v` | `noodle_grammar.pest` and the semantics of the parser pest generates from it |
| `Parser.v` | `parser.rs`: lines, pragmas, macros, terms, options, printing |
| `Page.v` | script of `noodle-webapp/static/index.html` (query text, matches, filter, sorting, copying, menu), `/wordlists.js`, `/metrics` |
| `Http.v` | routes of `noodle-webapp/src/main.rs` 319-383 (as warp, http and percent-encoding treat them), links and address of the page (`index.html` 408, 447, 517-537, 560-567, with encodeURI and the URL standard) |
| `Json.v` | messages of the server as serde_json writes them (`main.rs` 66-77, `words.rs` 153-162) and as the page reads them (`index.html` 469-487, JSON.parse) |
| `Gauge.v` | the gauge as a 64-bit atomic under interleaved steps and the text of the first status (`main.rs` 60, 158, 204, 229-234, 309) |
| `Listgen.v` | the generator of wordlists, `listgen.py` 15-72, 89-182, 194-357, 406-418 |
| `Apps.v` | `noodle-cli/src/main.rs`, `noodle-webapp/src/main.rs`, `QueryEvaluator::from_ast` |

### Specification files (what the statements mean; no proofs, not code)

`BitsetSpec.v` (families of sets), `Lang.v` (language of a pattern, acceptance by an automaton),
`OptSafe.v` (executable side conditions of the optimiser passes), `Fuzzy.v` (edits),
`Results.v` and `Answers.v` (phrases and responses of a query), `Prepared.v` (matchers in the phrase
search), `ExpandSpec.v` (anagrams, significance), `ParserSpec.v` (lines, macros, numbers), `AppsSpec.v`
(histories of a server), `Flat.v` (patterns with restricted nesting), `Runs.v` (letters and runs of letters, patterns sewn together), `TextSpec.v` (lines printed),
`Syntax.v` (the pattern language as text), `Printable.v` (expressions that print faithfully), `PageSpec.v`
(what a user sees of the page), `Script.v` (whole query texts: comments, macros, wordlists), `EndSpec.v` (the answer to a query),
`HttpSpec.v` (UTF-8, percent-encoding, how addresses are read, lines with other separators),
`JsonSpec.v` (JSON as a grammar, the documented objects), `Tables.v` (shapes of the tables of a search), `ListgenSpec.v` (what is kept of a text, what uses are
worth, what is listed, what Python's tables do on ASCII).

All other files but `Prop*.v` are proofs. `Prop*.v` hold the property theorems, each with
`Print Assumptions` and a witness that its hypotheses are met.

### Not modelled

* Unicode tables: lower-casing and decomposition are parameters (`unicode`).
* HashMap/IndexMap internals (an IndexMap is the list of its entries; a HashMap a lookup function).
* pest itself (not part of /repo): its documented semantics, `Grammar.v`; error positions are line
  numbers only, messages are not modelled.
* Floating-point logarithms of `progress` (parameters), texts of log and status messages,
  HTML and CSS, score bars of the page, `help` text, `Debug` output.
* tokio scheduling, sockets, TLS, zstd, prometheus registry: a server history is an arbitrary
  interleaving of the effects of its requests and sessions; every send may fail.
* `listgen.py`: reading and writing of its files, the float `0.01 * count` and the logarithms (exact or
  parameters), `validate_wordlist`, `build_wiki_graph` (which only print or are not run), `Wordlist.load`,
  `merge`, `canonical_score` (not called).
* Static files, headers and status codes, HTTP/2; lone surrogates in texts of the script.
* Memory exhaustion, stack exhaustion, wall-clock time.

## Properties: what is modelled and how each is proved

`refuted` means the property as a user would state it is false of the code: a theorem
`Cxx_..._refuted` gives the counterexample (computed by the model itself), and further
theorems say exactly what does hold.

| id | method |
|---|---|
| C01 | programs of row operations on blocks simulate families of sets; frame for other rows |
| C02 | iterator state machine, loop invariant; result = ascending filter of membership |
| C03 | false as stated (witness); exact description of the elements that disappear, by induction over rows of blocks within the loop over columns |
| C04 | `Word::new` with Unicode functions as parameters; exact for ASCII |
| C05 | exact characterisation of class sets; refuted for negated punctuation |
| C06 | `load_wordlist` as a fold with its tranche counters; sorted permutation of admitted lines |
| C07 | composition of C08, C09, C10: for patterns with harmless optimisation, and (without side condition besides size) for patterns of classes, repeated classes, (nested) alternatives whose branches end in a class and (nested) groups repeated a limited number of times (`Flat.branching`), and for sequences of classes and runs `(abc:^)` of two or more classes (`Runs.runs`, `RunsProofs.v`), and for patterns sewn together at non-empty classes from both kinds and from patterns with one group of two or more characters, without repetitions in it, repeated without bound (`Runs.sewn`); refuted in general, also for unbounded groups with repetitions in them and for runs of one letter or of repetitions |
| C08 | induction over the pattern on automaton fragments, for a syntactic class; refuted outside of it |
| C09 | closure = reflexive transitive closure; the fuel bound suffices |
| C10 | pruning and collapsing preserve acceptance under local conditions; for `Flat.branching` patterns this holds: without the alternatives the automata stay interval automata through every pass, and the full automaton is simulated by the one in which the states in front of alternatives and groups reach nothing (`AltSim.v` ... `AltSafe.v`); `Runs.runs` patterns: the states before every pass are those of the construction with some deleted, at places where the deletion is harmless (`RunsProofs.v`); `Runs.sewn` patterns: the automaton of a pattern in which a non-empty class stands between two parts is glued from those of the two parts, construction and every pass work on the two independently (`GlueProofs.v` ... `GlueCut.v`); unbounded groups: the first pass at most merges the state in front of the group with one behind it, after which nothing is left to do (`RingOpt.v` ... `RingBuild.v`); refuted without |
| C11, C12 | panic and out-of-range witnesses; positive under the conditions of C07 and for `Flat.branching`, `Runs.runs` and `Runs.sewn` patterns |
| C13, C14 | corollaries of C08 plus the desugaring in the parser; C14 from text |
| C15-C19 | `fill_transition_table` against an inductive edit relation: exact set of strings found; Levenshtein soundness; refuted completeness; monotonicity; C18 for phrases from C21 and C24 (PropVisible) |
| C20-C22 | invariant of `WordMatcher` over all words and all early exits |
| C23-C29 | search machine refined to lexicographic enumeration; trace theorems for all limits and deadlines; the order of C26 also for searches that gave up (words replaced by their positions, AnyProofs) |
| C30-C32, C34 | `optimize_for_wordlist` / `filter_search_phases` against phrase acceptance; C32 refuted, exact |
| C33 | exact condition under which `progress` panics |
| C35-C39 | expansion against permutations; C38, C39 refuted in general, exact conditions |
| C40 | traversal of the pattern |
| C41 | executable grammar; witnesses; Printable.v says which expressions survive; PrintProofs: what is printed is a `writes` text of a pattern with the same language (induction on the tree), then C57's parsing theorem |
| C42 | executable grammar; witnesses, and general theorems about lines; below macros: replacing splits at a mark no name holds (MacroProofs), and no name holds one (NameProofs, a run of the PEG over every accepted definition) |
| C43, C44 | query line state machine; substitution specified independently; `NameProofs`: any line the macro rule accepts has a name of letters, digits, `_`, spaces that starts with a letter, and a value of printable ASCII |
| C45-C48, C52-C54 | CLI and server as functions from inputs to effects; all interleavings |
| C49 | exact set of names a query can select; refuted for a shipped list |
| C50 | fuel suffices for all texts (ranking of grammar rules and text length); panics only by numbers; the 64-bit sum of `<word+n>` in its own layer (`Expand64.v`), equal to the unbounded one on all texts whose numbers leave room for the length of the line (induction over the parse tree) |
| C51 | parse of words of letters |
| C55 | C07 for `Flat.branching` and `Runs.runs` patterns composed with C15-C29 |
| C56 | C51, C14, C35, C36 composed with C55 and C45: text of a query to the printed lines |
| C57 | `Syntax.v` describes the pattern language (abstract patterns, how they are written, what they mean) without reference to the parser; by induction over the written text the PEG run, the tree and its language are determined, then the options, then several lines; composed with C55 and C45 for patterns of that kind |
| C58 | measure: words and search steps left; every call with an unexpired deadline that times out lowers it |
| C59 | invariant over all events of the page: matches held are a permutation of those arrived, stable by score; shown = held and passing |
| C60 | three lines prepended, simulation of the line loop from the state they leave; `#wordlist` lines |
| C61 | C59's invariant; lines of the copied text |
| C62 | C52 composed with C59 |
| C63 | stable insertion sort, last default option |
| C64 | C46, C54 and the lines of the body |
| C65 | `EndSpec.v` says what the answer is; C57 and C39 give the expressions, C55 their automata, C21-C29 the search, C45, C47 and C52 where it goes; a single anagram block between parts of fixed length is exact (C38) |
| C66 | `Script.v` says what a line says; the PEG run on a definition is determined by induction over name and value (ScriptProofs), comments by C42's lemma, macro tables by uniqueness of `bind_macro` |
| C67 | UTF-8 and percent-encoding as relations (`HttpSpec.v`); the encoder is in the relation and the decoder inverts it, by induction; finite checks of the character sets; C72 for the examples |
| C68 | false for matches with `&`, `#`, `+` (or `/`, `?`, `#`); the exact condition, from unique decomposition of the address at the separators |
| C69 | the routes in order; any percent-encoding of any UTF-8 decodes to the query, stray bytes to U+FFFD; exact set of requests that are answered in plain text |
| C70 | `from_utf8` accepts exactly UTF-8 (both directions); exact set of requests that are answered, and of those for which the handler panics |
| C71 | exact set of names a request can ask for; C48 for the body |
| C72 | a query text is split at separators; spaces before a line change no PEG run, no macro substitution (names begin with a letter: invariant) and no trimmed word |
| C73 | a compact printer of JSON values is inverted by the reader (induction over fuel for values, items and members together); messages are printed objects; C47 for the lines; for every other layout (white space, escapes) induction over the layout of values, items and members, with the fuel of the reader bounded by the length |
| C74 | exact values in the word phase as an invariant of all histories of calls; bounds in the phrase phase for every estimator that behaves like the squared logarithm; witness for the jump from 100 to 0 percent |
| C75 | exact condition for the unchecked accesses of rows and elements, and what the other indices alias |
| C76 | shapes of all tables and rows as an invariant of all histories of calls, through word matching, removal of states and phrase search |
| C77 | tallies as a fold over all uses (invariant: points and last spelling of every form), stable insertion sort, values as a parameter that falls; refuted for one form and for spelling |
| C78 | trimming lemmas; letters and digits are listed by the specification; ligatures by induction over the text; refuted for characters that decompose into digits |
| C79 | sums over dictionaries are conserved by merging; invariant of the table of chosen forms; the first word of a form decides its spelling (first key found in merged dictionaries); refuted for the order of articles and for forms with digits |
| C80 | composition of C79 and C77: the one entry of the form alone is worth the cutoff |
| C81 | regular expressions as functions, equal to a specification by concatenations; refuted for the dash U+2013 |
| C82 | numbers read back (C72), the loader of C06; symbols of ASCII words by their canonical form |
| C83 | every example is written down with `Script.writes_script` and shown to be a `good_query`, then C65; plain descriptions by the meaning of patterns; the second example refuted by a run on two words |
| C84 | the dictionary as a fold over mentions: for each key the maximum of the scores and the first spelling; refuted for words without canonical form, which share one line |
| C85 | histories with labelled steps; invariant: the gauge (64 bits, wrapping) is the number of labels that have added and not subtracted; where an effect can stand in a trace; refuted by a session with a parse error |

## Trusted base

* Coq's kernel (and `vm_compute`) as shipped in 8.16.1.
* `Print Assumptions` is printed under every property theorem; for each of them it says
  "Closed under the global context": no axiom is used. (Loading standard-library files brings
  the `ssrunder` axioms of the shipped library into the environment; no theorem uses them.)
* The reading of the Rust source, as recorded in the comments of the model files, in particular
  the simplifications named there, and the semantics of pest 2.1 as read from its documentation; likewise warp 0.3.1, http 0.2,
  percent-encoding 2.2, `from_utf8`, ECMAScript's encodeURI/decodeURI and the URL standard (`Http.v`).
