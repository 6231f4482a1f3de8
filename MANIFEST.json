{
 "claims": [
  {
   "property": "C01",
   "status": "proved",
   "theorems": [
    "C01_chart_terminates",
    "C01_untyped_arguments_refuted"
   ],
   "note": "Under the typed-arguments condition of the statement; without it a divergent case is proved (C01_untyped_arguments_refuted)."
  },
  {
   "property": "C02",
   "status": "proved",
   "theorems": [
    "C02_chart_never_panics"
   ],
   "note": ""
  },
  {
   "property": "C03",
   "status": "proved",
   "theorems": [
    "C03_match_is_derivation",
    "C03_match_is_derivation_up_to_ranges"
   ],
   "note": "Exact under one range per special term kind; up to ranges for every grammar."
  },
  {
   "property": "C04",
   "status": "proved",
   "theorems": [
    "C04_nonempty_derivation_found",
    "C04_exactly_the_matches",
    "C04_empty_start_found",
    "C04_empty_constituents_refuted"
   ],
   "note": "The condition that no constituent is empty is necessary: C04_empty_constituents_refuted."
  },
  {
   "property": "C05",
   "status": "proved",
   "theorems": [
    "C05_same_matches",
    "C05_same_longest_length",
    "C05_empty_constituents_refuted",
    "C05_longest_tag_refuted",
    "C05_trees_refuted"
   ],
   "note": "Proved for grammars without empty constituents; both failures for other grammars and the dependence of the number of trees on the order are proved by witness."
  },
  {
   "property": "C06",
   "status": "proved",
   "theorems": [
    "C06_one_longest",
    "C06_longest_match",
    "C06_longest_exact"
   ],
   "note": ""
  },
  {
   "property": "C07",
   "status": "proved",
   "theorems": [
    "C07_finals_anchored",
    "C07_all_completed_reported",
    "C07_finals_sorted",
    "C07_reserved_name_refuted"
   ],
   "note": "Needs that the reserved name is not defined; refuted otherwise."
  },
  {
   "property": "C08",
   "status": "proved",
   "theorems": [
    "C08_trees_are_parse_trees",
    "C08_trees_up_to_ranges"
   ],
   "note": ""
  },
  {
   "property": "C09",
   "status": "proved",
   "theorems": [
    "C09_at_least_one_tree",
    "C09_finals_are_completed"
   ],
   "note": ""
  },
  {
   "property": "C10",
   "status": "proved",
   "theorems": [
    "C10_trees_terminate"
   ],
   "note": ""
  },
  {
   "property": "C11",
   "status": "proved",
   "theorems": [
    "C11_no_tree_twice",
    "C11_no_parse_tree_twice",
    "C11_two_ranges_refuted"
   ],
   "note": "No two equal trees (with the chart states at the nodes) for every grammar; no two equal parse trees (states erased to rule bodies and spans) under one range per special term, refuted otherwise."
  },
  {
   "property": "C12",
   "status": "proved",
   "theorems": [
    "C12_exact_trees",
    "C12_nodes_in_chart",
    "C12_missing_trees",
    "C12_forced_tree_returned",
    "C12_shortest_edges_returned",
    "C12_unique_tree_returned",
    "C12_all_trees_refuted"
   ],
   "note": "'All parse results' is refuted by witness. Instead: the returned trees are exactly the parse trees in chart order; for trees without empty nodes, missing means a child that ends with its parent and stands after it; unique trees, trees with forced last children and trees with shortest right edges are returned."
  },
  {
   "property": "C13",
   "status": "proved",
   "theorems": [
    "C13_ordered_disjoint_longest",
    "C13_ordered_disjoint_longest_general",
    "C13_terminates_without_empty_matches",
    "C13_empty_match_never_returns",
    "C13_empty_alternative_covers",
    "C13_empty_alternative_never_returns",
    "C13_termination_refuted"
   ],
   "note": "Termination needs that no start rule matches empty; divergence otherwise is proved (C13_termination_refuted, C13_empty_match_never_returns)."
  },
  {
   "property": "C14",
   "status": "proved",
   "theorems": [
    "C14_leftmost_match",
    "C14_leftmost_match_general",
    "C14_terminates"
   ],
   "note": ""
  },
  {
   "property": "C15",
   "status": "proved",
   "theorems": [
    "C15_exactly_the_positions",
    "C15_positions_general",
    "C15_terminates"
   ],
   "note": ""
  },
  {
   "property": "C16",
   "status": "proved",
   "theorems": [
    "C16_ranges_respected",
    "C16_two_ranges_refuted"
   ],
   "note": "Proved under one range per special term kind, refuted in general."
  },
  {
   "property": "C17",
   "status": "proved",
   "theorems": [
    "C17_calls_parse_suffixes",
    "C17_final_states",
    "C17_nodes",
    "C17_empty_nodes"
   ],
   "note": "Byte ranges for every node of every tree; the panics at both ends of the input are part of the statement and proved."
  },
  {
   "property": "C18",
   "status": "proved",
   "theorems": [
    "C18_text_of_node",
    "C18_bytes_of_given_text",
    "C18_text_of_node_refuted"
   ],
   "note": "Proved for texts without leading white space, refuted with leading white space."
  },
  {
   "property": "C19",
   "status": "proved",
   "theorems": [
    "C19_clauses",
    "C19_failures",
    "C19_total",
    "C19_words"
   ],
   "note": "Semantic agrees with the clauses on every tree; failure characterisation on trees of parses for grammars without @ arguments."
  },
  {
   "property": "C20",
   "status": "proved",
   "theorems": [
    "C20_clauses",
    "C20_failures",
    "C20_nodes_not_empty",
    "C20_unused_children",
    "C20_never_panics_refuted"
   ],
   "note": "Eval agrees with the clauses on every tree; failure characterisation without empty constituents, whose Eval can panic (C20_never_panics_refuted). With @ arguments: C40."
  },
  {
   "property": "C21",
   "status": "proved",
   "theorems": [
    "C21_term_equal",
    "C21_function_equal",
    "C21_body_equal",
    "C21_state_equal",
    "C21_function_symmetric",
    "C21_function_transitive",
    "C21_state_symmetric",
    "C21_state_transitive",
    "C21_untyped_reflexivity_refuted",
    "C21_untyped_injectivity_refuted"
   ],
   "note": "Reflexivity needs typed arguments, refuted otherwise; symmetry and transitivity hold always."
  },
  {
   "property": "C22",
   "status": "proved",
   "theorems": [
    "C22_read_back",
    "C22_name_characters"
   ],
   "note": "For texts without #include (those are C28). Rules are compared before refinement, refinement itself is C26/C27; an alternative replaces an earlier one of the same name and hash, as in the code. Below U+0100 the characters of names are written out; above, they are those of unicode.IsLetter and IsDigit (parameters)."
  },
  {
   "property": "C23",
   "status": "proved",
   "theorems": [
    "C23_newline_terminates",
    "C23_clean_terminates",
    "C23_open_comment_hangs",
    "C23_bad_byte_hangs"
   ],
   "note": "Termination for clean texts (in particular ending in a newline) over a finite set of clean files; both divergences proved for every step budget."
  },
  {
   "property": "C24",
   "status": "proved",
   "theorems": [
    "C24_complete",
    "C24_undecodable_accepted",
    "C24_whole_text_refuted"
   ],
   "note": "Complete up to texts whose first bytes are undecodable, which are accepted as an empty grammar (C24_whole_text_refuted)."
  },
  {
   "property": "C25",
   "status": "proved",
   "theorems": [
    "C25_index",
    "C25_index_wraps",
    "C25_number",
    "C25_wrap_refuted",
    "C25_int_argument",
    "C25_octal_argument",
    "C25_octal_rest_ignored"
   ],
   "note": "Exact below 2^63 and modulo 2^64 beyond unless a prefix of the digits is -1 modulo 2^64 (refuted then); octal reading of leading zeros proved."
  },
  {
   "property": "C26",
   "status": "proved",
   "theorems": [
    "C26_fresh_names"
   ],
   "note": "Within one file; names generated for different files may coincide, see C27_included_names_refuted."
  },
  {
   "property": "C27",
   "status": "proved",
   "theorems": [
    "C27_language",
    "C27_single_file",
    "C27_flags_refuted",
    "C27_included_names_refuted",
    "C27_dangling_refuted"
   ],
   "note": "Language equality under three stated conditions, each proved necessary by a refutation."
  },
  {
   "property": "C28",
   "status": "proved",
   "theorems": [
    "C28_string_terminates",
    "C28_file_terminates",
    "C28_string_includes",
    "C28_file_includes",
    "C28_string_loads",
    "C28_file_loads"
   ],
   "note": "Termination needs files of decodable text without an open line comment (C23)."
  },
  {
   "property": "C29",
   "status": "proved",
   "theorems": [
    "C29_index_exact",
    "C29_file_index_exact"
   ],
   "note": "Index of the rules as written in the text (before refine) and of the frames, and of the rules and frames of the includes as the includes hold them (after their own refine). The trie is the list of indexed texts."
  },
  {
   "property": "C30",
   "status": "proved",
   "theorems": [
    "C30_start_rules_exact",
    "C30_terminates"
   ],
   "note": "Relative to the words that the trie reports (MultiMatch is a parameter). Holds for every grammar whose index is exact, which C29 proves of every grammar the reader returns."
  },
  {
   "property": "C31",
   "status": "proved",
   "theorems": [
    "C31_no_rules_fails",
    "C31_complete_iff_filled",
    "C31_repeated_never_complete",
    "C31_slots_exact",
    "C31_flags_refuted",
    "C31_included_word_panics",
    "C31_included_rule_fails"
   ],
   "note": "Term.Key is a parameter; the equivalence is for frames whose terms have pairwise different keys. The statement without the restriction to flag-free terms is refuted. A text whose words occur in no rule is an error even if it fills a frame (C31_no_rules_fails)."
  },
  {
   "property": "C32",
   "status": "proved",
   "theorems": [
    "C32_without_flags",
    "C32_lemma_flag",
    "C32_ignore_case_flag",
    "C32_other_flags_never_match",
    "C32_unknown_text",
    "C32_only_terminals"
   ],
   "note": ""
  },
  {
   "property": "C33",
   "status": "proved",
   "theorems": [
    "C33_document_outcomes",
    "C33_alternatives_exact",
    "C33_keeps_hypotheses",
    "C33_local_rule_matches",
    "C33_token_classes",
    "C33_regular_expressions",
    "C33_white_space_never_matches",
    "C33_regexp_positions_refuted",
    "C33_empty_match_never_returns",
    "C33_empty_match_refuted"
   ],
   "note": "Local rules characterised exactly for all documents, regular expressions, hash functions separating the alternatives and map orders; matches of token classes and regular expressions through EarleyParseAll; a regexp matching elsewhere (refuted) and an empty regexp match making EarleyParseMaxAll run forever. Taggers, regexp matching and hashing are parameters."
  },
  {
   "property": "C34",
   "status": "proved",
   "theorems": [
    "C34_defined_types_survive",
    "C34_other_types_rejected"
   ],
   "note": ""
  },
  {
   "property": "C35",
   "status": "proved",
   "theorems": [
    "C35_read_back",
    "C35_strings_exact",
    "C35_context_lost",
    "C35_float_becomes_int",
    "C35_printable"
   ],
   "note": "Read-back for all functions of any nesting whose names are valid, which have at least one argument each, whose indices fit an int, and whose floats print as decimal fractions that scan to the same value (big.Float printing and scanning are parameters). The strings that survive are characterised exactly. Context arguments are shown to make the printed text unreadable; floats printed without a point come back as integers. The printable characters below U+0100 are written out; above, they are a parameter."
  },
  {
   "property": "C36",
   "status": "proved",
   "theorems": [
    "C36_extract_all_sound",
    "C36_extract_all_complete",
    "C36_parse_longest",
    "C36_parse_nonempty",
    "C36_parse_any_leftmost",
    "C36_extract_max_longest",
    "C36_parse_returns",
    "C36_parse_any_returns",
    "C36_extract_all_returns",
    "C36_extract_max_returns"
   ],
   "note": ""
  },
  {
   "property": "C37",
   "status": "proved",
   "theorems": [
    "C37_string_never_panics",
    "C37_file_never_panics"
   ],
   "note": "All byte sequences; external calls are assumed to return a value or an error."
  },
  {
   "property": "C38",
   "status": "proved",
   "theorems": [
    "C38_frame_texts",
    "C38_returns_iff",
    "C38_total",
    "C38_leftmost_longest",
    "C38_words_are_null",
    "C38_only_complete_refuted",
    "C38_at_panics"
   ],
   "note": "That only complete frames are reported is refuted (C38_only_complete_refuted). The leftmost-longest statement is for frames whose terms have no flags and pairwise different keys and for grammars without empty alternatives."
  },
  {
   "property": "C39",
   "status": "proved",
   "theorems": [
    "C39_accepted_grammars",
    "C39_parse_all",
    "C39_parse_max_all",
    "C39_parse_any",
    "C39_extract_all",
    "C39_parse"
   ],
   "note": "Composes C05-C10, C13-C15, C26, C27, C33 and C36. Hypotheses are on the written rules and on the document (usable, fit_document); where they fail see the refuted statements of C03, C27 and C13."
  },
  {
   "property": "C40",
   "status": "proved",
   "theorems": [
    "C40_root",
    "C40_root_views",
    "C40_root_meaning",
    "C40_term_and_function",
    "C40_tree",
    "C40_bracketed",
    "C40_context",
    "C40_eval",
    "C40_semantic",
    "C40_reserved_word_refuted",
    "C40_reserved_views_refuted",
    "C40_empty_parts_refuted"
   ],
   "note": "Hypotheses: no empty part and no word spelled like the reserved name; without them the methods can panic (C40_empty_parts_refuted, C40_reserved_word_refuted). Extends C19/C20 to functions with @."
  },
  {
   "property": "C41",
   "status": "proved",
   "theorems": [
    "C41_list_nodes",
    "C41_list_semantic",
    "C41_list_eval",
    "C41_list_value",
    "C41_entity_builtin",
    "C41_call",
    "C41_entities"
   ],
   "note": "Reflection (goutil.Call) is a parameter; `registered` says that fmr.list and fmr.entity are in the table. Hypothesis separated as for C19/C20."
  },
  {
   "property": "C42",
   "status": "proved",
   "theorems": [
    "C42_trim_exact",
    "C42_trim_blank",
    "C42_no_tokens",
    "C42_same_trimmed"
   ],
   "note": "Trimming proved equivalent to a specification over the encodings of white-space runes, for all byte strings."
  },
  {
   "property": "C43",
   "status": "proved",
   "theorems": [
    "C43_printed",
    "C43_text_unique",
    "C43_sum_rounded",
    "C43_product_rounded",
    "C43_decimal_sum",
    "C43_decimal_sub",
    "C43_decimal_small",
    "C43_decimal_cancels",
    "C43_decimal_mul",
    "C43_decimal_mul_zero",
    "C43_decimal_neg",
    "C43_cancellation_refuted",
    "C43_out_of_range",
    "C43_numerals",
    "C43_sum",
    "C43_sub",
    "C43_mul",
    "C43_neg",
    "C43_large",
    "C43_close",
    "C43_exact_sum_refuted",
    "C43_exact_mul_refuted",
    "C43_exact_neg_refuted",
    "C43_panics",
    "C43_arithmetic",
    "C43_parity",
    "C43_unreadable",
    "C43_prime",
    "C43_composite",
    "C43_div",
    "C43_pow"
   ],
   "note": "big.Float addition, subtraction, multiplication, negation and printing are modelled (64 bits, round to nearest even, 10 digits); scanning of texts, ProbablyPrime and float64 operations are parameters. Exactness of sums, products and negations is refuted beyond ten digits and for zeros with a minus sign. For decimal fractions the scanner is assumed to be accurate to one part in 2^63, to depend on the number only and to respect the sign; a scanner that rounds to nearest is shown to satisfy this. When more than eight digits cancel the printed digits can be wrong (refuted)."
  },
  {
   "property": "C44",
   "status": "proved",
   "theorems": [
    "C44_lines",
    "C44_print_faithful",
    "C44_string_faithful",
    "C44_chart_prints",
    "C44_chart_faithful",
    "C44_treeprint_refuted",
    "C44_treeprint_shows",
    "C44_notation",
    "C44_list_shown"
   ],
   "note": "big.Float.String, strconv.IsPrint above U+00FF and the layout of the treeprint library are parameters. Names with > are excluded (C44_plain_needed shows why). That TreePrint shows the tree is refuted."
  },
  {
   "property": "C45",
   "status": "proved",
   "theorems": [
    "C45_entries_stay",
    "C45_loaded_found",
    "C45_match_undisturbed",
    "C45_loading_writes",
    "C45_loading_alone",
    "C45_stable_match_refuted",
    "C45_match_reads"
   ],
   "note": "get and put are one step each (they hold the table's lock); everything else a goroutine does is local. C45_stable_match_refuted exhibits the schedule in which the separate get and put overwrite an entry of a loaded grammar."
  },
  {
   "property": "C46",
   "status": "proved",
   "theorems": [
    "C46_trees_in_memory",
    "C46_repeated_calls",
    "C46_calls_return",
    "C46_prints_same",
    "C46_fill_alone",
    "C46_race_doubles_refuted",
    "C46_concurrent_refuted"
   ],
   "note": "ModelMutate threads the chart as memory and nodes hold pointers; the theorems relate it to the tree builder of ModelTrees used elsewhere, which writes nothing. For two goroutines the filling of Rb is modelled statement by statement (each append one step); C46_concurrent_refuted shows the lost trees."
  },
  {
   "property": "C47",
   "status": "proved",
   "theorems": [
    "C47_polynomial_fuel",
    "C47_polynomial_chart"
   ],
   "note": "Strengthens C01: the fuel that suffices is an explicit polynomial. Counts rows (states processed), not machine steps; the number of trees GetTrees builds can be exponential and is not bounded here."
  },
  {
   "property": "C48",
   "status": "proved",
   "theorems": [
    "C48_loads",
    "C48_any_rejected",
    "C48_reached",
    "C48_self_contained",
    "C48_usable",
    "C48_homophones_refuted",
    "C48_signs_refuted"
   ],
   "note": "The file texts are constants copied verbatim. The environment must scan the fractions 0.5 and 0.01 and compile the one regular expression used; the trie accepts non-empty keys and the tokenizer answers. C48_usable leaves the agreement of generated names between files (compatible) open for files with includes; C48_homophones_refuted and C48_signs_refuted show that it fails for grammars/time.grammar and examples/math/grammars/math.grammar."
  },
  {
   "property": "C49",
   "status": "proved",
   "theorems": [
    "C49_parse_max_all",
    "C49_extract_all",
    "C49_parse",
    "C49_parse_any",
    "C49_extract_max_all"
   ],
   "note": "What the parts of an alternative say is defined on the written rules (SpecMeaning), with the alternatives of the document added. All calls that return trees are covered. Uniqueness of what is said is not claimed: grammars may be ambiguous."
  },
  {
   "property": "C50",
   "status": "proved",
   "theorems": [
    "C50_one_reading",
    "C50_file_text"
   ],
   "note": "Alternatives are compared as sets (the order of alternatives and repeated ones do not matter to the reader either). The notation relation is that of C22."
  },
  {
   "property": "C51",
   "status": "proved",
   "theorems": [
    "C51_parse_max_all",
    "C51_all_readings_refuted",
    "C51_program"
   ],
   "note": "Values are exact for readings whose intermediate values have at most ten digits and which produce no negative zero (C43). C51_all_readings_refuted shows a reading without a tree; readings from left to right are shown (C12_shortest_edges_returned). The JavaScript machine is a parameter: what it answers is printed as it is."
  },
  {
   "property": "C52",
   "status": "proved",
   "theorems": [
    "C52_math_program",
    "C52_builtin_program",
    "C52_stops",
    "C52_builtin_files"
   ],
   "note": "The debug flag and -cpuprofile are not modelled; messages of glog go to the log, not to the output. The trees of a span are at least one formula it says; not every formula has a tree (C12, C51_all_readings_refuted). The JavaScript machine is a parameter that may answer, fail or panic."
  },
  {
   "property": "C53",
   "status": "proved",
   "theorems": [
    "C53_ready",
    "C53_failed",
    "C53_ready_or_failed",
    "C53_not_both",
    "C53_calls_end",
    "C53_called_again",
    "C53_returned_ready_refuted"
   ],
   "note": "sync.Once is modelled as documented (one runs, the others wait, a panic counts as done); the pipeline and its taggers are parameters. The last clause is shown as a refutation."
  },
  {
   "property": "C54",
   "status": "proved",
   "theorems": [
    "C54_no_tagger",
    "C54_no_frames",
    "C54_no_context",
    "C54_asked",
    "C54_query_unique",
    "C54_kept_refuted"
   ],
   "note": "All bytes of the context, all well-formed queries of the flag. url.ParseRequestURI, URL.String, NewAPITagger and the annotators are parameters; Query, Set and Encode of net/url are modelled. C54_kept_refuted shows that parameters of a query that is not well-formed are lost."
  },
  {
   "property": "C55",
   "status": "proved",
   "theorems": [
    "C55_formula",
    "C55_one_reading",
    "C55_parts",
    "C55_read_grammars",
    "C55_local_grammars",
    "C55_meaning",
    "C55_javascript",
    "C55_javascript_refuted"
   ],
   "note": "json.Marshal is a parameter of which only is asked that objects begin with a brace and none is the beginning of another; float texts must be non-empty and without brackets, commas, quotes. The JavaScript part is about texts in UTF-8 and string literals as in ECMAScript 5.1 without octal escapes and line continuations, which are never written. C55_javascript_refuted is the failing part."
  },
  {
   "property": "C56",
   "status": "proved",
   "theorems": [
    "C56_exponential",
    "C56_all_trees"
   ],
   "note": "The grammar is the one read from <s> = <u> \"a\" | \"b\"; <u> = <s> | <v>; <v> = <s>; (the example reads it). Terminals are compared by terminal_match of the model."
  },
  {
   "property": "C57",
   "status": "proved",
   "theorems": [
    "C57_frames_of_text",
    "C57_nothing_missed",
    "C57_lists_refuted",
    "C57_spelling_refuted"
   ],
   "note": "Grammars without includes (frames of included grammars make MatchFrames panic, C31_included_word_panics). Terms of frames in the slot part: without flags, without surrounding white space, with different keys. The word search (trie) is a parameter; asked is only that it returns words of the index, each once. C57_lists_refuted and C57_spelling_refuted show that both conditions of C57_nothing_missed are needed: rules made of lists only, and words spelled with other white space, match but are not looked for."
  },
  {
   "property": "C58",
   "status": "proved",
   "theorems": [
    "C58_number_words",
    "C58_all_numbers",
    "C58_large_refuted",
    "C58_decimals_refuted",
    "C58_grammars_that_calculate"
   ],
   "note": "The hypotheses on the environment are those of C48 plus: each number word is one token for the tokenizer, and the hash separates the alternatives of each rule. The numerals of the specification go up to 10^15; C58_large_refuted shows that Eval gives 1e+10 for \"ten billion\", C58_decimals_refuted that Eval fails for \"one point five\" (nf.math.decimal is not registered in math_funcs.go). C58_grammars_that_calculate is the general form for any grammar with arithmetical functions."
  },
  {
   "property": "C59",
   "status": "proved",
   "theorems": [
    "C59_numerals",
    "C59_all_numbers",
    "C59_large_refuted",
    "C59_all_readings_refuted"
   ],
   "note": "Hypotheses as for C58, with the characters of the numerals as tokens, and 万万 as one token or two. C59_large_refuted: Eval gives 1e+10 for 一百亿. C59_all_readings_refuted: outside of the numerals the rules read 一百二 also as 102, but GetTrees returns only the tree of 120. Decimals (点) are not covered: nf.math.decimal is not registered."
  },
  {
   "property": "C60",
   "status": "proved",
   "theorems": [
    "C60_same_outcome",
    "C60_same_outcome_file",
    "C60_place",
    "C60_place_file",
    "C60_rest_irrelevant",
    "C60_no_way_on",
    "C60_usual_place_refuted",
    "C60_some_place_refuted"
   ],
   "note": "string_report and file_report are the calls with their errors; C60_same_outcome ties them to the calls of C23. `tells` gives place and objection when the text is UTF-8 and the place alone otherwise. C60_rest_irrelevant is for texts without # or when no file can be read, because an error in an included file names a place in that file. C60_usual_place_refuted: the first character of a later row has column 2 (a newline counts as the first column of the row after it), and a newline at the start of the text opens no row. C60_some_place_refuted: < and an undecodable byte give <nil> as the place."
  },
  {
   "property": "C61",
   "status": "proved",
   "theorems": [
    "C61_generated_names",
    "C61_usual_names",
    "C61_language",
    "C61_rules_of_files",
    "C61_shipped",
    "C61_order_refuted"
   ],
   "note": "C61_usual_names and C61_language replace `compatible` of C27 by a condition on the texts alone (names_apart); C61_shipped does the same for C48_usable. names_apart is sufficient, not necessary: C27_single_file needs nothing for one file. C61_rules_of_files: an alternative may be missing when another of the same rule has its hash. C61_order_refuted: \"foo bar\" and \"foo-bar\" swap names with the order of maps. Clashes between files: C27_included_names_refuted, C48_homophones_refuted, C48_signs_refuted."
  },
  {
   "property": "C62",
   "status": "proved",
   "theorems": [
    "C62_arithmetic_in_words",
    "C62_left_to_right",
    "C62_sums",
    "C62_one_operation",
    "C62_precedence_refuted"
   ],
   "note": "Hypotheses as in C58, plus: every other terminal text of <number> and <special_number> has a word outside the vocabulary for the tokenizer (foreign), the generated names are apart (C61), no rule involved is tagged or the name of a regular expression. Not claimed: which bracketings other than that from left to right have trees (GetTrees does not return all, see C12_all_trees_refuted and C51_all_readings_refuted). C62_left_to_right: among the trees is always one with the value from left to right."
  },
  {
   "property": "C63",
   "status": "proved",
   "theorems": [
    "C63_same_values",
    "C63_same_calls",
    "C63_same_frames",
    "C63_same_context",
    "C63_same_termtype",
    "C63_calls",
    "C63_context",
    "C63_eval",
    "C63_semantic",
    "C63_about",
    "C63_grammar_messages",
    "C63_frames",
    "C63_frame_texts",
    "C63_termtype"
   ],
   "note": "Messages are Ours (made by the package) or Theirs (passed on from the tagger, url, dictionary or a called function; their texts are parameters). How %+v prints an argument is a parameter. C63_frames assumes a well-formed grammar, no start rule named \"\", and a dictionary that returns its own words. \"arg is nil\" is left out: arguments in the model are not nil."
  },
  {
   "property": "C64",
   "status": "proved",
   "theorems": [
    "C64_numerals",
    "C64_whole",
    "C64_all_numbers",
    "C64_teens_refuted",
    "C64_gaps_refuted"
   ],
   "note": "Hypotheses as for C59, with the sixteen characters of the file as tokens; the simple numerals are the inductive relation simple of SpecCnNum.v. C64_teens_refuted and C64_gaps_refuted: the usual numerals 十五 and 一万零一 are two parses each."
  },
  {
   "property": "C65",
   "status": "proved",
   "theorems": [
    "C65_numerals",
    "C65_whole",
    "C65_usual",
    "C65_usual_anywhere",
    "C65_usual_numbers",
    "C65_all_numbers",
    "C65_thousands_refuted"
   ],
   "note": "Hypotheses as for C64, with the words of the file as tokens; the amounts are the inductive relation spoken of SpecSpoken.v, the usual readings the relation merged there. One tree has the usual reading (C65_usual, C65_usual_anywhere); whether other trees with other readings (\"fifty six thousand\": 6050) are returned is left open. C65_thousands_refuted: \"two hundred fifty thousand\" is worth 50200."
  },
  {
   "property": "C66",
   "status": "proved",
   "theorems": [
    "C66_least_nested",
    "C66_least_exists",
    "C66_formulas_apart"
   ],
   "note": "C66_least_nested: any grammar whose alternatives calculate (SpecWorth.calculates); existence of such a reading is stated with a double negation, since reading is not decided in the specification. The instance for examples/math is C62_left_to_right."
  },
  {
   "property": "C67",
   "status": "proved",
   "theorems": [
    "C67_chinese_arithmetic",
    "C67_left_to_right",
    "C67_sums",
    "C67_one_operation",
    "C67_precedence_refuted"
   ],
   "note": "Hypotheses as in C59 and C62, with names_between in place of spelled_apart: the names that refine may make up for a text of math.zh.grammar and for one of number.zh.grammar differ; inside one file texts may have the same transliteration (一, 壹, 亿). Operations of two characters (加上, 减去, 乘以) and the other texts of math.zh.grammar are outside of the texts considered (foreign). Not claimed: which bracketings other than that from left to right have trees."
  }
 ]
}