{"id": "C01", "title": "Chart parsing always terminates", "statement": "For every grammar whose semantic arguments carry the value kind their type tag announces (everything the grammar reader produces does), every token sequence and every list of start rules, building the chart (EarleyParse, EarleyParseAll, ... on one token suffix) terminates. Left recursion, cyclic unit rules, empty constituents, (any) and (list<x>) with or without ranges do not make it loop.", "quantifier": "all grammars (including left-recursive, cyclic and nullable ones), all token sequences, all start lists, all map iteration orders", "why_tests_cant": "termination over all grammars and inputs is not observable by running finitely many of them", "anchors": ["earley.go: Parse.parse, Parse.predict, Parse.complete, Parse.scan, TableColumn.insertToEnd"]}
{"id": "C02", "title": "Chart parsing never panics", "statement": "Whatever the grammar and the tokens, chart construction never dereferences a nil rule body and never indexes outside the chart or the rule body.", "quantifier": "all grammars, all token sequences, all start lists, all map iteration orders", "why_tests_cant": "a panic can hide behind one rare combination of special terms and positions", "anchors": ["earley.go: TableState.isCompleted, TableState.getNextTerm, Parse.parse, Parse.complete"]}
{"id": "C03", "title": "Every reported match is a derivation", "statement": "If a parse reports a final state with tag S ending after k tokens, then the context-free grammar (main grammar, includes, local grammar) derives exactly the first k tokens of the parsed sequence from <S>, where (any{m,n}) covers between m and n tokens and (list<x>{m,n}) covers between m and n consecutive <x>. It holds when all (any) terms carry one range and all (list<x>) terms of one x carry one range; without that condition it holds up to exchanging the ranges of such terms.", "quantifier": "all grammars without the reserved rule name, all token sequences, starts and iteration orders", "why_tests_cant": "soundness is a statement about every accepted input; tests only see the accepted inputs they try", "anchors": ["earley.go: Parse.parse, Parse.scan, Parse.predict, Parse.complete", "earley_ast.go: Parse.Tag, Parse.GetFinalStates"]}
{"id": "C04", "title": "Every derivation without empty constituents is found", "statement": "If <S> derives the first k tokens and no constituent of that derivation is empty, then parsing with S among the starts produces a completed start state covering exactly k tokens; EarleyParseAll reports it. This is for every grammar, including those that also have empty constituents elsewhere.", "quantifier": "all grammars, all derivations without empty constituents, all token sequences and iteration orders", "why_tests_cant": "completeness quantifies over all derivable inputs", "anchors": ["earley.go: Parse.parse, Parse.predict, Parse.scan, Parse.complete"]}
{"id": "C05", "title": "Match results do not depend on Go's random map order", "statement": "For grammars without empty constituents the set of (start rule, matched length) pairs reported for a text is the same for every map iteration order, so two runs agree. With empty constituents the code does not have this property: the same text can be accepted in one run and rejected in another. The trees are not covered either: for one start rule and no empty constituents one order of the alternatives returns one tree for a text and another order returns two.", "quantifier": "all pairs of map iteration orders at every range statement over rule bodies", "why_tests_cant": "Go randomises the order per run; a test sees one order at a time and cannot enumerate them", "anchors": ["earley.go: predict (range r.Body)", "earley.go: Parse.parse"]}
{"id": "C06", "title": "EarleyParse reports one longest prefix match", "statement": "EarleyParse and EarleyParseMaxAll (longest mode) report at most one final state per parse; it is reported whenever any start rule has a completed state, and no completed start state in the chart ends later.", "quantifier": "all grammars, token sequences, start lists", "why_tests_cant": "maximality is a universally quantified claim over all shorter and longer prefixes", "anchors": ["earley.go: Parse.parse (maxFlag)", "api.go: Grammar.EarleyParse"]}
{"id": "C07", "title": "Final states are start-rule matches anchored at the first token", "statement": "Every final state returned by GetFinalStates starts at position 0, its Tag is one of the requested start rules, its end lies within the tokens, and in 'all' mode every completed start state of the chart is reported, in order of non-increasing length. It requires that the grammar does not use the reserved rule name (the letter gamma); a grammar that defines it breaks it.", "quantifier": "all grammars not using the reserved name, all inputs", "why_tests_cant": "ranges over all grammars and inputs; the reserved-name hijack needs an adversarial grammar", "anchors": ["earley.go: GammaRule, Parse.parse", "earley_ast.go: Parse.GetFinalStates, Parse.Tag"]}
{"id": "C08", "title": "Trees returned by GetTrees are real parse trees", "statement": "Every tree returned for a final state is a derivation tree of the grammar: its root is the final state, each inner node is labelled with a rule body of its rule and has one child per term of that body, children tile the parent's token range from left to right without gaps or overlaps, and each terminal leaf is a token that matches the terminal.", "quantifier": "all refined grammars, all inputs, all final states", "why_tests_cant": "the tree builder re-searches the chart backwards; only an induction over the chart covers all of them", "anchors": ["earley_ast.go: Parse.GetTrees, Parse.buildTrees, Parse.buildTreesHelper"]}
{"id": "C09", "title": "Every reported match has at least one tree", "statement": "For every final state (indeed every completed chart state) GetTrees returns a non-empty list, also for cyclic and nullable grammars.", "quantifier": "all refined grammars, all inputs, all completed states", "why_tests_cant": "the early exit that prevents endless recursion could cut off the only tree; ruling that out needs the order invariant of the chart", "anchors": ["earley_ast.go: Parse.buildTreesHelper"]}
{"id": "C10", "title": "GetTrees terminates", "statement": "Tree construction terminates for every completed state of every chart, including charts of cyclic grammars with infinitely many derivations.", "quantifier": "all grammars, inputs and completed states", "why_tests_cant": "infinite ambiguity exists only in some grammars; termination depends on the state order in every column", "anchors": ["earley_ast.go: Parse.buildTrees, Parse.buildTreesHelper"]}
{"id": "C11", "title": "GetTrees returns no tree twice", "statement": "The list of trees returned for one state contains no two structurally equal trees.", "quantifier": "all refined grammars, inputs and states", "why_tests_cant": "duplicates would need a particular ambiguity and chart order", "anchors": ["earley_ast.go: Parse.buildTreesHelper", "earley.go: TableColumn.insertToEnd"]}
{"id": "C12", "title": "GetTrees returns all parse results", "statement": "The documentation promises all possible parse results. The code returns a subset: a tree is returned exactly when, at every node, each child that ends where the node ends was completed in an earlier row of that column. A tree without empty nodes is missing exactly when such a child stands after its parent. When the text has only one derivation tree, exactly that tree is returned; more generally every tree whose last children are forced by label and span is returned, and so is every tree in which no node could be replaced by one with the same label and span and a shorter right edge.", "quantifier": "all grammars, inputs and iteration orders", "why_tests_cant": "missing results are invisible without an independent enumeration of all derivations", "anchors": ["earley_ast.go: Parse.GetTrees, Parse.buildTreesHelper (st == state)"]}
{"id": "C13", "title": "EarleyParseMaxAll yields ordered, disjoint, longest matches and covers the text", "statement": "When EarleyParseMaxAll returns, the reported matches are in text order and pairwise disjoint, each is a longest match at its position, and no match starts at a token that lies outside the reported ones. It returns for every text if no start rule can match empty; if at some reached position the longest match is empty it never returns.", "quantifier": "all grammars, texts, start lists", "why_tests_cant": "both the global tiling property and non-termination range over all inputs", "anchors": ["api.go: Grammar.EarleyParseMaxAllWithContext"]}
{"id": "C14", "title": "EarleyParseAny finds the leftmost match", "statement": "EarleyParseAny returns the parse at the smallest token position at which some start rule matches, and returns a parse without final states only if no position matches.", "quantifier": "all grammars, texts, start lists", "why_tests_cant": "leftmost-ness quantifies over all earlier positions", "anchors": ["api.go: Grammar.EarleyParseAnyWithContext"]}
{"id": "C15", "title": "EarleyParseAll reports exactly the positions that match", "statement": "EarleyParseAll returns one parse per token position at which some start rule matches, in text order, and no other.", "quantifier": "all grammars, texts, start lists", "why_tests_cant": "exactness over all positions of all texts", "anchors": ["api.go: Grammar.EarleyParseAllWithContext"]}
{"id": "C16", "title": "Ranges on (any) and (list) are respected", "statement": "A term (any{m,n}) or (list<x>{m,n}) in an accepted match covers a number of tokens or items within its own range. True if the grammar has a single range per special term kind; false in general, because completing one special term also advances rules waiting for a different range.", "quantifier": "all grammars with special terms, all inputs", "why_tests_cant": "needs two special terms predicted at one position; and the positive part ranges over all inputs", "anchors": ["earley.go: Parse.complete", "earley.go: TableState.isCompleted, TableState.getNextTerm"]}
{"id": "C17", "title": "Byte positions of matches", "statement": "For every node covering at least one token Boundary/Pos is the pair (start byte of its first token, end byte of its last token), with respect to the whole text also for parses that start at a later token. For nodes covering no token at the end of the input, and for final states covering no token, the call panics.", "quantifier": "all parses, all nodes", "why_tests_cant": "the panic needs an empty constituent at the very end of the token sequence", "anchors": ["earley_ast.go: Parse.Boundary", "node_methods.go: Node.Pos"]}
{"id": "C18", "title": "OriginalText is the text of the node", "statement": "OriginalText returns the part of the caller's text between the first and last byte of the node's tokens. True when the text has no leading white space; false otherwise since tokens are computed on the trimmed text but the slice is taken from the untrimmed one.", "quantifier": "all texts, all nodes covering a token", "why_tests_cant": "ranges over all texts; the failure depends on leading white space only", "anchors": ["node_methods.go: Node.OriginalText", "api.go: Grammar.process, Grammar.earleyParse"]}
{"id": "C19", "title": "Semantic is compositional", "statement": "Semantic of a node without function is its quoted normalised text; nf.I($k) yields exactly the semantics of child k; f(a1,...,an) yields f(s1, ..., sn) with the semantics of the arguments in order; $0 is the quoted text of the node; it fails iff an index is out of range or an argument is malformed somewhere in the used part of the tree.", "quantifier": "all trees, all semantic functions, any nesting", "why_tests_cant": "holds for unboundedly deep trees and nested functions", "anchors": ["earley_fmr.go: Node.Semantic, Node.fmrStr, Node.semStr"]}
{"id": "C20", "title": "Eval is compositional and propagates errors", "statement": "Eval of a node applies the named function to the values of its arguments in order, nf.I is the identity, an index argument evaluates that child, and any error in a used argument makes the whole evaluation fail with that error; children that are not referenced are not evaluated.", "quantifier": "all trees, all function tables", "why_tests_cant": "holds for unboundedly deep trees and every function table", "anchors": ["earley_eval.go: Node.Eval, Node.fmrEval, Node.semEval", "funcs.go: Call"]}
{"id": "C21", "title": "State, rule-body, term and function equality are equalities", "statement": "The Equal methods on terms, rule bodies, functions and chart states are reflexive, symmetric and transitive and identify exactly the structurally equal values, provided arguments carry the value kind their type tag announces. Without it they are not reflexive.", "quantifier": "all terms, rule bodies, functions, states", "why_tests_cant": "an equivalence quantifies over all triples of values, nested without bound", "anchors": ["types_util.go: metaEqual, Term.Equal, RuleBody.Equal, FMR.Equal", "earley.go: TableState.Equal"]}
{"id": "C22", "title": "Grammar text is read back exactly", "statement": "Writing any grammar (rules, frames, alternatives, nonterminals, terminals with flags and escapes, special terms with ranges, semantic functions with nested arguments) in the grammar notation and reading it with GrammarFromString yields that grammar, whatever amount of white space and comments separates the parts.", "quantifier": "all grammars of the notation, all layouts", "why_tests_cant": "a round trip over all grammars and all layouts", "anchors": ["cfgrammar.go: parser.*", "cfgrammar_fmr.go", "cfgrammar_terminal.go", "cfgrammar_special.go", "cfgrammar_comments.go"]}
{"id": "C23", "title": "Reading a grammar terminates", "statement": "GrammarFromString terminates on every text that is valid UTF-8 without U+FFFD and ends with a newline, if the same holds for the files it may include. It does not terminate on a text ending in a line comment without newline, nor on an undecodable byte after a closing quote.", "quantifier": "all input texts", "why_tests_cant": "termination ranges over all texts; the hangs need specific malformed endings", "anchors": ["cfgrammar_comments.go: parser.lineComment", "cfgrammar.go: parser.next, parser.ruleBody", "cfgrammar_terminal.go"]}
{"id": "C24", "title": "A successfully read grammar text was read completely", "statement": "If GrammarFromString succeeds then the whole text was consumed. False in one case: a text whose first bytes are undecodable is accepted as an empty grammar.", "quantifier": "all input texts", "why_tests_cant": "ranges over all texts", "anchors": ["cfgrammar.go: parser.grammar, parser.next"]}
{"id": "C25", "title": "Numeric literals denote their decimal value", "statement": "An index $n and a range bound denotes the decimal number written when it is below 2^63, beyond that it wraps around modulo 2^64; an integer argument denotes the decimal number written when it has no leading zero; with a leading zero it is read as octal.", "quantifier": "all digit strings", "why_tests_cant": "ranges over unboundedly long digit strings", "anchors": ["cfgrammar.go: parser.getInt", "cfgrammar_fmr.go: parser.numArg, parser.idxArg"]}
{"id": "C26", "title": "Refinement introduces fresh names only", "statement": "After reading a grammar every terminal text of a rule has been replaced by a rule whose name is not used by any other rule of that grammar and is shared by no other terminal text; no existing rule is overwritten or loses an alternative.", "quantifier": "all grammars, all iteration orders, all tokenizers", "why_tests_cant": "freshness must hold for every collision pattern of transliterated names", "anchors": ["grammar_refine.go: Grammar.refine"]}
{"id": "C27", "title": "Refinement preserves the language", "statement": "The refined grammar derives exactly the same token sequences from every original rule as the grammar that was written, reading a terminal text as the sequence of its non-space tokens, provided equal terminal texts carry equal flags, no rule refers to an undefined rule whose name starts with g_t, and files included together do not use one generated name for two texts. Each condition is needed: flags of one occurrence silently apply to another, chosen by map order; a terminal text of an included file can change what a rule of the including file matches; an undefined reference can be captured by a generated name.", "quantifier": "all grammars, all token sequences, all iteration orders", "why_tests_cant": "language equality is over infinitely many sentences", "anchors": ["grammar_refine.go: Grammar.refine"]}
{"id": "C28", "title": "Including files terminates and loads each file at most once", "statement": "Following #include directives terminates for every finite set of files, whatever cycles and diamonds it has, and a file is loaded at most once through includes; all rules of all reachable files take part in parsing. If the text and every file reached can be read and follows the notation, construction succeeds.", "quantifier": "all finite include graphs", "why_tests_cant": "cycles of any shape and length", "anchors": ["cfgrammar.go: grammarFromFile, grammarFromString, parser.grammar"]}
{"id": "C29", "title": "The grammar index is exact", "statement": "The word index and the rule index of a grammar list, for every non-blank terminal text and every referenced rule name, exactly the frames and rules (of the grammar and of its includes) whose bodies mention them.", "quantifier": "all grammars and includes", "why_tests_cant": "exactness in both directions over all grammars", "anchors": ["grammar_index.go: updateIndex, Grammar.indexRules, Grammar.buildIndex"]}
{"id": "C30", "title": "Frame matching tries exactly the rules reachable from the words of the text", "statement": "The start rules used by MatchFrames are exactly the rules that mention a matched word or (transitively) mention such a rule; computing them terminates on cyclic rule graphs.", "quantifier": "all grammars, all sets of matched words, all iteration orders", "why_tests_cant": "transitive closure over arbitrary graphs", "anchors": ["frame_api.go: Grammar.getCandidates"]}
{"id": "C31", "title": "A frame is Complete exactly when all its terms are filled", "statement": "In the result of MatchFrames a frame with pairwise different, flag-free terms is Complete iff every term has at least one slot. A frame that repeats a term is never Complete, a frame of an included file makes the call panic.", "quantifier": "all grammars, all sequences of word hits and parse results", "why_tests_cant": "invariant over all histories of slot insertions", "anchors": ["frame_api.go: Grammar.MatchFramesWithContext, Grammar.getCandidates"]}
{"id": "C32", "title": "Terminal matching", "statement": "A terminal without flags matches a token iff the texts are equal; with flag l iff the lemmas are equal; else with flag i iff the normalised texts are equal ignoring case; a flagged terminal with neither flag never matches.", "quantifier": "all terminals, tokens and token tables", "why_tests_cant": "ranges over all texts, flags and annotations", "anchors": ["earley_terminal_match.go: terminalMatch"]}
{"id": "C33", "title": "Built-in token classes and regular expressions of the local grammar", "statement": "<word>, <punct>, <symbol>, <letters> match exactly those tokens of the text that have the text of some token of that class. A regular-expression term whose matched span contains a space token never matches, and a regular-expression term also matches at other positions with the same token texts.", "quantifier": "all documents, all spans", "why_tests_cant": "ranges over all documents and taggings", "anchors": ["local_grammar.go: Grammar.localGrammar", "regexp_tagger.go: Grammar.regexpTag", "api.go: Grammar.process"]}
{"id": "C34", "title": "Term types survive JSON", "statement": "Marshalling a term type and unmarshalling the result gives back the same type for the five defined types; every other byte value marshals to a text that cannot be unmarshalled.", "quantifier": "all 256 byte values and all strings", "why_tests_cant": "decoding must reject every other string", "anchors": ["termtype_jsonenums.go: MarshalJSON, UnmarshalJSON", "termtype_string.go: String"]}
{"id": "C35", "title": "Printed functions can be read back", "statement": "For every semantic function whose names are valid and whose strings use only characters the notation can express, reading FMR.String() yields the same function. Context arguments (@) do not survive.", "quantifier": "all semantic functions, any nesting", "why_tests_cant": "round trip over unboundedly nested functions", "anchors": ["earley_stringer.go: FMR.String", "cfgrammar_fmr.go: parser.semanticFn"]}
{"id": "C36", "title": "The tree-returning calls return exactly trees of matches", "statement": "Parse, ParseAny, ExtractAll and ExtractMaxAll return normally on every text the tokenizer accepts (ExtractMaxAll: if no start rule matches empty). Every returned tree is a parse tree of a start rule over consecutive tokens of the text; Parse returns trees of a longest match at the first token, ParseAny of a longest match at the leftmost matching token, ExtractMaxAll of longest matches, and for every start rule that matches tokens i..j without empty constituents ExtractAll returns a tree of it over exactly these tokens.", "quantifier": "all grammars, texts, start rules, map iteration orders", "why_tests_cant": "quantifies over all grammars and texts, including cyclic and ambiguous ones, and over Go's random map order", "anchors": ["api_easy.go: Grammar.Parse, Grammar.ParseAny, Grammar.ExtractAll, Grammar.ExtractMaxAll"]}
{"id": "C37", "title": "Reading a grammar never panics", "statement": "GrammarFromString and GrammarFromFile return a grammar or an error (or run forever, see C23) on every byte sequence and every file tree; they never panic.", "quantifier": "all byte sequences, valid UTF-8 or not, all file trees, all map iteration orders", "why_tests_cant": "the reader works with positions and widths that go out of step at undecodable bytes; only an invariant over all byte sequences excludes an out-of-range access", "anchors": ["cfgrammar.go: GrammarFromString, GrammarFromFile, parser.next, parser.backup", "grammar_refine.go: Grammar.refine", "grammar_index.go: Grammar.buildIndex"]}
{"id": "C38", "title": "FrameFMR: one text per frame, built from the first tree of each slot", "statement": "FrameFMR returns one text for every frame MatchFrames reports (complete or not), in any order: the empty text for a frame without function, otherwise the function printed with $0 empty, $k of a rule replaced by the meaning of a tree for the longest match at the leftmost position where the rule matches, and $k of a word or of an unmatched rule by null. It returns iff every reported frame has such a text, always when the functions fit their bodies, and panics when a reported frame reaches an @ argument.", "quantifier": "all grammars, texts, map iteration orders, externally supplied functions", "why_tests_cant": "quantifies over all grammars with frames, ambiguous rules and Go's random map order", "anchors": ["frame_api.go: Grammar.FrameFMR, Grammar.FrameFMRWithContext", "earley_fmr.go: Node.fmrStr, Node.semStr"]}
{"id": "C39", "title": "From the text of a grammar to the matches of a call", "statement": "For a grammar read from a text (and included texts) whose equal terminal texts carry equal flags, whose equal special terms carry equal ranges, whose terminal texts have a token each and which leaves the names g_t... and the reserved name alone, EarleyParse, EarleyParseAll, EarleyParseMaxAll, EarleyParseAny and ExtractAll return on every annotated document, and report exactly what the rules as written mean: terminal texts stand for their tokens, token classes, tagged spans and regular expressions for the texts they cover. Every extracted tree has one node per written term.", "quantifier": "all grammar texts and include trees, all documents and annotations, all map iteration orders", "why_tests_cant": "composes the reader, the refinement of terminals, the local grammar, the Earley loop and the tree builder; the claim is about every text and every document at once", "anchors": ["cfgrammar.go: GrammarFromString", "grammar_refine.go: Grammar.refine", "local_grammar.go: Grammar.localGrammar", "api.go: EarleyParse, EarleyParseAll, EarleyParseMaxAll, EarleyParseAny, ExtractAll"]}
{"id": "C40", "title": "What tree nodes show: Term, F, Tree, Bracketed and @", "statement": "For every tree of a parse: the root's Term and F are the start rule and the function of its chosen alternative, and its Tree, Bracketed, Eval and Semantic are those of its only child. Every other node's Term is its own, its F that of its body (none without children). When no node is empty and no word is spelled like the reserved name, Tree and Bracketed return the labelled outline of the node with positions and texts, cut at nodes made of words (Tree also at nodes without function), whose leaves tile the node's tokens left to right; the value of @ lists text, position, type and for each child its value, or its text when Eval of the child fails; Eval and Semantic fail exactly on malformed parts and never panic, with or without @.", "quantifier": "all grammars, texts, trees, nodes, functions", "why_tests_cant": "quantifies over all parse trees of all grammars; panics need empty constituents or reserved words that tests do not write", "anchors": ["node_methods.go: Node.Term, Node.F, Node.Tree, Node.Bracketed", "earley_eval.go: Node.semEval", "earley_fmr.go: Node.semStr"]}
{"id": "C41", "title": "Lists, tagged entities and the table of functions", "statement": "In every tree of a parse, a list node has one child per item, each a node of the list's rule, and carries the function fmr.list($1,...,$k): Semantic prints the meanings of the items in order, Eval passes their values in order to fmr.list and so gives the list of these values. A node of a rule that only the document defines has no function, or that of a span tagged with the rule's name: Semantic and Eval give the span's text and an entity holding the items when all items are strings, and both fail otherwise. fmr.entity gives nil for an empty type, and otherwise a map from the type to nil or the list of the remaining arguments. Call gives the first result of a function, nil without results, and fails or panics when the function does.", "quantifier": "all grammars, documents, trees, nodes, functions, map iteration orders", "why_tests_cant": "quantifies over all trees of all grammars with list items and over all tagger outputs", "anchors": ["earley_ast.go: TableState.GetTrees", "funcs.go: Call, fmrList, fmrEntity", "local_grammar.go: Grammar.localGrammar"]}
{"id": "C42", "title": "The text of a call", "statement": "Every parsing call works on the text without the white space (Unicode White_Space) around it: two texts that differ only there give the same outcome, charts, final states and trees, only the text kept by the parses differs. Every call fails without parsing on texts of white space only, on texts that the pipeline cannot annotate and on documents of space tokens only.", "quantifier": "all byte strings (also invalid UTF-8), grammars, documents", "why_tests_cant": "quantifies over all byte strings, including invalid UTF-8 at both ends, where trimming runes from the left and from the right need different decoders", "anchors": ["api.go: Grammar.process, EarleyParseWithContext, EarleyParseAnyWithContext, EarleyParseMaxAllWithContext, EarleyParseAllWithContext", "api_easy_context.go"]}
{"id": "C43", "title": "Arithmetic", "statement": "nf.math.sum, sub and mul of decimal numerals (below 2^64) return the numeral of the exact result if and only if that has at most ten digits (and a zero product has no negative factor), nf.math.neg if and only if the number is not zero and has at most ten digits; larger results are rounded to the nearest number of 64 bits and that to the nearest number of ten digits (ties to even) and come in exponent notation, so that they are off by at most one part in 10^9. Decimal fractions are calculated exactly as well: if the operands have less than 18 digits and the result at most ten, sum, sub, mul and neg return the text of the exact result, as a fraction from 1/10000 up to 10^10 and with an exponent outside, provided at most eight digits cancel in a sum; a sum that is zero is \"0\". Printing a number rounds it to ten digits and is unique. A product whose binary exponent does not fit into 32 bits is infinite or zero, with the sign of the product. On other texts they return the empty text, and they panic exactly on undefined operations with infinities. A tree whose functions are these on numerals evaluates to the numeral of its arithmetic value. even and odd tell the parity of integers of any size, both say false on other texts; prime is exact below 2^64. div and pow return the expression itself when an operand is no number or the divisor is zero.", "quantifier": "all integers, decimal fractions, texts, trees, grammars", "why_tests_cant": "quantifies over all pairs of numbers; the boundary at ten digits, signs of zeros and infinities are corner cases", "anchors": ["math_funcs.go: sum, sub, mul, div, pow, neg, even, odd, prime, calc"]}
{"id": "C44", "title": "Printed trees and charts", "statement": "Print writes one line per node, parents before children, indented by depth. When no rule name contains '>' (and no function text a line break), two trees of any two parses print the same text if and only if they agree node by node in symbol, alternative, function text and range; Node.String is as exact when no function text contains '}'. Parse.String never panics on a parse, and for the same tokens two charts print the same text if and only if they have the same states in the same order. TreePrint shows only the root and its children, so different trees of one parse give the same output. The root and the children it does show, provided the library keeps the texts it is given apart. A printed rule state is the rule in the notation of grammar files, with a dot at its position and the range: its terms read back as the terms without flags and ranges, its function as the function; a printed list state shows the items so far and their numbers.", "quantifier": "all grammars, texts, parses, trees, map iteration orders", "why_tests_cant": "injectivity relates all pairs of trees and depends on quoting, numbers and indentation being decodable", "anchors": ["earley_stringer.go: TableState.String, TableColumn.String, Parse.String, Node.Print, Node.String", "earley_nodeprint.go: Node.TreePrint"]}
{"id": "C45", "title": "Shared token table", "statement": "The table of grammar tokens is shared by all grammars of the process. Under any schedule of goroutines that load grammars and parse, entries never disappear, and a goroutine that has finished loading finds the text of each of its tokens. If tokens of the same text are annotated alike, every match of a text in the table gives the answer it gave before the other goroutines ran. A goroutine loading alone changes no existing entry. Two loading at once can: if they annotate one text differently, a match for a grammar that is already loaded can change its answer. Each match is decided by the table at one moment.", "quantifier": "all numbers of goroutines, schedules, tables, tokens", "why_tests_cant": "quantifies over all interleavings of the locked operations", "anchors": ["grammar_tokens.go: get, put", "grammar_refine.go:37-51", "earley_terminal_match.go: terminalMatch"]}
{"id": "C46", "title": "Calling GetTrees again", "statement": "GetTrees writes the Rb field of list states of the chart. Still, any number of calls of GetTrees on one Parse, one after the other, for the same or different final states, give the same outcomes and trees as each call alone, the nodes returned earlier keep showing their trees, and the printed chart stays the same. Calls from two goroutines at once are not safe: there is a schedule in which both fill the same rule body, it gets twice the items, and trees are lost.", "quantifier": "all charts, final states, sequences of calls; for the refutation all list lengths", "why_tests_cant": "quantifies over all call sequences on shared mutable state; the race depends on the schedule", "anchors": ["earley_ast.go: GetTrees, buildTrees, buildTreesHelper"]}
{"id": "C47", "title": "Charts stay polynomial", "statement": "Let size be the number of rules, alternatives and terms of the grammars (plus two per start rule, plus one). Processing a text of n tokens, each column of the chart gets at most 7*size^4*(c+1)^3 states (c the number of tokens before it), 3*size^3*(c+1) if no list occurs in the grammars, so the parser returns after at most 7*size^4*(n+1)^3 rows per column, however ambiguous, cyclic or nullable the grammar is.", "quantifier": "all grammars whose arguments are typed, texts, start rules, map iteration orders", "why_tests_cant": "an upper bound over all grammars and texts; exponential blow-up shows only on adversarial inputs", "anchors": ["earley.go: parse, predict, scan, complete, insertToEnd"]}
{"id": "C48", "title": "The grammar files of the repository load", "statement": "Whatever the environment (unicode tables, hash, tokenizer, trie, map iteration orders), if the files of a directory are found there, GrammarFromFile succeeds for every shipped grammar file except examples/builtin/any.grammar, which is always rejected with an error (its unescaped \"(\" is read as a flag). The files reached by #include are exactly the listed ones, every non-terminal used in a file has a rule there or in a file reached or is provided by a tagger, and no function refers to an argument that its body does not have. Every one of them meets the conditions under which parsing is proved to follow the text (flags, ranges, reserved names, texts with tokens, functions that fit), for every start rule whose name does not start with g_t; only the agreement of generated names between a file and its includes is left to the environment, and it fails: with a transliteration that spells 千 and 前 alike, grammars/time.grammar reads 三千 as 'before 3', and for some map orders examples/math/grammars/math.grammar reads two-three also as a product.", "quantifier": "all environments: unicode tables, hash functions, tokenizers, token tables, iteration orders, directories", "why_tests_cant": "a test fixes one machine, one hash seed and one iteration order", "anchors": ["sf.grammar", "grammars/*.grammar", "examples/*/*.grammar", "cfgrammar.go: GrammarFromFile"]}
{"id": "C49", "title": "What a text means", "statement": "The text of a grammar determines what a span of words says: a written text or (any) says the words themselves, quoted; a non-terminal says what the function of one of its alternatives makes of what its parts say ($1, $2, ...; $0 the words themselves), and the quoted words if there is no function; a list says fmr.list(...). For a grammar returned by the reader, EarleyParseMaxAll (and ParseMaxAll) returns for each longest match one final state with at least one tree, and Semantic of each tree succeeds and is something the matched span says when read as a start rule. ExtractAll returns only trees with such meanings, and at least one for every match. Parse, ParseAny and ExtractMaxAll return the trees of the longest match at the first token, at the leftmost token that has one, and of the longest matches from left to right, with such meanings, and no tree only where there is no match.", "quantifier": "all grammar texts whose functions refer to existing arguments, documents, start rules, map iteration orders", "why_tests_cant": "relates the written grammar to the final strings over all grammars and texts", "anchors": ["api.go: EarleyParseMaxAll, EarleyParseAll", "api_easy_context.go: Parse, ParseAny, ExtractMaxAll, ExtractAll", "node_methods.go: Semantic", "earley_fmr.go"]}
{"id": "C50", "title": "A grammar text has one reading", "statement": "If a text can be read as a grammar text at all, then in only one way: include paths, the alternatives of every rule and frame, and the regular expressions are determined by the text. GrammarFromFile gives the grammar of the text of the file.", "quantifier": "all texts, environments", "why_tests_cant": "unambiguity of the notation over all texts", "anchors": ["cfgrammar.go: parse, GrammarFromFile", "cfgrammar_terminal.go", "cfgrammar_fmr.go", "cfgrammar_regex.go"]}
{"id": "C51", "title": "The arithmetic example computes", "statement": "With examples/arithmetic/arithmetic.grammar loaded from its file, EarleyParseMaxAll(text, \"number\") returns the longest arithmetic expressions of the text from left to right, disjoint and complete; every tree stands for a reading of its span as an expression over the number words, operators and signs, Semantic is the formula of that expression (nf.math.sum(1, 2)) and Eval its value. Not every reading has a tree, but those from left to right (each operator applied to everything before it) have one, unless the whole span is also a number word. The program examples/arithmetic prints every line of its input with, for each of these expressions, the number of trees and one line with formula and answer of the JavaScript machine per tree; it ends at the end of the input without looking at an unterminated last line, and is stopped by a read error, a blank line, or a formula without answer.", "quantifier": "all texts and inputs, tokenizers, documents, hash functions without collisions on the 30 alternatives, JavaScript machines, map iteration orders", "why_tests_cant": "texts of arbitrary length, arbitrary iteration orders", "anchors": ["examples/arithmetic/main.go: main", "examples/arithmetic/arithmetic.grammar"]}
{"id": "C52", "title": "The programs examples/math and examples/builtin", "statement": "With any grammar file that loads and whose texts are usable, any script that the JavaScript machine accepts, any start rule and any input, examples/math prints every line of the input, for each of the longest spans of the line that the start rule says something about (from left to right, disjoint and complete) a header with the number of trees and, without -eval, that many formulas the span says; with -eval the formulas the machine answers, with the answers. Blank lines are skipped. examples/builtin prints the formulas of all spans with the results of the machine, whether it reported an error or not; a blank line stops it. Both end at the end of the input without looking at an unterminated last line, are stopped by a read error or a line that cannot be annotated, and a panic of the machine kills examples/math but lets examples/builtin print its value and return. Neither prints or reads anything when the grammar, the script or the input cannot be opened. For the files of examples/builtin nothing further is asked of the grammar.", "quantifier": "all grammar files and environments, inputs, tokenizers, documents, JavaScript machines, map iteration orders", "why_tests_cant": "inputs of arbitrary length, arbitrary iteration orders and machines", "anchors": ["examples/math/main.go: main", "examples/builtin/main.go: main"]}
{"id": "C53", "title": "The shared pipeline is made once", "statement": "However many goroutines call NLP, in whatever schedule, the pipeline is made at most once. If DefaultNLP, NewDictTagger, AddTagger and, when the flag -api_tagger is set, NewAPITagger and the second AddTagger succeed, no call panics and every call that returns returns the pipeline with all these taggers, never one that is still being made. If one of them fails, the call that makes the pipeline panics, making it is never tried again, and every other call returns what was left in the variable (so the claim that a call that returns gives a complete pipeline is wrong: it may be nil or lack the tagger of the flag). No goroutine is stuck: from every reachable state all calls can end.", "quantifier": "all numbers of goroutines, schedules, results of the external constructors", "why_tests_cant": "interleavings of arbitrarily many goroutines", "anchors": ["api.go: NLP"]}
{"id": "C54", "title": "What the context of a call does", "statement": "A call with the empty context uses the shared pipeline, whatever the flag -ctx_tagger. With a non-empty context and no flag, or a flag that is not an address, all parsing and extracting calls return an error without panicking, and the frame calls return no frames. Otherwise the text is annotated with the tagger at the flag's address whose query says that the parameter context is the context of the call, exactly once and byte for byte (blanks, &, = and other bytes included), replacing any value in the flag; every other parameter of a well-formed query keeps its values in order; if there is no such tagger the calls return an error. Different contexts are never asked for with the same query. (The claim that other parameters are always kept is wrong: parameters with a stray % or a semicolon are dropped silently.)", "quantifier": "all contexts, texts, grammars, flags, taggers, map orders", "why_tests_cant": "all byte strings as contexts and all queries", "anchors": ["api.go: process"]}
{"id": "C55", "title": "Formulas can be read back", "statement": "The text Semantic gives for a node of a parse tree is a formula: quoted texts, numbers, JSON objects and calls f(a, b, ...). For grammars that were read from text, together with the rules added for the input, it can be read in one way only, whatever characters the input contains (quotes, commas, brackets, backslashes, undecodable bytes): it is the formula of the node, built from the functions of the grammar bodies in the tree. Every function name and number in it stands in the grammar (or is fmr.list), every quoted text stands in the grammar or consists of consecutive words of the input. The example programs hand formulas to a JavaScript interpreter: every quoted text in UTF-8 is a JavaScript string literal, and it denotes the text iff the text contains no U+0007 and no unprintable character above U+FFFF (so the claim that JavaScript always reads the text that was parsed is wrong: the bell character is read as the letter a).", "quantifier": "all grammars, texts, trees, nodes, JSON writers that write prefix-free objects", "why_tests_cant": "unambiguity is a statement about all pairs of formulas and all texts", "anchors": ["earley_fmr.go: Node.Semantic, FMR.semantic", "examples/math/main.go: main", "examples/builtin/main.go: main"]}
{"id": "C56", "title": "The number of trees can be exponential", "statement": "There is a grammar of three rules for which Parse, on the text of the word b followed by n times the word a, returns exactly 2^n trees, no two alike: all parse trees of the text. So although the chart of a parse is polynomial (C47), the calls returning trees can take and return exponentially much.", "quantifier": "all n, all token lists with those texts, all iteration orders of Go maps, all sufficiently large amounts of work", "why_tests_cant": "A test can count the trees for a few small n; that the number doubles with every word needs the exact set of trees for every n.", "anchors": ["earley_ast.go: Parse.GetTrees, Parse.buildTreesHelper", "api_easy_context.go: Grammar.ParseWithContext"]}
{"id": "C57", "title": "From the text of a grammar to frames", "statement": "For a grammar read from a text without includes, MatchFrames on a text always returns: an error when no rule of the grammar is looked for, and otherwise frames of the grammar, where a term of a frame has exactly these slots: the places where its word was found, or one slot, with parse trees, for every place where its rule is looked for and matches, from left to right and longer ones first. A frame is complete exactly when there is something for each of its terms. A rule that matches is looked for if every alternative has a word or a rule to which the document adds nothing, and every terminal text that matches is found as a word.", "quantifier": "all grammar texts meeting the hypotheses, all documents, all words found, all iteration orders of Go maps, all sufficiently large amounts of work", "why_tests_cant": "It relates the meaning of the grammar text, before terminals are moved to generated rules and before indexing, to the slots of every frame for every document; tests see single texts. The two refutations show rules that match without being looked for.", "anchors": ["frame_api.go: Grammar.MatchFrames, Grammar.getCandidates", "grammar_index.go: Grammar.buildIndex", "cfgrammar.go: GrammarFromString, GrammarFromFile"]}
{"id": "C58", "title": "Number words evaluate to their numbers", "statement": "With examples/math/grammars/number.en.grammar, EarleyParseMaxAll(text, \"number\") on a text made of the English words of a number n below 10^15 (\"nine hundred and fifty-six million one thousand two\") returns one parse over all tokens with at least one tree; Semantic of every tree is a formula with value n, and Eval of every tree is the decimal numeral of n when n is below 10^10. The same holds, with the values its rules assign to spans, for every grammar whose alternatives all have arithmetical functions.", "quantifier": "all numbers, all spellings of a number with or without \"and\", hyphens; all iteration orders of Go maps; all grammars that calculate", "why_tests_cant": "There are 10^15 numbers with many spellings each, and the rules are ambiguous as a grammar: that all trees of all spellings have the same value needs an argument about the language. The bound is sharp: \"ten billion\" evaluates to 1e+10, and \"one point five\" to an error because nf.math.decimal is not in the table of functions.", "anchors": ["examples/math/grammars/number.en.grammar", "api.go: Grammar.EarleyParseMaxAll", "earley_fmr.go: Node.Semantic", "earley_eval.go: Node.Eval", "math_funcs.go: sum, mul, init"]}
{"id": "C59", "title": "Chinese numerals evaluate to their numbers", "statement": "With examples/math/grammars/number.zh.grammar, EarleyParseMaxAll(text, \"number\") on a text whose tokens are a Chinese numeral of n (digits 一…九, 壹…玖, 两, 俩, 仨; scales 十, 百, 千, 万, 亿; 零 exactly where a place is empty) returns one parse over all tokens with at least one tree; Semantic of every tree is a formula with value n, and Eval of every tree is the decimal numeral of n when n is below 10^10.", "quantifier": "all numbers, all numerals of a number, all iteration orders of Go maps", "why_tests_cant": "There are 10^16 numbers with numerals in several character sets, and the grammar is ambiguous (一百二 is read as 120 and as 102, of which one has a tree): that all trees of all numerals have the right value needs an argument about what the rules read.", "anchors": ["examples/math/grammars/number.zh.grammar", "api.go: Grammar.EarleyParseMaxAll", "earley_fmr.go: Node.Semantic", "earley_eval.go: Node.Eval", "earley_ast.go: buildTreesHelper"]}
{"id": "C60", "title": "Errors of the grammar reader name the place they are met at", "statement": "When GrammarFromString or GrammarFromFile returns an error of the reader, its message starts with the name of the file it was met in (the text itself or an included file), gives row, column and character of the place up to which that file was read, and ends with an objection that fits the characters around this place; every other error comes from another package (file system, fmt.Sscan, strconv, index). The error is the same for every text that agrees up to this place and in the next character, so none of them is a grammar. The column is not the usual one after the first row, and a text that is not UTF-8 may give no place.", "quantifier": "all texts, file systems, fuel and depth bounds, all messages of other packages", "why_tests_cant": "The position is kept by a cache indexed by byte offsets that next and backup update; that it is right at every error of every text, and that nothing after the place matters, concerns all texts and all paths through some thirty mutually recursive functions.", "anchors": ["cfgrammar.go: parser.next", "cfgrammar.go: parser.backup", "cfgrammar.go: parser.eat", "cfgrammar.go: parser.posInfo", "cfgrammar.go: GrammarFromString", "cfgrammar.go: GrammarFromFile"]}
{"id": "C61", "title": "The names made up for terminal texts", "statement": "GrammarFromFile replaces every terminal text of a file by a rule named g_t and the transliterated tokens of the text (white space and punctuation left out), or by the first of this name with _0, _1, ... that is neither a rule of the file nor the name of another text. When no two terminal texts of the files share such a name and none is a rule name, the generated names do not depend on the order of maps, the files do not get into each other's way, and the call accepts the language of the written rules; this holds for every grammar of the repository that includes others, given the spelling of its texts. Otherwise the name of a text depends on the order in which a map is visited.", "quantifier": "all texts and included files, tokenizers, transliterations, map orders", "why_tests_cant": "Which name is free depends on all other texts, on the included files and on the random order of map iteration; two texts that clash do so for one order in n!.", "anchors": ["grammar_refine.go: Grammar.refine", "cfgrammar.go: GrammarFromFile"]}
{"id": "C62", "title": "Arithmetic in words", "statement": "With examples/math/grammars/math.en.grammar (which includes number.en.grammar) loaded by GrammarFromFile, a text of English numerals with \"plus\", \"minus\" and \"times\" between them is one parse over all tokens for EarleyParseMaxAll with start rule number, and has trees. Semantic of every tree is the formula of an expression with the value that the text has for some way to set brackets, and Eval is the numeral of that value while all values on the way have at most ten digits. All trees of a sum are worth the sum, and all trees of a single operation its result. One of the trees is always worth what the text has from left to right. The usual precedence is not kept: the first tree of \"two plus three times four\" evaluates to 20.", "quantifier": "all lengths of text, all numerals, map orders, tokenizers and hash functions that tell the words and rules apart", "why_tests_cant": "The texts are unboundedly long and the number of bracketings grows exponentially with them; which trees are returned depends on the order of chart states.", "anchors": ["examples/math/grammars/math.en.grammar", "examples/math/grammars/number.en.grammar", "api.go: Grammar.EarleyParseMaxAll", "earley_fmr.go: Node.Semantic", "earley_eval.go: Node.Eval"]}
{"id": "C63", "title": "Errors of the calls name their reason", "statement": "The eight parsing calls return an error exactly when the text is blank (\"text is empty\"), the tagger fails or a context is given without -ctx_tagger (\"ctxTagger should be supplied\"), the document has only spaces (\"no tokens\"), or no start rule is given (\"no start rules\"), all eight with the same message; the grammar and the words are never the reason and \"no tokens to parse\" is never returned. Eval and Semantic return the message of the first failure in the order of evaluation; on trees of a grammar that was read it names an index out of the range of its alternative, or nf.I without exactly one argument, or is the error of a called function (Eval only). MatchFrames fails when the dictionary does or for the reasons of the parsing calls, never with \"invalid parse\" or \"in trie but not in index\"; FrameFMR fails with the message of the first frame whose function fails. TermType's UnmarshalJSON rejects what is not a JSON string and names other than the five.", "quantifier": "all texts, contexts, grammars, start rules, trees, functions, map orders and behaviours of the external taggers", "why_tests_cant": "Which of several failures is reported, and that no other message is possible, is about all trees and inputs; some error branches of the code cannot be reached and a test cannot show that.", "anchors": ["api.go: Grammar.process, earleyParse", "earley_eval.go: Node.Eval", "earley_fmr.go: Node.Semantic", "frame_api.go: Grammar.MatchFramesWithContext, FrameFMRWithContext, getCandidates", "termtype_jsonenums.go: UnmarshalJSON"]}
{"id": "C64", "title": "Numbers written in Chinese, found in any text", "statement": "With examples/builtin/cn_num.grammar loaded by GrammarFromFile, the parses of EarleyParseMaxAll with start rule number on any text are its simple numerals (digits 一 to 九, 十, 百, 千, 万, 亿; a zero 零 or 〇 may follow 百, 千 and 亿): from left to right, each the longest at its place, and none between them. All trees of a parse are worth the number of its numeral: Semantic is a formula with that value and Eval its decimal numeral if it has at most ten digits. A text that is a simple numeral is one parse. Every number from 1 to 10^16 - 1 has a simple numeral, no simple numeral is that of two numbers, and one that is a usual Chinese numeral has its value; below 10000 every number has one that is usual. Usual numerals are not all simple: 十五 is read as 10 and 5, and 一万零一 as 10000 and 1.", "quantifier": "all texts, numerals, map orders, tokenizers and hash functions that tell the words and rules apart", "why_tests_cant": "There are 10^16 numerals and unboundedly many texts around them; that nothing else is read as a number, and no numeral is missed or cut short, is about all texts.", "anchors": ["examples/builtin/cn_num.grammar", "api.go: Grammar.EarleyParseMaxAll", "earley_fmr.go: Node.Semantic", "earley_eval.go: Node.Eval"]}
{"id": "C65", "title": "Amounts spoken in English, found in any text", "statement": "With examples/builtin/builtin.grammar loaded by GrammarFromFile, the parses of EarleyParseMaxAll with start rule number on any text are its spoken amounts (sums, with or without \"and\", of counts up to 99 and of counts times magnitudes from hundred to decillion): from left to right, each the longest at its place, and none between them. Every tree of a parse is worth an amount that its words say: Semantic is a formula with that value and Eval its decimal numeral if it has at most ten digits and no magnitude from trillion on is spoken. A text that is a spoken amount is one parse, and in any text one of the trees of every parse is worth the usual reading, in which a tens word and the unit after it are one count; every amount has exactly one usual reading, and that of an English numeral below 100000 is its number. Words in which no tens and unit without a hyphen stand before a magnitude say one amount only; every number from 0 on is said by such words, and English numerals below a thousand say their number only. From 100000 on this fails: \"two hundred fifty thousand\" is read as 50200.", "quantifier": "all texts, amounts, map orders, tokenizers and hash functions that tell the words and rules apart", "why_tests_cant": "Amounts and the texts around them are unbounded; that nothing else is read as a number, no amount is missed or cut short, and that ambiguous sums never give a value nobody said, is about all texts.", "anchors": ["examples/builtin/builtin.grammar", "api.go: Grammar.EarleyParseMaxAll", "earley_fmr.go: Node.Semantic", "earley_eval.go: Node.Eval"]}
{"id": "C66", "title": "Of several readings those nested least on the right are returned", "statement": "Let the alternatives of a grammar calculate (sums, differences, products and negations of integers and of their parts). EarleyParseMaxAll gives the longest disjoint spans that the start rules read, every tree of a parse is worth a reading of its span, and for one of the start rules every reading of the span that is nested least on its right side, as a whole and at every part compared with other ways to read the same tokens by the same alternative, is worth one of the trees. Where there is a reading there is one of these. Different expressions have different formulas, so the result of Semantic tells which reading a tree is.", "quantifier": "all grammars of this kind read by GrammarFromString or GrammarFromFile, all texts, map orders, tokenizers, start rules", "why_tests_cant": "GetTrees leaves out readings when it shares and filters states; that one family of readings is never left out is about all grammars and all charts, whose readings may be exponentially many.", "anchors": ["earley_ast.go: Parse.GetTrees", "earley_ast.go: Parse.buildTreesHelper", "api.go: Grammar.EarleyParseMaxAll", "earley_fmr.go: Node.Semantic"]}
{"id": "C67", "title": "Arithmetic in Chinese words", "statement": "With examples/math/grammars/math.zh.grammar (which includes number.zh.grammar) loaded by GrammarFromFile, a text of Chinese numerals with 加, 减 and 乘 between them is one parse over all tokens for EarleyParseMaxAll with start rule number, and has trees. Semantic of every tree is the formula of an expression with the value that the text has for some way to set brackets, and Eval is the numeral of that value while all values on the way have at most ten digits. All trees of a sum are worth the sum, and all trees of a single operation its result. One of the trees is always worth what the text has from left to right. The usual precedence is not kept: the first tree of 二加三乘四 evaluates to 20.", "quantifier": "all lengths of text, all numerals, map orders, tokenizers and hash functions that tell the words and rules apart, transliterations that keep the texts of the two files apart (inside a file they may collide)", "why_tests_cant": "The texts are unboundedly long and the number of bracketings grows exponentially with them; which trees are returned depends on the order of chart states, and which names collide on the transliteration.", "anchors": ["examples/math/grammars/math.zh.grammar", "examples/math/grammars/number.zh.grammar", "grammar_refine.go: Grammar.refine", "api.go: Grammar.EarleyParseMaxAll", "earley_fmr.go: Node.Semantic", "earley_eval.go: Node.Eval"]}
