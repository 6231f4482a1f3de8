# Formal model of liuzl/fmr in Rocq (Coq 8.16.1)


## Approach

The code is modelled function by function as executable Gallina functions under
`rocq/theories/Model*.v`. Go values become inductive values; a possible Go panic
or a non-terminating loop is an explicit outcome of the type `res`
(`Ret`, `Err`, `Panic`, `Fuel`), so "never panics" and "terminates" are theorems
and not artefacts of totality. Loops run on fuel; "terminates" means that some
fuel gives a result other than `Fuel`, "diverges" means that every fuel gives `Fuel`.
More fuel never changes a result of the reader (ProofFuel), so theorems about a grammar
that was returned hold for any fuel.

Go's random map iteration order is an explicit parameter: at every `range` over
a map the model applies a function `ord` (indexed by the execution point) that is
only assumed to return a permutation. Theorems quantify over all such functions.

External code (tokenizer, hash, regexp, MD5, file system, unicode tables, big
floats) appears as function parameters of the model, never as axioms. Theorems
quantify over them; every assumption about them is a visible hypothesis.

Specifications are in separate files (`Spec*.v`) which do not use the helper
functions of the model: derivations of a context-free grammar, parse trees, etc.
Files `Prop*.v` contain only the property theorems.

## Per property plan

| id | modelled | proof idea |
|----|----------|-----------|
| C01 | chart construction `parse` | lexicographic measure: processed non-list states, present non-list states, rows left; finite universe of non-list states |
| C02 | same, with explicit `Panic` | invariant on chart states |
| C03 | same, against inductive derivations | invariant: every state is a partial derivation |
| C04 | same | closure properties of the finished chart + induction on derivations |
| C05 | same, two orders | corollary of C03+C04; concrete refutations for nullable grammars and for the number of trees |
| C06, C07 | selection of final states | direct |
| C08-C12 | tree builder | induction over (end column, row); order invariant "cause precedes effect"; NoDup of columns; refutation of "all"; exact set of returned trees (in_order), missing trees without empty nodes; depth of rows (breadth first) gives trees with shortest right edges |
| C13-C15 | the four API loops | induction over positions |
| C16 | `complete` | refutation by witness, positive part from C03 |
| C17, C18 | Boundary, OriginalText, process | arithmetic on columns; witnesses for panics |
| C19, C20 | Semantic / Eval | relational big-step semantics as specification, equivalence with the functions |
| C21 | Equal methods | structural induction on nested functions |
| C22-C25, C37 | grammar reader on bytes with UTF-8 decoding | notation as a relation between runes and meaning (SpecNotation); reading is proved in both directions; the fuel bound is the text length; divergence by showing that a state repeats |
| C26, C27 | refine | fold invariants; language equality by induction on derivations |
| C28 | include handling over an abstract file system | measure: number of files not yet counted |
| C28 (success) | the same | a recogniser for the notation, proved sound, and the fact that a set of readable texts closed under #include contains all files reached |
| C29-C31 | index, candidates, frames | set extensionality; worklist closure; invariants over slot insertions |
| C32 | terminalMatch | direct |
| C33 | localGrammar, regexpTag, process with documents | the alternatives of the local rules as a relation on documents; then C13/C14 for the extended grammars; an invariant on the row order of column 0 for empty alternatives |
| C34 | TermType JSON | finite sweep over bytes lifted by lemma |
| C35 | FMR.String against the reader | induction on functions; the converse for strings by comparing escapes; unreadability by a scanner that every function text passes |
| C38 | FrameFMR | texts of a frame as an inductive relation over the first trees of its slots; C19 gives the meaning of the trees, C13 and C14 that the first slot holds the longest match at the leftmost position |
| C39 | grammar text to results | the written rules with terminal texts replaced by tokens, plus the alternatives of the document, as one derivation relation (`Means`); refinement extended to extra terminal-only alternatives; all hypotheses of C13–C15 and C36 derived from the notation relation of C22 |
| C40 | Term, F, Tree, Bracketed, @ | outlines of trees as an inductive relation, rendered by two small functions; the value of @ as a relation over Ev/EvBad; decidability of Eval/Semantic extended to functions with @ |
| C41 | list nodes, entities, Call, fmr.list, fmr.entity | list nodes have $1..$k as arguments, so C19/C20 reduce to a map over the children; the function of an entity from the relation of C33 |
| C42 | process, TrimSpace | decoding the last rune against encodings; the loops of the calls commute with replacing the kept text |
| C43 | math_funcs.go | digits of a number and its numeral; integers below 2^64 are exact, sums and products are rounded once; the printed form has an exponent from 10^10 on, and is unique for a rounded number; induction over the arithmetic value of a tree; for fractions the error of scanning and of one rounding is less than half a unit of the tenth digit, so that printing gives the exact result back; products out of range by the number of bits, underflow tested before rounding as in math/big |
| C44 | String, Print and TreePrint of nodes and charts | the printed forms are prefix-decodable (strconv.Quote, decimal numbers, indentation); induction over trees with the rest of the output as a parameter; names in returned trees come from the grammar |
| C45 | the token table used by several goroutines | goroutines as interleaved get and put steps; invariants over executions; the lost-update schedule as refutation |
| C46 | GetTrees called repeatedly on one Parse | simulation between the tree builder that writes to the chart and the pure one; nodes as pointers, stable under further writes; the race as refutation |
| C47 | size of charts | states come from a finite universe of polynomial size; a list gains at most one item per processed rule or (any) row |
| C48 | the grammar files in the repository | their texts are constants (copied verbatim); the recogniser of C28 is run on them with the environment left open; any.grammar is run through the reader itself; every term and function of the files is checked by computation, so the hypotheses of C25/C49 hold; clashes of generated names between files are computed |
| C49 | grammar text to meanings | what a span says, as a relation on the written rules; the trees of C39 carry the functions of the text, C19 gives their meaning; Parse, ParseAny and ExtractMaxAll from the trees of one parse |
| C50 | the notation | two readings of one text: the reader is run on both (C22), with a hash that tells one alternative from all others |
| C51 | examples/arithmetic | the written rules by C50, meanings by C49 and values by C43, specialised to expressions; readings from left to right by shortest right edges (C12); the program as output paired with how it goes on, induction over the lines of the input |
| C52 | examples/math, examples/builtin | what spans say by C49, the loops over lines and trees by induction for any machine state; instance for examples/builtin by C48_usable |
| C53 | NLP() and sync.Once | goroutines as interleaved steps; invariant over executions; refutation by a panic that is recovered from |
| C54 | process: the context and the flag -ctx_tagger | reading back what Encode writes; parameters as multimaps; calls depend on the annotated document only |
| C55 | Semantic: reading the formula back; the quoted texts as JavaScript literals | formulas as a data type; prefix-unique reading by induction; where names and texts come from, over the nodes of the tree; UTF-16 of the literal |
| C56 | Parse: how many trees | a grammar whose texts b a ... a have 2^n trees; induction over n for the set of trees, the forced-tree theorem of C12 for the parser |
| C57 | MatchFrames from the text of a grammar | C39 for the rules, C29 for the index, C30 and C31 for frames and slots, put together for one call; derivations by induction for the rules looked for |
| C58 | number words of number.en.grammar evaluate to their numbers | values of spans by the alternatives (`worth`) are the values of all trees, by induction on trees; the words read by the levels e1, e2s, …, e12s have one value each because a scale word cuts them at one place |
| C59 | Chinese numerals of number.zh.grammar evaluate to their numbers; 一百二 has a reading without a tree | the same `worth`; the rules read more than numerals (一百二 as 120 and 102), and a numeral has one value among all that is read because a scale cuts it at one place and a zero is never followed by a digit word in what the rules read as a lower part |
| C60 | errors of GrammarFromString/GrammarFromFile name the file, the place reached and a fitting objection, and do not depend on what follows | the reader again with positions and messages; it simulates the reader of C23; invariant tying pos, current and info to the characters read; two readers on texts that agree so far run in lockstep |
| C61 | refine: the names of the new rules | the invariant of C26 extended by "all earlier candidates were taken"; when names are apart the first candidate is never taken |
| C62 | numerals and operations, math.en.grammar with its include | readings of both files transferred to those of number.en.grammar below <en_number>; a text falls into numerals at its operation words in one way only; left to right by C66 |
| C63 | errors of Eval, Semantic, the parsing calls, frames and TermType name their reason | the functions again with messages; erasing them gives the functions of the other properties; the parser and the tree builder return no errors; which error comes first as an inductive relation over the tree |
| C64 | with examples/builtin/cn_num.grammar the parses of any text are its longest simple numerals, and evaluate to their numbers; 十五 and 一万零一 are two parses each | the same `worth`; what the rules read is exactly the relation `simple`, both ways, so the statement is about all texts and not only about numerals; one value because a scale cuts a numeral at one place |
| C65 | with examples/builtin/builtin.grammar the parses of any text are its longest spoken amounts, and every tree is worth an amount the words say, the only one unless tens and a unit stand before a magnitude; one tree of every parse always takes tens and the unit after them together, so English numerals below 100000 are among the results; "two hundred fifty thousand" is worth 50200 | the same `worth`; the relation `spoken` is exactly what the rules read; one value because a phrase of this kind can be tallied from left to right without looking back; a reading nested least on the right (C66) never splits tens from their unit, as joining them does not nest deeper |
| C66 | of several readings of a span those nested least on the right have trees, for grammars whose alternatives calculate; C62: the value from left to right is always among the results | a tree nested least everywhere is one of C12's kept trees, built from a `least` reading by induction; a least reading exists by induction on the length of the span; for math.en the last operation of the text is the one whose right side is nested least |
| C67 | Chinese numerals and operations, math.zh.grammar with its include | as C62 over the readings of number.zh.grammar (C59); a scale word on its own is read by <number> too, but is no numeral; names made up in the two files need only be apart between them, since 一, 壹 and 亿 have one transliteration |

Not expressible here: performance, memory use, behaviour of the external NLP
pipeline itself, network taggers.

## Trusted base

* Coq 8.16.1's kernel (including its bytecode VM: `vm_compute` is used for the
  concrete examples and the refutation witnesses).
* `Print Assumptions` follows every property theorem in the `Prop*.v` files; each
  prints "Closed under the global context". No axiom is used by any theorem.
* The standard library modules loaded transitively declare, via a sealed module
  (`Coq.ssr.ssrunder.Under_rel`), constants that the checker lists as axioms of
  the context. No theorem depends on them.
* The faithfulness of the model to the Go source: every definition cites the
  lines it models. This correspondence is by reading, not machine checked.
* Go semantics assumed by the model: `int` as unbounded integers except where a
  wrap-around is modelled explicitly (getInt of the grammar reader), strings as
  byte sequences, map iteration as an arbitrary permutation, single-threaded
  execution (except for the token table, whose users are interleaved in
  ModelShared, the filling of one list state by two goroutines in ModelMutate, and
  the making of the shared pipeline in ModelInit).

## What is modelled

| source | model | not modelled / simplified |
|--------|-------|---------------------------|
| earley.go, types.go, types_util.go (chart parser, equality) | ModelTypes, ModelEarley | debug printing; `Parse.grammars` etc. are not kept after parsing |
| earley_ast.go (GetTrees, Boundary, Tag) | ModelTrees, ModelApi, ModelMutate | ModelTrees returns the write of a List state's Rb instead of storing it; ModelMutate stores it and C46 relates the two |
| api.go, api_easy*.go (process, the four calls) | ModelApi | tokenizer/taggers are a parameter `annotate`; error texts are in ModelMessages |
| api.go (NLP) | ModelInit | ling.DefaultNLP, the taggers and AddTagger are parameters; sync.Once as documented; AddTagger on a nil pipeline is taken to panic |
| api.go (process, context) | ModelContext | url.Values, ParseQuery, Encode, QueryEscape as in Go 1.19; ParseRequestURI, URL.String, NewAPITagger, Annotate, AnnotatePro are parameters; error texts are in ModelMessages |
| node_methods.go, earley_fmr.go, earley_eval.go, funcs.go | ModelSem, ModelFuncs | reflection (`goutil.Call`), word joining, float printing and JSON are parameters |
| math_funcs.go | ModelMath | big.Float add/sub/mul/neg and String (64 bits, nearest even, %.10g) are defined from the documentation of math/big; Sscan (assumed exact on integers below 2^64, accurate to one part in 2^63 on decimal fractions), ProbablyPrime, ParseFloat, float64 arithmetic and %f are parameters |
| earley_terminal_match.go | ModelMatch | ToLower and the token table are parameters |
| termtype_jsonenums.go, termtype_string.go | ModelTermType | - |
| cfgrammar*.go (reader) | ModelReader; ModelReport (with current, info and the error messages) | the texts of comments; messages of other packages and rows beyond int are parameters or unbounded; big.Float scanning, regexp.Compile, MD5, unicode tables above U+00FF are parameters |
| cfgrammar.go (GrammarFromString, GrammarFromFile, #include), grammar_refine.go, grammar_index.go (construction), gTokens | ModelGrammar | ReadFile, filepath, unidecode, the trie and hashstructure are parameters; the file system does not change during a call; map keys of the index are kept as lists |
| the *.grammar files in sf.grammar, grammars, examples | ModelShipped | copied verbatim from the repository by a script; compared by eye only |
| grammar_tokens.go used by several goroutines | ModelShared | get and put are one step each because they hold the lock; all else is local to a goroutine |
| local_grammar.go, regexp_tagger.go, api.go (process with taggers) | ModelLocal | the taggers themselves (`annotate` gives the document: text, tokens, spans); regexp matching (`find_all`), hashstructure and the texts of spans are parameters |
| frame_api.go (MatchFrames, getCandidates, FrameFMR) | ModelFrames | MultiMatch of the trie, Term.Key and the parser's parameters; a map is an association list |
| earley_stringer.go, earley_nodeprint.go | ModelString, ModelPrint | big.Float.String and the layout made by the treeprint library are parameters; writing to the output always succeeds |
| examples/arithmetic/main.go | ModelProgram | flags; otto (the JavaScript machine) is a parameter; writing to the output always succeeds |
| examples/math/main.go, examples/builtin/main.go | ModelExamples | the flags -debug and -cpuprofile; the machine is a parameter; glog output is not part of the output |
| the errors of api.go, earley_eval.go, earley_fmr.go, frame_api.go, termtype_jsonenums.go | ModelMessages | the same functions with messages; texts from other packages and how %+v prints an argument are parameters; "arg is nil" is left out |
| strconv.Quote, strings.Join, utf8, TrimSpace | ModelQuote, ModelText | IsPrint above U+00FF is a parameter |

Each property is marked in MANIFEST.json. Statements that are false of the code
are proved as `_refuted` theorems with a concrete witness, next to the strongest
true variant.
