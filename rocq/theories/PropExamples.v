(** C52: the programs examples/math and examples/builtin, with any grammar file, script,
    start rule and input. [line_sayings]: what a span of a line says, by the texts of the
    grammar; [lines_out]: what may be printed for the input, and how the loop ends. *)
From Coq Require Import Permutation.
From Verif Require Import Base ModelTypes ModelText ModelEarley ModelTrees ModelApi ModelQuote ModelSem ModelMath ModelFuncs ModelPrint ModelReader ModelGrammar ModelMatch ModelLocal ModelProgram ModelExamples
     SpecTypes SpecGrammar SpecTree SpecNotation SpecRefine SpecConstruct SpecSem SpecNode SpecApi SpecLocal SpecFuncs SpecEnd SpecMeaning SpecText
     ModelShipped SpecShipped ProofProgram Examples ExamplesSem ExamplesMath ExamplesGrammar ExamplesShipped ExamplesLocal ExamplesArith
     SpecArith SpecProgram SpecExamples ProofExamples ProofExamplesFiles ExamplesPrograms.
Local Open Scope list_scope.

(** examples/math: every line is printed, and for each of its longest spans with a
    meaning at least one formula that the span says, nothing else. *)
Theorem C52_math_program : forall e fuel0 depth0 file gt g w' text0 L start,
  from_file e fuel0 depth0 file gt = Ret (Some g, w') ->
  e_parts e text0 g L -> usable (e_tokenize e) L [start] -> functions_fit (map rd_before L) ->
  forall vm run fresh src t0 m0, run fresh src = Some (true, t0, m0) ->
  forall ords, (forall k, orders (ords k)) ->
  forall lords, (forall k i l, Permutation l (lords k i l)) ->
  forall find_all annotate input ie,
  (forall l, line_of l input -> trim_space l <> ""%string -> line_fits e (g_regexps g) find_all annotate l \/ line_refused annotate l) ->
  forall to_lower span_text join_words float_string json is_print_hi call eval_flag,
  let tmatch := terminal_match (lookup (w_tokens w')) to_lower in
  let sayings := line_sayings e tmatch (map rd_before L) (g_regexps g) start find_all annotate join_words float_string is_print_hi in
  exists out r, lines_out vm (line_refused annotate) (math_text vm run sayings (line_size annotate) eval_flag) true ie m0 input out r /\ r <> Fuel /\
    exists N, forall fuel steps, N <= fuel -> N <= steps ->
      math_program vm run fresh to_lower ords (e_hash e) find_all span_text lords annotate join_words float_string json is_print_hi call
        start eval_flag fuel steps (from_file e fuel0 depth0 file gt) (Ret src) (Ret (input, ie)) = (out, r).
Proof. exact math_main. Qed.
Print Assumptions C52_math_program.

(** examples/builtin: the same with the answers of the machine; a blank line stops the
    process, and a panic ends it after its value is printed. *)
Theorem C52_builtin_program : forall e fuel0 depth0 file gt g w' text0 L start,
  from_file e fuel0 depth0 file gt = Ret (Some g, w') ->
  e_parts e text0 g L -> usable (e_tokenize e) L [start] -> functions_fit (map rd_before L) ->
  forall vm run fresh src t0 m0, run fresh src = Some (true, t0, m0) ->
  forall ords, (forall k, orders (ords k)) ->
  forall lords, (forall k i l, Permutation l (lords k i l)) ->
  forall find_all annotate input ie,
  (forall l, line_of l input -> trim_space l <> ""%string -> line_fits e (g_regexps g) find_all annotate l \/ line_refused annotate l) ->
  forall to_lower span_text join_words float_string json is_print_hi call panic_text,
  let tmatch := terminal_match (lookup (w_tokens w')) to_lower in
  let sayings := line_sayings e tmatch (map rd_before L) (g_regexps g) start find_all annotate join_words float_string is_print_hi in
  exists out r, lines_out vm (line_refused annotate) (builtin_text vm run sayings (line_size annotate)) false ie m0 input out r /\ r <> Fuel /\
    exists N, forall fuel steps, N <= fuel -> N <= steps ->
      builtin_program vm run fresh to_lower ords (e_hash e) find_all span_text lords annotate join_words float_string json is_print_hi call
        start panic_text fuel steps (from_file e fuel0 depth0 file gt) (Ret src) (Ret (input, ie))
      = match r with Panic => ((out ++ panic_text ++ newline)%string, Ret tt) | Err => (out, Err) | _ => (out, Ret tt) end.
Proof. exact builtin_main. Qed.
Print Assumptions C52_builtin_program.

(** Nothing is printed or read before the grammar, the script and the input are there. *)
Theorem C52_stops : forall vm run (fresh : vm) to_lower ords hash find_all span_text lords annotate join_words float_string json is_print_hi call
    start eval_flag panic_text fuel steps file script input,
  let math := math_program vm run fresh to_lower ords hash find_all span_text lords annotate join_words float_string json is_print_hi call
                start eval_flag fuel steps file script input in
  let builtin := builtin_program vm run fresh to_lower ords hash find_all span_text lords annotate join_words float_string json is_print_hi call
                   start panic_text fuel steps file script input in
  (file = Err -> math = (""%string, Err) /\ builtin = (""%string, Err)) /\
  (forall g w, file = Ret (Some g, w) -> script = Err -> math = (""%string, Err) /\ builtin = (""%string, Err)) /\
  (forall g w src a m, file = Ret (Some g, w) -> script = Ret src -> run fresh src = Some (false, a, m) ->
     math = (""%string, Err) /\ builtin = (""%string, Err)) /\
  (forall g w src, file = Ret (Some g, w) -> script = Ret src -> run fresh src = None ->
     math = (""%string, Panic) /\ builtin = ((panic_text ++ newline)%string, Ret tt)) /\
  (forall g w src a m, file = Ret (Some g, w) -> script = Ret src -> run fresh src = Some (true, a, m) -> input = Err ->
     math = (""%string, Err) /\ builtin = (""%string, Err)).
Proof. exact programs_stop. Qed.
Print Assumptions C52_stops.

(** The hypotheses hold for examples/arithmetic/arithmetic.grammar; a machine that counts,
    fails on long formulas and panics on longer ones. *)
Example C52_example :
  from_file (senv dir_arithmetic) 4000 9 (e_join (senv dir_arithmetic) "d" "arithmetic.grammar") [] = Ret (Some arith_grammar, arith_world) /\
  (exists L, e_parts (senv dir_arithmetic) arithmetic_arithmetic arith_grammar L /\ usable xtokenize L ["number"%string] /\ functions_fit (map rd_before L)) /\
  js_run 0 "the script" = Some (true, "0"%string, 1) /\
  (forall l, line_of l programs_input -> trim_space l <> ""%string ->
     line_fits (senv dir_arithmetic) (g_regexps arith_grammar) xfind word_annotate l \/ line_refused word_annotate l) /\
  math_run false programs_input EndOfInput = ("one plus two
p0 tree number:1
nf.math.sum(1, 2)

hello minus three minus one foo ten
p0 tree number:2
nf.math.sub(nf.math.neg(3), 1)
nf.math.neg(nf.math.sub(3, 1))
p1 tree number:1
10


"%string, Ret 1) /\
  math_run true programs_input InputError = ("one plus two
p0 tree number:1
nf.math.sum(1, 2) => 1

hello minus three minus one foo ten
p0 tree number:2
p1 tree number:1
10 => 4


"%string, Err) /\
  builtin_run programs_input EndOfInput = ("one plus two
nf.math.sum(1, 2) = 1

hello minus three minus one foo ten
nf.math.sub(nf.math.neg(3), 1) = 2
nf.math.neg(nf.math.sub(3, 1)) = 3
10 = 4


"%string, Err) /\
  math_run true ("one minus one minus one minus one minus one minus one" ++ newline ++ "one" ++ newline) EndOfInput
    = ("one minus one minus one minus one minus one minus one
p0 tree number:42
"%string, Panic) /\
  builtin_run ("one minus one minus one minus one minus one minus one" ++ newline ++ "one" ++ newline) EndOfInput
    = ("one minus one minus one minus one minus one minus one
oops
"%string, Ret tt).
Proof.
  split; [exact arith_load|]. split; [exact arith_example_parts|]. split; [vm_compute; reflexivity|]. split; [exact programs_lines|].
  do 4 (split; [vm_compute; reflexivity|]). vm_compute. reflexivity.
Qed.

(** examples/builtin with the grammar files of its directory: nothing is left to ask of them. *)
Theorem C52_builtin_files : forall e, env_ok e -> fractions_scan e -> e_regexp_ok e sf_pattern = true -> texts_have_tokens e ->
  String.prefix "g_t" (e_md5 e sf_pattern) = false ->
  forall dir, installed e dir dir_builtin ->
  forall name text0, In (name, text0) dir_builtin -> name <> rejected ->
  forall fuel0 depth0 gt g w', from_file e fuel0 depth0 (e_join e dir name) gt = Ret (Some g, w') ->
  forall start, start <> GammaRule -> String.prefix "g_t" start = false ->
  exists L, e_parts e text0 g L /\
  forall vm run fresh src t0 m0, run fresh src = Some (true, t0, m0) ->
  forall ords, (forall k, orders (ords k)) ->
  forall lords, (forall k i l, Permutation l (lords k i l)) ->
  forall find_all annotate input ie,
  (forall l, line_of l input -> trim_space l <> ""%string -> line_fits e (g_regexps g) find_all annotate l \/ line_refused annotate l) ->
  forall to_lower span_text join_words float_string json is_print_hi call panic_text,
  let tmatch := terminal_match (lookup (w_tokens w')) to_lower in
  let sayings := line_sayings e tmatch (map rd_before L) (g_regexps g) start find_all annotate join_words float_string is_print_hi in
  exists out r, lines_out vm (line_refused annotate) (builtin_text vm run sayings (line_size annotate)) false ie m0 input out r /\ r <> Fuel /\
    exists N, forall fuel steps, N <= fuel -> N <= steps ->
      builtin_program vm run fresh to_lower ords (e_hash e) find_all span_text lords annotate join_words float_string json is_print_hi call
        start panic_text fuel steps (from_file e fuel0 depth0 (e_join e dir name) gt) (Ret src) (Ret (input, ie))
      = match r with Panic => ((out ++ panic_text ++ newline)%string, Ret tt) | Err => (out, Err) | _ => (out, Ret tt) end.
Proof. exact builtin_files. Qed.
Print Assumptions C52_builtin_files.

(** builtin.grammar, start rule number *)
Example C52_files_example :
  exists g w', from_file (senv dir_builtin) 4000 9 (e_join (senv dir_builtin) "d" "builtin.grammar") [] = Ret (Some g, w') /\
  env_ok (senv dir_builtin) /\ fractions_scan (senv dir_builtin) /\ texts_have_tokens (senv dir_builtin) /\ installed (senv dir_builtin) "d" dir_builtin /\
  fst (builtin_program nat js_run 0 (fun s => s) (fun _ _ => id_ord) ExamplesGrammar.xhash xfind xspan_text (fun _ => xorde) word_annotate
    (String.concat " ") (fun _ => ""%string) (fun _ => ""%string) (fun _ => true) (Call xmath)
    "number" "oops" 400 20 (Ret (Some g, w')) (Ret "the script"%string) (Ret (("twenty one hundred" ++ newline)%string, EndOfInput)))
  = "twenty one hundred
nf.math.mul(nf.math.sum(20, 1), 100) = 1

"%string.
Proof.
  eexists. eexists. split; [vm_compute; reflexivity|]. split; [apply senv_ok|]. split; [apply senv_fractions|]. split; [apply senv_texts|].
  split; [apply senv_installed; cbn; tauto|]. vm_compute. reflexivity.
Qed.
