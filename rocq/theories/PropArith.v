(** C51: the arithmetic example. *)
From Coq Require Import Permutation.
From Verif Require Import Base ModelTypes ModelText ModelEarley ModelTrees ModelApi ModelSem ModelMath ModelFuncs ModelPrint ModelReader ModelGrammar ModelMatch ModelLocal ModelProgram
  SpecTypes SpecGrammar SpecConstruct SpecApi SpecLocal SpecFuncs SpecEnd SpecMath SpecMeaning ModelShipped SpecShipped
  ProofArithCalls ProofProgram ProofArithRefute Examples ExamplesLocal ExamplesMath ExamplesGrammar ExamplesShipped ExamplesArith SpecArith SpecProgram.

(** The call of the example: disjoint longest arithmetic expressions from left to right;
    every tree stands for a reading of its span, Semantic is the formula and Eval the
    value of that reading; the readings from left to right are among them. *)
Theorem C51_parse_max_all :
  forall e, env_ok e -> words_have_tokens (e_tokenize e) ->
  forall dir fuel0 depth0 gt g w', installed e dir dir_arithmetic ->
  from_file e fuel0 depth0 (e_join e dir "arithmetic.grammar") gt = Ret (Some g, w') ->
  forall tmatch ords, orders ords ->
  forall find_all span_text ord, (forall i l, Permutation l (ord i l)) ->
  forall annotate ctx text d, trim_space text <> "" -> annotate ctx (trim_space text) = Ret d ->
  fit_document (e_hash e) find_all [] d -> ~ tagged d "number" ->
  forall join_words float_string json is_print_hi scan rcall, scans_floats scan -> math_registered scan rcall ->
  NoDup (map (e_hash e) bodies) ->
  let reads_ := reads (e_tokenize e) tmatch (content d) in
  exists ps n, (forall steps fuel, n <= fuel -> length (content d) < steps ->
      EarleyParseMaxAll tmatch ords (all_rules g) (doc_tokens annotate)
        (doc_local (e_hash e) find_all span_text (g_regexps g) ord annotate ctx text) steps fuel ctx text ["number"%string] = Ret ps) /\
    exists spans, tiles 0 spans
      /\ Forall2 (fun im p => fst im < length (content d) /\ 0 < snd im
            /\ (forall x j, reads_ x (fst im) j -> j <= fst im + snd im)
            /\ exists ref ts m, p_finals p = [ref] /\ (forall fuel, m <= fuel -> get_trees (p_columns p) fuel ref = Ret ts) /\ ts <> []
                 /\ (forall t, In t ts -> exists x, reads_ x (fst im) (fst im + snd im)
                      /\ shows p join_words float_string json is_print_hi rcall t x)
                 /\ forall x, reads_ x (fst im) (fst im + snd im) -> left_to_right x ->
                      (forall z, reads_ (Number z) (fst im) (fst im + snd im) -> exists z', x = Number z') ->
                      exists t, In t ts /\ shows p join_words float_string json is_print_hi rcall t x) spans ps
      /\ (forall x i j, i < length (content d) -> ~ covered spans i -> ~ reads_ x i j).
Proof. exact arith_max. Qed.
Print Assumptions C51_parse_max_all.

Example C51_example :
  env_ok (senv dir_arithmetic) /\ words_have_tokens (e_tokenize (senv dir_arithmetic)) /\ installed (senv dir_arithmetic) "d" dir_arithmetic /\
  NoDup (map (e_hash (senv dir_arithmetic)) bodies) /\
  from_file (senv dir_arithmetic) 4000 9 "d/arithmetic.grammar" [] = Ret (Some arith_grammar, arith_world) /\
  fit_document ExamplesGrammar.xhash xfind [] (word_doc "hello minus three multiply by two foo ten") /\
  ~ tagged (word_doc "hello minus three multiply by two foo ten") "number" /\
  scans_floats xscan_float /\ math_registered xscan_float xmath /\
  arith_texts id_ord "hello minus three multiply by two foo ten"
    = Some [[[("nf.math.mul(nf.math.neg(3), 2)", "-6"); ("nf.math.neg(nf.math.mul(3, 2))", "-6")]]; [[("10", "10")]]]%string.
Proof.
  split; [apply senv_ok|]. split; [apply senv_words|]. split; [apply senv_installed; cbn; tauto|]. split; [apply senv_hashes|].
  split; [vm_compute; reflexivity|].
  destruct (word_fit "hello minus three multiply by two foo ten") as [H1 H2]; [discriminate|vm_compute; reflexivity|vm_compute; reflexivity|].
  split; [exact H1|]. split; [exact H2|]. split; [exact xscan_float_ok|]. split; [exact xmath_registered|]. vm_compute. reflexivity.
Qed.

(** "one plus two minus three plus four" from left to right *)
Example C51_left_example :
  fit_document ExamplesGrammar.xhash xfind [] (word_doc lost_text) /\ ~ tagged (word_doc lost_text) "number" /\
  reads xtokenize same_text (content (word_doc lost_text)) from_left 0 7 /\ left_to_right from_left /\
  (forall z, ~ reads xtokenize same_text (content (word_doc lost_text)) (Number z) 0 7) /\
  match arith_texts id_ord lost_text with
  | Some [[l]] => In (formula from_left, "4"%string) l /\ ~ In (formula lost) (map fst l)
  | _ => False
  end.
Proof.
  destruct (word_fit lost_text) as [H1 H2]; [discriminate|vm_compute; reflexivity|vm_compute; reflexivity|].
  split; [exact H1|]. split; [exact H2|]. split; [apply left_reading|]. split; [apply left_reading|]. split; [exact lost_no_number|].
  vm_compute. split; [tauto|]. intuition discriminate.
Qed.

(** The trees do not show all readings: 1 + (2 - (3 + 4)) is missing among those of
    "one plus two minus three plus four". *)
Theorem C51_all_readings_refuted : ~ (forall e, env_ok e -> words_have_tokens (e_tokenize e) ->
  forall dir fuel0 depth0 gt g w', installed e dir dir_arithmetic ->
  from_file e fuel0 depth0 (e_join e dir "arithmetic.grammar") gt = Ret (Some g, w') ->
  forall ords, orders ords ->
  forall find_all span_text ord, (forall i l, Permutation l (ord i l)) ->
  forall annotate ctx text d, trim_space text <> "" -> annotate ctx (trim_space text) = Ret d ->
  fit_document (e_hash e) find_all [] d -> ~ tagged d "number" ->
  forall join_words float_string json is_print_hi scan rcall, scans_floats scan -> math_registered scan rcall ->
  NoDup (map (e_hash e) bodies) ->
  forall steps fuel p, EarleyParseMaxAll (terminal_match (lookup (w_tokens w')) (fun s => s)) ords (all_rules g) (doc_tokens annotate)
        (doc_local (e_hash e) find_all span_text (g_regexps g) ord annotate ctx text) steps fuel ctx text ["number"%string] = Ret [p] ->
  forall x, reads (e_tokenize e) same_text (content d) x 0 (length (content d)) ->
  forall ref m ts, p_finals p = [ref] -> get_trees (p_columns p) m ref = Ret ts ->
  exists t, In t ts /\ semantic p join_words float_string json is_print_hi (Call rcall) t = Ret (formula x)).
Proof. exact arith_not_all. Qed.
Print Assumptions C51_all_readings_refuted.

(** The program of the example: what it prints and how it ends. *)
Theorem C51_program : forall e, env_ok e -> tools_work e -> fractions_scan e -> e_regexp_ok e sf_pattern = true ->
  words_have_tokens (e_tokenize e) -> NoDup (map (e_hash e) bodies) ->
  forall dir, installed e dir dir_arithmetic ->
  forall vm run fresh src t0 m0, (forall m s, calm (run m s)) -> run fresh src = Ret (t0, m0) ->
  forall ords, (forall k, orders (ords k)) ->
  forall lords, (forall k i l, Permutation l (lords k i l)) ->
  forall scan rcall, scans_floats scan -> math_registered scan rcall ->
  forall find_all annotate input ie, (forall l, line_of l input -> trim_space l <> ""%string -> readable_line e find_all annotate l) ->
  forall to_lower span_text join_words float_string json is_print_hi gt,
  exists out r, session vm run (line_meaning e annotate) (line_size annotate) ie m0 input out r /\
    exists N, forall fuel0 depth0 fuel steps, N <= fuel0 -> N <= depth0 -> N <= fuel -> N <= steps ->
      main_program vm run fresh to_lower ords (e_hash e) find_all span_text lords annotate join_words float_string json is_print_hi (Call rcall) fuel steps
        (from_file e fuel0 depth0 (e_join e dir "arithmetic.grammar") gt) (Ret src) (Ret (input, ie)) = (out, r).
Proof. exact main_session. Qed.
Print Assumptions C51_program.

Example C51_program_example :
  tools_work (senv dir_arithmetic) /\ fractions_scan (senv dir_arithmetic) /\ (forall m s, calm (count_run m s)) /\
  (forall l, line_of l example_input -> trim_space l <> ""%string -> readable_line (senv dir_arithmetic) xfind word_annotate l) /\
  program_run example_input EndOfInput = (example_output, Ret 5) /\
  program_run example_input InputError = (example_output, Err) /\
  program_run (example_input ++ newline ++ newline ++ "one" ++ newline) EndOfInput
    = ((example_output ++ "four" ++ newline ++ newline ++ "p0 tree number:1" ++ newline ++ "4 = 5" ++ newline ++ newline ++ newline ++ newline)%string, Err) /\
  program_run ("one minus one minus one minus one minus one minus one" ++ newline ++ "one" ++ newline) EndOfInput
    = (("one minus one minus one minus one minus one minus one" ++ newline ++ newline ++ "p0 tree number:42" ++ newline)%string, Err).
Proof.
  split; [apply senv_tools|]. split; [apply senv_fractions|]. split; [apply count_calm|]. split; [exact example_lines|].
  split; [vm_compute; reflexivity|]. split; [vm_compute; reflexivity|]. split; vm_compute; reflexivity.
Qed.
