(** C58: number words. *)
From Coq Require Import Permutation.
From Verif Require Import Base ModelTypes ModelText ModelEarley ModelTrees ModelApi ModelSem ModelMath ModelFuncs ModelReader ModelGrammar ModelMatch ModelLocal
  SpecTypes SpecGrammar SpecTree SpecNotation SpecRefine SpecConstruct SpecSem SpecNode SpecApi SpecLocal SpecFuncs SpecEnd SpecMath SpecMeaning ModelShipped SpecShipped SpecFrameText
  ProofMeaning ProofWorthCalls ProofEnglish ProofEnglishCalls ProofEnglishRefute Examples ExamplesLocal ExamplesMath ExamplesGrammar ExamplesShipped ExamplesArith ExamplesEnglish
  SpecArith SpecWorth SpecEnglish.
Local Open Scope list_scope.

(** A text of the words of a number is one parse over all tokens, and all its trees are
    worth that number: Semantic is a formula with that value, and Eval the numeral,
    if it has at most ten digits. *)
Theorem C58_number_words : forall e, env_ok e -> fractions_scan e -> e_regexp_ok e sf_pattern = true -> texts_have_tokens e -> words_are_tokens (e_tokenize e) number_words ->
  String.prefix "g_t" (e_md5 e sf_pattern) = false ->
  (forall name bs, In (name, bs) english_rules -> NoDup (map (e_hash e) bs)) ->
  forall dir fuel0 depth0 gt g w', installed e dir dir_math ->
  from_file e fuel0 depth0 (e_join e dir "number.en.grammar") gt = Ret (Some g, w') ->
  forall gtokens to_lower ords, orders ords ->
  forall find_all span_text ord, (forall i l, Permutation l (ord i l)) ->
  forall annotate ctx text d, trim_space text <> "" -> annotate ctx (trim_space text) = Ret d ->
  fit_document (e_hash e) find_all [] d -> (forall x, In x english_names -> ~ tagged d x) ->
  forall join_words float_string json is_print_hi scan rcall, scans_floats scan -> math_registered scan rcall ->
  forall n, english (map tok_text (content d)) n ->
  exists p ref ts N m, (forall steps fuel, N <= fuel -> length (content d) < steps ->
      EarleyParseMaxAll (terminal_match gtokens to_lower) ords (all_rules g) (doc_tokens annotate)
        (doc_local (e_hash e) find_all span_text (g_regexps g) ord annotate ctx text) steps fuel ctx text ["number"%string] = Ret [p]) /\
    p_finals p = [ref] /\ (forall fuel, m <= fuel -> get_trees (p_columns p) fuel ref = Ret ts) /\ ts <> [] /\
    forall t, In t ts -> exists x, value x = n /\
      semantic p join_words float_string json is_print_hi (Call rcall) t = Ret (formula x) /\
      ((n < 10 ^ 10)%Z -> exists s, numeral n s /\ eval p join_words float_string (Call rcall) t = Ret (DStr s)).
Proof. exact english_call. Qed.
Print Assumptions C58_number_words.

Example C58_example :
  env_ok (senv dir_math) /\ fractions_scan (senv dir_math) /\ e_regexp_ok (senv dir_math) sf_pattern = true /\ texts_have_tokens (senv dir_math) /\
  words_are_tokens (e_tokenize (senv dir_math)) number_words /\ String.prefix "g_t" (e_md5 (senv dir_math) sf_pattern) = false /\
  (forall name bs, In (name, bs) english_rules -> NoDup (map (e_hash (senv dir_math)) bs)) /\ installed (senv dir_math) "d" dir_math /\
  from_file (senv dir_math) 4000 9 (e_join (senv dir_math) "d" "number.en.grammar") [] = Ret (Some en_grammar, en_world) /\
  fit_document ExamplesGrammar.xhash xfind [] (word_doc en_text) /\ (forall x, ~ tagged (word_doc en_text) x) /\
  scans_floats xscan_float /\ math_registered xscan_float xmath /\
  english (map tok_text (content (word_doc en_text))) 956001002 /\
  en_texts en_text = Some [[[("nf.math.sum(nf.math.mul(nf.math.sum(nf.math.mul(9, 100), nf.math.sum(50, 6)), 1000000), nf.math.sum(nf.math.mul(1, 1000), 2))",
                             "956001002")]]]%string.
Proof.
  split; [apply senv_ok|]. split; [apply senv_fractions|]. split; [reflexivity|]. split; [apply senv_texts|]. split; [apply senv_words_are_tokens|].
  split; [reflexivity|]. split; [apply senv_english_hashes|]. split; [exact en_installed|]. split; [exact en_load|].
  split; [apply word_fit; [discriminate|vm_compute; reflexivity|vm_compute; reflexivity]|]. split; [intros x; apply word_untagged|].
  split; [exact xscan_float_ok|]. split; [exact xmath_registered|]. split; [exact en_english|]. vm_compute. reflexivity.
Qed.

(** Every number below 10^15 has such words, and no words are those of two numbers. *)
Theorem C58_all_numbers : (forall n, (0 <= n < 10 ^ 15)%Z -> exists ws, english ws n) /\
  (forall ws n n', english ws n -> english ws n' -> n = n').
Proof. exact (conj english_exists english_functional). Qed.
Print Assumptions C58_all_numbers.

Example C58_all_numbers_example : english (map tok_text (content (word_doc en_text))) 956001002.
Proof. exact en_english. Qed.

(** Ten billion are eleven digits: the value is "1e+10". *)
Theorem C58_large_refuted : ~ (forall e, env_ok e -> fractions_scan e -> e_regexp_ok e sf_pattern = true -> texts_have_tokens e -> words_are_tokens (e_tokenize e) number_words ->
  String.prefix "g_t" (e_md5 e sf_pattern) = false ->
  (forall name bs, In (name, bs) english_rules -> NoDup (map (e_hash e) bs)) ->
  forall dir fuel0 depth0 gt g w', installed e dir dir_math ->
  from_file e fuel0 depth0 (e_join e dir "number.en.grammar") gt = Ret (Some g, w') ->
  forall to_lower ords, orders ords ->
  forall find_all span_text ord, (forall i l, Permutation l (ord i l)) ->
  forall annotate ctx text d, trim_space text <> "" -> annotate ctx (trim_space text) = Ret d ->
  fit_document (e_hash e) find_all [] d -> (forall x, In x english_names -> ~ tagged d x) ->
  forall join_words float_string scan rcall, scans_floats scan -> math_registered scan rcall ->
  forall n, english (map tok_text (content d)) n ->
  forall steps fuel p ref m ts t, EarleyParseMaxAll (terminal_match (lookup (w_tokens w')) to_lower) ords (all_rules g) (doc_tokens annotate)
        (doc_local (e_hash e) find_all span_text (g_regexps g) ord annotate ctx text) steps fuel ctx text ["number"%string] = Ret [p] ->
  p_finals p = [ref] -> get_trees (p_columns p) m ref = Ret ts -> In t ts ->
  exists s, numeral n s /\ eval p join_words float_string (Call rcall) t = Ret (DStr s)).
Proof. exact english_not_large. Qed.
Print Assumptions C58_large_refuted.

(** "one point five" is read, but its function is none of the table: Eval fails. *)
Theorem C58_decimals_refuted : ~ (forall e, env_ok e -> fractions_scan e -> e_regexp_ok e sf_pattern = true -> texts_have_tokens e -> words_are_tokens (e_tokenize e) number_words ->
  String.prefix "g_t" (e_md5 e sf_pattern) = false ->
  (forall name bs, In (name, bs) english_rules -> NoDup (map (e_hash e) bs)) ->
  forall dir fuel0 depth0 gt g w', installed e dir dir_math ->
  from_file e fuel0 depth0 (e_join e dir "number.en.grammar") gt = Ret (Some g, w') ->
  forall to_lower ords, orders ords ->
  forall find_all span_text ord, (forall i l, Permutation l (ord i l)) ->
  forall annotate ctx text d, trim_space text <> "" -> annotate ctx (trim_space text) = Ret d ->
  fit_document (e_hash e) find_all [] d -> (forall x, In x english_names -> ~ tagged d x) ->
  forall join_words float_string scan rcall, scans_floats scan -> math_registered scan rcall ->
  (forall fn vs, ~ In fn registered_names -> rcall fn vs = Err) ->
  forall ws n w k, english ws n -> In (w, k) units -> map tok_text (content d) = ws ++ ["point"%string; w] ->
  forall steps fuel p ref m ts t, EarleyParseMaxAll (terminal_match (lookup (w_tokens w')) to_lower) ords (all_rules g) (doc_tokens annotate)
        (doc_local (e_hash e) find_all span_text (g_regexps g) ord annotate ctx text) steps fuel ctx text ["number"%string] = Ret [p] ->
  p_finals p = [ref] -> get_trees (p_columns p) m ref = Ret ts -> In t ts ->
  exists v, eval p join_words float_string (Call rcall) t = Ret v).
Proof. exact english_no_decimals. Qed.
Print Assumptions C58_decimals_refuted.

(** The same for every grammar whose alternatives calculate: the call gives the longest
    disjoint spans that the rules read as expressions, and every tree is worth one of
    the expressions that its span is read as. *)
Theorem C58_grammars_that_calculate : forall e d0 g L, e_parts e d0 g L ->
  forall starts, usable (e_tokenize e) L starts -> functions_fit (map rd_before L) ->
  forall tmatch ords, orders ords ->
  forall find_all span_text ord, (forall i l, Permutation l (ord i l)) ->
  forall annotate ctx text d, trim_space text <> "" -> annotate ctx (trim_space text) = Ret d ->
  fit_document (e_hash e) find_all (g_regexps g) d ->
  forall N, calculates (e_tokenize e) tmatch (map rd_before L) (content d) N ->
  (forall x, N x -> text_only find_all (g_regexps g) d x) -> (forall S, In S starts -> N S) ->
  forall join_words float_string json is_print_hi scan rcall, scans_floats scan -> math_registered scan rcall ->
  let worth_ := worth (e_tokenize e) tmatch (map rd_before L) (content d) in
  exists ps n, (forall steps fuel, n <= fuel -> length (content d) < steps ->
      EarleyParseMaxAll tmatch ords (all_rules g) (doc_tokens annotate)
        (doc_local (e_hash e) find_all span_text (g_regexps g) ord annotate ctx text) steps fuel ctx text starts = Ret ps) /\
    exists spans, tiles 0 spans
      /\ Forall2 (fun im p => fst im < length (content d) /\ 0 < snd im
            /\ (forall S x j, In S starts -> worth_ S (fst im) j x -> j <= fst im + snd im)
            /\ exists ref ts m, p_finals p = [ref] /\ (forall fuel, m <= fuel -> get_trees (p_columns p) fuel ref = Ret ts) /\ ts <> []
                 /\ forall t, In t ts -> exists S x, In S starts /\ worth_ S (fst im) (fst im + snd im) x
                      /\ displays p join_words float_string json is_print_hi rcall t x) spans ps
      /\ (forall S x i j, i < length (content d) -> ~ covered spans i -> In S starts -> ~ worth_ S i j x).
Proof. exact worth_max. Qed.
Print Assumptions C58_grammars_that_calculate.

Example C58_calculate_example : exists L, e_parts (senv dir_math) math_number_en en_grammar L /\
  usable (e_tokenize (senv dir_math)) L ["number"%string] /\ functions_fit (map rd_before L) /\ g_regexps en_grammar = [] /\
  calculates (e_tokenize (senv dir_math)) (terminal_match (lookup (w_tokens en_world)) (fun s => s)) (map rd_before L) (content (word_doc en_text)) (fun x => In x counting) /\
  (forall x, In x counting -> text_only xfind (g_regexps en_grammar) (word_doc en_text) x) /\ In "number"%string counting /\
  (exists x, worth (e_tokenize (senv dir_math)) (terminal_match (lookup (w_tokens en_world)) (fun s => s)) (map rd_before L) (content (word_doc en_text)) "number" 0 10 x).
Proof. exact en_calculates. Qed.
