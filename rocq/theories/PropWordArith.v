(** C62: arithmetic in words. *)
From Coq Require Import Permutation.
From Verif Require Import Base ModelTypes ModelText ModelEarley ModelTrees ModelApi ModelSem ModelMath ModelFuncs ModelReader ModelGrammar ModelMatch ModelLocal
  SpecTypes SpecGrammar SpecTree SpecNotation SpecRefine SpecConstruct SpecSem SpecNode SpecApi SpecLocal SpecFuncs SpecEnd SpecMath SpecMeaning ModelShipped SpecShipped SpecNames SpecFrameText
  ProofMeaning ProofWordArithCalls ProofWordArithRefute ProofWordArithLeftCalls Examples ExamplesLocal ExamplesMath ExamplesGrammar ExamplesShipped ExamplesArith ExamplesEnglish ExamplesNames
  SpecArith SpecWorth SpecEnglish SpecWordArith ExamplesWordArith.
Local Open Scope list_scope.

(** Numerals with "plus", "minus" and "times" between them are one parse over all tokens.
    Every tree is worth what the text means with some brackets. *)
Theorem C62_arithmetic_in_words : forall e, env_ok e -> fractions_scan e -> e_regexp_ok e sf_pattern = true -> texts_have_tokens e -> words_are_tokens (e_tokenize e) sum_words ->
  (forall v, In v other_texts -> foreign (e_tokenize e) sum_words v) ->
  String.prefix "g_t" (e_md5 e sf_pattern) = false -> hashes_apart e math_math_en -> hashes_apart e math_number_en ->
  spelled_apart (e_tokenize e) (e_ascii e) (shipped_text e dir_math "math.en.grammar") ->
  forall dir fuel0 depth0 gt g w', installed e dir dir_math ->
  from_file e fuel0 depth0 (e_join e dir "math.en.grammar") gt = Ret (Some g, w') ->
  forall gtokens to_lower ords, orders ords ->
  forall find_all span_text ord, (forall i l, Permutation l (ord i l)) ->
  forall annotate ctx text d, trim_space text <> "" -> annotate ctx (trim_space text) = Ret d ->
  fit_document (e_hash e) find_all (g_regexps g) d -> (forall x, In x sum_names -> ~ tagged d x /\ forall pat, ~ In (x, pat) (g_regexps g)) ->
  forall join_words float_string json is_print_hi scan rcall, scans_floats scan -> math_registered scan rcall ->
  forall n rest, chain (map tok_text (content d)) n rest ->
  exists p ref ts N m, (forall steps fuel, N <= fuel -> length (content d) < steps ->
      EarleyParseMaxAll (terminal_match gtokens to_lower) ords (all_rules g) (doc_tokens annotate)
        (doc_local (e_hash e) find_all span_text (g_regexps g) ord annotate ctx text) steps fuel ctx text ["number"%string] = Ret [p]) /\
    p_finals p = [ref] /\ (forall fuel, m <= fuel -> get_trees (p_columns p) fuel ref = Ret ts) /\ ts <> [] /\
    forall t, In t ts -> exists b x, meant n rest b /\ value x = value b /\
      semantic p join_words float_string json is_print_hi (Call rcall) t = Ret (formula x) /\
      (modest b -> exists s, numeral (value b) s /\ eval p join_words float_string (Call rcall) t = Ret (DStr s)).
Proof. exact sum_call. Qed.
Print Assumptions C62_arithmetic_in_words.

Example C62_example :
  env_ok (senv dir_math) /\ fractions_scan (senv dir_math) /\ e_regexp_ok (senv dir_math) sf_pattern = true /\ texts_have_tokens (senv dir_math) /\
  words_are_tokens (e_tokenize (senv dir_math)) sum_words /\ (forall v, In v other_texts -> foreign (e_tokenize (senv dir_math)) sum_words v) /\
  String.prefix "g_t" (e_md5 (senv dir_math) sf_pattern) = false /\ hashes_apart (senv dir_math) math_math_en /\ hashes_apart (senv dir_math) math_number_en /\
  spelled_apart (e_tokenize (senv dir_math)) (e_ascii (senv dir_math)) (shipped_text (senv dir_math) dir_math "math.en.grammar") /\
  installed (senv dir_math) "d" dir_math /\
  from_file (senv dir_math) 4000 9 (e_join (senv dir_math) "d" "math.en.grammar") [] = Ret (Some ma_grammar, ma_world) /\ g_regexps ma_grammar = [] /\
  scans_floats xscan_float /\ math_registered xscan_float xmath.
Proof.
  split; [apply senv_ok|]. split; [apply senv_fractions|]. split; [reflexivity|]. split; [apply senv_texts|]. split; [apply senv_sum_words|]. split; [apply senv_foreign|].
  split; [reflexivity|]. split; [exact (proj1 ma_hashes)|]. split; [exact (proj2 ma_hashes)|]. split; [exact math_en_apart|]. split; [exact en_installed|]. split; [exact ma_load|].
  split; [reflexivity|]. split; [exact xscan_float_ok|exact xmath_registered].
Qed.
Example C62_text :
  fit_document ExamplesGrammar.xhash xfind (g_regexps ma_grammar) (word_doc ma_text) /\ (forall x, ~ tagged (word_doc ma_text) x) /\
  chain (map tok_text (content (word_doc ma_text))) 2 [(Plus, 3); (Times, 4)]%Z /\
  ma_texts ma_text = Some [[[("nf.math.mul(nf.math.sum(2, 3), 4)", "20"); ("nf.math.sum(2, nf.math.mul(3, 4))", "14")]]]%string.
Proof.
  split; [apply word_fit; [discriminate|vm_compute; reflexivity|vm_compute; reflexivity]|]. split; [intros x; apply word_untagged|]. split; [exact ma_chain|]. vm_compute. reflexivity.
Qed.

(** The value from left to right is always among those of the trees. *)
Theorem C62_left_to_right : forall e, env_ok e -> fractions_scan e -> e_regexp_ok e sf_pattern = true -> texts_have_tokens e -> words_are_tokens (e_tokenize e) sum_words ->
  (forall v, In v other_texts -> foreign (e_tokenize e) sum_words v) ->
  String.prefix "g_t" (e_md5 e sf_pattern) = false -> hashes_apart e math_math_en -> hashes_apart e math_number_en ->
  spelled_apart (e_tokenize e) (e_ascii e) (shipped_text e dir_math "math.en.grammar") ->
  forall dir fuel0 depth0 gt g w', installed e dir dir_math ->
  from_file e fuel0 depth0 (e_join e dir "math.en.grammar") gt = Ret (Some g, w') ->
  forall gtokens to_lower ords, orders ords ->
  forall find_all span_text ord, (forall i l, Permutation l (ord i l)) ->
  forall annotate ctx text d, trim_space text <> "" -> annotate ctx (trim_space text) = Ret d ->
  fit_document (e_hash e) find_all (g_regexps g) d -> (forall x, In x sum_names -> ~ tagged d x /\ forall pat, ~ In (x, pat) (g_regexps g)) ->
  forall join_words float_string json is_print_hi scan rcall, scans_floats scan -> math_registered scan rcall ->
  forall n rest, chain (map tok_text (content d)) n rest ->
  exists p ref ts N m, (forall steps fuel, N <= fuel -> length (content d) < steps ->
      EarleyParseMaxAll (terminal_match gtokens to_lower) ords (all_rules g) (doc_tokens annotate)
        (doc_local (e_hash e) find_all span_text (g_regexps g) ord annotate ctx text) steps fuel ctx text ["number"%string] = Ret [p]) /\
    p_finals p = [ref] /\ (forall fuel, m <= fuel -> get_trees (p_columns p) fuel ref = Ret ts) /\
    exists t x, In t ts /\ value x = value (from_left n rest) /\
      semantic p join_words float_string json is_print_hi (Call rcall) t = Ret (formula x) /\
      (modest (from_left n rest) -> exists s, numeral (value (from_left n rest)) s /\ eval p join_words float_string (Call rcall) t = Ret (DStr s)).
Proof. exact left_call. Qed.
Print Assumptions C62_left_to_right.

Example C62_left_example : value (from_left 2 [(Plus, 3); (Times, 4)]%Z) = 20%Z /\ modest (from_left 2 [(Plus, 3); (Times, 4)]%Z) /\
  chain (map tok_text (content (word_doc ma_text))) 2 [(Plus, 3); (Times, 4)]%Z /\ In ("nf.math.mul(nf.math.sum(2, 3), 4)"%string, "20"%string)
    (concat (concat (match ma_texts ma_text with Some l => l | None => [] end))).
Proof.
  split; [reflexivity|]. split; [cbn; unfold small; repeat split; try lia; intros; lia|]. split; [exact ma_chain|]. vm_compute. left. reflexivity.
Qed.

(** All trees of a sum are worth the sum. *)
Theorem C62_sums : forall e, env_ok e -> fractions_scan e -> e_regexp_ok e sf_pattern = true -> texts_have_tokens e -> words_are_tokens (e_tokenize e) sum_words ->
  (forall v, In v other_texts -> foreign (e_tokenize e) sum_words v) ->
  String.prefix "g_t" (e_md5 e sf_pattern) = false -> hashes_apart e math_math_en -> hashes_apart e math_number_en ->
  spelled_apart (e_tokenize e) (e_ascii e) (shipped_text e dir_math "math.en.grammar") ->
  forall dir fuel0 depth0 gt g w', installed e dir dir_math ->
  from_file e fuel0 depth0 (e_join e dir "math.en.grammar") gt = Ret (Some g, w') ->
  forall gtokens to_lower ords, orders ords ->
  forall find_all span_text ord, (forall i l, Permutation l (ord i l)) ->
  forall annotate ctx text d, trim_space text <> "" -> annotate ctx (trim_space text) = Ret d ->
  fit_document (e_hash e) find_all (g_regexps g) d -> (forall x, In x sum_names -> ~ tagged d x /\ forall pat, ~ In (x, pat) (g_regexps g)) ->
  forall join_words float_string json is_print_hi scan rcall, scans_floats scan -> math_registered scan rcall ->
  forall n rest, chain (map tok_text (content d)) n rest -> Forall (fun om => fst om = Plus) rest ->
  exists p ref ts N m, (forall steps fuel, N <= fuel -> length (content d) < steps ->
      EarleyParseMaxAll (terminal_match gtokens to_lower) ords (all_rules g) (doc_tokens annotate)
        (doc_local (e_hash e) find_all span_text (g_regexps g) ord annotate ctx text) steps fuel ctx text ["number"%string] = Ret [p]) /\
    p_finals p = [ref] /\ (forall fuel, m <= fuel -> get_trees (p_columns p) fuel ref = Ret ts) /\ ts <> [] /\
    forall t, In t ts -> exists x, value x = sum_of n rest /\
      semantic p join_words float_string json is_print_hi (Call rcall) t = Ret (formula x) /\
      ((sum_of n rest < 10 ^ 10)%Z -> exists s, numeral (sum_of n rest) s /\ eval p join_words float_string (Call rcall) t = Ret (DStr s)).
Proof. exact plus_call. Qed.
Print Assumptions C62_sums.

Example C62_sums_example :
  fit_document ExamplesGrammar.xhash xfind (g_regexps ma_grammar) (word_doc ma_sum) /\ (forall x, ~ tagged (word_doc ma_sum) x) /\
  chain (map tok_text (content (word_doc ma_sum))) 2000000 [(Plus, 300); (Plus, 12)]%Z /\ Forall (fun om : operation * Z => fst om = Plus) [(Plus, 300); (Plus, 12)]%Z /\
  sum_of 2000000 [(Plus, 300); (Plus, 12)]%Z = 2000312%Z /\
  ma_texts ma_sum = Some [[[("nf.math.sum(nf.math.sum(nf.math.mul(2, 1000000), nf.math.mul(3, 100)), 12)", "2000312");
                            ("nf.math.sum(nf.math.mul(2, 1000000), nf.math.sum(nf.math.mul(3, 100), 12))", "2000312")]]]%string.
Proof.
  split; [apply word_fit; [discriminate|vm_compute; reflexivity|vm_compute; reflexivity]|]. split; [intros x; apply word_untagged|]. split; [exact ma_sum_chain|].
  split; [repeat constructor|]. split; [reflexivity|]. vm_compute. reflexivity.
Qed.

(** With one operation, all trees are worth its result. *)
Theorem C62_one_operation : forall e, env_ok e -> fractions_scan e -> e_regexp_ok e sf_pattern = true -> texts_have_tokens e -> words_are_tokens (e_tokenize e) sum_words ->
  (forall v, In v other_texts -> foreign (e_tokenize e) sum_words v) ->
  String.prefix "g_t" (e_md5 e sf_pattern) = false -> hashes_apart e math_math_en -> hashes_apart e math_number_en ->
  spelled_apart (e_tokenize e) (e_ascii e) (shipped_text e dir_math "math.en.grammar") ->
  forall dir fuel0 depth0 gt g w', installed e dir dir_math ->
  from_file e fuel0 depth0 (e_join e dir "math.en.grammar") gt = Ret (Some g, w') ->
  forall gtokens to_lower ords, orders ords ->
  forall find_all span_text ord, (forall i l, Permutation l (ord i l)) ->
  forall annotate ctx text d, trim_space text <> "" -> annotate ctx (trim_space text) = Ret d ->
  fit_document (e_hash e) find_all (g_regexps g) d -> (forall x, In x sum_names -> ~ tagged d x /\ forall pat, ~ In (x, pat) (g_regexps g)) ->
  forall join_words float_string json is_print_hi scan rcall, scans_floats scan -> math_registered scan rcall ->
  forall n o k, chain (map tok_text (content d)) n [(o, k)] ->
  exists p ref ts N m, (forall steps fuel, N <= fuel -> length (content d) < steps ->
      EarleyParseMaxAll (terminal_match gtokens to_lower) ords (all_rules g) (doc_tokens annotate)
        (doc_local (e_hash e) find_all span_text (g_regexps g) ord annotate ctx text) steps fuel ctx text ["number"%string] = Ret [p]) /\
    p_finals p = [ref] /\ (forall fuel, m <= fuel -> get_trees (p_columns p) fuel ref = Ret ts) /\ ts <> [] /\
    forall t, In t ts -> exists x, value x = value (Binary o (Number n) (Number k)) /\
      semantic p join_words float_string json is_print_hi (Call rcall) t = Ret (formula x) /\
      (small n -> small k -> small (value x) -> exists s, numeral (value x) s /\ eval p join_words float_string (Call rcall) t = Ret (DStr s)).
Proof. exact one_call. Qed.
Print Assumptions C62_one_operation.

Example C62_one_example :
  fit_document ExamplesGrammar.xhash xfind (g_regexps ma_grammar) (word_doc ma_less) /\ (forall x, ~ tagged (word_doc ma_less) x) /\
  chain (map tok_text (content (word_doc ma_less))) 10 [(Minus, 12)]%Z /\
  ma_texts ma_less = Some [[[("nf.math.sub(10, 12)", "-2")]]]%string.
Proof.
  split; [apply word_fit; [discriminate|vm_compute; reflexivity|vm_compute; reflexivity]|]. split; [intros x; apply word_untagged|]. split; [exact ma_less_chain|]. vm_compute. reflexivity.
Qed.

(** The first tree of "two plus three times four" is worth 20, not 14. *)
Theorem C62_precedence_refuted : ~ (forall e, env_ok e -> fractions_scan e -> e_regexp_ok e sf_pattern = true -> texts_have_tokens e -> words_are_tokens (e_tokenize e) sum_words ->
  (forall v, In v other_texts -> foreign (e_tokenize e) sum_words v) ->
  String.prefix "g_t" (e_md5 e sf_pattern) = false -> hashes_apart e math_math_en -> hashes_apart e math_number_en ->
  spelled_apart (e_tokenize e) (e_ascii e) (shipped_text e dir_math "math.en.grammar") ->
  forall dir fuel0 depth0 gt g w', installed e dir dir_math ->
  from_file e fuel0 depth0 (e_join e dir "math.en.grammar") gt = Ret (Some g, w') ->
  forall gtokens to_lower ords, orders ords ->
  forall find_all span_text ord, (forall i l, Permutation l (ord i l)) ->
  forall annotate ctx text d, trim_space text <> "" -> annotate ctx (trim_space text) = Ret d ->
  fit_document (e_hash e) find_all (g_regexps g) d -> (forall x, In x sum_names -> ~ tagged d x /\ forall pat, ~ In (x, pat) (g_regexps g)) ->
  forall join_words float_string scan rcall, scans_floats scan -> math_registered scan rcall ->
  forall n rest, chain (map tok_text (content d)) n rest ->
  forall steps fuel p ref m ts t, EarleyParseMaxAll (terminal_match gtokens to_lower) ords (all_rules g) (doc_tokens annotate)
        (doc_local (e_hash e) find_all span_text (g_regexps g) ord annotate ctx text) steps fuel ctx text ["number"%string] = Ret [p] ->
  p_finals p = [ref] -> get_trees (p_columns p) m ref = Ret ts -> In t ts ->
  exists s, numeral (usual_value n rest) s /\ eval p join_words float_string (Call rcall) t = Ret (DStr s)).
Proof. exact no_precedence. Qed.
Print Assumptions C62_precedence_refuted.
