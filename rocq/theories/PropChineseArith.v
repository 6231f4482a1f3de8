(** C67: arithmetic in Chinese words. *)
From Coq Require Import Permutation.
From Verif Require Import Base ModelTypes ModelText ModelEarley ModelTrees ModelApi ModelSem ModelMath ModelFuncs ModelReader ModelGrammar ModelMatch ModelLocal
  SpecTypes SpecGrammar SpecTree SpecNotation SpecRefine SpecConstruct SpecSem SpecNode SpecApi SpecLocal SpecFuncs SpecEnd SpecMath SpecMeaning ModelShipped SpecShipped SpecNames SpecFrameText
  ProofMeaning ProofChineseArithCalls ProofChineseArithLeftCalls ProofChineseArithRefute Examples ExamplesLocal ExamplesMath ExamplesGrammar ExamplesShipped ExamplesArith ExamplesEnglish ExamplesNames ExamplesChinese
  SpecArith SpecWorth SpecWordArith SpecChinese SpecChineseArith ExamplesChineseArith.
Local Open Scope list_scope.

(** Chinese numerals with 加, 减 and 乘 between them are one parse over all tokens.
    Every tree is worth what the text means with some brackets. *)
Theorem C67_chinese_arithmetic : forall e, env_ok e -> fractions_scan e -> e_regexp_ok e sf_pattern = true -> texts_have_tokens e -> words_are_tokens (e_tokenize e) cn_sum_words -> double_token (e_tokenize e) ->
  (forall v, In v cn_others -> foreign (e_tokenize e) cn_sum_words v) ->
  String.prefix "g_t" (e_md5 e sf_pattern) = false -> hashes_apart e math_math_zh -> hashes_apart e math_number_zh ->
  names_between e math_math_zh math_number_zh ->
  forall dir fuel0 depth0 gt g w', installed e dir dir_math ->
  from_file e fuel0 depth0 (e_join e dir "math.zh.grammar") gt = Ret (Some g, w') ->
  forall gtokens to_lower ords, orders ords ->
  forall find_all span_text ord, (forall i l, Permutation l (ord i l)) ->
  forall annotate ctx text d, trim_space text <> "" -> annotate ctx (trim_space text) = Ret d ->
  fit_document (e_hash e) find_all (g_regexps g) d -> (forall x, In x cn_sum_names -> ~ tagged d x /\ forall pat, ~ In (x, pat) (g_regexps g)) ->
  forall join_words float_string json is_print_hi scan rcall, scans_floats scan -> math_registered scan rcall ->
  forall n rest, cn_chain (map tok_text (content d)) n rest ->
  exists p ref ts N m, (forall steps fuel, N <= fuel -> length (content d) < steps ->
      EarleyParseMaxAll (terminal_match gtokens to_lower) ords (all_rules g) (doc_tokens annotate)
        (doc_local (e_hash e) find_all span_text (g_regexps g) ord annotate ctx text) steps fuel ctx text ["number"%string] = Ret [p]) /\
    p_finals p = [ref] /\ (forall fuel, m <= fuel -> get_trees (p_columns p) fuel ref = Ret ts) /\ ts <> [] /\
    forall t, In t ts -> exists b x, meant n rest b /\ value x = value b /\
      semantic p join_words float_string json is_print_hi (Call rcall) t = Ret (formula x) /\
      (modest b -> exists s, numeral (value b) s /\ eval p join_words float_string (Call rcall) t = Ret (DStr s)).
Proof. exact sum_call. Qed.
Print Assumptions C67_chinese_arithmetic.

Example C67_example :
  env_ok (senv dir_math) /\ fractions_scan (senv dir_math) /\ e_regexp_ok (senv dir_math) sf_pattern = true /\ texts_have_tokens (senv dir_math) /\
  words_are_tokens (e_tokenize (senv dir_math)) cn_sum_words /\ double_token (e_tokenize (senv dir_math)) /\ (forall v, In v cn_others -> foreign (e_tokenize (senv dir_math)) cn_sum_words v) /\
  String.prefix "g_t" (e_md5 (senv dir_math) sf_pattern) = false /\ hashes_apart (senv dir_math) math_math_zh /\ hashes_apart (senv dir_math) math_number_zh /\
  names_between (senv dir_math) math_math_zh math_number_zh /\
  installed (senv dir_math) "d" dir_math /\
  from_file (senv dir_math) 4000 9 (e_join (senv dir_math) "d" "math.zh.grammar") [] = Ret (Some zm_grammar, zm_world) /\ g_regexps zm_grammar = [] /\
  scans_floats xscan_float /\ math_registered xscan_float xmath.
Proof.
  split; [apply senv_ok|]. split; [apply senv_fractions|]. split; [reflexivity|]. split; [apply senv_texts|]. split; [apply senv_cn_sum_words|]. split; [apply senv_double|]. split; [apply senv_cn_foreign|].
  split; [reflexivity|]. split; [exact (proj1 zm_hashes)|]. split; [exact (proj2 zm_hashes)|]. split; [exact zm_between|]. split; [exact en_installed|]. split; [exact zm_load|].
  split; [reflexivity|]. split; [exact xscan_float_ok|exact xmath_registered].
Qed.
Example C67_text :
  fit_document ExamplesGrammar.xhash xfind (g_regexps zm_grammar) (word_doc zm_text) /\ (forall x, ~ tagged (word_doc zm_text) x) /\
  cn_chain (map tok_text (content (word_doc zm_text))) 2 [(Plus, 3); (Times, 4)]%Z /\
  zm_texts zm_text = Some [[[("nf.math.mul(nf.math.sum(2, 3), 4)", "20"); ("nf.math.sum(2, nf.math.mul(3, 4))", "14")]]]%string.
Proof.
  split; [apply word_fit; [discriminate|vm_compute; reflexivity|vm_compute; reflexivity]|]. split; [intros x; apply word_untagged|]. split; [exact zm_chain|]. vm_compute. reflexivity.
Qed.

(** The value from left to right is always among those of the trees. *)
Theorem C67_left_to_right : forall e, env_ok e -> fractions_scan e -> e_regexp_ok e sf_pattern = true -> texts_have_tokens e -> words_are_tokens (e_tokenize e) cn_sum_words -> double_token (e_tokenize e) ->
  (forall v, In v cn_others -> foreign (e_tokenize e) cn_sum_words v) ->
  String.prefix "g_t" (e_md5 e sf_pattern) = false -> hashes_apart e math_math_zh -> hashes_apart e math_number_zh ->
  names_between e math_math_zh math_number_zh ->
  forall dir fuel0 depth0 gt g w', installed e dir dir_math ->
  from_file e fuel0 depth0 (e_join e dir "math.zh.grammar") gt = Ret (Some g, w') ->
  forall gtokens to_lower ords, orders ords ->
  forall find_all span_text ord, (forall i l, Permutation l (ord i l)) ->
  forall annotate ctx text d, trim_space text <> "" -> annotate ctx (trim_space text) = Ret d ->
  fit_document (e_hash e) find_all (g_regexps g) d -> (forall x, In x cn_sum_names -> ~ tagged d x /\ forall pat, ~ In (x, pat) (g_regexps g)) ->
  forall join_words float_string json is_print_hi scan rcall, scans_floats scan -> math_registered scan rcall ->
  forall n rest, cn_chain (map tok_text (content d)) n rest ->
  exists p ref ts N m, (forall steps fuel, N <= fuel -> length (content d) < steps ->
      EarleyParseMaxAll (terminal_match gtokens to_lower) ords (all_rules g) (doc_tokens annotate)
        (doc_local (e_hash e) find_all span_text (g_regexps g) ord annotate ctx text) steps fuel ctx text ["number"%string] = Ret [p]) /\
    p_finals p = [ref] /\ (forall fuel, m <= fuel -> get_trees (p_columns p) fuel ref = Ret ts) /\
    exists t x, In t ts /\ value x = value (from_left n rest) /\
      semantic p join_words float_string json is_print_hi (Call rcall) t = Ret (formula x) /\
      (modest (from_left n rest) -> exists s, numeral (value (from_left n rest)) s /\ eval p join_words float_string (Call rcall) t = Ret (DStr s)).
Proof. exact left_call. Qed.
Print Assumptions C67_left_to_right.

Example C67_left_example : value (from_left 2 [(Plus, 3); (Times, 4)]%Z) = 20%Z /\ modest (from_left 2 [(Plus, 3); (Times, 4)]%Z) /\
  cn_chain (map tok_text (content (word_doc zm_text))) 2 [(Plus, 3); (Times, 4)]%Z /\ In ("nf.math.mul(nf.math.sum(2, 3), 4)"%string, "20"%string)
    (concat (concat (match zm_texts zm_text with Some l => l | None => [] end))).
Proof.
  split; [reflexivity|]. split; [cbn; unfold small; repeat split; try lia; intros; lia|]. split; [exact zm_chain|]. vm_compute. left. reflexivity.
Qed.

(** All trees of a sum are worth the sum. *)
Theorem C67_sums : forall e, env_ok e -> fractions_scan e -> e_regexp_ok e sf_pattern = true -> texts_have_tokens e -> words_are_tokens (e_tokenize e) cn_sum_words -> double_token (e_tokenize e) ->
  (forall v, In v cn_others -> foreign (e_tokenize e) cn_sum_words v) ->
  String.prefix "g_t" (e_md5 e sf_pattern) = false -> hashes_apart e math_math_zh -> hashes_apart e math_number_zh ->
  names_between e math_math_zh math_number_zh ->
  forall dir fuel0 depth0 gt g w', installed e dir dir_math ->
  from_file e fuel0 depth0 (e_join e dir "math.zh.grammar") gt = Ret (Some g, w') ->
  forall gtokens to_lower ords, orders ords ->
  forall find_all span_text ord, (forall i l, Permutation l (ord i l)) ->
  forall annotate ctx text d, trim_space text <> "" -> annotate ctx (trim_space text) = Ret d ->
  fit_document (e_hash e) find_all (g_regexps g) d -> (forall x, In x cn_sum_names -> ~ tagged d x /\ forall pat, ~ In (x, pat) (g_regexps g)) ->
  forall join_words float_string json is_print_hi scan rcall, scans_floats scan -> math_registered scan rcall ->
  forall n rest, cn_chain (map tok_text (content d)) n rest -> Forall (fun om => fst om = Plus) rest ->
  exists p ref ts N m, (forall steps fuel, N <= fuel -> length (content d) < steps ->
      EarleyParseMaxAll (terminal_match gtokens to_lower) ords (all_rules g) (doc_tokens annotate)
        (doc_local (e_hash e) find_all span_text (g_regexps g) ord annotate ctx text) steps fuel ctx text ["number"%string] = Ret [p]) /\
    p_finals p = [ref] /\ (forall fuel, m <= fuel -> get_trees (p_columns p) fuel ref = Ret ts) /\ ts <> [] /\
    forall t, In t ts -> exists x, value x = sum_of n rest /\
      semantic p join_words float_string json is_print_hi (Call rcall) t = Ret (formula x) /\
      ((sum_of n rest < 10 ^ 10)%Z -> exists s, numeral (sum_of n rest) s /\ eval p join_words float_string (Call rcall) t = Ret (DStr s)).
Proof. exact plus_call. Qed.
Print Assumptions C67_sums.

Example C67_sums_example :
  fit_document ExamplesGrammar.xhash xfind (g_regexps zm_grammar) (word_doc zm_sum) /\ (forall x, ~ tagged (word_doc zm_sum) x) /\
  cn_chain (map tok_text (content (word_doc zm_sum))) 20000 [(Plus, 305); (Plus, 12)]%Z /\ Forall (fun om : operation * Z => fst om = Plus) [(Plus, 305); (Plus, 12)]%Z /\
  sum_of 20000 [(Plus, 305); (Plus, 12)]%Z = 20317%Z /\
  zm_texts zm_sum = Some [[[("nf.math.sum(nf.math.sum(nf.math.mul(2, 10000), nf.math.sum(nf.math.mul(3, 100), 5)), nf.math.sum(10, 2))", "20317");
                            ("nf.math.sum(nf.math.mul(2, 10000), nf.math.sum(nf.math.sum(nf.math.mul(3, 100), 5), nf.math.sum(10, 2)))", "20317")]]]%string.
Proof.
  split; [apply word_fit; [discriminate|vm_compute; reflexivity|vm_compute; reflexivity]|]. split; [intros x; apply word_untagged|]. split; [exact zm_sum_chain|].
  split; [repeat constructor|]. split; [reflexivity|]. vm_compute. reflexivity.
Qed.

(** With one operation, all trees are worth its result. *)
Theorem C67_one_operation : forall e, env_ok e -> fractions_scan e -> e_regexp_ok e sf_pattern = true -> texts_have_tokens e -> words_are_tokens (e_tokenize e) cn_sum_words -> double_token (e_tokenize e) ->
  (forall v, In v cn_others -> foreign (e_tokenize e) cn_sum_words v) ->
  String.prefix "g_t" (e_md5 e sf_pattern) = false -> hashes_apart e math_math_zh -> hashes_apart e math_number_zh ->
  names_between e math_math_zh math_number_zh ->
  forall dir fuel0 depth0 gt g w', installed e dir dir_math ->
  from_file e fuel0 depth0 (e_join e dir "math.zh.grammar") gt = Ret (Some g, w') ->
  forall gtokens to_lower ords, orders ords ->
  forall find_all span_text ord, (forall i l, Permutation l (ord i l)) ->
  forall annotate ctx text d, trim_space text <> "" -> annotate ctx (trim_space text) = Ret d ->
  fit_document (e_hash e) find_all (g_regexps g) d -> (forall x, In x cn_sum_names -> ~ tagged d x /\ forall pat, ~ In (x, pat) (g_regexps g)) ->
  forall join_words float_string json is_print_hi scan rcall, scans_floats scan -> math_registered scan rcall ->
  forall n o k, cn_chain (map tok_text (content d)) n [(o, k)] ->
  exists p ref ts N m, (forall steps fuel, N <= fuel -> length (content d) < steps ->
      EarleyParseMaxAll (terminal_match gtokens to_lower) ords (all_rules g) (doc_tokens annotate)
        (doc_local (e_hash e) find_all span_text (g_regexps g) ord annotate ctx text) steps fuel ctx text ["number"%string] = Ret [p]) /\
    p_finals p = [ref] /\ (forall fuel, m <= fuel -> get_trees (p_columns p) fuel ref = Ret ts) /\ ts <> [] /\
    forall t, In t ts -> exists x, value x = value (Binary o (Number n) (Number k)) /\
      semantic p join_words float_string json is_print_hi (Call rcall) t = Ret (formula x) /\
      (small n -> small k -> small (value x) -> exists s, numeral (value x) s /\ eval p join_words float_string (Call rcall) t = Ret (DStr s)).
Proof. exact one_call. Qed.
Print Assumptions C67_one_operation.

Example C67_one_example :
  fit_document ExamplesGrammar.xhash xfind (g_regexps zm_grammar) (word_doc zm_less) /\ (forall x, ~ tagged (word_doc zm_less) x) /\
  cn_chain (map tok_text (content (word_doc zm_less))) 10 [(Minus, 12)]%Z /\
  zm_texts zm_less = Some [[[("nf.math.sub(10, nf.math.sum(10, 2))", "-2")]]]%string.
Proof.
  split; [apply word_fit; [discriminate|vm_compute; reflexivity|vm_compute; reflexivity]|]. split; [intros x; apply word_untagged|]. split; [exact zm_less_chain|]. vm_compute. reflexivity.
Qed.

(** The first tree of 二加三乘四 is worth 20, not 14. *)
Theorem C67_precedence_refuted : ~ (forall e, env_ok e -> fractions_scan e -> e_regexp_ok e sf_pattern = true -> texts_have_tokens e -> words_are_tokens (e_tokenize e) cn_sum_words -> double_token (e_tokenize e) ->
  (forall v, In v cn_others -> foreign (e_tokenize e) cn_sum_words v) ->
  String.prefix "g_t" (e_md5 e sf_pattern) = false -> hashes_apart e math_math_zh -> hashes_apart e math_number_zh ->
  names_between e math_math_zh math_number_zh ->
  forall dir fuel0 depth0 gt g w', installed e dir dir_math ->
  from_file e fuel0 depth0 (e_join e dir "math.zh.grammar") gt = Ret (Some g, w') ->
  forall gtokens to_lower ords, orders ords ->
  forall find_all span_text ord, (forall i l, Permutation l (ord i l)) ->
  forall annotate ctx text d, trim_space text <> "" -> annotate ctx (trim_space text) = Ret d ->
  fit_document (e_hash e) find_all (g_regexps g) d -> (forall x, In x cn_sum_names -> ~ tagged d x /\ forall pat, ~ In (x, pat) (g_regexps g)) ->
  forall join_words float_string scan rcall, scans_floats scan -> math_registered scan rcall ->
  forall n rest, cn_chain (map tok_text (content d)) n rest ->
  forall steps fuel p ref m ts t, EarleyParseMaxAll (terminal_match gtokens to_lower) ords (all_rules g) (doc_tokens annotate)
        (doc_local (e_hash e) find_all span_text (g_regexps g) ord annotate ctx text) steps fuel ctx text ["number"%string] = Ret [p] ->
  p_finals p = [ref] -> get_trees (p_columns p) m ref = Ret ts -> In t ts ->
  exists s, numeral (usual_value n rest) s /\ eval p join_words float_string (Call rcall) t = Ret (DStr s)).
Proof. exact no_precedence. Qed.
Print Assumptions C67_precedence_refuted.
