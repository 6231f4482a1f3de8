(** C59: Chinese numerals. *)
From Coq Require Import Permutation.
From Verif Require Import Base ModelTypes ModelText ModelEarley ModelTrees ModelApi ModelSem ModelMath ModelFuncs ModelReader ModelGrammar ModelMatch ModelLocal
  SpecTypes SpecGrammar SpecTree SpecNotation SpecRefine SpecConstruct SpecSem SpecNode SpecApi SpecLocal SpecFuncs SpecEnd SpecMath SpecMeaning ModelShipped SpecShipped SpecFrameText
  ProofMeaning ProofChinese ProofChineseCalls ProofChineseRefute Examples ExamplesLocal ExamplesMath ExamplesGrammar ExamplesShipped ExamplesArith ExamplesEnglish ExamplesChinese
  SpecArith SpecWorth SpecChinese.
Local Open Scope list_scope.

(** A text that is the numeral of a number is one parse over all tokens, and all its trees are
    worth that number: Semantic is a formula with that value, and Eval the decimal numeral,
    if it has at most ten digits. *)
Theorem C59_numerals : forall e, env_ok e -> fractions_scan e -> e_regexp_ok e sf_pattern = true -> texts_have_tokens e ->
  words_are_tokens (e_tokenize e) cn_words -> double_token (e_tokenize e) ->
  String.prefix "g_t" (e_md5 e sf_pattern) = false ->
  (forall x, NoDup (map (e_hash e) (written chinese_items false x))) ->
  forall dir fuel0 depth0 gt g w', installed e dir dir_math ->
  from_file e fuel0 depth0 (e_join e dir "number.zh.grammar") gt = Ret (Some g, w') ->
  forall gtokens to_lower ords, orders ords ->
  forall find_all span_text ord, (forall i l, Permutation l (ord i l)) ->
  forall annotate ctx text d, trim_space text <> "" -> annotate ctx (trim_space text) = Ret d ->
  fit_document (e_hash e) find_all [] d -> (forall x, In x chinese_names -> ~ tagged d x) ->
  forall join_words float_string json is_print_hi scan rcall, scans_floats scan -> math_registered scan rcall ->
  forall n, chinese (map tok_text (content d)) n ->
  exists p ref ts N m, (forall steps fuel, N <= fuel -> length (content d) < steps ->
      EarleyParseMaxAll (terminal_match gtokens to_lower) ords (all_rules g) (doc_tokens annotate)
        (doc_local (e_hash e) find_all span_text (g_regexps g) ord annotate ctx text) steps fuel ctx text ["number"%string] = Ret [p]) /\
    p_finals p = [ref] /\ (forall fuel, m <= fuel -> get_trees (p_columns p) fuel ref = Ret ts) /\ ts <> [] /\
    forall t, In t ts -> exists x, value x = n /\
      semantic p join_words float_string json is_print_hi (Call rcall) t = Ret (formula x) /\
      ((n < 10 ^ 10)%Z -> exists s, numeral n s /\ eval p join_words float_string (Call rcall) t = Ret (DStr s)).
Proof. exact chinese_call. Qed.
Print Assumptions C59_numerals.

Example C59_example :
  env_ok (senv dir_math) /\ fractions_scan (senv dir_math) /\ e_regexp_ok (senv dir_math) sf_pattern = true /\ texts_have_tokens (senv dir_math) /\
  words_are_tokens (e_tokenize (senv dir_math)) cn_words /\ double_token (e_tokenize (senv dir_math)) /\ String.prefix "g_t" (e_md5 (senv dir_math) sf_pattern) = false /\
  (forall x, NoDup (map (e_hash (senv dir_math)) (written chinese_items false x))) /\ installed (senv dir_math) "d" dir_math /\
  from_file (senv dir_math) 4000 9 (e_join (senv dir_math) "d" "number.zh.grammar") [] = Ret (Some zh_grammar, zh_world) /\
  fit_document ExamplesGrammar.xhash xfind [] (word_doc zh_text) /\ (forall x, ~ tagged (word_doc zh_text) x) /\
  scans_floats xscan_float /\ math_registered xscan_float xmath /\
  chinese (map tok_text (content (word_doc zh_text))) 200305012 /\
  zh_texts zh_text = Some [[[("nf.math.sum(nf.math.mul(2, 100000000), nf.math.sum(nf.math.mul(nf.math.mul(3, 10), 10000), nf.math.sum(nf.math.mul(5, 1000), nf.math.sum(nf.math.mul(1, 10), 2))))",
                             "200305012")]]]%string.
Proof.
  split; [apply senv_ok|]. split; [apply senv_fractions|]. split; [reflexivity|]. split; [apply senv_texts|]. split; [apply senv_chinese_tokens|]. split; [apply senv_double|].
  split; [reflexivity|]. split; [apply senv_chinese_hashes|]. split; [exact en_installed|]. split; [exact zh_load|].
  split; [apply word_fit; [discriminate|vm_compute; reflexivity|vm_compute; reflexivity]|]. split; [intros x; apply word_untagged|].
  split; [exact xscan_float_ok|]. split; [exact xmath_registered|]. split; [exact zh_chinese|]. vm_compute. reflexivity.
Qed.

(** Every number below 10^16 has a numeral, and no numeral is that of two numbers. *)
Theorem C59_all_numbers : (forall n, (0 <= n < 10 ^ 16)%Z -> exists ws, chinese ws n) /\
  (forall ws n n', chinese ws n -> chinese ws n' -> n = n').
Proof. exact (conj chinese_exists chinese_functional). Qed.
Print Assumptions C59_all_numbers.

Example C59_all_numbers_example : chinese (map tok_text (content (word_doc zh_text))) 200305012.
Proof. exact zh_chinese. Qed.

(** A hundred times 10^8 are eleven digits: the value is "1e+10". *)
Theorem C59_large_refuted : ~ (forall e, env_ok e -> fractions_scan e -> e_regexp_ok e sf_pattern = true -> texts_have_tokens e ->
  words_are_tokens (e_tokenize e) cn_words -> double_token (e_tokenize e) ->
  String.prefix "g_t" (e_md5 e sf_pattern) = false ->
  (forall x, NoDup (map (e_hash e) (written chinese_items false x))) ->
  forall dir fuel0 depth0 gt g w', installed e dir dir_math ->
  from_file e fuel0 depth0 (e_join e dir "number.zh.grammar") gt = Ret (Some g, w') ->
  forall to_lower ords, orders ords ->
  forall find_all span_text ord, (forall i l, Permutation l (ord i l)) ->
  forall annotate ctx text d, trim_space text <> "" -> annotate ctx (trim_space text) = Ret d ->
  fit_document (e_hash e) find_all [] d -> (forall x, In x chinese_names -> ~ tagged d x) ->
  forall join_words float_string scan rcall, scans_floats scan -> math_registered scan rcall ->
  forall n, chinese (map tok_text (content d)) n ->
  forall steps fuel p ref m ts t, EarleyParseMaxAll (terminal_match (lookup (w_tokens w')) to_lower) ords (all_rules g) (doc_tokens annotate)
        (doc_local (e_hash e) find_all span_text (g_regexps g) ord annotate ctx text) steps fuel ctx text ["number"%string] = Ret [p] ->
  p_finals p = [ref] -> get_trees (p_columns p) m ref = Ret ts -> In t ts ->
  exists s, numeral n s /\ eval p join_words float_string (Call rcall) t = Ret (DStr s)).
Proof. exact chinese_not_large. Qed.
Print Assumptions C59_large_refuted.

(** Outside of the numerals the rules are ambiguous, and not every reading is a tree: 一百二
    is read as 120 and as 102, and the only tree is that of 120. *)
Theorem C59_all_readings_refuted : ~ (forall e, env_ok e -> fractions_scan e -> e_regexp_ok e sf_pattern = true -> texts_have_tokens e ->
  words_are_tokens (e_tokenize e) cn_words -> double_token (e_tokenize e) ->
  String.prefix "g_t" (e_md5 e sf_pattern) = false ->
  (forall x, NoDup (map (e_hash e) (written chinese_items false x))) ->
  forall dir fuel0 depth0 gt g w', installed e dir dir_math ->
  from_file e fuel0 depth0 (e_join e dir "number.zh.grammar") gt = Ret (Some g, w') ->
  forall to_lower ords, orders ords ->
  forall find_all span_text ord, (forall i l, Permutation l (ord i l)) ->
  forall annotate ctx text d, trim_space text <> "" -> annotate ctx (trim_space text) = Ret d ->
  fit_document (e_hash e) find_all [] d -> (forall x, In x chinese_names -> ~ tagged d x) ->
  forall join_words float_string json is_print_hi scan rcall, scans_floats scan -> math_registered scan rcall ->
  forall L x, e_parts e math_number_zh g L ->
  worth (e_tokenize e) (terminal_match (lookup (w_tokens w')) to_lower) (map rd_before L) (content d) "number" 0 (length (content d)) x ->
  forall steps fuel p ref m ts, EarleyParseMaxAll (terminal_match (lookup (w_tokens w')) to_lower) ords (all_rules g) (doc_tokens annotate)
        (doc_local (e_hash e) find_all span_text (g_regexps g) ord annotate ctx text) steps fuel ctx text ["number"%string] = Ret [p] ->
  p_finals p = [ref] -> get_trees (p_columns p) m ref = Ret ts ->
  exists t, In t ts /\ semantic p join_words float_string json is_print_hi (Call rcall) t = Ret (formula x)).
Proof. exact chinese_lost_reading. Qed.
Print Assumptions C59_all_readings_refuted.
