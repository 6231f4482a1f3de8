(** C64: simple Chinese numerals in any text. *)
From Coq Require Import Permutation.
From Verif Require Import Base ModelTypes ModelText ModelEarley ModelTrees ModelApi ModelSem ModelMath ModelFuncs ModelReader ModelGrammar ModelMatch ModelLocal
  SpecTypes SpecGrammar SpecTree SpecNotation SpecRefine SpecConstruct SpecSem SpecNode SpecApi SpecLocal SpecFuncs SpecEnd SpecMath SpecMeaning ModelShipped SpecShipped SpecFrameText
  ProofMeaning ProofCnNum ProofCnNumCalls ProofCnNumRefute Examples ExamplesLocal ExamplesMath ExamplesGrammar ExamplesShipped ExamplesArith ExamplesEnglish ExamplesChinese ExamplesCnNum
  SpecArith SpecWorth SpecChinese SpecCnNum.
Local Open Scope list_scope.

(** The parses of any text are its simple numerals: from left to right the longest numeral at
    its place, none between them; all trees of a parse are worth its number: Semantic is a
    formula with that value, and Eval the decimal numeral, if it has at most ten digits. *)
Theorem C64_numerals : forall e, env_ok e -> fractions_scan e -> e_regexp_ok e sf_pattern = true -> texts_have_tokens e ->
  words_are_tokens (e_tokenize e) s_words -> String.prefix "g_t" (e_md5 e sf_pattern) = false ->
  (forall x, NoDup (map (e_hash e) (written cn_num_items false x))) ->
  forall dir fuel0 depth0 gt g w', installed e dir dir_builtin ->
  from_file e fuel0 depth0 (e_join e dir "cn_num.grammar") gt = Ret (Some g, w') ->
  forall gtokens to_lower ords, orders ords ->
  forall find_all span_text ord, (forall i l, Permutation l (ord i l)) ->
  forall annotate ctx text d, trim_space text <> "" -> annotate ctx (trim_space text) = Ret d ->
  fit_document (e_hash e) find_all [] d -> (forall x, In x cn_num_names -> ~ tagged d x) ->
  forall join_words float_string json is_print_hi scan rcall, scans_floats scan -> math_registered scan rcall ->
  exists ps N, (forall steps fuel, N <= fuel -> length (content d) < steps ->
      EarleyParseMaxAll (terminal_match gtokens to_lower) ords (all_rules g) (doc_tokens annotate)
        (doc_local (e_hash e) find_all span_text (g_regexps g) ord annotate ctx text) steps fuel ctx text ["number"%string] = Ret ps) /\
    exists spans, tiles 0 spans /\
      Forall2 (fun im p => exists q r n, skipn (fst im) (map tok_text (content d)) = q ++ r /\ length q = snd im /\ simple q n /\
          (forall q' r' n', skipn (fst im) (map tok_text (content d)) = q' ++ r' -> simple q' n' -> length q' <= length q) /\
          exists ref ts m, p_finals p = [ref] /\ (forall fuel, m <= fuel -> get_trees (p_columns p) fuel ref = Ret ts) /\ ts <> [] /\
            forall t, In t ts -> exists x, value x = n /\
              semantic p join_words float_string json is_print_hi (Call rcall) t = Ret (formula x) /\
              ((n < 10 ^ 10)%Z -> exists s, numeral n s /\ eval p join_words float_string (Call rcall) t = Ret (DStr s))) spans ps /\
      (forall i q r n, ~ covered spans i -> skipn i (map tok_text (content d)) = q ++ r -> ~ simple q n).
Proof. exact cn_num_call. Qed.
Print Assumptions C64_numerals.

(** three numerals with other words between them *)
Example C64_example :
  env_ok (senv dir_builtin) /\ fractions_scan (senv dir_builtin) /\ e_regexp_ok (senv dir_builtin) sf_pattern = true /\ texts_have_tokens (senv dir_builtin) /\
  words_are_tokens (e_tokenize (senv dir_builtin)) s_words /\ String.prefix "g_t" (e_md5 (senv dir_builtin) sf_pattern) = false /\
  (forall x, NoDup (map (e_hash (senv dir_builtin)) (written cn_num_items false x))) /\ installed (senv dir_builtin) "d" dir_builtin /\
  from_file (senv dir_builtin) 4000 9 (e_join (senv dir_builtin) "d" "cn_num.grammar") [] = Ret (Some cnn_grammar, cnn_world) /\
  scans_floats xscan_float /\ math_registered xscan_float xmath /\
  fit_document ExamplesGrammar.xhash xfind [] (word_doc cnn_text) /\ (forall x, ~ tagged (word_doc cnn_text) x) /\
  cnn_texts cnn_text = Some
    [[[("nf.math.sum(nf.math.mul(2, 100000000), nf.math.sum(nf.math.mul(nf.math.mul(3, 10), 10000), nf.math.sum(nf.math.mul(5, 1000), nf.math.sum(nf.math.mul(1, 10), 2))))",
        "200305012")]];
     [[("nf.math.sum(nf.math.mul(1, 100), 2)", "102")]];
     [[("nf.math.sum(nf.math.mul(1, 10), 5)", "15")]]]%string.
Proof.
  split; [apply senv_ok|]. split; [apply senv_fractions|]. split; [reflexivity|]. split; [apply senv_texts|]. split; [apply senv_simple_tokens|].
  split; [reflexivity|]. split; [apply senv_cnn_hashes|]. split; [exact cnn_installed|]. split; [exact cnn_load|].
  split; [exact xscan_float_ok|]. split; [exact xmath_registered|].
  split; [apply word_fit; [discriminate|vm_compute; reflexivity|vm_compute; reflexivity]|]. split; [intros x; apply word_untagged|]. vm_compute. reflexivity.
Qed.

(** A text that is the simple numeral of a number is one parse over all tokens, and all its
    trees are worth that number. *)
Theorem C64_whole : forall e, env_ok e -> fractions_scan e -> e_regexp_ok e sf_pattern = true -> texts_have_tokens e ->
  words_are_tokens (e_tokenize e) s_words -> String.prefix "g_t" (e_md5 e sf_pattern) = false ->
  (forall x, NoDup (map (e_hash e) (written cn_num_items false x))) ->
  forall dir fuel0 depth0 gt g w', installed e dir dir_builtin ->
  from_file e fuel0 depth0 (e_join e dir "cn_num.grammar") gt = Ret (Some g, w') ->
  forall gtokens to_lower ords, orders ords ->
  forall find_all span_text ord, (forall i l, Permutation l (ord i l)) ->
  forall annotate ctx text d, trim_space text <> "" -> annotate ctx (trim_space text) = Ret d ->
  fit_document (e_hash e) find_all [] d -> (forall x, In x cn_num_names -> ~ tagged d x) ->
  forall join_words float_string json is_print_hi scan rcall, scans_floats scan -> math_registered scan rcall ->
  forall n, simple (map tok_text (content d)) n ->
  exists p ref ts N m, (forall steps fuel, N <= fuel -> length (content d) < steps ->
      EarleyParseMaxAll (terminal_match gtokens to_lower) ords (all_rules g) (doc_tokens annotate)
        (doc_local (e_hash e) find_all span_text (g_regexps g) ord annotate ctx text) steps fuel ctx text ["number"%string] = Ret [p]) /\
    p_finals p = [ref] /\ (forall fuel, m <= fuel -> get_trees (p_columns p) fuel ref = Ret ts) /\ ts <> [] /\
    forall t, In t ts -> exists x, value x = n /\
      semantic p join_words float_string json is_print_hi (Call rcall) t = Ret (formula x) /\
      ((n < 10 ^ 10)%Z -> exists s, numeral n s /\ eval p join_words float_string (Call rcall) t = Ret (DStr s)).
Proof. exact cn_num_whole. Qed.
Print Assumptions C64_whole.

Example C64_whole_example :
  env_ok (senv dir_builtin) /\ fractions_scan (senv dir_builtin) /\ e_regexp_ok (senv dir_builtin) sf_pattern = true /\ texts_have_tokens (senv dir_builtin) /\
  words_are_tokens (e_tokenize (senv dir_builtin)) s_words /\ String.prefix "g_t" (e_md5 (senv dir_builtin) sf_pattern) = false /\
  (forall x, NoDup (map (e_hash (senv dir_builtin)) (written cn_num_items false x))) /\ installed (senv dir_builtin) "d" dir_builtin /\
  from_file (senv dir_builtin) 4000 9 (e_join (senv dir_builtin) "d" "cn_num.grammar") [] = Ret (Some cnn_grammar, cnn_world) /\
  scans_floats xscan_float /\ math_registered xscan_float xmath /\
  fit_document ExamplesGrammar.xhash xfind [] (word_doc zh_text) /\ (forall x, ~ tagged (word_doc zh_text) x) /\
  simple (map tok_text (content (word_doc zh_text))) 200305012 /\
  cnn_texts zh_text = Some
    [[[("nf.math.sum(nf.math.mul(2, 100000000), nf.math.sum(nf.math.mul(nf.math.mul(3, 10), 10000), nf.math.sum(nf.math.mul(5, 1000), nf.math.sum(nf.math.mul(1, 10), 2))))",
        "200305012")]]]%string.
Proof.
  split; [apply senv_ok|]. split; [apply senv_fractions|]. split; [reflexivity|]. split; [apply senv_texts|]. split; [apply senv_simple_tokens|].
  split; [reflexivity|]. split; [apply senv_cnn_hashes|]. split; [exact cnn_installed|]. split; [exact cnn_load|].
  split; [exact xscan_float_ok|]. split; [exact xmath_registered|].
  split; [apply word_fit; [discriminate|vm_compute; reflexivity|vm_compute; reflexivity]|]. split; [intros x; apply word_untagged|].
  split; [exact cnn_simple|]. vm_compute. reflexivity.
Qed.

(** Every number from 1 to 10^16 - 1 has a simple numeral, and none is that of two numbers; a
    Chinese numeral that is simple has the same value, and the numbers below 10000 have one. *)
Theorem C64_all_numbers : (forall n, (1 <= n < 10 ^ 16)%Z -> exists ws, simple ws n) /\
  (forall ws n n', simple ws n -> simple ws n' -> n = n') /\
  (forall ws n n', chinese ws n -> simple ws n' -> n' = n) /\
  (forall n, (1 <= n < 10000)%Z -> exists ws, simple ws n /\ chinese ws n).
Proof. exact (conj simple_exists (conj simple_functional (conj simple_chinese simple_standard))). Qed.
Print Assumptions C64_all_numbers.

Example C64_all_numbers_example : simple (map tok_text (content (word_doc zh_text))) 200305012 /\ chinese (map tok_text (content (word_doc zh_text))) 200305012.
Proof. exact (conj cnn_simple zh_chinese). Qed.

(** Chinese numerals in the words of the file are not always one parse: 十五 is 10 and 5, *)
Theorem C64_teens_refuted : ~ (forall e, env_ok e -> fractions_scan e -> e_regexp_ok e sf_pattern = true -> texts_have_tokens e ->
  words_are_tokens (e_tokenize e) s_words -> String.prefix "g_t" (e_md5 e sf_pattern) = false ->
  (forall x, NoDup (map (e_hash e) (written cn_num_items false x))) ->
  forall dir fuel0 depth0 gt g w', installed e dir dir_builtin ->
  from_file e fuel0 depth0 (e_join e dir "cn_num.grammar") gt = Ret (Some g, w') ->
  forall to_lower ords, orders ords ->
  forall find_all span_text ord, (forall i l, Permutation l (ord i l)) ->
  forall annotate ctx text d, trim_space text <> "" -> annotate ctx (trim_space text) = Ret d ->
  fit_document (e_hash e) find_all [] d -> (forall x, In x cn_num_names -> ~ tagged d x) ->
  forall n, (1 <= n <= 99)%Z -> chinese (map tok_text (content d)) n -> Forall (fun w => In w s_words) (map tok_text (content d)) ->
  forall steps fuel ps, EarleyParseMaxAll (terminal_match (lookup (w_tokens w')) to_lower) ords (all_rules g) (doc_tokens annotate)
        (doc_local (e_hash e) find_all span_text (g_regexps g) ord annotate ctx text) steps fuel ctx text ["number"%string] = Ret ps ->
  length ps = 1).
Proof. exact teens_lost. Qed.
Print Assumptions C64_teens_refuted.

(** and 一万零一 is 10000 and 1. *)
Theorem C64_gaps_refuted : ~ (forall e, env_ok e -> fractions_scan e -> e_regexp_ok e sf_pattern = true -> texts_have_tokens e ->
  words_are_tokens (e_tokenize e) s_words -> String.prefix "g_t" (e_md5 e sf_pattern) = false ->
  (forall x, NoDup (map (e_hash e) (written cn_num_items false x))) ->
  forall dir fuel0 depth0 gt g w', installed e dir dir_builtin ->
  from_file e fuel0 depth0 (e_join e dir "cn_num.grammar") gt = Ret (Some g, w') ->
  forall to_lower ords, orders ords ->
  forall find_all span_text ord, (forall i l, Permutation l (ord i l)) ->
  forall annotate ctx text d, trim_space text <> "" -> annotate ctx (trim_space text) = Ret d ->
  fit_document (e_hash e) find_all [] d -> (forall x, In x cn_num_names -> ~ tagged d x) ->
  forall n, (10000 <= n <= 99999999)%Z -> chinese (map tok_text (content d)) n -> Forall (fun w => In w s_words) (map tok_text (content d)) ->
  forall steps fuel ps, EarleyParseMaxAll (terminal_match (lookup (w_tokens w')) to_lower) ords (all_rules g) (doc_tokens annotate)
        (doc_local (e_hash e) find_all span_text (g_regexps g) ord annotate ctx text) steps fuel ctx text ["number"%string] = Ret ps ->
  length ps = 1).
Proof. exact gaps_lost. Qed.
Print Assumptions C64_gaps_refuted.
