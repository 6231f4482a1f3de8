(** C65: spoken English amounts in any text. *)
From Coq Require Import Permutation.
From Verif Require Import Base ModelTypes ModelText ModelEarley ModelTrees ModelApi ModelSem ModelMath ModelFuncs ModelReader ModelGrammar ModelMatch ModelLocal
  SpecTypes SpecGrammar SpecTree SpecNotation SpecRefine SpecConstruct SpecSem SpecNode SpecApi SpecLocal SpecFuncs SpecEnd SpecMath SpecMeaning ModelShipped SpecShipped SpecFrameText
  ProofMeaning ProofSpoken ProofSpokenUsual ProofSpokenUsualCalls ProofSpokenCalls ProofSpokenRefute Examples ExamplesLocal ExamplesMath ExamplesGrammar ExamplesShipped ExamplesArith ExamplesEnglish ExamplesSpoken
  SpecArith SpecWorth SpecEnglish SpecChinese SpecSpoken.
Local Open Scope list_scope.

(** The parses of any text are its spoken amounts: from left to right the longest at its place,
    none between them; every tree of a parse is worth an amount that its words say: Semantic is
    a formula with that value, and Eval the decimal numeral, if it has at most ten digits and no
    magnitude from trillion on is spoken. *)
Theorem C65_numerals : forall e, env_ok e -> fractions_scan e -> e_regexp_ok e sf_pattern = true -> texts_have_tokens e ->
  words_are_tokens (e_tokenize e) b_words -> String.prefix "g_t" (e_md5 e sf_pattern) = false ->
  (forall x, NoDup (map (e_hash e) (written builtin_items false x))) ->
  forall dir fuel0 depth0 gt g w', installed e dir dir_builtin ->
  from_file e fuel0 depth0 (e_join e dir "builtin.grammar") gt = Ret (Some g, w') ->
  forall gtokens to_lower ords, orders ords ->
  forall find_all span_text ord, (forall i l, Permutation l (ord i l)) ->
  forall annotate ctx text d, trim_space text <> "" -> annotate ctx (trim_space text) = Ret d ->
  fit_document (e_hash e) find_all [] d -> (forall x, In x amount_names -> ~ tagged d x) ->
  forall join_words float_string json is_print_hi scan rcall, scans_floats scan -> math_registered scan rcall ->
  exists ps N, (forall steps fuel, N <= fuel -> length (content d) < steps ->
      EarleyParseMaxAll (terminal_match gtokens to_lower) ords (all_rules g) (doc_tokens annotate)
        (doc_local (e_hash e) find_all span_text (g_regexps g) ord annotate ctx text) steps fuel ctx text ["number"%string] = Ret ps) /\
    exists spans, tiles 0 spans /\
      Forall2 (fun im p => exists q r, skipn (fst im) (map tok_text (content d)) = q ++ r /\ length q = snd im /\ (exists n, spoken q n) /\
          (forall q' r' n', skipn (fst im) (map tok_text (content d)) = q' ++ r' -> spoken q' n' -> length q' <= length q) /\
          exists ref ts m, p_finals p = [ref] /\ (forall fuel, m <= fuel -> get_trees (p_columns p) fuel ref = Ret ts) /\ ts <> [] /\
            forall t, In t ts -> exists x, spoken q (value x) /\
              semantic p join_words float_string json is_print_hi (Call rcall) t = Ret (formula x) /\
              ((value x < 10 ^ 10)%Z -> not_vast q -> exists s, numeral (value x) s /\ eval p join_words float_string (Call rcall) t = Ret (DStr s))) spans ps /\
      (forall i q r n, ~ covered spans i -> skipn i (map tok_text (content d)) = q ++ r -> ~ spoken q n).
Proof. exact builtin_call. Qed.
Print Assumptions C65_numerals.

(** two amounts with other words around them *)
Example C65_example :
  env_ok (senv dir_builtin) /\ fractions_scan (senv dir_builtin) /\ e_regexp_ok (senv dir_builtin) sf_pattern = true /\ texts_have_tokens (senv dir_builtin) /\
  words_are_tokens (e_tokenize (senv dir_builtin)) b_words /\ String.prefix "g_t" (e_md5 (senv dir_builtin) sf_pattern) = false /\
  (forall x, NoDup (map (e_hash (senv dir_builtin)) (written builtin_items false x))) /\ installed (senv dir_builtin) "d" dir_builtin /\
  from_file (senv dir_builtin) 4000 9 (e_join (senv dir_builtin) "d" "builtin.grammar") [] = Ret (Some bi_grammar, bi_world) /\
  scans_floats xscan_float /\ math_registered xscan_float xmath /\
  fit_document ExamplesGrammar.xhash xfind [] (word_doc bi_text) /\ (forall x, ~ tagged (word_doc bi_text) x) /\
  bi_texts bi_text = Some
    [[[("nf.math.sum(nf.math.mul(3, 1000000), nf.math.sum(nf.math.mul(nf.math.mul(2, 100), 1000), nf.math.sum(50, 6)))", "3200056")]]; [[("1", "1")]]]%string.
Proof.
  split; [apply senv_ok|]. split; [apply senv_fractions|]. split; [reflexivity|]. split; [apply senv_texts|]. split; [apply senv_spoken_tokens|].
  split; [reflexivity|]. split; [apply senv_spoken_hashes|]. split; [exact bi_installed|]. split; [exact bi_load|].
  split; [exact xscan_float_ok|]. split; [exact xmath_registered|].
  split; [apply word_fit; [discriminate|vm_compute; reflexivity|vm_compute; reflexivity]|]. split; [intros x; apply word_untagged|].
  vm_compute. reflexivity.
Qed.

(** A text that is a spoken amount is one parse over all tokens, and all its trees are worth an
    amount that it says; if no tens and unit without a hyphen stand before a magnitude, as in
    "fifty six thousand", that is the only one. *)
Theorem C65_whole : forall e, env_ok e -> fractions_scan e -> e_regexp_ok e sf_pattern = true -> texts_have_tokens e ->
  words_are_tokens (e_tokenize e) b_words -> String.prefix "g_t" (e_md5 e sf_pattern) = false ->
  (forall x, NoDup (map (e_hash e) (written builtin_items false x))) ->
  forall dir fuel0 depth0 gt g w', installed e dir dir_builtin ->
  from_file e fuel0 depth0 (e_join e dir "builtin.grammar") gt = Ret (Some g, w') ->
  forall gtokens to_lower ords, orders ords ->
  forall find_all span_text ord, (forall i l, Permutation l (ord i l)) ->
  forall annotate ctx text d, trim_space text <> "" -> annotate ctx (trim_space text) = Ret d ->
  fit_document (e_hash e) find_all [] d -> (forall x, In x amount_names -> ~ tagged d x) ->
  forall join_words float_string json is_print_hi scan rcall, scans_floats scan -> math_registered scan rcall ->
  forall n, spoken (map tok_text (content d)) n ->
  exists p ref ts N m, (forall steps fuel, N <= fuel -> length (content d) < steps ->
      EarleyParseMaxAll (terminal_match gtokens to_lower) ords (all_rules g) (doc_tokens annotate)
        (doc_local (e_hash e) find_all span_text (g_regexps g) ord annotate ctx text) steps fuel ctx text ["number"%string] = Ret [p]) /\
    p_finals p = [ref] /\ (forall fuel, m <= fuel -> get_trees (p_columns p) fuel ref = Ret ts) /\ ts <> [] /\
    forall t, In t ts -> exists x, spoken (map tok_text (content d)) (value x) /\ (plain (map tok_text (content d)) -> value x = n) /\
      semantic p join_words float_string json is_print_hi (Call rcall) t = Ret (formula x) /\
      ((value x < 10 ^ 10)%Z -> not_vast (map tok_text (content d)) -> exists s, numeral (value x) s /\ eval p join_words float_string (Call rcall) t = Ret (DStr s)).
Proof. exact builtin_whole. Qed.
Print Assumptions C65_whole.

Example C65_whole_example :
  env_ok (senv dir_builtin) /\ fractions_scan (senv dir_builtin) /\ e_regexp_ok (senv dir_builtin) sf_pattern = true /\ texts_have_tokens (senv dir_builtin) /\
  words_are_tokens (e_tokenize (senv dir_builtin)) b_words /\ String.prefix "g_t" (e_md5 (senv dir_builtin) sf_pattern) = false /\
  (forall x, NoDup (map (e_hash (senv dir_builtin)) (written builtin_items false x))) /\ installed (senv dir_builtin) "d" dir_builtin /\
  from_file (senv dir_builtin) 4000 9 (e_join (senv dir_builtin) "d" "builtin.grammar") [] = Ret (Some bi_grammar, bi_world) /\
  scans_floats xscan_float /\ math_registered xscan_float xmath /\
  fit_document ExamplesGrammar.xhash xfind [] (word_doc bi_whole) /\ (forall x, ~ tagged (word_doc bi_whole) x) /\
  spoken (map tok_text (content (word_doc bi_whole))) 3200056 /\ plain (map tok_text (content (word_doc bi_whole))) /\ not_vast (map tok_text (content (word_doc bi_whole))) /\
  bi_texts bi_whole = Some
    [[[("nf.math.sum(nf.math.mul(3, 1000000), nf.math.sum(nf.math.mul(nf.math.mul(2, 100), 1000), nf.math.sum(50, 6)))", "3200056")]]]%string.
Proof.
  split; [apply senv_ok|]. split; [apply senv_fractions|]. split; [reflexivity|]. split; [apply senv_texts|]. split; [apply senv_spoken_tokens|].
  split; [reflexivity|]. split; [apply senv_spoken_hashes|]. split; [exact bi_installed|]. split; [exact bi_load|].
  split; [exact xscan_float_ok|]. split; [exact xmath_registered|].
  split; [apply word_fit; [discriminate|vm_compute; reflexivity|vm_compute; reflexivity]|]. split; [intros x; apply word_untagged|].
  split; [exact bi_spoken|]. split; [exact bi_plain|]. split; [exact bi_not_vast|]. vm_compute. reflexivity.
Qed.

(** One of the trees of such a text is worth the usual reading, in which a tens word and the unit
    after it are taken together, even before a magnitude. *)
Theorem C65_usual : forall e, env_ok e -> fractions_scan e -> e_regexp_ok e sf_pattern = true -> texts_have_tokens e ->
  words_are_tokens (e_tokenize e) b_words -> String.prefix "g_t" (e_md5 e sf_pattern) = false ->
  (forall x, NoDup (map (e_hash e) (written builtin_items false x))) ->
  forall dir fuel0 depth0 gt g w', installed e dir dir_builtin ->
  from_file e fuel0 depth0 (e_join e dir "builtin.grammar") gt = Ret (Some g, w') ->
  forall gtokens to_lower ords, orders ords ->
  forall find_all span_text ord, (forall i l, Permutation l (ord i l)) ->
  forall annotate ctx text d, trim_space text <> "" -> annotate ctx (trim_space text) = Ret d ->
  fit_document (e_hash e) find_all [] d -> (forall x, In x amount_names -> ~ tagged d x) ->
  forall join_words float_string json is_print_hi scan rcall, scans_floats scan -> math_registered scan rcall ->
  forall n, merged (map tok_text (content d)) n ->
  exists p ref ts N m, (forall steps fuel, N <= fuel -> length (content d) < steps ->
      EarleyParseMaxAll (terminal_match gtokens to_lower) ords (all_rules g) (doc_tokens annotate)
        (doc_local (e_hash e) find_all span_text (g_regexps g) ord annotate ctx text) steps fuel ctx text ["number"%string] = Ret [p]) /\
    p_finals p = [ref] /\ (forall fuel, m <= fuel -> get_trees (p_columns p) fuel ref = Ret ts) /\
    exists t x, In t ts /\ value x = n /\
      semantic p join_words float_string json is_print_hi (Call rcall) t = Ret (formula x) /\
      ((n < 10 ^ 10)%Z -> not_vast (map tok_text (content d)) -> exists s, numeral n s /\ eval p join_words float_string (Call rcall) t = Ret (DStr s)).
Proof. exact usual_call. Qed.
Print Assumptions C65_usual.

Example C65_usual_example :
  env_ok (senv dir_builtin) /\ fractions_scan (senv dir_builtin) /\ e_regexp_ok (senv dir_builtin) sf_pattern = true /\ texts_have_tokens (senv dir_builtin) /\
  words_are_tokens (e_tokenize (senv dir_builtin)) b_words /\ String.prefix "g_t" (e_md5 (senv dir_builtin) sf_pattern) = false /\
  (forall x, NoDup (map (e_hash (senv dir_builtin)) (written builtin_items false x))) /\ installed (senv dir_builtin) "d" dir_builtin /\
  from_file (senv dir_builtin) 4000 9 (e_join (senv dir_builtin) "d" "builtin.grammar") [] = Ret (Some bi_grammar, bi_world) /\
  scans_floats xscan_float /\ math_registered xscan_float xmath /\
  fit_document ExamplesGrammar.xhash xfind [] (word_doc bi_both) /\ (forall x, ~ tagged (word_doc bi_both) x) /\
  merged (map tok_text (content (word_doc bi_both))) 56032 /\ spoken (map tok_text (content (word_doc bi_both))) 6082 /\ not_vast (map tok_text (content (word_doc bi_both))) /\
  bi_texts bi_both = Some [[[("nf.math.sum(nf.math.mul(nf.math.sum(50, 6), 1000), nf.math.sum(30, 2))", "56032")]]]%string.
Proof.
  split; [apply senv_ok|]. split; [apply senv_fractions|]. split; [reflexivity|]. split; [apply senv_texts|]. split; [apply senv_spoken_tokens|].
  split; [reflexivity|]. split; [apply senv_spoken_hashes|]. split; [exact bi_installed|]. split; [exact bi_load|].
  split; [exact xscan_float_ok|]. split; [exact xmath_registered|].
  split; [apply word_fit; [discriminate|vm_compute; reflexivity|vm_compute; reflexivity]|]. split; [intros x; apply word_untagged|].
  split; [exact bi_merged|]. split; [exact bi_split|]. split; [exact bi_both_not_vast|]. vm_compute. reflexivity.
Qed.

(** In any text, every parse has a tree worth the usual reading of its words. *)
Theorem C65_usual_anywhere : forall e, env_ok e -> fractions_scan e -> e_regexp_ok e sf_pattern = true -> texts_have_tokens e ->
  words_are_tokens (e_tokenize e) b_words -> String.prefix "g_t" (e_md5 e sf_pattern) = false ->
  (forall x, NoDup (map (e_hash e) (written builtin_items false x))) ->
  forall dir fuel0 depth0 gt g w', installed e dir dir_builtin ->
  from_file e fuel0 depth0 (e_join e dir "builtin.grammar") gt = Ret (Some g, w') ->
  forall gtokens to_lower ords, orders ords ->
  forall find_all span_text ord, (forall i l, Permutation l (ord i l)) ->
  forall annotate ctx text d, trim_space text <> "" -> annotate ctx (trim_space text) = Ret d ->
  fit_document (e_hash e) find_all [] d -> (forall x, In x amount_names -> ~ tagged d x) ->
  forall join_words float_string json is_print_hi scan rcall, scans_floats scan -> math_registered scan rcall ->
  exists ps N, (forall steps fuel, N <= fuel -> length (content d) < steps ->
      EarleyParseMaxAll (terminal_match gtokens to_lower) ords (all_rules g) (doc_tokens annotate)
        (doc_local (e_hash e) find_all span_text (g_regexps g) ord annotate ctx text) steps fuel ctx text ["number"%string] = Ret ps) /\
    exists spans, tiles 0 spans /\
      Forall2 (fun im p => exists q r n, skipn (fst im) (map tok_text (content d)) = q ++ r /\ length q = snd im /\ merged q n /\
          exists ref ts m t x, p_finals p = [ref] /\ (forall fuel, m <= fuel -> get_trees (p_columns p) fuel ref = Ret ts) /\
            In t ts /\ value x = n /\ semantic p join_words float_string json is_print_hi (Call rcall) t = Ret (formula x) /\
            ((n < 10 ^ 10)%Z -> not_vast q -> exists s, numeral n s /\ eval p join_words float_string (Call rcall) t = Ret (DStr s))) spans ps /\
      (forall i q r n, ~ covered spans i -> skipn i (map tok_text (content d)) = q ++ r -> ~ merged q n).
Proof. exact usual_calls. Qed.
Print Assumptions C65_usual_anywhere.

Example C65_usual_anywhere_example :
  env_ok (senv dir_builtin) /\ fractions_scan (senv dir_builtin) /\ e_regexp_ok (senv dir_builtin) sf_pattern = true /\ texts_have_tokens (senv dir_builtin) /\
  words_are_tokens (e_tokenize (senv dir_builtin)) b_words /\ String.prefix "g_t" (e_md5 (senv dir_builtin) sf_pattern) = false /\
  (forall x, NoDup (map (e_hash (senv dir_builtin)) (written builtin_items false x))) /\ installed (senv dir_builtin) "d" dir_builtin /\
  from_file (senv dir_builtin) 4000 9 (e_join (senv dir_builtin) "d" "builtin.grammar") [] = Ret (Some bi_grammar, bi_world) /\
  scans_floats xscan_float /\ math_registered xscan_float xmath /\
  fit_document ExamplesGrammar.xhash xfind [] (word_doc bi_around) /\ (forall x, ~ tagged (word_doc bi_around) x) /\
  bi_texts bi_around = Some [[[("nf.math.sum(nf.math.mul(nf.math.sum(50, 6), 1000), nf.math.sum(30, 2))", "56032")]]; [[("1", "1")]]]%string.
Proof.
  split; [apply senv_ok|]. split; [apply senv_fractions|]. split; [reflexivity|]. split; [apply senv_texts|]. split; [apply senv_spoken_tokens|].
  split; [reflexivity|]. split; [apply senv_spoken_hashes|]. split; [exact bi_installed|]. split; [exact bi_load|].
  split; [exact xscan_float_ok|]. split; [exact xmath_registered|].
  split; [apply word_fit; [discriminate|vm_compute; reflexivity|vm_compute; reflexivity]|]. split; [intros x; apply word_untagged|]. vm_compute. reflexivity.
Qed.

(** Every amount has exactly one usual reading, and that is one of the amounts it says; the usual
    reading of an English numeral below a hundred thousand is its number. *)
Theorem C65_usual_numbers : (forall ws n, spoken ws n -> exists m, merged ws m /\ forall m', merged ws m' -> m' = m) /\
  (forall ws n, merged ws n -> spoken ws n) /\
  (forall ws n, english ws n -> (n < 100000)%Z -> merged ws n).
Proof. exact usual_numbers. Qed.
Print Assumptions C65_usual_numbers.

Example C65_usual_numbers_example : spoken ["fifty"; "six"; "thousand"; "and"; "thirty"; "two"]%string 6082 /\
  merged ["fifty"; "six"; "thousand"; "and"; "thirty"; "two"]%string 56032 /\ english ["fifty"; "six"; "thousand"; "and"; "thirty"; "two"]%string 56032.
Proof. exact (conj bi_split (conj bi_merged bi_english)). Qed.

(** Every number from 0 on is said by words of this kind, and such words say one number; English
    numerals below a thousand say their number. *)
Theorem C65_all_numbers : (forall n, (0 <= n)%Z -> exists ws, spoken ws n /\ plain ws) /\
  (forall ws n n', plain ws -> spoken ws n -> spoken ws n' -> n = n') /\
  (forall ws n, below_thousand ws n -> spoken ws n /\ plain ws).
Proof. exact (conj spoken_exists (conj spoken_once thousand_spoken)). Qed.
Print Assumptions C65_all_numbers.

Example C65_all_numbers_example : spoken ["three"; "million"; "two"; "hundred"; "thousand"; "and"; "fifty"; "-"; "six"]%string 3200056 /\
  plain ["three"; "million"; "two"; "hundred"; "thousand"; "and"; "fifty"; "-"; "six"]%string /\
  below_thousand ["two"; "hundred"; "and"; "twenty"; "three"]%string 223 /\
  spoken ["fifty"; "six"; "thousand"]%string 56000 /\ spoken ["fifty"; "six"; "thousand"]%string 6050.
Proof. exact (conj bi_spoken (conj bi_plain (conj bi_below (conj bi_usual bi_unusual)))). Qed.

(** English numerals from a thousand on are not all read as their number: no tree of "two
    hundred fifty thousand" evaluates to 250000, as it is read as 200 + 50 * 1000. *)
Theorem C65_thousands_refuted : ~ (forall e, env_ok e -> fractions_scan e -> e_regexp_ok e sf_pattern = true -> texts_have_tokens e ->
  words_are_tokens (e_tokenize e) b_words -> String.prefix "g_t" (e_md5 e sf_pattern) = false ->
  (forall x, NoDup (map (e_hash e) (written builtin_items false x))) ->
  forall dir fuel0 depth0 gt g w', installed e dir dir_builtin ->
  from_file e fuel0 depth0 (e_join e dir "builtin.grammar") gt = Ret (Some g, w') ->
  forall to_lower ords, orders ords ->
  forall find_all span_text ord, (forall i l, Permutation l (ord i l)) ->
  forall annotate ctx text d, trim_space text <> "" -> annotate ctx (trim_space text) = Ret d ->
  fit_document (e_hash e) find_all [] d -> (forall x, In x amount_names -> ~ tagged d x) ->
  forall join_words float_string scan rcall, scans_floats scan -> math_registered scan rcall ->
  forall n, (n < 10 ^ 6)%Z -> english (map tok_text (content d)) n ->
  forall steps fuel p ref ts, EarleyParseMaxAll (terminal_match (lookup (w_tokens w')) to_lower) ords (all_rules g) (doc_tokens annotate)
        (doc_local (e_hash e) find_all span_text (g_regexps g) ord annotate ctx text) steps fuel ctx text ["number"%string] = Ret [p] ->
  p_finals p = [ref] -> get_trees (p_columns p) fuel ref = Ret ts ->
  exists t s, In t ts /\ numeral n s /\ eval p join_words float_string (Call rcall) t = Ret (DStr s)).
Proof. exact thousands_lost. Qed.
Print Assumptions C65_thousands_refuted.

Example C65_thousands_example : english (map tok_text (content (word_doc "two hundred fifty thousand"))) 250000 /\
  bi_texts "two hundred fifty thousand" = Some [[[("nf.math.sum(nf.math.mul(2, 100), nf.math.mul(50, 1000))", "50200")]]]%string.
Proof. split; [exact quarter_million|]. vm_compute. reflexivity. Qed.
