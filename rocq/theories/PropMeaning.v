(** C49: what the meanings of the trees of a call say. *)
From Coq Require Import Permutation.
From Verif Require Import Base ModelTypes ModelText ModelEarley ModelTrees ModelApi ModelSem ModelFuncs ModelReader ModelGrammar ModelLocal
  SpecTypes SpecGrammar SpecTree SpecRefine SpecConstruct SpecNode SpecApi SpecLocal SpecSem SpecFuncs SpecEnd SpecMeaning ModelShipped
  SpecMath SpecArith ProofMeaningCalls ProofMeaningEasy ProofArithCalls Examples ExamplesLocal ExamplesMath ExamplesGrammar ExamplesShipped ExamplesArith ExamplesEasy.

(** EarleyParseMaxAll: each parse has one final state and at least one tree, and Semantic
    of every tree is something its span says according to the grammar text. *)
Theorem C49_parse_max_all :
  forall e text0 g L, e_parts e text0 g L -> forall starts, usable (e_tokenize e) L starts ->
  forall tmatch ords, orders ords ->
  forall find_all span_text ord, (forall i l, Permutation l (ord i l)) ->
  forall annotate ctx text d, trim_space text <> "" -> annotate ctx (trim_space text) = Ret d ->
  fit_document (e_hash e) find_all (g_regexps g) d ->
  forall join_words float_string json is_print_hi call, functions_fit (map rd_before L) ->
  let means := Means (e_tokenize e) tmatch (map rd_before L) find_all (g_regexps g) d in
  let says_ := says (e_tokenize e) tmatch (map rd_before L) find_all (g_regexps g) d join_words float_string is_print_hi (content d) in
  exists ps n, (forall steps fuel, n <= fuel -> length (content d) < steps ->
      EarleyParseMaxAll tmatch ords (all_rules g) (doc_tokens annotate)
        (doc_local (e_hash e) find_all span_text (g_regexps g) ord annotate ctx text) steps fuel ctx text starts = Ret ps) /\
    exists spans, tiles 0 spans
      /\ Forall2 (fun im p => fst im < length (content d) /\ 0 < snd im
            /\ (exists S, In S starts /\ means S (fst im) (fst im + snd im))
            /\ (forall S j, In S starts -> means S (fst im) j -> j <= fst im + snd im)
            /\ exists ref ts m, p_finals p = [ref] /\ (forall fuel, m <= fuel -> get_trees (p_columns p) fuel ref = Ret ts)
                 /\ ts <> []
                 /\ forall t, In t ts -> exists S s, In S starts /\ semantic p join_words float_string json is_print_hi call t = Ret s
                      /\ says_ (nonterm S) (fst im) (fst im + snd im) s) spans ps
      /\ (forall x S j, x < length (content d) -> ~ covered spans x -> In S starts -> ~ means S x j).
Proof. exact says_max. Qed.
Print Assumptions C49_parse_max_all.

(** ExtractAll: every tree says what its span says, and every match has a tree. *)
Theorem C49_extract_all :
  forall e text0 g L, e_parts e text0 g L -> forall starts, usable (e_tokenize e) L starts ->
  forall tmatch ords, orders ords ->
  forall find_all span_text ord, (forall i l, Permutation l (ord i l)) ->
  forall annotate ctx text d, trim_space text <> "" -> annotate ctx (trim_space text) = Ret d ->
  fit_document (e_hash e) find_all (g_regexps g) d ->
  forall join_words float_string json is_print_hi call, functions_fit (map rd_before L) ->
  let means := Means (e_tokenize e) tmatch (map rd_before L) find_all (g_regexps g) d in
  let says_ := says (e_tokenize e) tmatch (map rd_before L) find_all (g_regexps g) d join_words float_string is_print_hi (content d) in
  let sem p := semantic p join_words float_string json is_print_hi call in
  exists outs n, (forall fuel, n <= fuel ->
      ExtractAll tmatch ords (all_rules g) (doc_tokens annotate)
        (doc_local (e_hash e) find_all span_text (g_regexps g) ord annotate ctx text) fuel ctx text starts = Ret outs) /\
    (forall p t, In (p, t) outs -> exists i k S s, i < length (content d) /\ In S starts /\
       parsed_tokens p (skipn i (content d)) /\ sem p t = Ret s /\ says_ (nonterm S) i (i + k) s) /\
    (forall S i j, i < length (content d) -> In S starts -> means S i j ->
       exists p t s, In (p, t) outs /\ parsed_tokens p (skipn i (content d)) /\ sem p t = Ret s /\ says_ (nonterm S) i j s).
Proof. exact says_extract. Qed.
Print Assumptions C49_extract_all.

(** arithmetic.grammar *)
Example C49_example : exists L,
  e_parts (senv dir_arithmetic) arithmetic_arithmetic arith_grammar L /\ usable xtokenize L ["number"%string] /\
  functions_fit (map rd_before L) /\ fit_document ExamplesGrammar.xhash xfind (g_regexps arith_grammar) (word_doc "ten minus minus two") /\
  arith_texts id_ord "ten minus minus two" = Some [[[("nf.math.sub(10, nf.math.neg(2))", "12")]]]%string.
Proof.
  destruct arith_example_parts as (L & H1 & H2 & H3). exists L. split; [exact H1|]. split; [exact H2|]. split; [exact H3|].
  split; [apply (word_fit "ten minus minus two"); [discriminate|vm_compute; reflexivity|vm_compute; reflexivity]|].
  vm_compute. reflexivity.
Qed.

(** Parse: every tree says what the longest match at the first token says, and there is a
    tree unless no start rule matches there. *)
Theorem C49_parse :
  forall e text0 g L, e_parts e text0 g L -> forall starts, usable (e_tokenize e) L starts ->
  forall tmatch ords, orders ords ->
  forall find_all span_text ord, (forall i l, Permutation l (ord i l)) ->
  forall annotate ctx text d, trim_space text <> "" -> annotate ctx (trim_space text) = Ret d ->
  fit_document (e_hash e) find_all (g_regexps g) d ->
  forall join_words float_string json is_print_hi call, functions_fit (map rd_before L) ->
  let means := Means (e_tokenize e) tmatch (map rd_before L) find_all (g_regexps g) d in
  let says_ := says (e_tokenize e) tmatch (map rd_before L) find_all (g_regexps g) d join_words float_string is_print_hi (content d) in
  let sem p := semantic p join_words float_string json is_print_hi call in
  exists outs n, (forall fuel, n <= fuel ->
      Parse tmatch ords (all_rules g) (doc_tokens annotate)
        (doc_local (e_hash e) find_all span_text (g_regexps g) ord annotate ctx text) fuel ctx text starts = Ret outs) /\
    (forall p t, In (p, t) outs -> parsed_tokens p (content d) /\ exists S k s, In S starts /\ means S 0 k /\
       (forall S' j, In S' starts -> means S' 0 j -> j <= k) /\ sem p t = Ret s /\ says_ (nonterm S) 0 k s) /\
    (outs = [] <-> forall S j, In S starts -> ~ means S 0 j).
Proof. exact says_parse. Qed.
Print Assumptions C49_parse.

Example C49_parse_example :
  easy_texts (easy_parse "ten minus minus two so one plus two") = Some ["nf.math.sub(10, nf.math.neg(2))"]%string /\
  easy_texts (easy_parse "so ten minus minus two") = Some [] /\
  fit_document ExamplesGrammar.xhash xfind (g_regexps arith_grammar) (word_doc "ten minus minus two so one plus two") /\
  fit_document ExamplesGrammar.xhash xfind (g_regexps arith_grammar) (word_doc "so ten minus minus two").
Proof.
  split; [vm_compute; reflexivity|]. split; [vm_compute; reflexivity|].
  split; apply word_fit; [discriminate|vm_compute; reflexivity|vm_compute; reflexivity|discriminate|vm_compute; reflexivity|vm_compute; reflexivity].
Qed.

(** ParseAny: the trees of the longest match at the leftmost position that has one *)
Theorem C49_parse_any :
  forall e text0 g L, e_parts e text0 g L -> forall starts, usable (e_tokenize e) L starts ->
  forall tmatch ords, orders ords ->
  forall find_all span_text ord, (forall i l, Permutation l (ord i l)) ->
  forall annotate ctx text d, trim_space text <> "" -> annotate ctx (trim_space text) = Ret d ->
  fit_document (e_hash e) find_all (g_regexps g) d ->
  forall join_words float_string json is_print_hi call, functions_fit (map rd_before L) ->
  let means := Means (e_tokenize e) tmatch (map rd_before L) find_all (g_regexps g) d in
  let says_ := says (e_tokenize e) tmatch (map rd_before L) find_all (g_regexps g) d join_words float_string is_print_hi (content d) in
  let sem p := semantic p join_words float_string json is_print_hi call in
  exists outs n, (forall fuel, n <= fuel ->
      ParseAny tmatch ords (all_rules g) (doc_tokens annotate)
        (doc_local (e_hash e) find_all span_text (g_regexps g) ord annotate ctx text) fuel ctx text starts = Ret outs) /\
    (exists i, forall p t, In (p, t) outs -> i < length (content d) /\ parsed_tokens p (skipn i (content d)) /\
       (forall i' S j, i' < i -> In S starts -> ~ means S i' j) /\
       exists S k s, In S starts /\ means S i (i + k) /\ (forall S' j, In S' starts -> means S' i j -> j <= i + k) /\
         sem p t = Ret s /\ says_ (nonterm S) i (i + k) s) /\
    (outs = [] <-> forall i S j, i < length (content d) -> In S starts -> ~ means S i j).
Proof. exact says_any. Qed.
Print Assumptions C49_parse_any.

Example C49_parse_any_example :
  easy_texts (easy_any "so ten minus minus two so one plus two") = Some ["nf.math.sub(10, nf.math.neg(2))"]%string /\
  fit_document ExamplesGrammar.xhash xfind (g_regexps arith_grammar) (word_doc "so ten minus minus two so one plus two").
Proof. split; [vm_compute; reflexivity|]. apply word_fit; [discriminate|vm_compute; reflexivity|vm_compute; reflexivity]. Qed.

(** ExtractMaxAll: the trees of the longest matches from left to right, at least one for each *)
Theorem C49_extract_max_all :
  forall e text0 g L, e_parts e text0 g L -> forall starts, usable (e_tokenize e) L starts ->
  forall tmatch ords, orders ords ->
  forall find_all span_text ord, (forall i l, Permutation l (ord i l)) ->
  forall annotate ctx text d, trim_space text <> "" -> annotate ctx (trim_space text) = Ret d ->
  fit_document (e_hash e) find_all (g_regexps g) d ->
  forall join_words float_string json is_print_hi call, functions_fit (map rd_before L) ->
  let means := Means (e_tokenize e) tmatch (map rd_before L) find_all (g_regexps g) d in
  let says_ := says (e_tokenize e) tmatch (map rd_before L) find_all (g_regexps g) d join_words float_string is_print_hi (content d) in
  let sem p := semantic p join_words float_string json is_print_hi call in
  exists outs n, (forall steps fuel, n <= fuel -> length (content d) < steps ->
      ExtractMaxAll tmatch ords (all_rules g) (doc_tokens annotate)
        (doc_local (e_hash e) find_all span_text (g_regexps g) ord annotate ctx text) steps fuel ctx text starts = Ret outs) /\
    exists spans groups, outs = concat groups /\ tiles 0 spans
      /\ Forall2 (fun im ts => fst im < length (content d) /\ 0 < snd im
            /\ (exists S, In S starts /\ means S (fst im) (fst im + snd im))
            /\ (forall S j, In S starts -> means S (fst im) j -> j <= fst im + snd im)
            /\ ts <> []
            /\ forall p t, In (p, t) ts -> exists S s, In S starts /\ sem p t = Ret s
                 /\ says_ (nonterm S) (fst im) (fst im + snd im) s) spans groups
      /\ (forall x S j, x < length (content d) -> ~ covered spans x -> In S starts -> ~ means S x j).
Proof. exact says_extract_max. Qed.
Print Assumptions C49_extract_max_all.

Example C49_extract_max_all_example :
  easy_texts (easy_max "so ten minus minus two so one plus two") =
  Some ["nf.math.sub(10, nf.math.neg(2))"; "nf.math.sum(1, 2)"]%string.
Proof. vm_compute. reflexivity. Qed.
