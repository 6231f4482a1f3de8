(** C66: of several readings, those nested least on the right are returned. *)
From Coq Require Import Permutation.
From Verif Require Import Base ModelTypes ModelText ModelEarley ModelTrees ModelApi ModelSem ModelMath ModelFuncs ModelReader ModelGrammar ModelMatch ModelLocal
  SpecTypes SpecGrammar SpecTree SpecNotation SpecRefine SpecConstruct SpecSem SpecNode SpecApi SpecLocal SpecFuncs SpecEnd SpecMath SpecMeaning ModelShipped SpecShipped SpecNames SpecFrameText
  ProofLeastCalls ProofLeastFormula ProofWordArithRules Examples ExamplesLocal ExamplesMath ExamplesGrammar ExamplesShipped ExamplesArith ExamplesEnglish ExamplesNames
  SpecArith SpecWorth SpecEnglish SpecWordArith SpecLeast ExamplesWordArith ExamplesLeast.
Local Open Scope list_scope.

(** For every grammar whose alternatives calculate: each parse of EarleyParseMaxAll has one of
    the start rules with all its readings of the span that are nested least on the right. *)
Theorem C66_least_nested : forall e d0 g L, e_parts e d0 g L ->
  forall starts, usable (e_tokenize e) L starts -> functions_fit (map rd_before L) ->
  forall tmatch ords, orders ords ->
  forall find_all span_text ord, (forall i l, Permutation l (ord i l)) ->
  forall annotate ctx text d, trim_space text <> "" -> annotate ctx (trim_space text) = Ret d ->
  fit_document (e_hash e) find_all (g_regexps g) d ->
  forall N, calculates (e_tokenize e) tmatch (map rd_before L) (content d) N ->
  (forall x, N x -> text_only find_all (g_regexps g) d x) -> (forall S, In S starts -> N S) ->
  forall join_words float_string json is_print_hi scan rcall, scans_floats scan -> math_registered scan rcall ->
  let worth_ := worth (e_tokenize e) tmatch (map rd_before L) (content d) in
  let least_ := least_of_all (e_tokenize e) tmatch (map rd_before L) (content d) in
  exists ps n, (forall steps fuel, n <= fuel -> length (content d) < steps ->
      EarleyParseMaxAll tmatch ords (all_rules g) (doc_tokens annotate)
        (doc_local (e_hash e) find_all span_text (g_regexps g) ord annotate ctx text) steps fuel ctx text starts = Ret ps) /\
    exists spans, tiles 0 spans
      /\ Forall2 (fun im p => fst im < length (content d) /\ 0 < snd im
            /\ (forall S x j, In S starts -> worth_ S (fst im) j x -> j <= fst im + snd im)
            /\ exists ref ts m, p_finals p = [ref] /\ (forall fuel, m <= fuel -> get_trees (p_columns p) fuel ref = Ret ts) /\ ts <> []
                 /\ (forall t, In t ts -> exists S x, In S starts /\ worth_ S (fst im) (fst im + snd im) x
                      /\ displays p join_words float_string json is_print_hi rcall t x)
                 /\ exists S, In S starts /\ forall x, least_ S (fst im) (fst im + snd im) x ->
                      exists t, In t ts /\ displays p join_words float_string json is_print_hi rcall t x) spans ps
      /\ (forall S x i j, i < length (content d) -> ~ covered spans i -> In S starts -> ~ worth_ S i j x).
Proof. exact least_max. Qed.
Print Assumptions C66_least_nested.

(** Where there is a reading, there is one that is nested least. *)
Theorem C66_least_exists : forall e d0 g L, e_parts e d0 g L -> forall starts, usable (e_tokenize e) L starts ->
  forall tmatch toks N, calculates (e_tokenize e) tmatch (map rd_before L) toks N ->
  forall x i j v, N x -> worth (e_tokenize e) tmatch (map rd_before L) toks x i j v ->
  ~ ~ exists v', least_of_all (e_tokenize e) tmatch (map rd_before L) toks x i j v' /\ worth (e_tokenize e) tmatch (map rd_before L) toks x i j v'.
Proof. exact least_there. Qed.
Print Assumptions C66_least_exists.

Example C66_example : (exists L, e_parts (senv dir_math) math_math_en ma_grammar L /\
  usable (e_tokenize (senv dir_math)) L ["number"%string] /\ functions_fit (map rd_before L) /\
  calculates (e_tokenize (senv dir_math)) ma_match (map rd_before L) (content (word_doc ma_text)) (fun x => In x sum_counting) /\
  (forall x, In x sum_counting -> text_only xfind (g_regexps ma_grammar) (word_doc ma_text) x) /\ In "number"%string sum_counting /\
  (exists x, worth (e_tokenize (senv dir_math)) ma_match (map rd_before L) (content (word_doc ma_text)) "number" 0 (length (content (word_doc ma_text))) x)) /\
  ma_texts ma_text = Some [[[("nf.math.mul(nf.math.sum(2, 3), 4)", "20"); ("nf.math.sum(2, nf.math.mul(3, 4))", "14")]]]%string.
Proof. split; [exact ma_calculates|]. vm_compute. reflexivity. Qed.

(** No two expressions have the same formula, so a returned text tells the reading. *)
Theorem C66_formulas_apart : forall x y, formula x = formula y -> x = y.
Proof. exact formula_inj. Qed.
Print Assumptions C66_formulas_apart.
Example C66_formulas_example : formula (Binary Times (Binary Plus (Number 2) (Number 3)) (Number 4)) = "nf.math.mul(nf.math.sum(2, 3), 4)"%string /\
  formula (Binary Plus (Number 2) (Binary Times (Number 3) (Number 4))) = "nf.math.sum(2, nf.math.mul(3, 4))"%string.
Proof. split; reflexivity. Qed.
