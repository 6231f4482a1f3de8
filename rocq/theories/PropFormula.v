(** C55: what the text Semantic gives says. [node_formula ... m g]: g is the formula of the
    node m (SpecFormula.v); [formula_text g]: how it is written. *)
From Coq Require Import Permutation.
From Verif Require Import Base ModelTypes ModelText ModelEarley ModelTrees ModelApi ModelQuote ModelSem ModelReader ModelGrammar ModelLocal
  SpecTypes SpecGrammar SpecTree SpecSem SpecRefine SpecConstruct SpecLocal SpecEnd SpecApi SpecFormula
  ProofFormula ProofFormulaJs Examples ExamplesSem ExamplesFormula.
Local Open Scope list_scope.

(** Semantic writes down the formula of the node, on any tree. *)
Theorem C55_formula : forall is_print_hi json p join_words float_string call n s,
  semantic p join_words float_string json is_print_hi call n = Ret s
  <-> exists g, node_formula json p join_words float_string call n g /\ s = formula_text is_print_hi g.
Proof. exact semantic_formula. Qed.
Print Assumptions C55_formula.

(** Different formulas are written differently, whatever characters the texts in them contain. *)
Theorem C55_one_reading : forall is_print_hi json, json_objects json -> forall f g,
  plain json f -> plain json g -> formula_text is_print_hi f = formula_text is_print_hi g -> f = g.
Proof. exact same_formula. Qed.
Print Assumptions C55_one_reading.

(** Function names and constants in the formula of a node are those of the grammars; all
    other texts are words of the input that follow each other. *)
Theorem C55_parts : forall tmatch ords gs text fuel n mf toks starts p,
  is_order (ords n) -> earley_parse_n tmatch ords gs text fuel n mf toks starts = Ret p -> well_formed gs starts ->
  separated gs ->
  forall json join_words float_string call t m g,
  tree_of_parse p t -> part_of t m -> node_formula json p join_words float_string call m g ->
  made_of (grammar_name gs) (grammar_number gs float_string)
    (fun s => grammar_constant gs (VStr s) \/ words join_words toks s) (fun s => exists v, s = json v) g.
Proof. exact tree_formula. Qed.
Print Assumptions C55_parts.

(** Grammars that are read, with the rules added for a text, have plain function names. *)
Theorem C55_read_grammars : forall e text g L, e_parts e text g L -> plain_functions (all_rules g).
Proof. exact read_plain. Qed.
Print Assumptions C55_read_grammars.
Theorem C55_local_grammars : forall hash find_all span_text regexps ord d l gs,
  (forall i l, Permutation l (ord i l)) -> doc_ok d -> local_grammar hash find_all span_text regexps ord d = Ret l ->
  plain_functions gs -> plain_functions (with_local gs l).
Proof. exact call_plain. Qed.
Print Assumptions C55_local_grammars.

(** So the text Semantic gives for a node can be read in one way only, as the formula of the node. *)
Theorem C55_meaning : forall is_print_hi json float_string,
  json_objects json -> (forall x, float_string x <> ""%string /\ plain_text (float_string x)) ->
  forall join_words call tmatch ords gs text fuel n mf toks starts p t m,
  is_order (ords n) -> earley_parse_n tmatch ords gs text fuel n mf toks starts = Ret p -> well_formed gs starts -> separated gs ->
  plain_functions gs -> tree_of_parse p t -> part_of t m ->
  forall s, semantic p join_words float_string json is_print_hi call m = Ret s ->
  exists g, plain json g /\ formula_text is_print_hi g = s /\ node_formula json p join_words float_string call m g /\
    (forall g', plain json g' -> formula_text is_print_hi g' = s -> g' = g) /\
    (forall g', node_formula json p join_words float_string call m g' -> g' = g).
Proof. exact node_formula_fun. Qed.
Print Assumptions C55_meaning.

(** The texts in a formula, read by JavaScript: every text in UTF-8 is a string literal, and it
    is the literal of that text iff it contains no U+0007 and no unprintable character above U+FFFF. *)
Theorem C55_javascript : forall is_print_hi l, is_print_hi 8232%Z = false -> is_print_hi 8233%Z = false ->
  Forall (fun c => valid_rune c = true) l ->
  (exists u, js_literal (quote is_print_hi (encode l)) u) /\
  (js_literal (quote is_print_hi (encode l)) (flat_map utf16 l) <->
   Forall (fun r => r <> 7%Z /\ ((65536 <= r)%Z -> is_print_hi r = true)) l).
Proof. exact quote_denotes. Qed.
Print Assumptions C55_javascript.

(** The claim that JavaScript always reads the text of the node is wrong: the bell is read as the letter a. *)
Theorem C55_javascript_refuted : exists p t,
  xtrees 200 (xparse id_ord [[("s", mkRule "s" [(0%N, mkRb [xT (encode [7]%Z)] None)])]] true [encode [7]%Z] ["s"]) = Ret [(p, t)] /\
  node_nl p cat t = Ret (encode [7]%Z) /\
  exists s, semantic p cat xfloat xjson xprint (fun _ _ => Err) t = Ret s /\ js_literal s [97]%Z /\ ~ js_literal s [7]%Z.
Proof.
  destruct (xtrees 200 (xparse id_ord [[("s", mkRule "s" [(0%N, mkRb [xT (encode [7]%Z)] None)])]] true [encode [7]%Z] ["s"])) as [[|[p t] [|? ?]]| | |] eqn:E;
    try (vm_compute in E; discriminate).
  exists p, t. split; [reflexivity|]. vm_compute in E. injection E as <- <-. split; [vm_compute; reflexivity|].
  exists (quote xprint (encode [7]%Z)). split; [vm_compute; reflexivity|].
  assert (V : Forall (fun c => valid_rune c = true) [7]%Z) by (constructor; [reflexivity|constructor]).
  split; [exact (quote_js xprint (conj eq_refl eq_refl) [7]%Z V)|].
  intros H. apply (quote_denotes xprint [7]%Z eq_refl eq_refl V) in H. inversion H as [|? ? [N _] _]. apply N. reflexivity.
Qed.
Print Assumptions C55_javascript_refuted.

Example C55_example :
  json_objects xjson /\ (forall x, xfloat x <> ""%string /\ plain_text (xfloat x)) /\
  well_formed g_sem ["e"] /\ separated g_sem /\ plain_functions g_sem /\ plain xjson xformula /\
  formula_text xprint xformula = "add(""1"", neg(num(""2"")), ""x"", 7, ""1+2"")"%string /\
  xmeanings (xtrees 200 (xparse id_ord g_sem true ["1"; "+"; "2"] ["e"])) = Some [Ret (formula_text xprint xformula)].
Proof.
  split; [apply xjson_ok|]. split; [apply xfloat_ok|]. split; [apply well_formed_b_ok; reflexivity|].
  split; [apply separated_b_ok; reflexivity|]. split; [apply plain_functions_b_ok; reflexivity|]. split; [apply xformula_plain|].
  split; vm_compute; reflexivity.
Qed.
(** Quotes, brackets, commas and characters beyond U+FFFF in a text change nothing. *)
Example C55_example_javascript :
  js_literal (quote xprint (encode [34; 41; 44; 92; 10; 8232; 128512]%Z)) [34; 41; 44; 92; 10; 8232; 55357; 56832]%Z.
Proof.
  assert (V : Forall (fun c => valid_rune c = true) [34; 41; 44; 92; 10; 8232; 128512]%Z) by (repeat (constructor; [reflexivity|]); constructor).
  apply (proj2 (proj2 (quote_denotes xprint _ eq_refl eq_refl V))).
  repeat (constructor; [split; [discriminate|intros H; first [reflexivity|exfalso; apply H; reflexivity]]|]). constructor.
Qed.
