(** C41: the functions that the library itself attaches: list nodes, tagged
    entities, and the table of functions. [registered show rcall]: fmr.list and
    fmr.entity are in the table of functions. *)
From Coq Require Import Permutation.
From Verif Require Import Base ModelTypes ModelText ModelEarley ModelTrees ModelApi ModelQuote ModelSem ModelReader ModelGrammar
     ModelLocal ModelMatch ModelFuncs
     SpecTypes SpecGrammar SpecTree SpecApi SpecSem SpecNode SpecLocal SpecFuncs
     ProofFuncs Examples ExamplesSem ExamplesNode ExamplesLocal ExamplesFuncs.

(** A list node has one child per item, each a node of the rule of the list, and
    the function fmr.list($1, ..., $k). *)
Theorem C41_list_nodes : forall tmatch ords gs text fuel n mf toks starts p,
  is_order (ords n) -> earley_parse_n tmatch ords gs text fuel n mf toks starts = Ret p -> well_formed gs starts ->
  separated gs ->
  forall t m, tree_of_parse p t -> part_of t m -> t_type (s_term (n_value m)) = TList ->
    function_of m = Some (FMR "fmr.list" (positions_to (length (n_children m))))
    /\ Forall (fun c => t_type (s_term (n_value c)) = TNonterminal /\ label c = label m) (n_children m).
Proof. exact list_node. Qed.
Print Assumptions C41_list_nodes.

(** Its meaning lists the meanings of the items, in order. *)
Theorem C41_list_semantic : forall tmatch ords gs text fuel n mf toks starts p,
  is_order (ords n) -> earley_parse_n tmatch ords gs text fuel n mf toks starts = Ret p -> well_formed gs starts ->
  separated gs ->
  forall join_words float_string json is_print_hi call t m,
    tree_of_parse p t -> part_of t m -> t_type (s_term (n_value m)) = TList ->
    forall s, semantic p join_words float_string json is_print_hi call m = Ret s <->
      exists ss, Forall2 (fun c s => semantic p join_words float_string json is_print_hi call c = Ret s) (n_children m) ss
        /\ s = call_text "fmr.list" ss.
Proof. exact list_semantic. Qed.
Print Assumptions C41_list_semantic.

(** Eval hands the values of the items, in order, to the function fmr.list ... *)
Theorem C41_list_eval : forall tmatch ords gs text fuel n mf toks starts p,
  is_order (ords n) -> earley_parse_n tmatch ords gs text fuel n mf toks starts = Ret p -> well_formed gs starts ->
  separated gs ->
  forall join_words float_string call t m,
    tree_of_parse p t -> part_of t m -> t_type (s_term (n_value m)) = TList ->
    forall v, eval p join_words float_string call m = Ret v <->
      exists vs, Forall2 (fun c v => eval p join_words float_string call c = Ret v) (n_children m) vs
        /\ call "fmr.list" vs = Ret v.
Proof. exact list_eval. Qed.
Print Assumptions C41_list_eval.

(** ... so that its value is the list of these values. *)
Theorem C41_list_value : forall tmatch ords gs text fuel n mf toks starts p,
  is_order (ords n) -> earley_parse_n tmatch ords gs text fuel n mf toks starts = Ret p -> well_formed gs starts ->
  separated gs ->
  forall join_words float_string show rcall t m, registered show rcall ->
    tree_of_parse p t -> part_of t m -> t_type (s_term (n_value m)) = TList ->
    forall v, eval p join_words float_string (Call rcall) m = Ret v <->
      exists vs, Forall2 (fun c v => eval p join_words float_string (Call rcall) c = Ret v) (n_children m) vs /\ v = DList vs.
Proof. exact list_value. Qed.
Print Assumptions C41_list_value.

(** s = (list<n>); n = "1" { void($0) } | "2" on "2 1 2" *)
Example C41_list_example :
  well_formed g_numbers ["s"] /\ separated g_numbers /\ registered xshow xrcall
  /\ list_nodes (xtrees 200 (tparse g_numbers "2 1 2" ["2"; "1"; "2"] ["s"]))
     = Some [[(Ret "fmr.list(""2"", void(""1""), ""2"")", Ret (DList [DStr "2"; DNil; DStr "2"]))]].
Proof.
  split; [apply well_formed_b_ok; reflexivity|]. split; [apply separated_b_ok; reflexivity|].
  split; [exact xrcall_registered|]. vm_compute. reflexivity.
Qed.

(** The built-in fmr.entity. *)
Theorem C41_entity_builtin : forall show x rest, entity_value (show x) rest (fmr_entity show (x :: rest)).
Proof. exact entity_exact. Qed.
Print Assumptions C41_entity_builtin.

(** A call gives the first result of the function, nil when there is none, and
    fails or panics when the function does. *)
Theorem C41_call : forall rcall fn args,
  (forall v vs, rcall fn args = Ret (v :: vs) -> Call rcall fn args = Ret v)
  /\ (rcall fn args = Ret [] -> Call rcall fn args = Ret DNil)
  /\ (rcall fn args = Err -> Call rcall fn args = Err)
  /\ (rcall fn args = Panic -> Call rcall fn args = Panic).
Proof. exact call_outcomes. Qed.
Print Assumptions C41_call.

Example C41_builtin_example :
  fmr_entity xshow [] = DNil /\ fmr_entity xshow [DStr ""; DStr "a"] = DNil /\ fmr_entity xshow [DStr "x"] = DMap [("x", DNil)]
  /\ Call xrcall "fmr.entity" [DStr "x"; DStr "a"] = Ret (DMap [("x", DList [DStr "a"])])
  /\ Call xrcall "void" [] = Ret DNil /\ Call xrcall "unknown" [] = Err.
Proof. vm_compute. repeat split. Qed.

(** Nodes of a rule x that only the document defines: without function, or with
    the function of a span tagged with x whose items, when they are strings, are
    listed after the text of the span; Semantic and Eval fail when one is not. *)
Theorem C41_entities :
  forall hash find_all span_text regexps ord, (forall i l, Permutation l (ord i l)) ->
  forall d l, doc_ok d -> local_grammar hash find_all span_text regexps ord d = Ret l ->
  forall gs x, undefined gs x ->
  forall tmatch ords text fuel n mf toks starts p,
  is_order (ords n) -> earley_parse_n tmatch ords (with_local gs l) text fuel n mf toks starts = Ret p ->
  well_formed gs starts -> separated gs ->
  forall join_words float_string json is_print_hi show rcall t m, registered show rcall ->
    tree_of_parse p t -> below t m -> t_type (s_term (n_value m)) = TNonterminal -> label m = x ->
    function_of m = None \/ exists sp mm items, In sp (d_spans d) /\ sp_value sp = Some mm /\ In (x, EList items) mm
      /\ (forall ss, items = map VStr ss ->
            semantic p join_words float_string json is_print_hi (Call rcall) m
              = Ret (call_text "fmr.list" [quote is_print_hi (sp_string sp);
                  call_text "fmr.entity" [quote is_print_hi x; call_text "fmr.list" (map (quote is_print_hi) ss)]])
            /\ exists v, entity_value x [DList (map DStr ss)] v
                 /\ eval p join_words float_string (Call rcall) m = Ret (DList [DStr (sp_string sp); v]))
      /\ (~ Forall (fun v => exists s, v = VStr s) items ->
            semantic p join_words float_string json is_print_hi (Call rcall) m = Err
            /\ eval p join_words float_string (Call rcall) m = Err).
Proof. exact entity_node_means. Qed.
Print Assumptions C41_entities.

(** s = <amount> on "foo 12 foo," with 12 tagged as amount, items 12 and twelve *)
Example C41_entities_example :
  doc_ok foo_doc /\ undefined g_amount "amount" /\ well_formed g_amount ["s"] /\ separated g_amount
  /\ registered xshow xrcall
  /\ (exists l, local_grammar xhash xfind xspan_text xregexps xorde foo_doc = Ret l)
  /\ amounts = Some [(Ret "fmr.list(""12"", fmr.entity(""amount"", fmr.list(""12"", ""twelve"")))",
       Ret (DList [DStr "12"; DMap [("amount", DList [DList [DStr "12"; DStr "twelve"]])]]))].
Proof.
  split; [exact (proj1 foo_doc_ok)|]. split; [apply undefined_b_ok; reflexivity|].
  split; [apply well_formed_b_ok; reflexivity|]. split; [apply separated_b_ok; reflexivity|].
  split; [exact xrcall_registered|]. split; [eexists; vm_compute; reflexivity|]. vm_compute. reflexivity.
Qed.
