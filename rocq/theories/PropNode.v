(** C40: what the methods of tree nodes show: Term, F, Tree, Bracketed and the
    value of @. [below t m]: m is a node below the root of t. *)
From Verif Require Import Base ModelTypes ModelText ModelEarley ModelTrees ModelApi ModelQuote ModelSem
     SpecTypes SpecGrammar SpecTree SpecApi SpecSem SpecNode
     ProofSem ProofNode Examples ExamplesSem ExamplesNode.

(** The root shows the start rule and the function of the alternative chosen for
    it, and means what its only child means. *)
Theorem C40_root : forall tmatch ords gs text fuel n mf toks starts p,
  is_order (ords n) -> earley_parse_n tmatch ords gs text fuel n mf toks starts = Ret p -> well_formed gs starts ->
  separated gs ->
  forall t, tree_of_parse p t -> exists c S, n_children t = [c] /\ In S starts
    /\ node_term t = Ret (nonterm S) /\ node_term c = Ret (s_term (n_value c)) /\ label c = S
    /\ node_f t = Ret (function_of c).
Proof. exact root_term. Qed.
Print Assumptions C40_root.

Theorem C40_root_views : forall tmatch ords gs text fuel n mf toks starts p,
  is_order (ords n) -> earley_parse_n tmatch ords gs text fuel n mf toks starts = Ret p -> well_formed gs starts ->
  separated gs ->
  forall is_print_hi t, tree_of_parse p t -> exists c, n_children t = [c]
    /\ tree_value p t = tree_value p c /\ bracketed p is_print_hi t = bracketed p is_print_hi c.
Proof. exact root_views. Qed.
Print Assumptions C40_root_views.

Theorem C40_root_meaning : forall tmatch ords gs text fuel n mf toks starts p,
  is_order (ords n) -> earley_parse_n tmatch ords gs text fuel n mf toks starts = Ret p -> well_formed gs starts ->
  separated gs ->
  forall is_print_hi join_words float_string json call t, tree_of_parse p t -> exists c, n_children t = [c]
    /\ eval p join_words float_string call t = eval p join_words float_string call c
    /\ semantic p join_words float_string json is_print_hi call t
       = semantic p join_words float_string json is_print_hi call c.
Proof. exact root_meaning. Qed.
Print Assumptions C40_root_meaning.

(** Every other node shows its own term and function; no function if it has no
    children. *)
Theorem C40_term_and_function : forall tmatch ords gs text fuel n mf toks starts p,
  is_order (ords n) -> earley_parse_n tmatch ords gs text fuel n mf toks starts = Ret p -> well_formed gs starts ->
  separated gs ->
  forall t m, no_gamma gs -> tree_of_parse p t -> below t m ->
    node_term m = Ret (s_term (n_value m))
    /\ node_f m = Ret (if Nat.eqb (length (n_children m)) 0 then None else function_of m).
Proof. exact below_term. Qed.
Print Assumptions C40_term_and_function.

(** Tree shows the outline of the node, cut at nodes without function and at
    nodes made of words. The leaves shown tile the tokens of the node. *)
Theorem C40_tree : forall tmatch ords gs text fuel n mf toks starts p,
  is_order (ords n) -> earley_parse_n tmatch ords gs text fuel n mf toks starts = Ret p -> well_formed gs starts ->
  separated gs -> in_order toks -> inside text toks -> no_gamma gs ->
  forall t m, tree_of_parse p t -> below t m -> nonempty_parts m ->
    exists s, outline_of tree_stop m s /\ (forall s', outline_of tree_stop m s' -> s' = s)
      /\ tree_value p m = Ret (tree_view toks text s)
      /\ tiles (s_start (n_value m)) (s_end (n_value m)) (fringe s).
Proof. exact node_tree. Qed.
Print Assumptions C40_tree.

(** Bracketed shows the outline of the node, cut at nodes made of words. *)
Theorem C40_bracketed : forall tmatch ords gs text fuel n mf toks starts p,
  is_order (ords n) -> earley_parse_n tmatch ords gs text fuel n mf toks starts = Ret p -> well_formed gs starts ->
  separated gs -> in_order toks -> inside text toks -> no_gamma gs ->
  forall is_print_hi t m, tree_of_parse p t -> below t m -> nonempty_parts m ->
    exists s, outline_of bracket_stop m s /\ (forall s', outline_of bracket_stop m s' -> s' = s)
      /\ bracketed p is_print_hi m = Ret (brackets toks text is_print_hi s)
      /\ tiles (s_start (n_value m)) (s_end (n_value m)) (fringe s).
Proof. exact node_bracketed. Qed.
Print Assumptions C40_bracketed.

(** The value of @. *)
Theorem C40_context : forall tmatch ords gs text fuel n mf toks starts p,
  is_order (ords n) -> earley_parse_n tmatch ords gs text fuel n mf toks starts = Ret p -> well_formed gs starts ->
  separated gs -> in_order toks -> inside text toks -> no_gamma gs ->
  forall join_words float_string call, (forall fn vs, call fn vs <> Panic /\ call fn vs <> Fuel) ->
  forall t m, tree_of_parse p t -> below t m -> nonempty_parts m ->
    (exists v, context_view toks text p join_words float_string call m v)
    /\ forall v, context_value p m (n_children m) (map (eval p join_words float_string call) (n_children m)) = Ret v
         <-> context_view toks text p join_words float_string call m v.
Proof. exact node_context. Qed.
Print Assumptions C40_context.

(** With @ in the functions, too, Eval and Semantic fail exactly on malformed
    parts and never panic, on nodes whose parts all cover some token. *)
Theorem C40_eval : forall tmatch ords gs text fuel n mf toks starts p,
  is_order (ords n) -> earley_parse_n tmatch ords gs text fuel n mf toks starts = Ret p -> well_formed gs starts ->
  separated gs -> in_order toks -> inside text toks -> no_gamma gs ->
  forall join_words float_string call, (forall fn vs, call fn vs <> Panic /\ call fn vs <> Fuel) ->
  forall t m, tree_of_parse p t -> below t m -> nonempty_parts m ->
    (eval p join_words float_string call m = Err <-> EvBad p join_words float_string call m)
    /\ eval p join_words float_string call m <> Panic /\ eval p join_words float_string call m <> Fuel.
Proof. exact node_eval. Qed.
Print Assumptions C40_eval.

Theorem C40_semantic : forall tmatch ords gs text fuel n mf toks starts p,
  is_order (ords n) -> earley_parse_n tmatch ords gs text fuel n mf toks starts = Ret p -> well_formed gs starts ->
  separated gs -> in_order toks -> inside text toks -> no_gamma gs ->
  forall is_print_hi join_words float_string json call, (forall fn vs, call fn vs <> Panic /\ call fn vs <> Fuel) ->
  forall t m, tree_of_parse p t -> below t m -> nonempty_parts m ->
    (semantic p join_words float_string json is_print_hi call m = Err <-> SemBad m)
    /\ semantic p join_words float_string json is_print_hi call m <> Panic
    /\ semantic p join_words float_string json is_print_hi call m <> Fuel.
Proof. exact node_semantic. Qed.
Print Assumptions C40_semantic.

(** s = <n> <p> <n> { f(@) }; n = "1" | "2" { num($0) }; p = "+", where num fails *)
Example C40_example :
  well_formed g_at ["s"] /\ separated g_at /\ no_gamma g_at /\ no_empty g_at
  /\ inside "1 + 2" (xtoks ["1"; "+"; "2"])
  /\ roots (xtrees 200 (tparse g_at "1 + 2" ["1"; "+"; "2"] ["s"]))
     = Some [(Ret (nonterm "s"), Ret (Some (FMR "f" [at_arg])))]
  /\ views (xtrees 200 (tparse g_at "1 + 2" ["1"; "+"; "2"] ["s"]))
     = Some [(Ret (DMap [("type", DStr "s"); ("text", DStr "1 + 2"); ("pos", DPos 0 5);
                ("nodes", DList [DMap [("type", DStr "n"); ("text", DStr "1"); ("pos", DPos 0 1)];
                                 DMap [("type", DStr "p"); ("text", DStr "+"); ("pos", DPos 2 3)];
                                 DMap [("type", DStr "n"); ("text", DStr "2"); ("pos", DPos 4 5)]])]),
              Ret "[s [n ""1""] [p ""+""] [n ""2""]]")]
  /\ values show_call (xtrees 200 (tparse g_at "1 + 2" ["1"; "+"; "2"] ["s"]))
     = Some [Ret (DList [DMap [("text", DStr "1 + 2"); ("pos", DPos 0 5);
                ("nodes", DList [DMap [("n", DStr "1")]; DMap [("p", DStr "+")]; DMap [("n", DStr "2")]]);
                ("type", DStr "s")]])].
Proof.
  split; [apply well_formed_b_ok; reflexivity|]. split; [apply separated_b_ok; reflexivity|].
  split; [apply nogamma_b_ok; reflexivity|]. split; [apply noempty_b_ok; reflexivity|].
  split; [intros k Hk; repeat (destruct Hk as [<-|Hk]; [vm_compute; lia|]); destruct Hk|].
  split; [vm_compute; reflexivity|]. split; vm_compute; reflexivity.
Qed.

(** A word written like the reserved name makes @ panic, although nothing is
    empty: s = "ɣ" { f(@) } on "ɣ". *)
Theorem C40_reserved_word_refuted :
  exists gs text p t, well_formed gs ["s"] /\ separated gs /\ no_empty gs /\
    earley_parse_n xmatch (fun _ => id_ord) gs text 200 0 true (xtoks [text]) ["s"] = Ret p /\ tree_of_parse p t
    /\ eval p cat (fun _ => "") show_call t = Panic
    /\ semantic p cat (fun _ => "") (fun _ => "") (fun _ => true) show_call t = Panic.
Proof.
  refine (ex_intro _ g_gamma_word (ex_intro _ GammaRule _)).
  destruct (earley_parse_n xmatch (fun _ => id_ord) g_gamma_word GammaRule 200 0 true (xtoks [GammaRule]) ["s"]) as [p| | |] eqn:E;
    try (vm_compute in E; discriminate).
  destruct (extract_finals 200 (p_columns p) (p_finals p)) as [[|t ts]| | |] eqn:E2;
    try (exfalso; vm_compute in E; injection E as <-; vm_compute in E2; discriminate).
  exists p, t. split; [apply well_formed_b_ok; reflexivity|]. split; [apply separated_b_ok; reflexivity|].
  split; [apply noempty_b_ok; reflexivity|]. split; [reflexivity|].
  vm_compute in E. injection E as <-. vm_compute in E2. injection E2 as <- <-.
  split; [|split; vm_compute; reflexivity].
  eexists _, 200, _. split; [left; reflexivity|]. split; [vm_compute; reflexivity|]. left; reflexivity.
Qed.
Print Assumptions C40_reserved_word_refuted.

(** Next to another part it makes Tree and Bracketed panic, in a grammar whose terminal
    texts were not replaced by rules: s = "ɣ" <n> { f(@) } on "ɣ 1". *)
Theorem C40_reserved_views_refuted :
  exists gs text toks p t, well_formed gs ["s"] /\ no_empty gs /\
    earley_parse_n xmatch (fun _ => id_ord) gs text 200 0 true (xtoks toks) ["s"] = Ret p /\ tree_of_parse p t
    /\ tree_value p t = Panic /\ bracketed p (fun _ => true) t = Panic.
Proof.
  refine (ex_intro _ g_gamma_mixed (ex_intro _ (GammaRule ++ " 1")%string (ex_intro _ [GammaRule; "1"] _))).
  destruct (earley_parse_n xmatch (fun _ => id_ord) g_gamma_mixed (GammaRule ++ " 1")%string 200 0 true (xtoks [GammaRule; "1"]) ["s"]) as [p| | |] eqn:E;
    try (vm_compute in E; discriminate).
  destruct (extract_finals 200 (p_columns p) (p_finals p)) as [[|t ts]| | |] eqn:E2;
    try (exfalso; vm_compute in E; injection E as <-; vm_compute in E2; discriminate).
  exists p, t. split; [apply well_formed_b_ok; reflexivity|].
  split; [apply noempty_b_ok; reflexivity|]. split; [reflexivity|].
  vm_compute in E. injection E as <-. vm_compute in E2. injection E2 as <- <-.
  split; [|split; vm_compute; reflexivity].
  eexists _, 200, _. split; [left; reflexivity|]. split; [vm_compute; reflexivity|]. left; reflexivity.
Qed.
Print Assumptions C40_reserved_views_refuted.

(** A part covering no token makes Tree and Bracketed panic. *)
Theorem C40_empty_parts_refuted :
  exists gs text p t, well_formed gs ["s"] /\ separated gs /\ no_gamma gs /\ inside text (xtoks [text]) /\
    earley_parse_n xmatch (fun _ => id_ord) gs text 200 0 true (xtoks [text]) ["s"] = Ret p /\ tree_of_parse p t
    /\ tree_value p t = Panic /\ bracketed p (fun _ => true) t = Panic.
Proof.
  refine (ex_intro _ g_evtail (ex_intro _ "x" _)).
  destruct (earley_parse_n xmatch (fun _ => id_ord) g_evtail "x" 200 0 true (xtoks ["x"]) ["s"]) as [p| | |] eqn:E;
    try (vm_compute in E; discriminate).
  destruct (extract_finals 200 (p_columns p) (p_finals p)) as [[|t ts]| | |] eqn:E2;
    try (exfalso; vm_compute in E; injection E as <-; vm_compute in E2; discriminate).
  exists p, t. split; [apply well_formed_b_ok; reflexivity|]. split; [apply separated_b_ok; reflexivity|].
  split; [apply nogamma_b_ok; reflexivity|].
  split; [intros k [<-|[]]; vm_compute; lia|]. split; [reflexivity|].
  vm_compute in E. injection E as <-. vm_compute in E2. injection E2 as <- <-.
  split; [|split; vm_compute; reflexivity].
  eexists _, 200, _. split; [left; reflexivity|]. split; [vm_compute; reflexivity|]. left; reflexivity.
Qed.
Print Assumptions C40_empty_parts_refuted.
