(** C17 - C20: positions, texts and meanings of parse trees. [tree_of_parse p t]:
    t is one of the trees of a final state of p; [part_of t m]: m is a node of t. *)
From Verif Require Import Base ModelTypes ModelText ModelEarley ModelTrees ModelApi ModelQuote ModelSem
     SpecTypes SpecGrammar SpecTree SpecApi SpecSem
     ProofSem ProofNodes ProofSemMain Examples ExamplesSem.

(** All public parsing calls parse the tokens of the whole text from some
    position on; tokens keep their byte positions. The theorems below are about
    any such parse. *)
Theorem C17_calls_parse_suffixes : forall tmatch ords gs annotate local_grammar ctx text starts toks l p,
  process annotate local_grammar ctx text = Ret (toks, l) ->
  (exists fuel, EarleyParse tmatch ords gs annotate local_grammar fuel ctx text starts = Ret p) \/
  (exists fuel, EarleyParseAny tmatch ords gs annotate local_grammar fuel ctx text starts = Ret (Some p)) \/
  (exists steps fuel ps, EarleyParseMaxAll tmatch ords gs annotate local_grammar steps fuel ctx text starts = Ret ps /\ In p ps) \/
  (exists fuel ps, EarleyParseAll tmatch ords gs annotate local_grammar fuel ctx text starts = Ret ps /\ In p ps) ->
  exists fuel n mf i, i <= length toks /\
    earley_parse_n tmatch ords (with_local gs l) text fuel n mf (skipn i toks) starts = Ret p.
Proof. exact calls_parse_suffixes. Qed.
Print Assumptions C17_calls_parse_suffixes.

Theorem C17_final_states : forall tmatch ords gs text fuel n mf toks starts p,
  is_order (ords n) -> earley_parse_n tmatch ords gs text fuel n mf toks starts = Ret p -> well_formed gs starts ->
  forall ref s, In ref (p_finals p) -> p_state p ref = Ret s -> in_order toks ->
    s_start s = 0 /\ s_end s <= length toks /\
    (forall a b, nth_error toks 0 = Some a -> nth_error toks (s_end s - 1) = Some b -> 0 < s_end s ->
       boundary p s = Ret (tok_start a, tok_end b))
    /\ (s_end s = 0 -> boundary p s = Panic).
Proof. exact final_position. Qed.
Print Assumptions C17_final_states.

Theorem C17_nodes : forall tmatch ords gs text fuel n mf toks starts p,
  is_order (ords n) -> earley_parse_n tmatch ords gs text fuel n mf toks starts = Ret p -> well_formed gs starts ->
  separated gs ->
  forall t m, tree_of_parse p t -> part_of t m -> in_order toks ->
    s_start (n_value m) <= s_end (n_value m) <= length toks
    /\ (s_start (n_value m) < s_end (n_value m) ->
        exists a b, nth_error toks (s_start (n_value m)) = Some a
          /\ nth_error toks (s_end (n_value m) - 1) = Some b
          /\ node_pos p m = Ret (tok_start a, tok_end b)).
Proof. exact node_position. Qed.
Print Assumptions C17_nodes.

(** Nodes covering no token: the call panics at both ends of the input and gives
    an empty range before the next token inside. *)
Theorem C17_empty_nodes : forall tmatch ords gs text fuel n mf toks starts p,
  is_order (ords n) -> earley_parse_n tmatch ords gs text fuel n mf toks starts = Ret p ->
  forall t m, tree_of_parse p t -> part_of t m -> s_start (n_value m) = s_end (n_value m) ->
    (s_start (n_value m) = length toks \/ s_start (n_value m) = 0 -> node_pos p m = Panic)
    /\ (forall a b, 0 < s_start (n_value m) -> nth_error toks (s_start (n_value m) - 1) = Some a ->
          nth_error toks (s_start (n_value m)) = Some b -> tok_end a <= tok_start b ->
          node_pos p m = Ret (tok_start b, tok_start b)).
Proof. exact empty_node_position. Qed.
Print Assumptions C17_empty_nodes.

Example C17_example :
  is_order id_ord /\ well_formed g_tail ["s"] /\ separated g_tail /\
  positions (earley_parse_n xmatch (fun _ => id_ord) g_tail "x q q y" 200 0 true (xtoks ["x"; "q"; "q"; "y"]) ["s"])
  = Some [[(GammaRule, Ret (0, 7)); ("s", Ret (0, 7)); ("x", Ret (0, 1)); ("x", Ret (0, 1));
           ("q", Ret (2, 5)); ("q", Ret (2, 3)); ("q", Ret (2, 3)); ("q", Ret (4, 5)); ("q", Ret (4, 5));
           ("y", Ret (6, 7)); ("y", Ret (6, 7)); ("q", Panic)]]
  /\ positions (earley_parse_n xmatch (fun _ => id_ord) g_tail "x y q" 200 0 true (xtoks ["x"; "y"; "q"]) ["s"])
  = Some [[(GammaRule, Ret (0, 5)); ("s", Ret (0, 5)); ("x", Ret (0, 1)); ("x", Ret (0, 1));
           ("q", Ret (2, 2)); ("y", Ret (2, 3)); ("y", Ret (2, 3)); ("q", Ret (4, 5)); ("q", Ret (4, 5)); ("q", Ret (4, 5))]].
Proof.
  split; [apply id_ord_ok|]. split; [apply well_formed_b_ok; reflexivity|].
  split; [apply separated_b_ok; reflexivity|]. split; vm_compute; reflexivity.
Qed.

(** * C18 *)
Theorem C18_text_of_node : forall tmatch ords gs text fuel n mf toks starts p,
  is_order (ords n) -> earley_parse_n tmatch ords gs text fuel n mf toks starts = Ret p -> well_formed gs starts ->
  separated gs ->
  forall t m, tree_of_parse p t -> part_of t m -> in_order toks -> inside (trim_space text) toks ->
    no_leading_space text -> s_start (n_value m) < s_end (n_value m) ->
    exists a b, nth_error toks (s_start (n_value m)) = Some a /\ nth_error toks (s_end (n_value m) - 1) = Some b
      /\ original_text p m = Ret (substring (tok_start a) (tok_end b - tok_start a) (trim_space text)).
Proof. exact node_text. Qed.
Print Assumptions C18_text_of_node.

(** In general the token positions, which refer to the trimmed text, are applied
    to the text as given. *)
Theorem C18_bytes_of_given_text : forall tmatch ords gs text fuel n mf toks starts p,
  is_order (ords n) -> earley_parse_n tmatch ords gs text fuel n mf toks starts = Ret p -> well_formed gs starts ->
  separated gs ->
  forall t m, tree_of_parse p t -> part_of t m -> in_order toks -> inside text toks ->
    s_start (n_value m) < s_end (n_value m) ->
    exists a b, nth_error toks (s_start (n_value m)) = Some a /\ nth_error toks (s_end (n_value m) - 1) = Some b
      /\ original_text p m = Ret (substring (tok_start a) (tok_end b - tok_start a) text).
Proof. exact node_text_given. Qed.
Print Assumptions C18_bytes_of_given_text.

(** Without the hypothesis on white space the text of the only tree of " ab" is
    " a", although the tokens are those of the trimmed text "ab". *)
Theorem C18_text_of_node_refuted :
  exists text p t,
    process (one_word "ab") (fun _ => Ret None) "" text = Ret (xtoks ["ab"], None)
    /\ in_order (xtoks ["ab"]) /\ inside (trim_space text) (xtoks ["ab"])
    /\ Parse xmatch (fun _ => id_ord) g_word (one_word "ab") (fun _ => Ret None) 50 "" text ["s"] = Ret [(p, t)]
    /\ original_text p t = Ret " a" /\ trim_space text = "ab".
Proof.
  refine (ex_intro _ " ab" _).
  destruct (Parse xmatch (fun _ => id_ord) g_word (one_word "ab") (fun _ => Ret None) 50 "" " ab" ["s"]) as [[|[p t] [|? ?]]| | |] eqn:E;
    try (vm_compute in E; discriminate).
  exists p, t. split; [vm_compute; reflexivity|]. split.
  - intros i j a b Hij Ha Hb. destruct i as [|[|i]]; [|discriminate|destruct i; discriminate].
    destruct j as [|[|j]]; [|discriminate|destruct j; discriminate]. injection Ha as <-. injection Hb as <-. simpl. lia.
  - split; [intros k [<-|[]]; vm_compute; lia|]. split; [reflexivity|].
    vm_compute in E. injection E as <- <-. split; vm_compute; reflexivity.
Qed.
Print Assumptions C18_text_of_node_refuted.

Example C18_example :
  no_leading_space "ab  " /\ inside (trim_space "ab  ") (xtoks ["ab"]) /\
  texts (Parse xmatch (fun _ => id_ord) g_word (one_word "ab") (fun _ => Ret None) 50 "" "ab  " ["s"]) = Some [Ret "ab"].
Proof.
  split; [vm_compute; reflexivity|]. split; [intros k [<-|[]]; vm_compute; lia|]. vm_compute; reflexivity.
Qed.

(** * C19 *)

(** Semantic gives exactly the text the clauses of [Sem] give, on any tree. *)
Theorem C19_clauses : forall p join_words float_string json is_print_hi call n s,
  semantic p join_words float_string json is_print_hi call n = Ret s
  <-> Sem p join_words float_string json is_print_hi call n s.
Proof. exact semantic_iff. Qed.
Print Assumptions C19_clauses.

(** On the nodes of trees of a parse it fails iff the used part of the tree is
    malformed, and never panics. *)
Theorem C19_failures : forall tmatch ords gs text fuel n mf toks starts p,
  is_order (ords n) -> earley_parse_n tmatch ords gs text fuel n mf toks starts = Ret p -> well_formed gs starts ->
  separated gs ->
  forall join_words float_string json is_print_hi call t m,
  no_contexts gs -> tree_of_parse p t -> part_of t m ->
    (semantic p join_words float_string json is_print_hi call m = Err <-> SemBad m)
    /\ semantic p join_words float_string json is_print_hi call m <> Panic
    /\ semantic p join_words float_string json is_print_hi call m <> Fuel.
Proof. exact tree_semantic_fails. Qed.
Print Assumptions C19_failures.

(** When all functions of the grammar fit their rule bodies it always succeeds. *)
Theorem C19_total : forall tmatch ords gs text fuel n mf toks starts p,
  is_order (ords n) -> earley_parse_n tmatch ords gs text fuel n mf toks starts = Ret p -> well_formed gs starts ->
  separated gs ->
  forall join_words float_string json is_print_hi call t m,
  functions_fit gs -> tree_of_parse p t -> part_of t m ->
  exists s, semantic p join_words float_string json is_print_hi call m = Ret s.
Proof. exact tree_semantic_total. Qed.
Print Assumptions C19_total.

(** The text of a node is the text of its tokens. *)
Theorem C19_words : forall tmatch ords gs text fuel n mf toks starts p,
  is_order (ords n) -> earley_parse_n tmatch ords gs text fuel n mf toks starts = Ret p -> well_formed gs starts ->
  separated gs ->
  forall join_words t m, tree_of_parse p t -> part_of t m ->
  node_nl p join_words m = Ret (join_words (map tok_text
    (firstn (s_end (n_value m) - s_start (n_value m)) (skipn (s_start (n_value m)) toks)))).
Proof. exact node_words. Qed.
Print Assumptions C19_words.

Example C19_example :
  well_formed g_sem ["e"] /\ separated g_sem /\ functions_fit g_sem /\ no_contexts g_sem /\
  meanings (xtrees 200 (xparse id_ord g_sem true ["1"; "+"; "2"] ["e"]))
  = Some [Ret "add(""1"", neg(num(""2"")), ""x"", 7, ""1+2"")"].
Proof.
  assert (functions_fit g_sem) by (apply fits_b_ok; reflexivity).
  split; [apply well_formed_b_ok; reflexivity|]. split; [apply separated_b_ok; reflexivity|].
  split; [assumption|]. split; [apply fits_no_contexts; assumption|]. vm_compute; reflexivity.
Qed.

(** An index out of range makes Semantic fail. *)
Example C19_example_failure :
  meanings (xtrees 200 (xparse id_ord g_badindex true ["x"] ["s"])) = Some [Err].
Proof. vm_compute; reflexivity. Qed.

(** * C20 *)
Theorem C20_clauses : forall p join_words float_string call n v,
  eval p join_words float_string call n = Ret v <-> Ev p join_words float_string call n v.
Proof. exact eval_iff. Qed.
Print Assumptions C20_clauses.

(** On nodes whose parts all cover some token, Eval fails iff a used argument is
    malformed or out of range or a called function fails, and never panics. *)
Theorem C20_failures : forall tmatch ords gs text fuel n mf toks starts p,
  is_order (ords n) -> earley_parse_n tmatch ords gs text fuel n mf toks starts = Ret p -> well_formed gs starts ->
  separated gs ->
  forall join_words float_string call t m,
  no_contexts gs -> in_order toks -> inside text toks ->
  (forall fn vs, call fn vs <> Panic /\ call fn vs <> Fuel) ->
  (forall x, part_of m x -> s_start (n_value x) < s_end (n_value x)) ->
  tree_of_parse p t -> part_of t m ->
    (eval p join_words float_string call m = Err <-> EvBad p join_words float_string call m)
    /\ eval p join_words float_string call m <> Panic /\ eval p join_words float_string call m <> Fuel.
Proof. exact tree_eval_fails. Qed.
Print Assumptions C20_failures.

(** That is so for all nodes when the grammar derives no empty text. *)
Theorem C20_nodes_not_empty : forall tmatch ords gs text fuel n mf toks starts p,
  is_order (ords n) -> earley_parse_n tmatch ords gs text fuel n mf toks starts = Ret p -> well_formed gs starts ->
  separated gs ->
  forall t m, no_empty gs -> tree_of_parse p t -> part_of t m -> s_start (n_value m) < s_end (n_value m).
Proof. exact nodes_nonempty. Qed.
Print Assumptions C20_nodes_not_empty.

(** Children not referenced by the function of a node can be anything. *)
Theorem C20_unused_children : forall p join_words float_string call v ch ch' f,
  function_of (Node v ch) = Some f -> no_context f -> length ch = length ch' ->
  (forall k, uses f (Z.of_nat (S k)) -> nth_error ch k = nth_error ch' k) ->
  eval p join_words float_string call (Node v ch) = eval p join_words float_string call (Node v ch').
Proof. exact eval_unused. Qed.
Print Assumptions C20_unused_children.

Example C20_example :
  no_empty g_sem /\ inside "1 + 2" (xtoks ["1"; "+"; "2"]) /\ no_contexts g_sem /\
  (forall fn vs, xcall fn vs <> Panic /\ xcall fn vs <> Fuel) /\
  values xcall (xtrees 200 (tparse g_sem "1 + 2" ["1"; "+"; "2"] ["e"]))
  = Some [Ret (DStr "add[1;neg[num[2;];];x;7;1+2;]")]
  /\ values (fun fn vs => if String.eqb fn "num" then Err else xcall fn vs)
       (xtrees 200 (tparse g_sem "1 + 2" ["1"; "+"; "2"] ["e"])) = Some [Err].
Proof.
  split; [apply noempty_b_ok; reflexivity|].
  split; [intros k Hk; repeat (destruct Hk as [<-|Hk]; [vm_compute; lia|]); destruct Hk|].
  split; [apply fits_no_contexts, fits_b_ok; reflexivity|]. split.
  - intros fn vs. unfold xcall. destruct (_ || _); split; discriminate.
  - split; vm_compute; reflexivity.
Qed.

(** A constituent covering no token at the end of the input makes Eval panic. *)
Theorem C20_never_panics_refuted :
  exists gs toks text p t, well_formed gs ["s"] /\ separated gs /\ no_contexts gs /\ inside text toks /\
    earley_parse_n xmatch (fun _ => id_ord) gs text 200 0 true toks ["s"] = Ret p /\ tree_of_parse p t
    /\ eval p cat (fun _ => "") xcall t = Panic.
Proof.
  refine (ex_intro _ g_evtail (ex_intro _ (xtoks ["x"]) (ex_intro _ "x" _))).
  destruct (earley_parse_n xmatch (fun _ => id_ord) g_evtail "x" 200 0 true (xtoks ["x"]) ["s"]) as [p| | |] eqn:E;
    try (vm_compute in E; discriminate).
  destruct (extract_finals 200 (p_columns p) (p_finals p)) as [[|t ts]| | |] eqn:E2;
    try (exfalso; vm_compute in E; injection E as <-; vm_compute in E2; discriminate).
  exists p, t. split; [apply well_formed_b_ok; reflexivity|]. split; [apply separated_b_ok; reflexivity|].
  split; [apply fits_no_contexts, fits_b_ok; reflexivity|].
  split; [intros k [<-|[]]; vm_compute; lia|]. split; [reflexivity|].
  vm_compute in E. injection E as <-. vm_compute in E2. injection E2 as <- <-.
  split; [|vm_compute; reflexivity].
  eexists _, 200, _. split; [left; reflexivity|]. split; [vm_compute; reflexivity|]. left; reflexivity.
Qed.
Print Assumptions C20_never_panics_refuted.
