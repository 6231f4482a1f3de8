(** C12, exactly: which parse trees are returned. *)
From Verif Require Import Base ModelTypes ModelText ModelEarley ModelTrees ModelApi
     SpecTypes SpecGrammar SpecTree SpecApi SpecTreeOrder SpecTreeEdge ProofTreeMissing ProofTreeEdge Examples ProofWitness ExamplesTree ExamplesTreeEdge.

(** The returned trees are the parse trees in chart order. *)
Theorem C12_exact_trees :
  forall tmatch ords gs text fuel n mf toks starts p,
  is_order (ords n) -> earley_parse_n tmatch ords gs text fuel n mf toks starts = Ret p ->
  well_formed gs starts -> separated gs -> uniform_ranges gs -> any_named gs ->
  forall ref s S, In ref (p_finals p) -> p_state p ref = Ret s -> tag s = Ret S ->
  forall fuel' outs, get_trees (p_columns p) fuel' ref = Ret outs ->
  forall q, (exists t, In t outs /\ erase t = PRule GammaRule (gamma_body S) 0 (s_end s) [q])
    <-> tree_of gs (accepts_by tmatch) toks own_range (nonterm S) 0 (s_end s) q
        /\ in_order (p_columns p) (snd ref) (PRule GammaRule (gamma_body S) 0 (s_end s) [q]).
Proof. exact exact_trees. Qed.
Print Assumptions C12_exact_trees.

(** Every node of a parse tree without empty nodes is in the chart, once. *)
Theorem C12_nodes_in_chart :
  forall tmatch ords gs text fuel n mf toks starts p,
  is_order (ords n) -> earley_parse_n tmatch ords gs text fuel n mf toks starts = Ret p ->
  well_formed gs starts -> uniform_ranges gs -> any_named gs ->
  forall ref s S, In ref (p_finals p) -> p_state p ref = Ret s -> tag s = Ret S -> typed_args gs ->
  forall q, tree_of gs (accepts_by tmatch) toks own_range (nonterm S) 0 (s_end s) q -> nowhere_empty q ->
  forall m, subtree (PRule GammaRule (gamma_body S) 0 (s_end s) [q]) m -> p_inner m = true ->
  exists! r, stands (p_columns p) r m.
Proof. exact nodes_stand_once. Qed.
Print Assumptions C12_nodes_in_chart.

(** Such a tree is missing exactly when a child that ends with its parent is
    in the chart only after the parent. *)
Theorem C12_missing_trees :
  forall tmatch ords gs text fuel n mf toks starts p,
  is_order (ords n) -> earley_parse_n tmatch ords gs text fuel n mf toks starts = Ret p ->
  well_formed gs starts -> separated gs -> uniform_ranges gs -> any_named gs ->
  forall ref s S, In ref (p_finals p) -> p_state p ref = Ret s -> tag s = Ret S -> typed_args gs ->
  forall fuel' outs, get_trees (p_columns p) fuel' ref = Ret outs ->
  forall q, tree_of gs (accepts_by tmatch) toks own_range (nonterm S) 0 (s_end s) q -> nowhere_empty q ->
  ~ In (PRule GammaRule (gamma_body S) 0 (s_end s) [q]) (map erase outs)
  <-> exists m k, subtree (PRule GammaRule (gamma_body S) 0 (s_end s) [q]) m /\ late (p_columns p) m k.
Proof. exact missing_trees. Qed.
Print Assumptions C12_missing_trees.

(** Such a tree is returned when the label of every last child is forced. *)
Theorem C12_forced_tree_returned :
  forall tmatch ords gs text fuel n mf toks starts p,
  is_order (ords n) -> earley_parse_n tmatch ords gs text fuel n mf toks starts = Ret p ->
  well_formed gs starts -> separated gs -> uniform_ranges gs -> any_named gs ->
  forall ref s S, In ref (p_finals p) -> p_state p ref = Ret s -> tag s = Ret S -> typed_args gs ->
  forall fuel' outs, get_trees (p_columns p) fuel' ref = Ret outs ->
  forall q, tree_of gs (accepts_by tmatch) toks own_range (nonterm S) 0 (s_end s) q -> nowhere_empty q ->
  (forall m, subtree (PRule GammaRule (gamma_body S) 0 (s_end s) [q]) m ->
     forced gs (accepts_by tmatch) toks own_range m) ->
  In (PRule GammaRule (gamma_body S) 0 (s_end s) [q]) (map erase outs).
Proof. exact forced_tree. Qed.
Print Assumptions C12_forced_tree_returned.

(** an ambiguous text with both trees returned *)
Example C12_forced_example :
  well_formed g_both ["s"] /\ separated g_both /\ typed_args g_both /\ uniform_ranges g_both /\ any_named g_both
  /\ (forall deep, tree_of g_both (accepts_by xmatch) (xtoks ["a"; "b"]) own_range (nonterm "s") 0 2 (both_tree deep)
        /\ nowhere_empty (both_tree deep)
        /\ forall m, subtree (PRule GammaRule (gamma_body "s") 0 2 [both_tree deep]) m ->
             forced g_both (accepts_by xmatch) (xtoks ["a"; "b"]) own_range m)
  /\ both_tree true <> both_tree false
  /\ tree_list (xtrees 200 (xparse id_ord g_both true ["a"; "b"] ["s"]))
     = Some [PRule GammaRule (gamma_body "s") 0 2 [both_tree false]; PRule GammaRule (gamma_body "s") 0 2 [both_tree true]].
Proof.
  split; [apply well_formed_b_ok; reflexivity|]. split; [apply separated_b_ok; reflexivity|].
  split; [apply nofunc_b_ok; reflexivity|]. split; [apply uniform_b_ok; reflexivity|].
  split; [apply anynamed_b_ok; reflexivity|]. split.
  { intros deep. split; [apply both_tree_ok|]. split; [|apply both_forced].
    apply nonempty_b_ok. destruct deep; vm_compute; reflexivity. }
  split; [discriminate|vm_compute; reflexivity].
Qed.

(** Such a tree is returned when all its right edges are shortest. *)
Theorem C12_shortest_edges_returned :
  forall tmatch ords gs text fuel n mf toks starts p,
  is_order (ords n) -> earley_parse_n tmatch ords gs text fuel n mf toks starts = Ret p ->
  well_formed gs starts -> separated gs -> uniform_ranges gs -> any_named gs ->
  forall ref s S, In ref (p_finals p) -> p_state p ref = Ret s -> tag s = Ret S -> typed_args gs ->
  forall fuel' outs, get_trees (p_columns p) fuel' ref = Ret outs ->
  forall q, tree_of gs (accepts_by tmatch) toks own_range (nonterm S) 0 (s_end s) q -> nowhere_empty q ->
  (forall m, subtree (PRule GammaRule (gamma_body S) 0 (s_end s) [q]) m -> p_inner m = true ->
     shortest gs (accepts_by tmatch) toks own_range m) ->
  In (PRule GammaRule (gamma_body S) 0 (s_end s) [q]) (map erase outs).
Proof. exact shortest_tree. Qed.
Print Assumptions C12_shortest_edges_returned.

(** the tree ((a a) a) of "a a a": not forced, edges shortest *)
Example C12_shortest_example :
  well_formed g_pairs ["s"] /\ separated g_pairs /\ typed_args g_pairs /\ uniform_ranges g_pairs /\ any_named g_pairs
  /\ tree_of g_pairs (accepts_by xmatch) (xtoks ["a"; "a"; "a"]) own_range (nonterm "s") 0 3 pairs_left
  /\ nowhere_empty pairs_left
  /\ (forall m, subtree (PRule GammaRule (gamma_body "s") 0 3 [pairs_left]) m -> p_inner m = true ->
        shortest g_pairs (accepts_by xmatch) (xtoks ["a"; "a"; "a"]) own_range m)
  /\ ~ forced g_pairs (accepts_by xmatch) (xtoks ["a"; "a"; "a"]) own_range pairs_left
  /\ tree_list (xtrees 200 (xparse id_ord g_pairs true ["a"; "a"; "a"] ["s"]))
     = Some [PRule GammaRule (gamma_body "s") 0 3 [pairs_left]; PRule GammaRule (gamma_body "s") 0 3 [pairs_right]].
Proof.
  split; [apply well_formed_b_ok; reflexivity|]. split; [apply separated_b_ok; reflexivity|].
  split; [apply nofunc_b_ok; reflexivity|]. split; [apply uniform_b_ok; reflexivity|].
  split; [apply anynamed_b_ok; reflexivity|]. split; [exact pairs_left_ok|].
  split; [apply nonempty_b_ok; reflexivity|]. split; [exact pairs_shortest|]. split; [exact pairs_not_forced|vm_compute; reflexivity].
Qed.

(** an ambiguous text with one tree missing *)
Example C12_missing_example :
  tree_of g_two (accepts_by xmatch) (xtoks ["a"]) own_range (nonterm "s") 0 1 two_tree_2
  /\ nowhere_empty two_tree_2
  /\ late two_columns (PRule GammaRule (gamma_body "s") 0 1 [two_tree_2]) two_tree_2
  /\ tree_list (xtrees 200 (xparse id_ord g_two true ["a"] ["s"]))
     = Some [PRule GammaRule (gamma_body "s") 0 1 [two_tree_1]].
Proof.
  split; [exact two_tree_2_ok|]. split; [apply nonempty_b_ok; reflexivity|]. split; [exact two_late|vm_compute; reflexivity].
Qed.

(** * C05 *)
(** How many trees are returned depends on the order, for one start rule and without
    empty constituents. *)
Theorem C05_trees_refuted :
  exists gs toks starts o1 o2 t1 t2, well_formed gs starts /\ typed_args gs /\ uniform_ranges gs /\ no_empty gs
  /\ is_order o1 /\ is_order o2
  /\ tree_list (xtrees 200 (earley_parse_n xmatch (fun _ => o1) gs "" 200 0 true toks starts)) = Some [t1]
  /\ tree_list (xtrees 200 (earley_parse_n xmatch (fun _ => o2) gs "" 200 0 true toks starts)) = Some [t1; t2] /\ t1 <> t2.
Proof.
  exists g_luck, (xtoks ["a"]), ["s"%string], id_ord, rev_ord, (luck_tree false), (luck_tree true).
  split; [apply well_formed_b_ok; reflexivity|]. split; [apply nofunc_b_ok; reflexivity|]. split; [apply uniform_b_ok; reflexivity|].
  split; [apply noempty_b_ok; reflexivity|]. split; [exact id_ord_ok|]. split; [exact rev_ord_ok|].
  split; [vm_compute; reflexivity|]. split; [vm_compute; reflexivity|discriminate].
Qed.
Print Assumptions C05_trees_refuted.
