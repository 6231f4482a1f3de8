(** C08 - C12: the trees of a parse. *)
From Verif Require Import Base ModelTypes ModelText ModelEarley ModelTrees ModelApi
     SpecTypes SpecGrammar SpecTree SpecApi ProofMain ProofRefute Examples ProofWitness.

(** * C08 *)
Theorem C08_trees_are_parse_trees :
  forall tmatch ords gs text fuel n mf toks starts p,
  is_order (ords n) -> earley_parse_n tmatch ords gs text fuel n mf toks starts = Ret p ->
  well_formed gs starts -> separated gs ->
  forall ref fuel' outs, uniform_ranges gs ->
  In ref (p_finals p) -> get_trees (p_columns p) fuel' ref = Ret outs ->
  exists s S, p_state p ref = Ret s /\ tag s = Ret S /\
  Forall (fun t => exists kid, erase t = PRule GammaRule (gamma_body S) 0 (s_end s) [kid]
            /\ tree_of gs (accepts_by tmatch) toks own_range (nonterm S) 0 (s_end s) kid) outs.
Proof. exact trees_are_parse_trees. Qed.
Print Assumptions C08_trees_are_parse_trees.

(** without the condition on ranges: up to exchanging ranges *)
Theorem C08_trees_up_to_ranges :
  forall tmatch ords gs text fuel n mf toks starts p,
  is_order (ords n) -> earley_parse_n tmatch ords gs text fuel n mf toks starts = Ret p ->
  well_formed gs starts -> separated gs ->
  forall ref fuel' outs,
  In ref (p_finals p) -> get_trees (p_columns p) fuel' ref = Ret outs ->
  exists s S, p_state p ref = Ret s /\ tag s = Ret S /\
  Forall (fun t => exists kid, erase t = PRule GammaRule (gamma_body S) 0 (s_end s) [kid]
            /\ tree_of gs (accepts_by tmatch) toks (some_range gs) (nonterm S) 0 (s_end s) kid) outs.
Proof. exact trees_are_lax_parse_trees. Qed.
Print Assumptions C08_trees_up_to_ranges.

Definition tree_count (r : res (list (parse_t * node))) : option nat :=
  match r with Ret l => Some (length l) | _ => None end.

(** three final states, an ambiguous cyclic grammar: several trees *)
Example C08_example :
  well_formed g_expr ["s"] /\ separated g_expr /\ uniform_ranges g_expr
  /\ any_named g_expr /\ typed_args g_expr
  /\ tree_count (xtrees 200 (xparse id_ord g_expr false ["1"; "+"; "2"; "+"; "1"] ["s"])) = Some 14.
Proof.
  split; [apply well_formed_b_ok; reflexivity|]. split; [apply separated_b_ok; reflexivity|].
  split; [apply uniform_b_ok; reflexivity|]. split; [apply anynamed_b_ok; reflexivity|].
  split; [apply nofunc_b_ok; reflexivity|]. vm_compute; reflexivity.
Qed.

(** * C09, for every completed state of the chart (final states are completed) *)
Theorem C09_at_least_one_tree :
  forall tmatch ords gs text fuel n mf toks starts p,
  is_order (ords n) -> earley_parse_n tmatch ords gs text fuel n mf toks starts = Ret p ->
  separated gs ->
  forall ref s fuel' outs, any_named gs ->
  p_state p ref = Ret s -> is_completed s = Ret true ->
  get_trees (p_columns p) fuel' ref = Ret outs -> outs <> [].
Proof. exact state_trees_nonempty. Qed.
Print Assumptions C09_at_least_one_tree.

Theorem C09_finals_are_completed :
  forall tmatch ords gs text fuel n mf toks starts p,
  is_order (ords n) -> earley_parse_n tmatch ords gs text fuel n mf toks starts = Ret p ->
  forall ref, In ref (p_finals p) ->
  exists s, p_state p ref = Ret s /\ t_value (s_term s) = GammaRule /\ is_completed s = Ret true
            /\ s_end s = fst ref.
Proof. exact final_completed. Qed.
Print Assumptions C09_finals_are_completed.

(** * C10 *)
Theorem C10_trees_terminate :
  forall tmatch ords gs text fuel n mf toks starts p,
  is_order (ords n) -> earley_parse_n tmatch ords gs text fuel n mf toks starts = Ret p ->
  well_formed gs starts -> separated gs ->
  forall ref s, p_state p ref = Ret s -> is_completed s = Ret true ->
  exists outs fuel0, forall fuel', fuel0 <= fuel' -> get_trees (p_columns p) fuel' ref = Ret outs.
Proof. exact state_trees_terminate. Qed.
Print Assumptions C10_trees_terminate.

(** a cyclic, nullable grammar with infinitely many derivations of "1" *)
Example C10_example :
  well_formed g_expr ["e"; "s"] /\ separated g_expr /\ any_named g_expr
  /\ tree_count (xtrees 200 (xparse rev_ord g_expr false ["1"] ["e"; "s"])) = Some 5.
Proof.
  split; [apply well_formed_b_ok; reflexivity|]. split; [apply separated_b_ok; reflexivity|].
  split; [apply anynamed_b_ok; reflexivity|]. vm_compute; reflexivity.
Qed.

(** * C11 *)
Theorem C11_no_tree_twice :
  forall tmatch ords gs text fuel n mf toks starts p,
  is_order (ords n) -> earley_parse_n tmatch ords gs text fuel n mf toks starts = Ret p ->
  forall ref s fuel' outs, typed_args gs ->
  p_state p ref = Ret s -> get_trees (p_columns p) fuel' ref = Ret outs -> NoDup outs.
Proof. exact trees_nodup. Qed.
Print Assumptions C11_no_tree_twice.

(** The trees also differ as parse trees when every special term has one range. *)
Theorem C11_no_parse_tree_twice :
  forall tmatch ords gs text fuel n mf toks starts p,
  is_order (ords n) -> earley_parse_n tmatch ords gs text fuel n mf toks starts = Ret p ->
  forall ref s fuel' outs, typed_args gs -> uniform_ranges gs ->
  p_state p ref = Ret s -> get_trees (p_columns p) fuel' ref = Ret outs -> NoDup (map erase outs).
Proof. exact trees_nodup_erased. Qed.
Print Assumptions C11_no_parse_tree_twice.

Example C11_example :
  typed_args g_expr /\ uniform_ranges g_expr
  /\ tree_count (xtrees 200 (xparse id_ord g_expr true ["1"; "+"; "2"; "+"; "1"] ["e"])) = Some 8.
Proof.
  split; [apply nofunc_b_ok; reflexivity|]. split; [apply uniform_b_ok; reflexivity|]. vm_compute; reflexivity.
Qed.

(** With two ranges of one kind the same parse tree is returned twice. *)
Theorem C11_two_ranges_refuted :
  exists gs toks starts trees, well_formed gs starts /\ typed_args gs /\ separated gs /\ no_empty gs
  /\ tree_list (xtrees 200 (earley_parse_n xmatch (fun _ => id_ord) gs "" 200 0 true toks starts)) = Some trees
  /\ ~ NoDup trees.
Proof.
  refine (ex_intro _ g_dup (ex_intro _ (xtoks ["a"; "x"]) (ex_intro _ ["s"] (ex_intro _ _
    (conj (well_formed_b_ok g_dup ["s"] eq_refl) (conj (nofunc_b_ok g_dup eq_refl)
    (conj (separated_b_ok g_dup eq_refl) (conj (noempty_b_ok g_dup eq_refl) (conj _ _))))))))).
  - vm_compute; reflexivity.
  - intros H. inversion H as [|x l H1 _]; subst. apply H1. left. reflexivity.
Qed.
Print Assumptions C11_two_ranges_refuted.

(** * C12 *)
Theorem C12_unique_tree_returned :
  forall tmatch ords gs text fuel n mf toks starts p,
  is_order (ords n) -> earley_parse_n tmatch ords gs text fuel n mf toks starts = Ret p ->
  well_formed gs starts -> separated gs ->
  forall ref fuel' outs s S q, typed_args gs -> uniform_ranges gs -> any_named gs ->
  In ref (p_finals p) -> p_state p ref = Ret s -> tag s = Ret S ->
  get_trees (p_columns p) fuel' ref = Ret outs ->
  (forall q', tree_of gs (accepts_by tmatch) toks own_range (nonterm S) 0 (s_end s) q' -> q' = q) ->
  exists t, outs = [t] /\ erase t = PRule GammaRule (gamma_body S) 0 (s_end s) [q].
Proof. exact unique_tree. Qed.
Print Assumptions C12_unique_tree_returned.

Example C12_example :
  well_formed g_two ["c"] /\ separated g_two /\ typed_args g_two /\ uniform_ranges g_two /\ any_named g_two
  /\ report_list (xparse id_ord g_two true ["a"] ["c"]) = Some [("c", 1)]
  /\ (forall q', tree_of g_two (accepts_by xmatch) (xtoks ["a"]) own_range (nonterm "c") 0 1 q' ->
        q' = PRule "c" (xbody [xN "a"]) 0 1 [two_tree_a]).
Proof.
  split; [apply well_formed_b_ok; reflexivity|]. split; [apply separated_b_ok; reflexivity|].
  split; [apply nofunc_b_ok; reflexivity|]. split; [apply uniform_b_ok; reflexivity|].
  split; [apply anynamed_b_ok; reflexivity|]. split; [vm_compute; reflexivity|exact two_c_unique].
Qed.

(** The documentation promises all trees; here one of two is missing. *)
Theorem C12_all_trees_refuted :
  exists gs toks starts q1 q2, well_formed gs starts /\ typed_args gs /\ separated gs /\ uniform_ranges gs
  /\ no_empty gs /\ q1 <> q2
  /\ tree_of gs (accepts_by xmatch) toks own_range (nonterm "s") 0 1 q1
  /\ tree_of gs (accepts_by xmatch) toks own_range (nonterm "s") 0 1 q2
  /\ tree_list (xtrees 200 (earley_parse_n xmatch (fun _ => id_ord) gs "" 200 0 true toks starts))
     = Some [PRule GammaRule (gamma_body "s") 0 1 [q1]]
  /\ tree_list (xtrees 200 (earley_parse_n xmatch (fun _ => rev_ord) gs "" 200 0 true toks starts))
     = Some [PRule GammaRule (gamma_body "s") 0 1 [q1]].
Proof.
  refine (ex_intro _ g_two (ex_intro _ (xtoks ["a"]) (ex_intro _ ["s"] (ex_intro _ two_tree_1 (ex_intro _ two_tree_2
    (conj (well_formed_b_ok g_two ["s"] eq_refl) (conj (nofunc_b_ok g_two eq_refl)
    (conj (separated_b_ok g_two eq_refl) (conj (uniform_b_ok g_two eq_refl) (conj (noempty_b_ok g_two eq_refl)
    (conj _ (conj two_tree_1_ok (conj two_tree_2_ok (conj _ _)))))))))))))).
  - discriminate.
  - vm_compute; reflexivity.
  - vm_compute; reflexivity.
Qed.
Print Assumptions C12_all_trees_refuted.
