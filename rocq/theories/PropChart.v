(** C01 - C07, C16: one parse of a token sequence. [earley_parse_n] is the
    function earleyParse of api.go:154-180 that all parsing calls use; [mf] is
    its flag "longest only". *)
From Verif Require Import Base ModelTypes ModelText ModelEarley ModelTrees ModelApi
     SpecTypes SpecGrammar SpecTree SpecApi ProofMain ProofEmpty ProofRefute Examples ExamplesEmpty ProofWitness.

(** * C01 *)
Theorem C01_chart_terminates :
  forall tmatch ords gs text n toks starts,
  is_order (ords n) -> typed_args gs -> toks <> [] -> starts <> [] ->
  exists fuel0, forall fuel mf, fuel0 <= fuel ->
    exists p, earley_parse_n tmatch ords gs text fuel n mf toks starts = Ret p.
Proof. exact chart_terminates. Qed.
Print Assumptions C01_chart_terminates.

(** a left-recursive, cyclic, nullable grammar *)
Example C01_example :
  is_order id_ord /\ typed_args g_expr /\ xtoks ["1"; "+"; "2"] <> [] /\ ["s"] <> []
  /\ report_list (xparse id_ord g_expr false ["1"; "+"; "2"] ["s"])
     = Some [("s", 3); ("s", 2); ("s", 1); ("s", 0)].
Proof.
  split; [exact id_ord_ok|]. split; [apply nofunc_b_ok; reflexivity|].
  split; [discriminate|]. split; [discriminate|vm_compute; reflexivity].
Qed.

(** Without the condition on the arguments the parser does not terminate. *)
Theorem C01_untyped_arguments_refuted :
  exists gs starts, well_formed gs starts /\ starts <> [] /\
  forall tmatch ords text fuel n mf toks, is_order (ords n) -> toks <> [] ->
    earley_parse_n tmatch ords gs text fuel n mf toks starts = Fuel.
Proof.
  exact (ex_intro _ g_untyped (ex_intro _ ["s"]
    (conj (well_formed_b_ok g_untyped ["s"] eq_refl)
    (conj (fun e : ["s"] = [] => match e with eq_refl => I end) untyped_diverges)))).
Qed.
Print Assumptions C01_untyped_arguments_refuted.

(** * C02 *)
Theorem C02_chart_never_panics :
  forall tmatch ords gs text fuel n mf toks starts,
  is_order (ords n) ->
  earley_parse_n tmatch ords gs text fuel n mf toks starts <> Panic
  /\ (earley_parse_n tmatch ords gs text fuel n mf toks starts = Err <-> toks = [] \/ starts = []).
Proof. exact chart_no_panic. Qed.
Print Assumptions C02_chart_never_panics.

Example C02_example : is_order rev_ord
  /\ exists p, xparse rev_ord g_expr true ["1"; "+"; "2"] ["s"] = Ret p.
Proof. split; [exact rev_ord_ok|]. eexists. vm_compute. reflexivity. Qed.

(** * C03 *)
Theorem C03_match_is_derivation :
  forall tmatch ords gs text fuel n mf toks starts p,
  is_order (ords n) -> earley_parse_n tmatch ords gs text fuel n mf toks starts = Ret p ->
  forall S k, well_formed gs starts -> uniform_ranges gs ->
  reports p S k -> In S starts /\ k <= length toks /\ Match tmatch gs toks S 0 k.
Proof. exact match_is_derivation. Qed.
Print Assumptions C03_match_is_derivation.

Theorem C03_match_is_derivation_up_to_ranges :
  forall tmatch ords gs text fuel n mf toks starts p,
  is_order (ords n) -> earley_parse_n tmatch ords gs text fuel n mf toks starts = Ret p ->
  forall S k, well_formed gs starts ->
  reports p S k -> In S starts /\ k <= length toks /\ MatchLax tmatch gs toks S 0 k.
Proof. exact match_is_lax_derivation. Qed.
Print Assumptions C03_match_is_derivation_up_to_ranges.

Definition has_reports (r : res parse_t) (l : list (string * nat)) : Prop :=
  report_list r = Some l.
Example C03_example :
  well_formed g_expr ["s"; "e"] /\ uniform_ranges g_expr
  /\ has_reports (xparse rev_ord g_expr true ["1"; "+"; "2"] ["s"; "e"]) [("s", 3)].
Proof.
  split; [apply well_formed_b_ok; reflexivity|]. split; [apply uniform_b_ok; reflexivity|].
  vm_compute; reflexivity.
Qed.

(** * C04 *)
Theorem C04_nonempty_derivation_found :
  forall tmatch ords gs text fuel n mf toks starts p,
  is_order (ords n) -> earley_parse_n tmatch ords gs text fuel n mf toks starts = Ret p ->
  forall S k, mf = false -> well_formed gs starts ->
  In S starts -> MatchNonempty tmatch gs toks S 0 k -> reports p S k.
Proof. exact derivation_found. Qed.
Print Assumptions C04_nonempty_derivation_found.

(** For grammars without empty constituents: exactly the matches. *)
Theorem C04_exactly_the_matches :
  forall tmatch ords gs text fuel n mf toks starts p,
  is_order (ords n) -> earley_parse_n tmatch ords gs text fuel n mf toks starts = Ret p ->
  forall S k, mf = false -> well_formed gs starts -> uniform_ranges gs -> no_empty gs ->
  (reports p S k <-> In S starts /\ Match tmatch gs toks S 0 k).
Proof. exact exact_matches. Qed.
Print Assumptions C04_exactly_the_matches.

Example C04_example :
  well_formed g_plus ["e"; "n"] /\ uniform_ranges g_plus /\ no_empty g_plus
  /\ has_reports (xparse id_ord g_plus false ["1"; "+"; "2"; "1"; "9"] ["e"; "n"])
       [("e", 5); ("e", 3); ("n", 1); ("e", 1)].
Proof.
  split; [apply well_formed_b_ok; reflexivity|]. split; [apply uniform_b_ok; reflexivity|].
  split; [apply noempty_b_ok; reflexivity|]. vm_compute; reflexivity.
Qed.

(** The one empty derivation that is always found: a start rule with an empty alternative. *)
Theorem C04_empty_start_found :
  forall tmatch ords gs text fuel n mf toks starts p,
  is_order (ords n) -> earley_parse_n tmatch ords gs text fuel n mf toks starts = Ret p ->
  forall S, mf = false -> well_formed gs starts -> In S starts -> has_alt gs S [] -> reports p S 0.
Proof. exact empty_start_found. Qed.
Print Assumptions C04_empty_start_found.

Example C04_empty_start_example :
  well_formed g_opt ["s"] /\ has_alt g_opt "s" [] /\
  has_reports (xparse id_ord g_opt false ["a"; "x"] ["s"]) [("s", 1); ("s", 0)] /\
  has_reports (xparse rev_ord g_opt false ["x"; "a"] ["s"]) [("s", 0)].
Proof.
  split; [apply well_formed_b_ok; reflexivity|].
  split; [eexists; split; [eexists; eexists; exists 1%N; split; [left; reflexivity|split; [reflexivity|right; left; reflexivity]]|reflexivity]|].
  split; vm_compute; reflexivity.
Qed.

(** A derivation with empty constituents can be missed. *)
Theorem C04_empty_constituents_refuted :
  exists gs toks starts S k, well_formed gs starts /\ typed_args gs /\ uniform_ranges gs
  /\ In S starts /\ Match xmatch gs toks S 0 k
  /\ exists p, earley_parse_n xmatch (fun _ => rev_ord) gs "" 200 0 false toks starts = Ret p
               /\ p_finals p = [].
Proof.
  refine (ex_intro _ g_eps (ex_intro _ (xtoks ["x"]) (ex_intro _ ["s"] (ex_intro _ "s" (ex_intro _ 1
    (conj (well_formed_b_ok g_eps ["s"] eq_refl) (conj (nofunc_b_ok g_eps eq_refl)
    (conj (uniform_b_ok g_eps eq_refl) (conj (or_introl eq_refl) (conj eps_match _)))))))))).
  eexists. split; vm_compute; reflexivity.
Qed.
Print Assumptions C04_empty_constituents_refuted.

(** * C05 *)
Theorem C05_same_matches :
  forall tmatch gs text ords1 ords2 fuel1 fuel2 n1 n2 toks starts p1 p2,
  no_empty gs -> is_order (ords1 n1) -> is_order (ords2 n2) ->
  earley_parse_n tmatch ords1 gs text fuel1 n1 false toks starts = Ret p1 ->
  earley_parse_n tmatch ords2 gs text fuel2 n2 false toks starts = Ret p2 ->
  forall S k, reports p1 S k <-> reports p2 S k.
Proof. exact same_matches. Qed.
Print Assumptions C05_same_matches.

Theorem C05_same_longest_length :
  forall tmatch gs text ords1 ords2 fuel1 fuel2 n1 n2 toks starts p1 p2,
  no_empty gs -> is_order (ords1 n1) -> is_order (ords2 n2) -> well_formed gs starts ->
  earley_parse_n tmatch ords1 gs text fuel1 n1 true toks starts = Ret p1 ->
  earley_parse_n tmatch ords2 gs text fuel2 n2 true toks starts = Ret p2 ->
  forall k, (exists S, reports p1 S k) <-> (exists S, reports p2 S k).
Proof. exact same_length. Qed.
Print Assumptions C05_same_longest_length.

Example C05_example :
  no_empty g_plus /\ well_formed g_plus ["e"]
  /\ has_reports (xparse id_ord g_plus false ["1"; "+"; "2"] ["e"]) [("e", 3); ("e", 1)]
  /\ has_reports (xparse rev_ord g_plus false ["1"; "+"; "2"] ["e"]) [("e", 3); ("e", 1)].
Proof.
  split; [apply noempty_b_ok; reflexivity|]. split; [apply well_formed_b_ok; reflexivity|].
  split; vm_compute; reflexivity.
Qed.

(** With empty constituents one run accepts and another one rejects. *)
Theorem C05_empty_constituents_refuted :
  exists gs toks starts o1 o2, well_formed gs starts /\ typed_args gs /\ uniform_ranges gs
  /\ is_order o1 /\ is_order o2
  /\ report_list (earley_parse_n xmatch (fun _ => o1) gs "" 200 0 true toks starts) = Some [("s", 1)]
  /\ report_list (earley_parse_n xmatch (fun _ => o2) gs "" 200 0 true toks starts) = Some [].
Proof.
  refine (ex_intro _ g_eps (ex_intro _ (xtoks ["x"]) (ex_intro _ ["s"] (ex_intro _ id_ord (ex_intro _ rev_ord
    (conj (well_formed_b_ok g_eps ["s"] eq_refl) (conj (nofunc_b_ok g_eps eq_refl)
    (conj (uniform_b_ok g_eps eq_refl) (conj id_ord_ok (conj rev_ord_ok _)))))))))).
  split; vm_compute; reflexivity.
Qed.
Print Assumptions C05_empty_constituents_refuted.

(** With two start rules the tag of the longest match depends on the order,
    even without empty constituents. *)
Theorem C05_longest_tag_refuted :
  exists gs toks starts o1 o2, well_formed gs starts /\ typed_args gs /\ uniform_ranges gs /\ no_empty gs
  /\ is_order o1 /\ is_order o2
  /\ report_list (earley_parse_n xmatch (fun _ => o1) gs "" 200 0 true toks starts) = Some [("A", 1)]
  /\ report_list (earley_parse_n xmatch (fun _ => o2) gs "" 200 0 true toks starts) = Some [("B", 1)].
Proof.
  refine (ex_intro _ g_tag (ex_intro _ (xtoks ["x"]) (ex_intro _ ["A"; "B"] (ex_intro _ id_ord (ex_intro _ rev_ord
    (conj (well_formed_b_ok g_tag ["A"; "B"] eq_refl) (conj (nofunc_b_ok g_tag eq_refl)
    (conj (uniform_b_ok g_tag eq_refl) (conj (noempty_b_ok g_tag eq_refl)
    (conj id_ord_ok (conj rev_ord_ok _))))))))))).
  split; vm_compute; reflexivity.
Qed.
Print Assumptions C05_longest_tag_refuted.

(** * C06 *)
Theorem C06_one_longest :
  forall tmatch ords gs text fuel n mf toks starts p,
  is_order (ords n) -> earley_parse_n tmatch ords gs text fuel n mf toks starts = Ret p -> mf = true ->
  length (p_finals p) <= 1
  /\ forall c r s, p_state p (c, r) = Ret s -> t_value (s_term s) = GammaRule -> is_completed s = Ret true ->
     exists ref s', p_finals p = [ref] /\ p_state p ref = Ret s'
                    /\ t_value (s_term s') = GammaRule /\ is_completed s' = Ret true
                    /\ s_end s <= s_end s'.
Proof. exact one_longest. Qed.
Print Assumptions C06_one_longest.

Theorem C06_longest_match :
  forall tmatch ords gs text fuel n mf toks starts p,
  is_order (ords n) -> earley_parse_n tmatch ords gs text fuel n mf toks starts = Ret p -> mf = true ->
  well_formed gs starts ->
  forall S k, In S starts -> MatchNonempty tmatch gs toks S 0 k ->
  exists S' k', reports p S' k' /\ k <= k'.
Proof. exact longest_match. Qed.
Print Assumptions C06_longest_match.

Theorem C06_longest_exact :
  forall tmatch ords gs text fuel n mf toks starts p,
  is_order (ords n) -> earley_parse_n tmatch ords gs text fuel n mf toks starts = Ret p -> mf = true ->
  well_formed gs starts -> uniform_ranges gs -> no_empty gs ->
  forall k, (exists S, reports p S k) <->
    ((exists S, In S starts /\ Match tmatch gs toks S 0 k)
     /\ forall S' k', In S' starts -> Match tmatch gs toks S' 0 k' -> k' <= k).
Proof. exact longest_exact. Qed.
Print Assumptions C06_longest_exact.

Example C06_example :
  well_formed g_plus ["e"] /\ uniform_ranges g_plus /\ no_empty g_plus
  /\ has_reports (xparse id_ord g_plus true ["1"; "+"; "2"; "+"] ["e"]) [("e", 3)].
Proof.
  split; [apply well_formed_b_ok; reflexivity|]. split; [apply uniform_b_ok; reflexivity|].
  split; [apply noempty_b_ok; reflexivity|]. vm_compute; reflexivity.
Qed.

(** * C07 *)
Theorem C07_finals_anchored :
  forall tmatch ords gs text fuel n mf toks starts p,
  is_order (ords n) -> earley_parse_n tmatch ords gs text fuel n mf toks starts = Ret p ->
  forall ref, well_formed gs starts -> In ref (p_finals p) ->
  exists s S, p_state p ref = Ret s /\ tag s = Ret S /\ In S starts /\ s_start s = 0
              /\ s_end s <= length toks /\ is_completed s = Ret true.
Proof. exact finals_anchored. Qed.
Print Assumptions C07_finals_anchored.

Theorem C07_all_completed_reported :
  forall tmatch ords gs text fuel n mf toks starts p,
  is_order (ords n) -> earley_parse_n tmatch ords gs text fuel n mf toks starts = Ret p ->
  forall c r s, mf = false -> p_state p (c, r) = Ret s ->
  t_value (s_term s) = GammaRule -> is_completed s = Ret true -> In (c, r) (p_finals p).
Proof. exact completed_final. Qed.
Print Assumptions C07_all_completed_reported.

Theorem C07_finals_sorted :
  forall tmatch ords gs text fuel n mf toks starts p,
  is_order (ords n) -> earley_parse_n tmatch ords gs text fuel n mf toks starts = Ret p ->
  forall l1 x y l2 sx sy, p_finals p = l1 ++ x :: y :: l2 ->
  p_state p x = Ret sx -> p_state p y = Ret sy -> s_end sy <= s_end sx.
Proof. exact finals_sorted. Qed.
Print Assumptions C07_finals_sorted.

Example C07_example :
  well_formed g_expr ["e"; "s"]
  /\ has_reports (xparse id_ord g_expr false ["1"; "+"; "2"] ["e"; "s"])
       [("s", 3); ("e", 3); ("s", 2); ("e", 1); ("s", 1); ("s", 0)].
Proof. split; [apply well_formed_b_ok; reflexivity|vm_compute; reflexivity]. Qed.

(** A rule with the reserved name breaks it: the tag is not a start rule. *)
Theorem C07_reserved_name_refuted :
  exists gs toks starts, named_rules gs
  /\ report_list (earley_parse_n xmatch (fun _ => id_ord) gs "" 200 0 false toks starts) = Some [("y", 1)]
  /\ ~ In "y" starts.
Proof.
  refine (ex_intro _ g_gamma (ex_intro _ (xtoks ["y"]) (ex_intro _ ["s"] (conj (named_b_ok g_gamma eq_refl) _)))).
  split; [vm_compute; reflexivity|]. intros [H|[]]. discriminate.
Qed.
Print Assumptions C07_reserved_name_refuted.

(** * C16 *)
Theorem C16_ranges_respected :
  forall tmatch ords gs text fuel n mf toks starts p,
  is_order (ords n) -> earley_parse_n tmatch ords gs text fuel n mf toks starts = Ret p ->
  forall S k, well_formed gs starts -> uniform_ranges gs -> reports p S k ->
  derives (has_alt gs) (accepts_by tmatch) toks own_range (fun _ _ => True) (nonterm S) 0 k.
Proof.
  exact (fun tmatch ords gs text fuel n mf toks starts p Ho Hp S k Hwf Hu Hr =>
    proj2 (proj2 (match_is_derivation tmatch ords gs text fuel n mf toks starts p Ho Hp S k Hwf Hu Hr))).
Qed.
Print Assumptions C16_ranges_respected.

Example C16_example :
  well_formed g_expr ["s"] /\ uniform_ranges g_expr
  /\ has_reports (xparse id_ord g_expr true ["1"; "2"; "x"; "x"; "x"] ["s"]) [("s", 4)].
Proof.
  split; [apply well_formed_b_ok; reflexivity|]. split; [apply uniform_b_ok; reflexivity|].
  vm_compute; reflexivity.
Qed.

(** With two different ranges a rule is completed by the other one's range:
    s = (any{1,1}) <x> | (any{2,2}) <y> accepts "a y". *)
Theorem C16_two_ranges_refuted :
  exists gs toks starts, well_formed gs starts /\ typed_args gs /\ no_empty gs
  /\ report_list (earley_parse_n xmatch (fun _ => id_ord) gs "" 200 0 true toks starts) = Some [("s", 2)]
  /\ ~ Match xmatch gs toks "s" 0 2.
Proof.
  refine (ex_intro _ g_ranges (ex_intro _ (xtoks ["a"; "y"]) (ex_intro _ ["s"]
    (conj (well_formed_b_ok g_ranges ["s"] eq_refl) (conj (nofunc_b_ok g_ranges eq_refl)
    (conj (noempty_b_ok g_ranges eq_refl) (conj _ ranges_no_match))))))).
  vm_compute; reflexivity.
Qed.
Print Assumptions C16_two_ranges_refuted.
