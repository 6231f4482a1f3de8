(** C47: how large charts get. *)
From Verif Require Import Base ModelTypes ModelText ModelEarley ModelApi SpecTypes SpecGrammar SpecTree SpecSize ProofSize Examples.

(** Chart construction ends after at most 7 * size^4 * (n+1)^3 rows per column,
    where size counts the rules, alternatives and terms of the grammars and n the
    tokens: with more fuel than that the parser returns. *)
Theorem C47_polynomial_fuel : forall tmatch ords gs text n mf toks starts fuel,
  is_order (ords n) -> typed_args gs -> toks <> [] -> starts <> [] ->
  7 * grammar_size gs starts ^ 4 * (length toks + 1) ^ 3 < fuel ->
  exists p, earley_parse_n tmatch ords gs text fuel n mf toks starts = Ret p.
Proof. exact chart_fuel. Qed.
Print Assumptions C47_polynomial_fuel.

(** The chart of a parse has at most that many states in column c (the first c
    tokens), and linearly many in c if the grammars have no (list<x>). *)
Theorem C47_polynomial_chart : forall tmatch ords gs text fuel n mf toks starts p,
  is_order (ords n) -> typed_args gs -> earley_parse_n tmatch ords gs text fuel n mf toks starts = Ret p ->
  forall c col, nth_error (p_columns p) c = Some col ->
  length (c_states col) <= 7 * grammar_size gs starts ^ 4 * (c + 1) ^ 3
  /\ (no_lists gs -> length (c_states col) <= 3 * grammar_size gs starts ^ 3 * (c + 1)).
Proof. exact chart_size. Qed.
Print Assumptions C47_polynomial_chart.

(** an ambiguous, cyclic grammar with lists and empty constituents; an ambiguous
    one without lists *)
Definition g_sum : list grammar_rules := [[ xrule "e" [[xN "e"; xN "p"; xN "e"]; [xN "n"]; [xN "e"]]; xrule "n" [[xT "1"]]; xrule "p" [[xT "+"]] ]].
Definition column_sizes (r : res parse_t) : list nat :=
  match r with Ret p => map (fun c => length (c_states c)) (p_columns p) | _ => [] end.
Example C47_case :
  is_order id_ord /\ typed_args g_expr /\ grammar_size g_expr ["s"] = 26
  /\ column_sizes (xparse id_ord g_expr false ["1"; "+"; "2"] ["s"]) = [13; 14; 11; 13]
  /\ typed_args g_sum /\ no_lists g_sum /\ grammar_size g_sum ["e"] = 18
  /\ column_sizes (xparse id_ord g_sum false ["1"; "+"; "1"; "+"; "1"] ["e"]) = [5; 6; 6; 9; 7; 12].
Proof.
  split; [exact id_ord_ok|]. split; [apply nofunc_b_ok; reflexivity|]. split; [reflexivity|]. split; [vm_compute; reflexivity|].
  split; [apply nofunc_b_ok; reflexivity|]. split; [|split; [reflexivity|vm_compute; reflexivity]].
  intros g kv hb t [<-|[]] Hkv Hhb Ht. cbn in Hkv.
  repeat (destruct Hkv as [<-|Hkv]; [cbn in Hhb; repeat (destruct Hhb as [<-|Hhb]; [cbn in Ht; repeat (destruct Ht as [<-|Ht]; [discriminate|]); destruct Ht|]); destruct Hhb|]).
  destruct Hkv.
Qed.
