(** C13 - C15 and C36: the public parsing calls. [process] is the tokenizing
    step shared by all calls (api.go:182-226); the theorems are about every
    result it can give. [with_local gs l] are the grammars of the parse: the
    grammar, its includes and the local grammar of the text. *)
From Coq Require Import Sorting.Sorted.
From Verif Require Import Base ModelTypes ModelText ModelEarley ModelTrees ModelApi
     SpecTypes SpecGrammar SpecTree SpecApi ProofTree ProofApiLoops ProofApiMain ProofExtract ProofEmpty ProofRefute Examples ExamplesEmpty ProofWitness.

Definition words (l : list string) : string -> string -> res (list token) := fun _ _ => Ret (xtoks l).

(** * C13 *)
Theorem C13_ordered_disjoint_longest :
  forall tmatch ords gs annotate local_grammar ctx text starts toks l,
  orders ords -> process annotate local_grammar ctx text = Ret (toks, l) ->
  well_formed (with_local gs l) starts ->
  forall steps fuel ps, uniform_ranges (with_local gs l) -> no_empty (with_local gs l) ->
  EarleyParseMaxAll tmatch ords gs annotate local_grammar steps fuel ctx text starts = Ret ps ->
  exists spans, tiles 0 spans
    /\ Forall2 (fun im p => fst im < length toks /\ 0 < snd im /\ parsed_tokens p (skipn (fst im) toks)
          /\ longest_at tmatch (with_local gs l) toks starts (fst im) (snd im)
          /\ (forall k, (exists S, reports p S k) <-> k = snd im)) spans ps
    /\ (forall x, x < length toks -> ~ covered spans x -> ~ match_at tmatch (with_local gs l) toks starts x).
Proof. exact max_exact. Qed.
Print Assumptions C13_ordered_disjoint_longest.

(** The same for all grammars, with respect to matches without empty constituents. *)
Theorem C13_ordered_disjoint_longest_general :
  forall tmatch ords gs annotate local_grammar ctx text starts toks l,
  orders ords -> process annotate local_grammar ctx text = Ret (toks, l) ->
  well_formed (with_local gs l) starts ->
  forall steps fuel ps,
  EarleyParseMaxAll tmatch ords gs annotate local_grammar steps fuel ctx text starts = Ret ps ->
  exists spans, tiles 0 spans
    /\ Forall2 (fun im p => fst im < length toks /\ fst im + snd im <= length toks
          /\ parsed_tokens p (skipn (fst im) toks)
          /\ (exists S, reports p S (snd im) /\ In S starts
                        /\ MatchLax tmatch (with_local gs l) toks S (fst im) (fst im + snd im))
          /\ (forall S k, reports p S k -> k = snd im)
          /\ (forall S j, In S starts -> MatchNonempty tmatch (with_local gs l) toks S (fst im) j ->
                j <= fst im + snd im)) spans ps
    /\ (forall x S j, x < length toks -> ~ covered spans x -> In S starts ->
          ~ MatchNonempty tmatch (with_local gs l) toks S x j).
Proof. exact max_general. Qed.
Print Assumptions C13_ordered_disjoint_longest_general.

Theorem C13_terminates_without_empty_matches :
  forall tmatch ords gs annotate local_grammar ctx text starts toks l,
  orders ords -> process annotate local_grammar ctx text = Ret (toks, l) ->
  well_formed (with_local gs l) starts -> typed_args (with_local gs l) -> starts <> [] ->
  (forall S i, In S starts -> i <= length toks -> ~ MatchLax tmatch (with_local gs l) toks S i i) ->
  exists ps fuel0, forall steps fuel, fuel0 <= fuel -> length toks < steps ->
    EarleyParseMaxAll tmatch ords gs annotate local_grammar steps fuel ctx text starts = Ret ps.
Proof. exact max_call_terminates. Qed.
Print Assumptions C13_terminates_without_empty_matches.

Example C13_example :
  process (words ["+"; "1"; "+"; "2"; "x"; "2"]) no_local "" "+1+2x2" = Ret (xtoks ["+"; "1"; "+"; "2"; "x"; "2"], None)
  /\ well_formed g_plus ["e"] /\ uniform_ranges g_plus /\ no_empty g_plus /\ typed_args g_plus
  /\ (forall S i, ~ MatchLax xmatch g_plus (xtoks ["+"; "1"; "+"; "2"; "x"; "2"]) S i i)
  /\ match EarleyParseMaxAll xmatch (fun _ => rev_ord) g_plus (words ["+"; "1"; "+"; "2"; "x"; "2"]) no_local
             20 200 "" "+1+2x2" ["e"] with
     | Ret ps => Some (map (fun p => finals_of p (p_finals p)) ps)
     | _ => None
     end = Some [[("e", 3)]; [("e", 1)]].
Proof.
  split; [vm_compute; reflexivity|]. split; [apply well_formed_b_ok; reflexivity|].
  split; [apply uniform_b_ok; reflexivity|]. split; [apply noempty_b_ok; reflexivity|].
  split; [apply nofunc_b_ok; reflexivity|]. split.
  - apply (no_empty_lax xmatch g_plus _ None). apply noempty_b_ok; reflexivity.
  - vm_compute; reflexivity.
Qed.

(** When every run finds a match at some position but only empty ones, the call never returns. *)
Theorem C13_empty_match_never_returns :
  forall tmatch ords gs text fuel toks starts,
  orders ords -> well_formed gs starts -> toks <> [] -> starts <> [] ->
  (forall n p, earley_parse_n tmatch ords gs text fuel n true toks starts = Ret p ->
     (exists S k, reports p S k) /\ forall S k, reports p S k -> k = 0) ->
  forall steps n, max_all_loop tmatch ords gs text steps fuel n toks starts = Fuel.
Proof. exact max_all_diverges_reports. Qed.
Print Assumptions C13_empty_match_never_returns.

(** A start rule with an empty alternative: the call returns only if longer
    matches cover all tokens. *)
Theorem C13_empty_alternative_covers :
  forall tmatch ords gs annotate local_grammar ctx text starts toks l,
  orders ords -> process annotate local_grammar ctx text = Ret (toks, l) ->
  well_formed (with_local gs l) starts -> forall S0, In S0 starts -> has_alt (with_local gs l) S0 [] ->
  forall steps fuel ps,
  EarleyParseMaxAll tmatch ords gs annotate local_grammar steps fuel ctx text starts = Ret ps ->
  forall x, x < length toks -> exists S i j, In S starts /\ i <= x < j /\ MatchLax tmatch (with_local gs l) toks S i j.
Proof. exact empty_covers. Qed.
Print Assumptions C13_empty_alternative_covers.

Theorem C13_empty_alternative_never_returns :
  forall tmatch ords gs annotate local_grammar ctx text starts toks l,
  orders ords -> process annotate local_grammar ctx text = Ret (toks, l) ->
  well_formed (with_local gs l) starts -> forall S0, In S0 starts -> has_alt (with_local gs l) S0 [] ->
  forall x, x < length toks ->
  (forall S i j, In S starts -> i <= x < j -> ~ MatchLax tmatch (with_local gs l) toks S i j) ->
  forall steps fuel, EarleyParseMaxAll tmatch ords gs annotate local_grammar steps fuel ctx text starts = Fuel.
Proof. exact empty_never_returns. Qed.
Print Assumptions C13_empty_alternative_never_returns.

(** <s> = "a" | "" on "a a" and on "a x" *)
Example C13_empty_alternative_example :
  well_formed g_opt ["s"] /\ has_alt g_opt "s" [] /\
  process (words ["a"; "a"]) no_local "" "a a" = Ret (xtoks ["a"; "a"], None) /\
  match EarleyParseMaxAll xmatch (fun _ => id_ord) g_opt (words ["a"; "a"]) no_local 20 200 "" "a a" ["s"] with
  | Ret ps => Some (map (fun p => finals_of p (p_finals p)) ps)
  | _ => None
  end = Some [[("s", 1)]; [("s", 1)]] /\
  process (words ["a"; "x"]) no_local "" "a x" = Ret (xtoks ["a"; "x"], None) /\
  (forall i j, i <= 1 < j -> ~ MatchLax xmatch g_opt (xtoks ["a"; "x"]) "s" i j).
Proof.
  split; [apply well_formed_b_ok; reflexivity|].
  split; [eexists; split; [eexists; eexists; exists 1%N; split; [left; reflexivity|split; [reflexivity|right; left; reflexivity]]|reflexivity]|].
  split; [reflexivity|]. split; [vm_compute; reflexivity|]. split; [reflexivity|exact opt_no_x].
Qed.

(** <s> = (list<q>{0,3}), <q> = "q" on the text "x": EarleyParseMaxAll loops forever,
    whatever the map order. *)
Theorem C13_termination_refuted :
  exists gs annotate local_grammar text starts,
  well_formed gs starts /\ typed_args gs /\ uniform_ranges gs /\ starts <> [] /\
  (exists toks, process annotate local_grammar "" text = Ret (toks, None)) /\
  forall ords steps fuel, orders ords ->
    EarleyParseMaxAll xmatch ords gs annotate local_grammar steps fuel "" text starts = Fuel.
Proof.
  refine (ex_intro _ g_nullable (ex_intro _ (one_word "x") (ex_intro _ no_local (ex_intro _ "x" (ex_intro _ ["s"]
    (conj (well_formed_b_ok g_nullable ["s"] eq_refl) (conj (nofunc_b_ok g_nullable eq_refl)
    (conj (uniform_b_ok g_nullable eq_refl) (conj _ (conj (ex_intro _ (xtoks ["x"]) eq_refl) nullable_diverges)))))))))).
  discriminate.
Qed.
Print Assumptions C13_termination_refuted.

(** * C14 *)
Theorem C14_leftmost_match :
  forall tmatch ords gs annotate local_grammar ctx text starts toks l,
  orders ords -> process annotate local_grammar ctx text = Ret (toks, l) ->
  well_formed (with_local gs l) starts ->
  forall fuel r, uniform_ranges (with_local gs l) -> no_empty (with_local gs l) ->
  EarleyParseAny tmatch ords gs annotate local_grammar fuel ctx text starts = Ret r ->
  exists p i, r = Some p /\ i < length toks /\ parsed_tokens p (skipn i toks)
    /\ (forall i', i' < i -> ~ match_at tmatch (with_local gs l) toks starts i')
    /\ (forall k, (exists S, reports p S k) <-> longest_at tmatch (with_local gs l) toks starts i k)
    /\ (p_finals p <> [] <-> exists i', i' < length toks /\ match_at tmatch (with_local gs l) toks starts i').
Proof. exact any_leftmost. Qed.
Print Assumptions C14_leftmost_match.

Theorem C14_leftmost_match_general :
  forall tmatch ords gs annotate local_grammar ctx text starts toks l,
  orders ords -> process annotate local_grammar ctx text = Ret (toks, l) ->
  well_formed (with_local gs l) starts ->
  forall fuel r, EarleyParseAny tmatch ords gs annotate local_grammar fuel ctx text starts = Ret r ->
  exists p i, r = Some p /\ i < length toks /\ parsed_tokens p (skipn i toks)
    /\ (forall S k, reports p S k -> In S starts /\ MatchLax tmatch (with_local gs l) toks S i (i + k))
    /\ (forall S j, In S starts -> MatchNonempty tmatch (with_local gs l) toks S i j ->
          exists S' k, reports p S' k /\ j <= i + k)
    /\ (forall i' S j, i' < i -> In S starts -> ~ MatchNonempty tmatch (with_local gs l) toks S i' j)
    /\ (p_finals p = [] -> forall i' S j, i' < length toks -> In S starts ->
          ~ MatchNonempty tmatch (with_local gs l) toks S i' j).
Proof. exact any_general. Qed.
Print Assumptions C14_leftmost_match_general.

Theorem C14_terminates :
  forall tmatch ords gs annotate local_grammar ctx text starts toks l,
  orders ords -> process annotate local_grammar ctx text = Ret (toks, l) ->
  typed_args (with_local gs l) -> starts <> [] ->
  exists r fuel0, forall fuel, fuel0 <= fuel ->
    EarleyParseAny tmatch ords gs annotate local_grammar fuel ctx text starts = Ret r.
Proof. exact any_call_terminates. Qed.
Print Assumptions C14_terminates.

Example C14_example :
  process (words ["+"; "x"; "1"; "+"; "2"]) no_local "" "+x1+2" = Ret (xtoks ["+"; "x"; "1"; "+"; "2"], None)
  /\ well_formed g_plus ["e"] /\ uniform_ranges g_plus /\ no_empty g_plus
  /\ match EarleyParseAny xmatch (fun _ => id_ord) g_plus (words ["+"; "x"; "1"; "+"; "2"]) no_local
             200 "" "+x1+2" ["e"] with
     | Ret (Some p) => Some (finals_of p (p_finals p), length (p_columns p))
     | _ => None
     end = Some ([("e", 3)], 4).
Proof.
  split; [vm_compute; reflexivity|]. split; [apply well_formed_b_ok; reflexivity|].
  split; [apply uniform_b_ok; reflexivity|]. split; [apply noempty_b_ok; reflexivity|].
  vm_compute; reflexivity.
Qed.

(** * C15 *)
Theorem C15_exactly_the_positions :
  forall tmatch ords gs annotate local_grammar ctx text starts toks l,
  orders ords -> process annotate local_grammar ctx text = Ret (toks, l) ->
  well_formed (with_local gs l) starts ->
  forall fuel ps, uniform_ranges (with_local gs l) -> no_empty (with_local gs l) ->
  EarleyParseAll tmatch ords gs annotate local_grammar fuel ctx text starts = Ret ps ->
  exists is, StronglySorted lt is
    /\ Forall2 (fun i p => parsed_tokens p (skipn i toks)
          /\ forall S k, reports p S k <-> In S starts /\ Match tmatch (with_local gs l) toks S i (i + k)) is ps
    /\ (forall i, In i is <-> i < length toks /\ match_at tmatch (with_local gs l) toks starts i).
Proof. exact all_exact. Qed.
Print Assumptions C15_exactly_the_positions.

Theorem C15_positions_general :
  forall tmatch ords gs annotate local_grammar ctx text starts toks l,
  orders ords -> process annotate local_grammar ctx text = Ret (toks, l) ->
  well_formed (with_local gs l) starts ->
  forall fuel ps, EarleyParseAll tmatch ords gs annotate local_grammar fuel ctx text starts = Ret ps ->
  exists is, StronglySorted lt is
    /\ Forall2 (fun i p => i < length toks /\ parsed_tokens p (skipn i toks) /\ p_finals p <> []
          /\ (forall S k, reports p S k -> In S starts /\ MatchLax tmatch (with_local gs l) toks S i (i + k))
          /\ (forall S j, In S starts -> MatchNonempty tmatch (with_local gs l) toks S i j ->
                exists k, j = i + k /\ reports p S k)) is ps
    /\ (forall i S j, i < length toks -> In S starts -> MatchNonempty tmatch (with_local gs l) toks S i j -> In i is).
Proof. exact all_general. Qed.
Print Assumptions C15_positions_general.

Theorem C15_terminates :
  forall tmatch ords gs annotate local_grammar ctx text starts toks l,
  orders ords -> process annotate local_grammar ctx text = Ret (toks, l) ->
  typed_args (with_local gs l) -> starts <> [] ->
  exists ps fuel0, forall fuel, fuel0 <= fuel ->
    EarleyParseAll tmatch ords gs annotate local_grammar fuel ctx text starts = Ret ps.
Proof. exact all_call_terminates. Qed.
Print Assumptions C15_terminates.

Example C15_example :
  process (words ["+"; "1"; "+"; "2"]) no_local "" "+1+2" = Ret (xtoks ["+"; "1"; "+"; "2"], None)
  /\ well_formed g_plus ["e"] /\ uniform_ranges g_plus /\ no_empty g_plus
  /\ match EarleyParseAll xmatch (fun _ => id_ord) g_plus (words ["+"; "1"; "+"; "2"]) no_local
             200 "" "+1+2" ["e"] with
     | Ret ps => Some (map (fun p => finals_of p (p_finals p)) ps)
     | _ => None
     end = Some [[("e", 3); ("e", 1)]; [("e", 1)]].
Proof.
  split; [vm_compute; reflexivity|]. split; [apply well_formed_b_ok; reflexivity|].
  split; [apply uniform_b_ok; reflexivity|]. split; [apply noempty_b_ok; reflexivity|].
  vm_compute; reflexivity.
Qed.

(** * C36: the calls returning trees *)
Theorem C36_extract_all_sound :
  forall tmatch ords gs annotate local_grammar ctx text starts toks l,
  orders ords -> process annotate local_grammar ctx text = Ret (toks, l) ->
  well_formed (with_local gs l) starts -> separated (with_local gs l) ->
  forall fuel outs p t,
  ExtractAll tmatch ords gs annotate local_grammar fuel ctx text starts = Ret outs -> In (p, t) outs ->
  exists i k S, i < length toks /\ In S starts /\ tree_at tmatch (with_local gs l) toks i k S p t.
Proof. exact extract_all_sound. Qed.
Print Assumptions C36_extract_all_sound.

Theorem C36_extract_all_complete :
  forall tmatch ords gs annotate local_grammar ctx text starts toks l,
  orders ords -> process annotate local_grammar ctx text = Ret (toks, l) ->
  well_formed (with_local gs l) starts -> separated (with_local gs l) ->
  forall fuel outs S i j, any_named (with_local gs l) ->
  ExtractAll tmatch ords gs annotate local_grammar fuel ctx text starts = Ret outs ->
  i < length toks -> In S starts -> MatchNonempty tmatch (with_local gs l) toks S i j ->
  exists p t, In (p, t) outs /\ tree_at tmatch (with_local gs l) toks i (j - i) S p t.
Proof. exact extract_all_complete. Qed.
Print Assumptions C36_extract_all_complete.

Theorem C36_parse_longest :
  forall tmatch ords gs annotate local_grammar ctx text starts toks l,
  orders ords -> process annotate local_grammar ctx text = Ret (toks, l) ->
  well_formed (with_local gs l) starts -> separated (with_local gs l) ->
  forall fuel outs p t,
  Parse tmatch ords gs annotate local_grammar fuel ctx text starts = Ret outs -> In (p, t) outs ->
  exists k S, In S starts /\ tree_at tmatch (with_local gs l) toks 0 k S p t
    /\ (forall S' j, In S' starts -> MatchNonempty tmatch (with_local gs l) toks S' 0 j -> j <= k).
Proof. exact parse_call_trees. Qed.
Print Assumptions C36_parse_longest.

Theorem C36_parse_nonempty :
  forall tmatch ords gs annotate local_grammar ctx text starts toks l,
  orders ords -> process annotate local_grammar ctx text = Ret (toks, l) ->
  well_formed (with_local gs l) starts -> separated (with_local gs l) ->
  forall fuel outs S j, any_named (with_local gs l) ->
  Parse tmatch ords gs annotate local_grammar fuel ctx text starts = Ret outs ->
  In S starts -> MatchNonempty tmatch (with_local gs l) toks S 0 j -> outs <> [].
Proof. exact parse_call_nonempty. Qed.
Print Assumptions C36_parse_nonempty.

Theorem C36_parse_any_leftmost :
  forall tmatch ords gs annotate local_grammar ctx text starts toks l,
  orders ords -> process annotate local_grammar ctx text = Ret (toks, l) ->
  well_formed (with_local gs l) starts -> separated (with_local gs l) ->
  forall fuel outs p t,
  ParseAny tmatch ords gs annotate local_grammar fuel ctx text starts = Ret outs -> In (p, t) outs ->
  exists i k S, i < length toks /\ In S starts /\ tree_at tmatch (with_local gs l) toks i k S p t
    /\ (forall i' S' j, i' < i -> In S' starts -> ~ MatchNonempty tmatch (with_local gs l) toks S' i' j)
    /\ (forall S' j, In S' starts -> MatchNonempty tmatch (with_local gs l) toks S' i j -> j <= i + k).
Proof. exact parse_any_trees. Qed.
Print Assumptions C36_parse_any_leftmost.

Theorem C36_extract_max_longest :
  forall tmatch ords gs annotate local_grammar ctx text starts toks l,
  orders ords -> process annotate local_grammar ctx text = Ret (toks, l) ->
  well_formed (with_local gs l) starts -> separated (with_local gs l) ->
  forall steps fuel outs p t,
  ExtractMaxAll tmatch ords gs annotate local_grammar steps fuel ctx text starts = Ret outs -> In (p, t) outs ->
  exists i k S, i < length toks /\ In S starts /\ tree_at tmatch (with_local gs l) toks i k S p t
    /\ (forall S' j, In S' starts -> MatchNonempty tmatch (with_local gs l) toks S' i j -> j <= i + k).
Proof. exact extract_max_trees. Qed.
Print Assumptions C36_extract_max_longest.

(** They return normally. *)
Theorem C36_parse_returns :
  forall tmatch ords gs annotate local_grammar ctx text starts toks l,
  orders ords -> process annotate local_grammar ctx text = Ret (toks, l) ->
  well_formed (with_local gs l) starts -> separated (with_local gs l) ->
  typed_args (with_local gs l) -> starts <> [] ->
  exists outs fuel0, forall fuel, fuel0 <= fuel ->
    Parse tmatch ords gs annotate local_grammar fuel ctx text starts = Ret outs.
Proof. exact parse_easy_terminates. Qed.
Print Assumptions C36_parse_returns.

Theorem C36_parse_any_returns :
  forall tmatch ords gs annotate local_grammar ctx text starts toks l,
  orders ords -> process annotate local_grammar ctx text = Ret (toks, l) ->
  well_formed (with_local gs l) starts -> separated (with_local gs l) ->
  typed_args (with_local gs l) -> starts <> [] ->
  exists outs fuel0, forall fuel, fuel0 <= fuel ->
    ParseAny tmatch ords gs annotate local_grammar fuel ctx text starts = Ret outs.
Proof. exact parse_any_terminates. Qed.
Print Assumptions C36_parse_any_returns.

Theorem C36_extract_all_returns :
  forall tmatch ords gs annotate local_grammar ctx text starts toks l,
  orders ords -> process annotate local_grammar ctx text = Ret (toks, l) ->
  well_formed (with_local gs l) starts -> separated (with_local gs l) ->
  typed_args (with_local gs l) -> starts <> [] ->
  exists outs fuel0, forall fuel, fuel0 <= fuel ->
    ExtractAll tmatch ords gs annotate local_grammar fuel ctx text starts = Ret outs.
Proof. exact extract_all_terminates. Qed.
Print Assumptions C36_extract_all_returns.

Theorem C36_extract_max_returns :
  forall tmatch ords gs annotate local_grammar ctx text starts toks l,
  orders ords -> process annotate local_grammar ctx text = Ret (toks, l) ->
  well_formed (with_local gs l) starts -> separated (with_local gs l) ->
  typed_args (with_local gs l) -> starts <> [] ->
  (forall S i, In S starts -> i <= length toks -> ~ MatchLax tmatch (with_local gs l) toks S i i) ->
  exists outs fuel0, forall steps fuel, fuel0 <= fuel -> length toks < steps ->
    ExtractMaxAll tmatch ords gs annotate local_grammar steps fuel ctx text starts = Ret outs.
Proof. exact extract_max_terminates. Qed.
Print Assumptions C36_extract_max_returns.

Example C36_example :
  process (words ["+"; "1"; "+"; "2"]) no_local "" "+1+2" = Ret (xtoks ["+"; "1"; "+"; "2"], None)
  /\ well_formed g_plus ["e"] /\ separated g_plus /\ any_named g_plus /\ typed_args g_plus
  /\ match ExtractAll xmatch (fun _ => id_ord) g_plus (words ["+"; "1"; "+"; "2"]) no_local
             200 "" "+1+2" ["e"] with
     | Ret ps => Some (length ps)
     | _ => None
     end = Some 3.
Proof.
  split; [vm_compute; reflexivity|]. split; [apply well_formed_b_ok; reflexivity|].
  split; [apply separated_b_ok; reflexivity|]. split; [apply anynamed_b_ok; reflexivity|].
  split; [apply nofunc_b_ok; reflexivity|]. vm_compute; reflexivity.
Qed.
