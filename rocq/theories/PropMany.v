(** C56: the number of trees can be exponential in the number of tokens, while
    the chart stays small (C47). *)
From Verif Require Import Base ModelTypes ModelText ModelEarley ModelTrees ModelApi ModelMatch ModelGrammar SpecTypes SpecGrammar SpecTree SpecApi SpecMany
  ProofMany Examples SpecConstruct ExamplesGrammar ExamplesMany.
Local Open Scope list_scope.

(** Parse on the tokens b a ... a (n times a) with the rules [g_many] returns 2^n trees, no two alike. *)
Theorem C56_exponential : forall gtokens to_lower ords annotate local_grammar ctx text toks n,
  orders ords -> process annotate local_grammar ctx text = Ret (toks, None) -> map tok_text toks = many_words n ->
  exists fuel0, forall fuel, fuel0 <= fuel -> exists outs,
    Parse (terminal_match gtokens to_lower) ords g_many annotate local_grammar fuel ctx text ["s"] = Ret outs
    /\ length outs = 2 ^ n /\ NoDup (map (fun o => erase (snd o)) outs).
Proof. exact many_call. Qed.
Print Assumptions C56_exponential.

(** They are all the parse trees of those tokens. *)
Theorem C56_all_trees : forall gtokens to_lower ords text toks n fuel fuel' p outs,
  is_order (ords 0) -> map tok_text toks = many_words n ->
  earley_parse_n (terminal_match gtokens to_lower) ords g_many text fuel 0 true toks ["s"] = Ret p ->
  extract_finals fuel' (p_columns p) (p_finals p) = Ret outs ->
  length outs = 2 ^ n
  /\ forall q, In q (map erase outs) <-> exists t, q = PRule GammaRule (gamma_body "s") 0 (S n) [t]
       /\ tree_of g_many (accepts_by (terminal_match gtokens to_lower)) toks own_range (nonterm "s") 0 (S n) t.
Proof. exact many_all. Qed.
Print Assumptions C56_all_trees.

(** The rules are those of a grammar text, and five tokens have sixteen trees. *)
Example C56_example :
  (match from_string (xenv [] keep) 400 9 text_many "n" [] with
   | Ret (Some g, _) => Some (map (fun r : string * rule => (fst r, map snd (r_body (snd r)))) (g_rules g))
   | _ => None
   end = Some (map (fun r : string * rule => (fst r, map snd (r_body (snd r)))) (hd [] g_many)))
  /\ process (many_annotate 4) many_local "" "baaaa" = Ret (xtoks (many_words 4), None)
  /\ map tok_text (xtoks (many_words 4)) = many_words 4
  /\ match Parse (terminal_match (fun _ => None) (fun s => s)) (fun _ => id_ord) g_many (many_annotate 4) many_local 200 "" "baaaa" ["s"] with
     | Ret outs => Some (length outs)
     | _ => None
     end = Some 16.
Proof. split; [|split; [|split]]; vm_compute; reflexivity. Qed.
