(** C63: what the errors say. [Refuses m] is a returned error with the message m: [Ours s] is a
    message made by the package, [Theirs s] one passed on from other code. *)
From Verif Require Import Base ModelTypes ModelText ModelQuote ModelEarley ModelTrees ModelApi ModelSem
  ModelReader ModelGrammar ModelLocal ModelFrames ModelContext ModelTermType SpecGrammar SpecTree SpecSem SpecText SpecIndex SpecFrames SpecTypes
  SpecConstruct ProofEnd Examples ExamplesSem ExamplesGrammar ExamplesFrames ExamplesFrameFmr
  ModelMessages SpecApi SpecMessages ProofMessages ProofMessagesCalls ExamplesMessages.
Local Open Scope list_scope.

(** Apart from the messages nothing changes: every theorem on the calls without messages holds with them. *)
Theorem C63_same_values : forall p join_words float_string json is_print_hi call call_says show t,
  erase (eval_m p join_words float_string call call_says show t) = eval p join_words float_string call t /\
  erase (semantic_m p join_words float_string json is_print_hi call show t) = semantic p join_words float_string json is_print_hi call t.
Proof. exact values_same. Qed.
Print Assumptions C63_same_values.

Theorem C63_same_calls : forall tmatch ords gs annotate local_grammar ctx text starts steps fuel,
  let ann := fun c t => erase (annotate c t) in
  let loc := fun d => erase (local_grammar d) in
  erase (EarleyParse_m tmatch ords gs annotate local_grammar fuel ctx text starts) = EarleyParse tmatch ords gs ann loc fuel ctx text starts /\
  erase (EarleyParseAny_m tmatch ords gs annotate local_grammar fuel ctx text starts) = EarleyParseAny tmatch ords gs ann loc fuel ctx text starts /\
  erase (EarleyParseMaxAll_m tmatch ords gs annotate local_grammar steps fuel ctx text starts) = EarleyParseMaxAll tmatch ords gs ann loc steps fuel ctx text starts /\
  erase (EarleyParseAll_m tmatch ords gs annotate local_grammar fuel ctx text starts) = EarleyParseAll tmatch ords gs ann loc fuel ctx text starts /\
  erase (Parse_m tmatch ords gs annotate local_grammar fuel ctx text starts) = Parse tmatch ords gs ann loc fuel ctx text starts /\
  erase (ParseAny_m tmatch ords gs annotate local_grammar fuel ctx text starts) = ParseAny tmatch ords gs ann loc fuel ctx text starts /\
  erase (ExtractMaxAll_m tmatch ords gs annotate local_grammar steps fuel ctx text starts) = ExtractMaxAll tmatch ords gs ann loc steps fuel ctx text starts /\
  erase (ExtractAll_m tmatch ords gs annotate local_grammar fuel ctx text starts) = ExtractAll tmatch ords gs ann loc fuel ctx text starts.
Proof. exact calls_same. Qed.
Print Assumptions C63_same_calls.

Theorem C63_same_frames : forall g key multi_match trie_says fo tmatch ords annotate local_grammar fuel ctx text,
  erase (MatchFrames_m g key multi_match trie_says fo tmatch ords annotate local_grammar fuel ctx text)
  = MatchFrames g key multi_match fo tmatch ords (fun c t => erase (annotate c t)) (fun d => erase (local_grammar d)) fuel ctx text /\
  forall join_words float_string json is_print_hi call show,
  erase (FrameFMR_m g key multi_match trie_says fo tmatch ords annotate local_grammar join_words float_string json is_print_hi call show fuel ctx text)
  = FrameFMR g key multi_match fo tmatch ords (fun c t => erase (annotate c t)) (fun d => erase (local_grammar d))
      join_words float_string json is_print_hi call fuel ctx text.
Proof. exact both_frames_same. Qed.
Print Assumptions C63_same_frames.

Theorem C63_same_context : forall address tagger parse_uri uri_string api_tagger annotate_plain annotate_pro ctx_tagger uri_says tagger_says plain_says pro_says ctx text,
  erase (context_annotate_m address tagger parse_uri uri_string api_tagger annotate_plain annotate_pro ctx_tagger uri_says tagger_says plain_says pro_says ctx text)
  = context_annotate address tagger parse_uri uri_string api_tagger annotate_plain annotate_pro ctx_tagger ctx text.
Proof. exact context_same. Qed.
Print Assumptions C63_same_context.

Theorem C63_same_termtype : forall json_unmarshal is_print_hi data,
  erase (tt_unmarshal_m json_unmarshal is_print_hi data) = tt_unmarshal json_unmarshal data.
Proof. exact tt_same. Qed.
Print Assumptions C63_same_termtype.

(** ** The parsing calls *)
(** All eight calls return an error for the same reasons with the same message. The grammar and the
    words of the text are not among the reasons. *)
Theorem C63_calls : forall tmatch ords gs annotate local_grammar ctx text starts steps fuel m, 0 < steps ->
  let R := refused annotate local_grammar ctx text starts m in
  (EarleyParse_m tmatch ords gs annotate local_grammar fuel ctx text starts = Refuses m <-> R) /\
  (EarleyParseAny_m tmatch ords gs annotate local_grammar fuel ctx text starts = Refuses m <-> R) /\
  (EarleyParseMaxAll_m tmatch ords gs annotate local_grammar steps fuel ctx text starts = Refuses m <-> R) /\
  (EarleyParseAll_m tmatch ords gs annotate local_grammar fuel ctx text starts = Refuses m <-> R) /\
  (Parse_m tmatch ords gs annotate local_grammar fuel ctx text starts = Refuses m <-> R) /\
  (ParseAny_m tmatch ords gs annotate local_grammar fuel ctx text starts = Refuses m <-> R) /\
  (ExtractMaxAll_m tmatch ords gs annotate local_grammar steps fuel ctx text starts = Refuses m <-> R) /\
  (ExtractAll_m tmatch ords gs annotate local_grammar fuel ctx text starts = Refuses m <-> R).
Proof. exact calls_refuse. Qed.
Print Assumptions C63_calls.

(** With the context of api.go and the local grammar of the document, the messages of the package
    are these four, each for its reason. *)
Theorem C63_context : forall address tagger parse_uri uri_string api_tagger annotate_plain annotate_pro ctx_tagger uri_says tagger_says plain_says pro_says
  hash find_all span_text regexps ord ctx text starts s,
  let ann := context_annotate_m address tagger parse_uri uri_string api_tagger annotate_plain annotate_pro ctx_tagger uri_says tagger_says plain_says pro_says in
  let loc := doc_local_m hash find_all span_text regexps ord ann ctx text in
  refused (doc_tokens_m ann) loc ctx text starts (Ours s) <->
  (blank text /\ s = "text is empty"%string) \/
  (~ blank text /\ ctx <> ""%string /\ ctx_tagger = ""%string /\ s = "ctxTagger should be supplied"%string) \/
  (exists doc, document_is (doc_tokens_m ann) ctx text doc /\ only_spaces doc /\ s = "no tokens"%string) \/
  (exists doc l, document_is (doc_tokens_m ann) ctx text doc /\ ~ only_spaces doc /\ loc doc = Gives l /\ starts = [] /\ s = "no start rules"%string).
Proof. exact context_reasons. Qed.
Print Assumptions C63_context.

Example C63_calls_example :
  call_outcomes xann_m "" " x a " ["s"%string] = all_eight (Gives tt) /\
  call_outcomes xann_m "" "  " ["s"%string] = all_eight (Refuses (Ours "text is empty")) /\
  call_outcomes xann_m "" "x a" [] = all_eight (Refuses (Ours "no start rules")) /\
  call_outcomes spaces_m "" "_" ["s"%string] = all_eight (Refuses (Ours "no tokens")) /\
  call_outcomes (xctx_m "") "" "x a" ["s"%string] = all_eight (Gives tt) /\
  call_outcomes (xctx_m "") "c" "x a" ["s"%string] = all_eight (Refuses (Ours "ctxTagger should be supplied")) /\
  call_outcomes (xctx_m "bad") "c" "x a" ["s"%string] = all_eight (Refuses (Theirs "parse bad: invalid URI for request")) /\
  call_outcomes (xctx_m "u") "c d" "x a" ["s"%string] = all_eight (Refuses (Theirs "unreachable u?context=c+d")).
Proof. repeat (split; [vm_compute; reflexivity|]). vm_compute. reflexivity. Qed.

(** ** Eval and Semantic *)
(** Which message is returned: that of the first failure, in the order of evaluation. *)
Theorem C63_eval : forall p join_words float_string call call_says show t m,
  eval_m p join_words float_string call call_says show t = Refuses m <-> EvSays p join_words float_string call call_says show t m.
Proof. exact eval_says. Qed.
Print Assumptions C63_eval.

Theorem C63_semantic : forall p join_words float_string json is_print_hi call show t m,
  semantic_m p join_words float_string json is_print_hi call show t = Refuses m <-> SemSays p join_words float_string json is_print_hi call show t m.
Proof. exact semantic_message. Qed.
Print Assumptions C63_semantic.

(** A message is about a node of the tree: it gives the wrong index and the number of children, or the
    wrong argument, or it comes from a function that was called. Semantic calls nothing. *)
Theorem C63_about : forall p join_words float_string json is_print_hi call call_says show t m,
  (eval_m p join_words float_string call call_says show t = Refuses m -> about p join_words float_string call call_says show t m) /\
  (semantic_m p join_words float_string json is_print_hi call show t = Refuses m ->
     about p join_words float_string call call_says show t m /\ exists s, m = Ours s).
Proof. exact both_about. Qed.
Print Assumptions C63_about.

(** Trees of a grammar whose arguments carry their kinds, such as every grammar that was read (C39):
    the message is about a $i that is greater than the number of terms of its alternative, or about
    nf.I, or comes from a function that was called. *)
Theorem C63_grammar_messages : forall tmatch ords gs text fuel n mf toks starts p,
  is_order (ords n) -> earley_parse_n tmatch ords gs text fuel n mf toks starts = Ret p -> well_formed gs starts -> separated gs -> typed_args gs ->
  forall join_words float_string json is_print_hi call call_says show t x m, tree_of_parse p t -> part_of t x ->
  eval_m p join_words float_string call call_says show x = Refuses m \/ semantic_m p join_words float_string json is_print_hi call show x = Refuses m ->
  (exists y b f i, has_body gs y b /\ rb_f b = Some f /\ uses f i /\ out_of_range i (length (rb_terms b)) /\
     m = Ours (range_text i (length (rb_terms b)))) \/
  (exists y b f args, has_body gs y b /\ rb_f b = Some f /\ within f (FMR "nf.I" args) /\ length args <> 1 /\ m = Ours identity_text) \/
  (exists fn vs, call fn vs = Err /\ m = Theirs (call_says fn vs)).
Proof. exact grammar_messages. Qed.
Print Assumptions C63_grammar_messages.

Example C63_eval_example :
  well_formed (all_rules g_says) ["s"%string] /\ separated (all_rules g_says) /\ typed_args (all_rules g_says) /\
  map says ["x a"; "x b"; "x c"; "x d"]%string =
  [Some [(Some (Ours "i=3 not in range [0, 2]"), Some (Ours "i=3 not in range [0, 2]"))];
   Some [(Some (Ours "the length of Args of nf.I should be one"), Some (Ours "the length of Args of nf.I should be one"))];
   Some [(Some (Theirs "no func nf.g"), None)];
   Some [(Some (Ours "i=9 not in range [0, 2]"), Some (Ours "i=9 not in range [0, 2]"))]] /\
  odd_says (Arg "string" (VInt 4)) = Some [Refuses (Ours "arg.Value: 4 is not string")] /\
  odd_says (Arg "number" (VInt 4)) = Some [Refuses (Ours "arg.Type: number invalid")].
Proof.
  split; [apply well_formed_b_ok; reflexivity|]. split; [apply separated_b_ok; reflexivity|]. split; [exact says_typed|].
  split; [vm_compute; reflexivity|]. split; vm_compute; reflexivity.
Qed.

(** ** Frames *)
(** Without start rules named "", MatchFrames fails when the dictionary does, and for the reasons of
    the parsing calls. "invalid parse" and "... in trie but not in index" are never returned. *)
Theorem C63_frames : forall g key multi_match trie_says fo tmatch ords annotate local_grammar rules fuel ctx text m,
  index_exact g rules -> frame_orders_ok fo -> orders ords ->
  (forall ms w, multi_match (g_trie g) text = Ret ms -> In w (map fst ms) -> In w (g_trie g)) ->
  (forall fs starts doc l, get_candidates_m g key multi_match trie_says fo fuel text = Gives (fs, starts) ->
     document_is annotate ctx text doc -> local_grammar doc = Gives l ->
     well_formed (with_local (all_rules g) l) starts /\ ~ In ""%string starts) ->
  MatchFrames_m g key multi_match trie_says fo tmatch ords annotate local_grammar fuel ctx text = Refuses m <->
  (multi_match (g_trie g) text = Err /\ m = Theirs (trie_says text)) \/
  (exists fs starts, get_candidates_m g key multi_match trie_says fo fuel text = Gives (fs, starts) /\
     refused annotate local_grammar ctx text starts m).
Proof. exact frames_refuse. Qed.
Print Assumptions C63_frames.

(** FrameFMR fails like MatchFrames, or with the message of the first frame whose function fails. *)
Theorem C63_frame_texts : forall g key multi_match trie_says fo tmatch ords annotate local_grammar join_words float_string json is_print_hi call show fuel ctx text m,
  FrameFMR_m g key multi_match trie_says fo tmatch ords annotate local_grammar join_words float_string json is_print_hi call show fuel ctx text = Refuses m <->
  MatchFrames_m g key multi_match trie_says fo tmatch ords annotate local_grammar fuel ctx text = Refuses m \/
  exists fs before vf after, MatchFrames_m g key multi_match trie_says fo tmatch ords annotate local_grammar fuel ctx text = Gives fs /\
    fo_result fo fs = before ++ vf :: after /\
    (forall v, In v before -> exists s, frame_string_m g key join_words float_string json is_print_hi call show v = Gives s) /\
    frame_string_m g key join_words float_string json is_print_hi call show vf = Refuses m.
Proof. exact frame_texts_refuse. Qed.
Print Assumptions C63_frame_texts.

Example C63_frames_example :
  (exists rules, index_exact g_fmr rules) /\ frame_orders_ok xfo /\ orders (fun _ => id_ord) /\
  (forall text ms w, xmulti (g_trie g_fmr) text = Ret ms -> In w (map fst ms) -> In w (g_trie g_fmr)) /\
  (exists fs, get_candidates_m g_fmr xkey xmulti (fun _ => "no text"%string) xfo 400 "play blue moon" = Gives (fs, ["song"%string])) /\
  well_formed (with_local (all_rules g_fmr) None) ["song"%string] /\
  outcome (xframes_m g_fmr xmulti "play blue moon") = Gives tt /\
  outcome (xframes_m g_fmr xmulti "stop") = Refuses (Ours "no start rules") /\
  outcome (xframes_m g_fmr (fun _ _ => Err) "stop") = Refuses (Theirs "no text") /\
  outcome (xframes_m g_fmr (fun _ _ => Ret [("zz"%string, [])]) "stop") = Refuses (Ours "zz in trie but not in index") /\
  xframe_fmr_m g_far "play blue" = Refuses (Ours "i=3 not in range [0, 2]").
Proof.
  split; [exact fmr_index|]. split; [exact xfo_ok|]. split; [intros n; apply id_ord_ok|]. split; [intros text; apply multi_words|].
  split; [eexists; vm_compute; reflexivity|]. split; [apply well_formed_b_ok; vm_compute; reflexivity|].
  repeat (split; [vm_compute; reflexivity|]). vm_compute. reflexivity.
Qed.

(** ** TermType *)
(** UnmarshalJSON fails on what is not a JSON string and on strings that are not one of the five names. *)
Theorem C63_termtype : forall json_unmarshal is_print_hi data m,
  tt_unmarshal_m json_unmarshal is_print_hi data = Refuses m <->
  (json_unmarshal data = Err /\ m = Ours ("TermType should be a string, got " ++ data)) \/
  (exists s, json_unmarshal data = Ret s /\ ~ In s ["EOF"; "Nonterminal"; "Terminal"; "Any"; "List"]%string /\
     m = Ours ("invalid TermType " ++ quote is_print_hi s)).
Proof. exact tt_refuses. Qed.
Print Assumptions C63_termtype.

Example C63_termtype_example :
  tt_unmarshal_m xjson (fun _ => true) "12" = Refuses (Ours "TermType should be a string, got 12") /\
  tt_unmarshal_m xjson (fun _ => true) """x""" = Refuses (Ours "invalid TermType ""x""") /\
  tt_unmarshal_m xjson (fun _ => true) """List""" = Gives 4%N.
Proof. repeat (split; [vm_compute; reflexivity|]). vm_compute. reflexivity. Qed.
