(** C54: what the context of a call does. *)
From Verif Require Import Base ModelTypes ModelText ModelEarley ModelTrees ModelApi ModelLocal ModelGrammar ModelFrames SpecConstruct ModelContext SpecContext ProofContext ExamplesContext.
Local Open Scope list_scope.

(** Without the flag -ctx_tagger, or with one that is not an address, every call with a
    context returns an error, whatever the text and the grammar; nothing panics. *)
Theorem C54_no_tagger : forall address tagger parse_uri uri_string api_tagger annotate_plain annotate_pro flag
    tmatch ords gs hash find_all span_text regexps lord steps fuel ctx text starts,
  ctx <> ""%string -> flag = ""%string \/ parse_uri flag = None ->
  all_refuse (calls tmatch ords gs hash find_all span_text regexps lord
    (context_annotate address tagger parse_uri uri_string api_tagger annotate_plain annotate_pro flag) steps fuel ctx text starts).
Proof. exact no_tagger. Qed.
Print Assumptions C54_no_tagger.

(** The same for the frame calls: they return no frames, and an error unless looking up
    the words of the text in the index went wrong before. *)
Theorem C54_no_frames : forall address tagger parse_uri uri_string api_tagger annotate_plain annotate_pro flag
    g key multi fo tmatch ords local join_words float_string json is_print_hi call fuel ctx text,
  ctx <> ""%string -> flag = ""%string \/ parse_uri flag = None ->
  (forall fs, MatchFrames g key multi fo tmatch ords
     (doc_tokens (context_annotate address tagger parse_uri uri_string api_tagger annotate_plain annotate_pro flag)) local fuel ctx text <> Ret fs) /\
  (forall l, FrameFMR g key multi fo tmatch ords
     (doc_tokens (context_annotate address tagger parse_uri uri_string api_tagger annotate_plain annotate_pro flag)) local
     join_words float_string json is_print_hi call fuel ctx text <> Ret l) /\
  (calm (get_candidates g key multi fo fuel text) ->
   MatchFrames g key multi fo tmatch ords
     (doc_tokens (context_annotate address tagger parse_uri uri_string api_tagger annotate_plain annotate_pro flag)) local fuel ctx text = Err /\
   FrameFMR g key multi fo tmatch ords
     (doc_tokens (context_annotate address tagger parse_uri uri_string api_tagger annotate_plain annotate_pro flag)) local
     join_words float_string json is_print_hi call fuel ctx text = Err).
Proof. exact no_frames. Qed.
Print Assumptions C54_no_frames.

(** A call with the empty context is a call with the shared pipeline, whatever the flag. *)
Theorem C54_no_context : forall address tagger parse_uri uri_string api_tagger annotate_plain annotate_pro flag
    tmatch ords gs hash find_all span_text regexps lord steps fuel text starts,
  calls tmatch ords gs hash find_all span_text regexps lord
    (context_annotate address tagger parse_uri uri_string api_tagger annotate_plain annotate_pro flag) steps fuel "" text starts =
  calls tmatch ords gs hash find_all span_text regexps lord (fun _ => annotate_plain) steps fuel "" text starts.
Proof. exact no_context. Qed.
Print Assumptions C54_no_context.

(** Otherwise the tagger that is asked is the one at the address of the flag with a
    query that says [context] is exactly the context of the call, once, whatever bytes
    it is made of. If the query of the flag is well-formed, every other parameter keeps
    its values in order. If there is no such tagger, all calls return an error. *)
Theorem C54_asked : forall address tagger parse_uri uri_string api_tagger annotate_plain annotate_pro flag a raw ctx,
  ctx <> ""%string -> flag <> ""%string -> parse_uri flag = Some (a, raw) ->
  exists q l, query q l /\ values_of "context" l = [ctx] /\ (forall l0, query raw l0 -> with_parameter "context" ctx l0 l) /\
  forall tmatch ords gs hash find_all span_text regexps lord steps fuel text starts,
    match api_tagger (uri_string a q) with
    | None => all_refuse (calls tmatch ords gs hash find_all span_text regexps lord
        (context_annotate address tagger parse_uri uri_string api_tagger annotate_plain annotate_pro flag) steps fuel ctx text starts)
    | Some t =>
        calls tmatch ords gs hash find_all span_text regexps lord
          (context_annotate address tagger parse_uri uri_string api_tagger annotate_plain annotate_pro flag) steps fuel ctx text starts =
        calls tmatch ords gs hash find_all span_text regexps lord (fun _ => annotate_pro t) steps fuel ctx text starts
    end.
Proof. exact asked. Qed.
Print Assumptions C54_asked.

(** A query says one thing only, so two contexts are never confused. *)
Theorem C54_query_unique : forall q l l', query q l -> query q l' -> l = l'.
Proof. exact query_unique. Qed.
Print Assumptions C54_query_unique.

(** Without well-formedness the other parameters are not kept: parameters with a
    single % or with a semicolon are dropped silently. *)
Theorem C54_kept_refuted : exists a raw,
  split_uri "http://h/t?size=50%&a=1;b=2&lang=zh" = Some (a, raw) /\ raw = "size=50%&a=1;b=2&lang=zh"%string /\
  xcontext "http://h/t?size=50%&a=1;b=2&lang=zh" "x" "hello" = Ret (mkDoc "http://h/t?context=x&lang=zh" [] []).
Proof. exact context_lost. Qed.
Print Assumptions C54_kept_refuted.

Example C54_example :
  query "lang=zh&context=old&k=a%3db&token=ab==" [("lang", "zh"); ("context", "old"); ("k", "a=b"); ("token", "ab==")]%string /\
  xcontext "http://h/t?lang=zh&context=old&k=a%3db&token=ab==" "user 7&x=京" "hello" =
    Ret (mkDoc "http://h/t?context=user+7%26x%3D%E4%BA%AC&k=a%3Db&lang=zh&token=ab%3D%3D" [] []) /\
  xcontext "" "x" "hello" = Err /\ xcontext "nothing" "x" "hello" = Err /\ xcontext "http://nowhere/t" "x" "hello" = Err /\
  xcontext "" "" "hello" = plain_doc "hello".
Proof. split; [exact uri_query|]. split; [exact context_asked|]. vm_compute. repeat split. Qed.
