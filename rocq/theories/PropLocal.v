(** C33: the grammar made from the document of a call. [doc_tokens annotate] and
    [doc_local ...] are the two parameters of the parsing calls for a tokenizer
    with taggers [annotate]. *)
From Coq Require Import Permutation Sorted.
From Verif Require Import Base ModelTypes ModelText ModelEarley ModelTrees ModelApi ModelReader ModelGrammar ModelLocal
  ModelMatch SpecTypes SpecGrammar SpecTree SpecApi SpecLocal ProofLocal ProofLocalMatch ProofLocalApi Examples ExamplesSem ExamplesLocal.

(** A call fails only for texts without tokens, and panics only when a tagger
    gives a span outside of the document. *)
Theorem C33_document_outcomes :
  forall hash find_all span_text regexps ord annotate ctx text d,
  trim_space text <> "" -> annotate ctx (trim_space text) = Ret d -> doc_ok d ->
  let P := process (doc_tokens annotate) (doc_local hash find_all span_text regexps ord annotate ctx text) ctx text in
  (content d = [] -> P = Err) /\
  (content d <> [] -> ~ spans_ok d -> P = Panic) /\
  (content d <> [] -> spans_ok d -> exists l, P = Ret (content d, l) /\
     local_grammar hash find_all span_text regexps ord d = Ret l).
Proof. exact local_process. Qed.
Print Assumptions C33_document_outcomes.

(** The alternatives of the local rules. *)
Theorem C33_alternatives_exact :
  forall hash find_all span_text regexps ord, (forall i l, Permutation l (ord i l)) ->
  forall d l, doc_ok d -> hash_separates find_all regexps d hash ->
  local_grammar hash find_all span_text regexps ord d = Ret l ->
  forall x b, has_body (opt_rules l) x b <-> local_alt find_all regexps d x b.
Proof. exact local_exact. Qed.
Print Assumptions C33_alternatives_exact.

(** The hypotheses of the other properties carry over to the grammars of the call. *)
Theorem C33_keeps_hypotheses :
  forall hash find_all span_text regexps ord, (forall i l, Permutation l (ord i l)) ->
  forall d, doc_ok d -> forall l, local_grammar hash find_all span_text regexps ord d = Ret l -> forall gs,
  (forall starts, well_formed gs starts -> well_formed (with_local gs l) starts) /\
  (uniform_ranges gs -> uniform_ranges (with_local gs l)) /\
  (separated gs -> separated (with_local gs l)) /\
  (any_named gs -> any_named (with_local gs l)) /\
  (typed_args gs -> string_items d -> typed_args (with_local gs l)) /\
  (no_empty gs -> no_empty_spans find_all regexps d -> no_empty (with_local gs l)).
Proof. exact local_keeps. Qed.
Print Assumptions C33_keeps_hypotheses.

Example C33_document_example :
  doc_ok foo_doc /\ spans_ok foo_doc /\ hash_separates xfind xregexps foo_doc xhash /\
  foo_annotate "" (trim_space " foo 12 foo, ") = Ret foo_doc /\
  map (fun xr => (fst xr, map (fun hb => (map t_value (rb_terms (snd hb)), match rb_f (snd hb) with Some _ => true | None => false end))
                              (r_body (snd xr))))
      match local_grammar xhash xfind xspan_text xregexps xorde foo_doc with Ret (Some g) => g | _ => [] end
  = [("letters", [(["foo"], false)]); ("word", [(["12"], false); (["foo"], false)]); ("punct", [([","], false)]);
     ("amount", [(["12"], true)]); ("number", [(["12"], false)]); ("re_start", [(["foo"], false)]);
     ("re_digits", [(["12"], false)]); ("re_two", [(["foo"; " "; "12"], false)]);
     ("re_any", [([], false); (["12"], false)])]%string.
Proof.
  destruct foo_doc_ok as (H1 & H2 & H3). split; [exact H1|]. split; [exact H2|]. split; [exact H3|].
  split; vm_compute; reflexivity.
Qed.

(** A local rule that the grammar itself does not define: EarleyParseAll finds
    exactly the places where the parsed tokens have the texts of one of the alternatives. *)
Theorem C33_local_rule_matches :
  forall ords gtokens to_lower hash find_all span_text regexps ord annotate ctx text d gs,
  orders ords -> (forall i l, Permutation l (ord i l)) ->
  trim_space text <> "" -> annotate ctx (trim_space text) = Ret d ->
  doc_ok d -> spans_ok d -> hash_separates find_all regexps d hash ->
  forall x fuel ps, undefined gs x -> well_formed gs [x] ->
  EarleyParseAll (terminal_match gtokens to_lower) ords gs (doc_tokens annotate)
    (doc_local hash find_all span_text regexps ord annotate ctx text) fuel ctx text [x] = Ret ps ->
  exists is, StronglySorted lt is
    /\ Forall2 (fun i p => parsed_tokens p (skipn i (content d)) /\ forall S k, reports p S k <->
          S = x /\ exists b, local_alt find_all regexps d x b /\ k = length (rb_terms b)
                   /\ reads_at (content d) i (map t_value (rb_terms b))) is ps
    /\ (forall i, In i is <-> i < length (content d) /\
          exists b, local_alt find_all regexps d x b /\ reads_at (content d) i (map t_value (rb_terms b))).
Proof. exact local_call. Qed.
Print Assumptions C33_local_rule_matches.

(** <word>, <punct>, <symbol>, <letters> match exactly the single tokens that
    have the text of some token of the class. *)
Theorem C33_token_classes :
  forall ords gtokens to_lower hash find_all span_text regexps ord annotate ctx text d gs,
  orders ords -> (forall i l, Permutation l (ord i l)) ->
  trim_space text <> "" -> annotate ctx (trim_space text) = Ret d ->
  doc_ok d -> spans_ok d -> hash_separates find_all regexps d hash ->
  forall c ty fuel ps, class_of ty c -> ~ tagged d c -> ~ In c (map fst regexps) -> undefined gs c -> well_formed gs [c] ->
  EarleyParseAll (terminal_match gtokens to_lower) ords gs (doc_tokens annotate)
    (doc_local hash find_all span_text regexps ord annotate ctx text) fuel ctx text [c] = Ret ps ->
  exists is, StronglySorted lt is
    /\ Forall2 (fun i p => parsed_tokens p (skipn i (content d)) /\ forall S k, reports p S k <-> S = c /\ k = 1) is ps
    /\ (forall i, In i is <-> exists k, nth_error (content d) i = Some k /\ class_text d c (tok_text k)).
Proof. exact class_call. Qed.
Print Assumptions C33_token_classes.

(** A regular expression matches at the places that have the texts of the tokens
    of one of its matches in the text, wherever that match is. *)
Theorem C33_regular_expressions :
  forall ords gtokens to_lower hash find_all span_text regexps ord annotate ctx text d gs,
  orders ords -> (forall i l, Permutation l (ord i l)) ->
  trim_space text <> "" -> annotate ctx (trim_space text) = Ret d ->
  doc_ok d -> spans_ok d -> hash_separates find_all regexps d hash ->
  forall x fuel ps, ~ tagged d x -> (forall ty, ~ class_of ty x) -> undefined gs x -> well_formed gs [x] ->
  EarleyParseAll (terminal_match gtokens to_lower) ords gs (doc_tokens annotate)
    (doc_local hash find_all span_text regexps ord annotate ctx text) fuel ctx text [x] = Ret ps ->
  exists is, StronglySorted lt is
    /\ Forall2 (fun i p => parsed_tokens p (skipn i (content d)) /\ forall S k, reports p S k <->
          S = x /\ exists s e, regexp_hit find_all regexps d x s e /\ k = length (tokens_at d s e)
                   /\ reads_at (content d) i (map tok_text (tokens_at d s e))) is ps
    /\ (forall i, In i is <-> i < length (content d) /\
          exists s e, regexp_hit find_all regexps d x s e /\ reads_at (content d) i (map tok_text (tokens_at d s e))).
Proof. exact regexp_call. Qed.
Print Assumptions C33_regular_expressions.

(** With white space in every match, a regular expression matches nothing. *)
Theorem C33_white_space_never_matches :
  forall ords gtokens to_lower hash find_all span_text regexps ord annotate ctx text d gs,
  orders ords -> (forall i l, Permutation l (ord i l)) ->
  trim_space text <> "" -> annotate ctx (trim_space text) = Ret d ->
  doc_ok d -> spans_ok d -> hash_separates find_all regexps d hash ->
  forall x fuel ps, ~ tagged d x -> (forall ty, ~ class_of ty x) -> undefined gs x -> well_formed gs [x] ->
  space_apart d ->
  (forall s e, regexp_hit find_all regexps d x s e -> exists k, In k (tokens_at d s e) /\ tok_type k = KSpace) ->
  EarleyParseAll (terminal_match gtokens to_lower) ords gs (doc_tokens annotate)
    (doc_local hash find_all span_text regexps ord annotate ctx text) fuel ctx text [x] = Ret ps -> ps = [].
Proof. exact regexp_space_call. Qed.
Print Assumptions C33_white_space_never_matches.

Example C33_example :
  orders (fun _ => id_ord) /\ (forall i l, Permutation l (xorde i l)) /\
  class_of KWord "word" /\ ~ tagged foo_doc "word" /\ ~ In "word" (map fst xregexps) /\ undefined g_classes "word" /\
  well_formed g_classes ["word"] /\
  foo_all "word" = Some [(5, [("word", 1)]); (4, [("word", 1)]); (3, [("word", 1)])] /\
  ~ tagged foo_doc "re_start" /\ (forall ty, ~ class_of ty "re_start") /\ undefined g_classes "re_start" /\
  well_formed g_classes ["re_start"] /\
  (forall s e, regexp_hit xfind xregexps foo_doc "re_start" s e <-> (s, e) = (0, 1)) /\
  foo_all "re_start" = Some [(5, [("re_start", 1)]); (3, [("re_start", 1)])] /\
  space_apart foo_doc /\ regexp_hit xfind xregexps foo_doc "re_two" 0 3 /\
  (forall s e, regexp_hit xfind xregexps foo_doc "re_two" s e -> exists k, In k (tokens_at foo_doc s e) /\ tok_type k = KSpace) /\
  foo_all "re_two" = Some [].
Proof.
  destruct foo_doc_ok as (Hok & _). split; [intros n; exact id_ord_ok|]. split; [exact xorde_ok|]. split; [constructor|].
  split; [apply tagged_b_no; vm_compute; reflexivity|]. split; [cbn; intuition discriminate|].
  split; [apply undefined_b_ok; reflexivity|]. split; [apply well_formed_b_ok; reflexivity|].
  split; [vm_compute; reflexivity|]. split; [apply tagged_b_no; vm_compute; reflexivity|].
  split; [apply not_class; discriminate|]. split; [apply undefined_b_ok; reflexivity|].
  split; [apply well_formed_b_ok; reflexivity|].
  split. { intros s e. rewrite (hits_ok xfind xregexps foo_doc "re_start" s e Hok). vm_compute (hits _ _ _ _).
    cbn. split; [intros [H|[]]; auto|intros ->; auto]. }
  split; [vm_compute; reflexivity|].
  split. { intros k k' Hk Hk' Hs He. cbn in Hk, Hk'.
    repeat (destruct Hk as [<-|Hk]; [try discriminate Hs; repeat (destruct Hk' as [<-|Hk']; [try discriminate He; reflexivity|]); destruct Hk'|]); destruct Hk. }
  split; [apply (hits_ok xfind xregexps foo_doc "re_two" 0 3 Hok); vm_compute; auto|].
  split. { intros s e H. apply (hits_ok xfind xregexps foo_doc "re_two" s e Hok) in H. vm_compute in H. destruct H as [H|[]]. inversion H; subst.
    exists (ltok 1 " " KSpace 3). split; [vm_compute; auto|reflexivity]. }
  vm_compute. reflexivity.
Qed.

(** ^foo matches the text only at its start; its rule also matches the second foo. *)
Theorem C33_regexp_positions_refuted :
  exists hash find_all span_text regexps ord annotate ctx text d gs x i,
  (forall i l, Permutation l (ord i l)) /\ trim_space text <> "" /\ annotate ctx (trim_space text) = Ret d /\
  doc_ok d /\ spans_ok d /\ hash_separates find_all regexps d hash /\
  ~ tagged d x /\ (forall ty, ~ class_of ty x) /\ undefined gs x /\ well_formed gs [x] /\
  (forall s e, regexp_hit find_all regexps d x s e -> s = 0) /\ 0 < i /\
  exists ps p, EarleyParseAll (terminal_match xgtokens xlower) (fun _ => id_ord) gs (doc_tokens annotate)
    (doc_local hash find_all span_text regexps ord annotate ctx text) 200 ctx text [x] = Ret ps /\
    In p ps /\ parsed_tokens p (skipn i (content d)) /\ reports p x 1.
Proof. exact start_matches_later. Qed.
Print Assumptions C33_regexp_positions_refuted.

(** A regular expression with an empty match between two tokens: EarleyParseMaxAll
    never returns, unless longer matches cover all tokens. *)
Theorem C33_empty_match_never_returns :
  forall ords gtokens to_lower hash find_all span_text regexps ord annotate ctx text d gs,
  orders ords -> (forall i l, Permutation l (ord i l)) ->
  trim_space text <> "" -> annotate ctx (trim_space text) = Ret d ->
  doc_ok d -> spans_ok d -> hash_separates find_all regexps d hash ->
  forall x s e y, regexp_hit find_all regexps d x s e -> e <= s -> undefined gs x -> well_formed gs [x] ->
  ~ tagged d x -> (forall ty, ~ class_of ty x) -> y < length (content d) ->
  (forall i s' e', regexp_hit find_all regexps d x s' e' -> i <= y < i + length (tokens_at d s' e') ->
     ~ reads_at (content d) i (map tok_text (tokens_at d s' e'))) ->
  forall steps fuel, EarleyParseMaxAll (terminal_match gtokens to_lower) ords gs (doc_tokens annotate)
    (doc_local hash find_all span_text regexps ord annotate ctx text) steps fuel ctx text [x] = Fuel.
Proof. exact empty_hit_call. Qed.
Print Assumptions C33_empty_match_never_returns.

(** the same one rule up: s = <re_any> on "a," *)
Theorem C33_empty_match_refuted :
  exists hash find_all span_text regexps ord annotate text d gs,
  (forall i l, Permutation l (ord i l)) /\ annotate "" (trim_space text) = Ret d /\
  doc_ok d /\ spans_ok d /\ hash_separates find_all regexps d hash /\ well_formed gs ["s"] /\ no_empty gs /\ typed_args gs /\
  forall ords steps fuel, orders ords ->
  EarleyParseMaxAll (terminal_match xgtokens xlower) ords gs (doc_tokens annotate)
    (doc_local hash find_all span_text regexps ord annotate "" text) steps fuel "" text ["s"] = Fuel.
Proof. exact empty_match_witness. Qed.
Print Assumptions C33_empty_match_refuted.

Example C33_empty_match_example :
  regexp_hit xfind ab_regexps ab_doc "re_any" 1 1 /\ ~ tagged ab_doc "re_any" /\ (forall ty, ~ class_of ty "re_any") /\
  undefined g_digits "re_any" /\ well_formed g_digits ["re_any"] /\ 0 < length (content ab_doc) /\
  (forall i s' e', regexp_hit xfind ab_regexps ab_doc "re_any" s' e' -> i <= 0 < i + length (tokens_at ab_doc s' e') ->
     ~ reads_at (content ab_doc) i (map tok_text (tokens_at ab_doc s' e'))).
Proof.
  destruct ab_doc_ok as (Hok & _).
  split; [apply (hits_ok xfind ab_regexps ab_doc "re_any" 1 1 Hok); vm_compute; auto|].
  split; [apply tagged_b_no; vm_compute; reflexivity|]. split; [apply not_class; discriminate|].
  split; [apply undefined_b_ok; reflexivity|]. split; [apply well_formed_b_ok; reflexivity|]. split; [vm_compute; lia|].
  intros i s e H Hi. apply (hits_ok xfind ab_regexps ab_doc "re_any" s e Hok) in H. vm_compute in H. destruct H as [H|[]].
  inversion H; subst. cbn in Hi. exfalso. lia.
Qed.
