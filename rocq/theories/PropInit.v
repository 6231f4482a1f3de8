(** C53: the pipeline all grammars share is made once. *)
From Verif Require Import Base ModelInit SpecInit ProofInit ExamplesInit.
Local Open Scope list_scope.

(** If nothing fails, then however the goroutines are scheduled the pipeline is made
    once, no call panics, and every call returns the pipeline with all its taggers,
    never one that is still being made. *)
Theorem C53_ready : forall pipeline tagger default_nlp dict_tagger api_tagger add_tagger address p,
  ready pipeline tagger default_nlp dict_tagger api_tagger add_tagger address p ->
  forall n tr c, exec pipeline tagger default_nlp dict_tagger api_tagger add_tagger address (initial n) tr c -> good_history pipeline p tr.
Proof. exact good_runs. Qed.
Print Assumptions C53_ready.

(** If something fails, the call that makes the pipeline panics; making it is never
    tried again, and every other call returns what was left in the variable. *)
Theorem C53_failed : forall pipeline tagger default_nlp dict_tagger api_tagger add_tagger address v,
  failed_with pipeline tagger default_nlp dict_tagger api_tagger add_tagger address v ->
  forall n tr c, exec pipeline tagger default_nlp dict_tagger api_tagger add_tagger address (initial n) tr c -> bad_history pipeline v tr.
Proof. exact bad_runs. Qed.
Print Assumptions C53_failed.

(** One of the two is the case, and not both. *)
Theorem C53_ready_or_failed : forall pipeline tagger default_nlp dict_tagger api_tagger add_tagger address,
  (exists p, ready pipeline tagger default_nlp dict_tagger api_tagger add_tagger address p) \/
  (exists v, failed_with pipeline tagger default_nlp dict_tagger api_tagger add_tagger address v).
Proof. exact one_or_other. Qed.
Print Assumptions C53_ready_or_failed.
Theorem C53_not_both : forall pipeline tagger default_nlp dict_tagger api_tagger add_tagger address p v,
  ready pipeline tagger default_nlp dict_tagger api_tagger add_tagger address p ->
  failed_with pipeline tagger default_nlp dict_tagger api_tagger add_tagger address v -> False.
Proof. exact not_both. Qed.
Print Assumptions C53_not_both.

(** No goroutine is stuck: from every state that can be reached all calls can end. *)
Theorem C53_calls_end : forall pipeline tagger default_nlp dict_tagger api_tagger add_tagger address n tr c,
  exec pipeline tagger default_nlp dict_tagger api_tagger add_tagger address (initial n) tr c ->
  exists tr' c', exec pipeline tagger default_nlp dict_tagger api_tagger add_tagger address c tr' c' /\ all_outside pipeline c'.
Proof. exact calls_can_end. Qed.
Print Assumptions C53_calls_end.

(** A program that recovers from the panic and calls again always gets a value without
    a panic. *)
Theorem C53_called_again : forall pipeline tagger default_nlp dict_tagger api_tagger add_tagger address v,
  failed_with pipeline tagger default_nlp dict_tagger api_tagger add_tagger address v ->
  exists c, exec pipeline tagger default_nlp dict_tagger api_tagger add_tagger address (initial 1) [Begins 0; Panics 0; Returns 0 v] c.
Proof. exact later_calls. Qed.
Print Assumptions C53_called_again.

(** So the claim that a call that returns returns a pipeline with all its taggers is
    wrong: it may be nil, or lack the tagger the flag asks for. *)
Theorem C53_returned_ready_refuted :
  (exists tr c, exec names string (None, false) dict served added "" (initial 1) tr c /\ In (Returns 0 None) tr) /\
  (exists tr c, exec names string started dict served added "http://nowhere" (initial 1) tr c
     /\ In (Returns 0 (Some ["default"; "dict"]%string)) tr).
Proof.
  split.
  - destruct (later_calls _ _ _ _ _ _ _ _ nothing_failed) as [c H]. exists [Begins 0; Panics 0; Returns 0 None], c. split; [exact H|]. right. right. left. reflexivity.
  - destruct (later_calls _ _ _ _ _ _ _ _ nowhere_failed) as [c H]. exists [Begins 0; Panics 0; Returns 0 (Some ["default"; "dict"]%string)], c.
    split; [exact H|]. right. right. left. reflexivity.
Qed.
Print Assumptions C53_returned_ready_refuted.

Example C53_example :
  ready names string started dict served added "" ["default"; "dict"]%string /\
  ready names string started dict served added "http://here" ["default"; "dict"; "api"]%string /\
  failed_with names string started dict served added "http://nowhere" (Some ["default"; "dict"]%string) /\
  (exists c, exec names string started dict served added "" (initial 2)
     [Begins 0; Returns 1 (Some ["default"; "dict"]%string); Returns 0 (Some ["default"; "dict"]%string)] c).
Proof. exact (conj plain_ready (conj served_ready (conj nowhere_failed two_callers))). Qed.
