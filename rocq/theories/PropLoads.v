(** C28: when construction succeeds. *)
From Verif Require Import Base ModelTypes ModelText ModelEarley ModelReader ModelGrammar
  SpecNotation SpecRefine SpecConstruct SpecShipped ProofLoads ExamplesGrammar ExamplesLoads.

(** A grammar text gives a grammar as soon as all files it reaches can be read and are
    grammar texts, whatever the include graph looks like. *)
Theorem C28_string_loads : forall e, env_ok e ->
  (forall v, v <> ""%string -> e_trie e v = true) -> (forall v, exists tk, e_tokenize e v = Ret tk) ->
  forall files d ps its re name gt, e_text e d ps its re ->
  (forall f, e_reached e d "." f -> In f files /\
     exists b dir ps its re, e_read e f = Ret b /\ e_abs e f = Ret dir /\ e_text e b ps its re) ->
  exists g w' n, forall fuel depth, n <= fuel -> n <= depth ->
    from_string e fuel depth d name gt = Ret (Some g, w').
Proof. exact env_string_loads. Qed.
Print Assumptions C28_string_loads.

Theorem C28_file_loads : forall e, env_ok e ->
  (forall v, v <> ""%string -> e_trie e v = true) -> (forall v, exists tk, e_tokenize e v = Ret tk) ->
  forall files file d dir ps its re gt, e_read e file = Ret d -> e_abs e file = Ret dir -> e_text e d ps its re ->
  (forall f, e_reached e d dir f -> In f files /\
     exists b dir ps its re, e_read e f = Ret b /\ e_abs e f = Ret dir /\ e_text e b ps its re) ->
  exists g w' n, forall fuel depth, n <= fuel -> n <= depth ->
    from_file e fuel depth file gt = Ret (Some g, w').
Proof. exact env_file_loads. Qed.
Print Assumptions C28_file_loads.

Example C28_loads_example :
  env_ok cenv /\ tools_work cenv /\ length cfiles = 4 /\
  exists ps its re, e_text cenv text_root ps its re /\
    forall f, e_reached cenv text_root "." f -> In f cfiles /\
      exists b dir ps its re, e_read cenv f = Ret b /\ e_abs cenv f = Ret dir /\ e_text cenv b ps its re.
Proof.
  split; [apply xenv_ok, keep_ok|]. split; [split; [reflexivity|intros v; eexists; reflexivity]|].
  split; [reflexivity|exact cyclic_root].
Qed.
