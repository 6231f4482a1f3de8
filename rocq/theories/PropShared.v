(** C45: the token table shared by everything that loads grammars and parses. *)
From Verif Require Import Base ModelTypes ModelText ModelEarley ModelQuote ModelReader ModelGrammar ModelMatch ModelShared
     SpecShared ProofShared.

(** However the goroutines are scheduled, an entry never disappears. *)
Theorem C45_entries_stay : forall T ps tr T' ps' k, exec (T, ps) tr (T', ps') -> lookup T k <> None -> lookup T' k <> None.
Proof. exact present. Qed.
Print Assumptions C45_entries_stay.

(** A goroutine that has finished loading finds the text of every token it loaded,
    whatever the others did meanwhile. *)
Theorem C45_loaded_found : forall T ps tr T' ps' i toks, exec (T, ps) tr (T', ps') ->
  nth_error ps i = Some (load_tokens toks Stop) -> nth_error ps' i = Some Stop ->
  forall t, In t toks -> ling_space t = false -> lookup T' (tok_text t) <> None.
Proof. exact loaded. Qed.
Print Assumptions C45_loaded_found.

(** While every goroutine writes only entries that are annotated alike for one
    text, a match of a text that is in the table gives the answer it would have
    given on the table at the start. *)
Theorem C45_match_undisturbed : forall ok to_lower T ps tr T' ps', annotated_alike ok ->
  (forall k t, lookup T k = Some t -> ok k t) -> Forall (writes_only ok) ps -> exec (T, ps) tr (T', ps') ->
  forall t tok i r, lookup T (t_value t) <> None -> In (Saw i (t_value t) r) tr ->
  terminal_match (fun _ => r) to_lower t tok = terminal_match (lookup T) to_lower t tok.
Proof. exact match_undisturbed. Qed.
Print Assumptions C45_match_undisturbed.

(** Loading tokens writes only these tokens, each under its own text. *)
Theorem C45_loading_writes : forall (ok : string -> token -> Prop) toks next, (forall t, In t toks -> ok (tok_text t) t) ->
  writes_only ok next -> writes_only ok (load_tokens toks next).
Proof. exact load_writes. Qed.
Print Assumptions C45_loading_writes.

(** A goroutine that loads alone leaves the table that the sequential model of
    grammar loading leaves, and changes no entry that was there. *)
Theorem C45_loading_alone : forall toks T tr T', exec (T, [load_tokens toks Stop]) tr (T', [Stop]) ->
  T' = new_tokens toks T /\ forall k t, lookup T k = Some t -> lookup T' k = Some t.
Proof. exact alone. Qed.
Print Assumptions C45_loading_alone.

(** Not so for two: the get and the put are separate, so a goroutine may overwrite
    the entry of a grammar that is already loaded, and a match of a terminal of
    that grammar turns from true to false. *)
Theorem C45_stable_match_refuted : forall to_lower, exists toks toks' t tok tr1 p T1 tr2 T2,
  In (t_value t) (map tok_text toks)
  /\ exec ([], [load_tokens toks Stop; load_tokens toks' Stop]) tr1 (T1, [Stop; p])
  /\ exec (T1, [Stop; p]) tr2 (T2, [Stop; Stop])
  /\ terminal_match (lookup T1) to_lower t (Some tok) = true
  /\ terminal_match (lookup T2) to_lower t (Some tok) = false.
Proof. exact unstable. Qed.
Print Assumptions C45_stable_match_refuted.

(** Matching a token takes one step, which reads the table as it is at that moment. *)
Theorem C45_match_reads : forall to_lower t tok next T ps i, nth_error ps i = Some (match_token to_lower t tok next) ->
  (exists e, step (T, ps) e (T, set_nth ps i (next (terminal_match (lookup T) to_lower t (Some tok))))) /\
  forall e T' ps', step (T, ps) e (T', ps') -> nth_error ps' i <> nth_error ps i ->
    T' = T /\ ps' = set_nth ps i (next (terminal_match (lookup T) to_lower t (Some tok))).
Proof. exact match_step. Qed.
Print Assumptions C45_match_reads.

(** The hypotheses hold of a run with two loaders and a goroutine that matches
    while they load. *)
Example C45_case : let ok := fun (k : string) (t : token) => t = word k k in
  annotated_alike ok /\
  Forall (writes_only ok)
     [load_tokens [word "x" "x"] Stop; load_tokens [word "x" "x"; word "y" "y"] Stop;
      match_token (fun s => s) (mkTerm "x" TTerminal (MStr "l")) (word "x" "x") (fun _ => Stop)] /\
  exists tr T, exec ([("x"%string, word "x" "x")],
     [load_tokens [word "x" "x"; word "y" "y"] Stop;
      match_token (fun s => s) (mkTerm "x" TTerminal (MStr "l")) (word "x" "x") (fun _ => Stop)]) tr (T, [Stop; Stop])
   /\ In (Saw 1 "x" (Some (word "x" "x"))) tr /\ lookup T "y" <> None.
Proof. exact alike_example. Qed.
