(** What sharing the token table may and may not change. *)
From Verif Require Import Base ModelTypes ModelText ModelEarley ModelQuote ModelReader ModelGrammar ModelMatch ModelShared.

(** Two tokens that terminalMatch cannot tell apart. *)
Definition same_annotation (t u : token) : Prop := tok_lemma t = tok_lemma u /\ tok_norm t = tok_norm u.

(** Every entry a goroutine may write satisfies [ok]. *)
Fixpoint writes_only (ok : string -> token -> Prop) (p : prog) : Prop :=
  match p with
  | Stop => True
  | Get k next => forall r, writes_only ok (next r)
  | Put k t next => ok k t /\ writes_only ok next
  end.

(** Tokens of one text are annotated alike, wherever they come from. *)
Definition annotated_alike (ok : string -> token -> Prop) : Prop :=
  forall k t u, ok k t -> ok k u -> same_annotation t u.

(** No goroutine other than those loading the lists [ls] of tokens. *)
Definition loaders (ls : list (list token)) : list prog := map (fun l => load_tokens l Stop) ls.
