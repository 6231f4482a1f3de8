(** What the local grammar of a document consists of. *)
From Coq Require Import Permutation.
From Verif Require Import Base ModelTypes ModelText ModelEarley ModelTrees ModelApi ModelReader ModelGrammar ModelLocal
  SpecGrammar SpecTree.

(** The classes of tokens that have a rule. *)
Inductive class_of : toktype -> string -> Prop :=
| class_word : class_of KWord "word"
| class_punct : class_of KPunct "punct"
| class_symbol : class_of KSymbol "symbol"
| class_letters : class_of KLetters "letters".

(** A terminal without flags. *)
Definition word_term (s : string) : term := mkTerm s TTerminal MNil.
(** The tokens number s, ..., e-1 of a document, and the terms with their texts. *)
Definition tokens_at (d : document) (s e : nat) : list token := firstn (e - s) (skipn s (d_tokens d)).
Definition texts_as_terms (ks : list token) : list term := map (fun k => word_term (tok_text k)) ks.

(** Tokens know their number, and no two of them start or end at the same byte. *)
Definition doc_ok (d : document) : Prop :=
  (forall i k, nth_error (d_tokens d) i = Some k -> tok_i k = i) /\
  (forall i j k l, nth_error (d_tokens d) i = Some k -> nth_error (d_tokens d) j = Some l ->
     tok_start k = tok_start l \/ tok_end k = tok_end l -> i = j).
(** The spans with a value lie within the document. *)
Definition spans_ok (d : document) : Prop :=
  forall sp m, In sp (d_spans d) -> sp_value sp = Some m ->
    sp_end sp <= sp_start sp \/ sp_end sp <= length (d_tokens d).

(** The tokens that are parsed: all but white space. *)
Definition content (d : document) : list token :=
  filter (fun k => match tok_type k with KSpace => false | _ => true end) (d_tokens d).
(** The tokens from position i on have these texts. *)
Definition reads_at (toks : list token) (i : nat) (texts : list string) : Prop :=
  map tok_text (firstn (length texts) (skipn i toks)) = texts.

(** No other token has the text of a token of white space. *)
Definition space_apart (d : document) : Prop :=
  forall k k', In k (d_tokens d) -> In k' (d_tokens d) -> tok_type k = KSpace -> tok_text k = tok_text k' -> tok_type k' = KSpace.

(** [s] is written for some token of the class named [c]. *)
Definition class_text (d : document) (c s : string) : Prop :=
  exists w, In w (d_tokens d) /\ class_of (tok_type w) c /\ tok_string w = s.

Section Alternatives.
  Variable find_all : string -> string -> option (list (nat * nat)).
  Variable regexps : list (string * string).
  Variable d : document.

  (** A match of the regular expression named [x] goes from the start of token s
      to the end of token e-1. *)
  Definition regexp_hit (x : string) (s e : nat) : Prop :=
    exists pat ms a b k l, In (x, pat) regexps /\ find_all pat (d_text d) = Some ms /\ In (a, b) ms /\
      nth_error (d_tokens d) s = Some k /\ tok_start k = a /\
      0 < e /\ nth_error (d_tokens d) (e - 1) = Some l /\ tok_end l = b.

  (** The function attached to an entity: fmr.list("text", fmr.entity("x", fmr.list(items))) *)
  Definition entity (text x : string) (items : list argval) : fmr :=
    FMR "fmr.list" [Arg "string" (VStr text);
      Arg "func" (VFunc (FMR "fmr.entity" [Arg "string" (VStr x);
        Arg "func" (VFunc (FMR "fmr.list" (map (Arg "string") items)))]))].

  (** The alternatives of the local rule [x]. *)
  Inductive local_alt : string -> rulebody -> Prop :=
  | la_class k x : In k (d_tokens d) -> class_of (tok_type k) x ->
      local_alt x (mkRb [word_term (tok_string k)] None)
  | la_span sp m x : In sp (d_spans d) -> sp_value sp = Some m -> In (x, EOther) m ->
      local_alt x (mkRb (texts_as_terms (tokens_at d (sp_start sp) (sp_end sp))) None)
  | la_entity sp m x items : In sp (d_spans d) -> sp_value sp = Some m -> In (x, EList items) m ->
      local_alt x (mkRb (texts_as_terms (tokens_at d (sp_start sp) (sp_end sp)))
                        (Some (entity (sp_string sp) x items)))
  | la_regexp x s e : regexp_hit x s e ->
      local_alt x (mkRb (texts_as_terms (tokens_at d s e)) None).

  (** The names the taggers gave to spans. *)
  Definition tagged (x : string) : Prop :=
    exists sp m e, In sp (d_spans d) /\ sp_value sp = Some m /\ In (x, e) m.
  (** The items of entities are strings. *)
  Definition string_items : Prop :=
    forall sp m x items, In sp (d_spans d) -> sp_value sp = Some m -> In (x, EList items) m ->
      Forall (fun v => exists s, v = VStr s) items.

  (** No span with a value and no match of a regular expression is without tokens. *)
  Definition no_empty_spans : Prop :=
    (forall sp m x e, In sp (d_spans d) -> sp_value sp = Some m -> In (x, e) m -> tokens_at d (sp_start sp) (sp_end sp) <> []) /\
    (forall x s e, regexp_hit x s e -> tokens_at d s e <> []).

  (** The hash separates the alternatives of each local rule. *)
  Definition hash_separates (hash : rulebody -> N) : Prop :=
    forall x b b', local_alt x b -> local_alt x b' -> hash b = hash b' -> b = b'.
End Alternatives.

(** No rule named [x]. *)
Definition undefined (gs : list grammar_rules) (x : string) : Prop := forall b, ~ has_body gs x b.
