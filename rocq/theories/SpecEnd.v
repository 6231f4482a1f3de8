(** What a grammar text means for a document: rules of the text, with terminal texts
    standing for their tokens, together with the rules the document itself brings. *)
From Verif Require Import Base ModelTypes ModelText ModelEarley ModelTrees ModelApi ModelLocal
  SpecTypes SpecGrammar SpecTree SpecRefine SpecLocal.

Section Means.
  Variable tokenize : string -> res (list token).
  Variable tmatch : term -> option token -> bool.
  (** the rules as written in the text and in the included texts *)
  Variable gs : list grammar_rules.
  (** searching a regular expression, and the regular expressions of the texts *)
  Variable find_all : string -> string -> option (list (nat * nat)).
  Variable regexps : list (string * string).
  Variable d : document.

  Definition doc_alt (x : string) (ts : list term) : Prop :=
    split_alt tokenize gs x ts \/ exists b, local_alt find_all regexps d x b /\ rb_terms b = ts.
  (** Rule [S] matches the parsed tokens number i, ..., j-1 of the document. *)
  Definition Means (S : string) (i j : nat) : Prop :=
    derives doc_alt (accepts_by tmatch) (content d) own_range (fun _ _ => True) (nonterm S) i j.

  (** Every terminal text has a token that is not white space, and no range starts at 0. *)
  Definition texts_nonempty : Prop :=
    (forall t ks, occurs gs t -> t_type t = TTerminal -> tokenize (t_value t) = Ret ks ->
       exists k, In k ks /\ tok_type k <> KSpace) /\
    (forall t, occurs gs t -> t_type t = TAny \/ t_type t = TList -> ~ range_allows (t_meta t) 0).
  (** The reserved name is not mentioned. *)
  Definition unreserved : Prop :=
    forall t, occurs gs t -> t_type t <> TTerminal -> t_value t <> GammaRule.
  (** Names that cannot be mistaken for generated ones: defined in a text, or not starting with g_t. *)
  Definition own_name (x : string) : Prop :=
    (exists m, In m gs /\ lookup m x <> None) \/ String.prefix "g_t" x = false.
  (** The document brings no rule whose name starts with g_t. *)
  Definition local_names : Prop :=
    forall x b, local_alt find_all regexps d x b -> String.prefix "g_t" x = false.
End Means.

(** Parse trees read against the text of the grammar: a node for every written term. *)
Section TextTrees.
  Variable tokenize : string -> res (list token).
  Variable tmatch : term -> option token -> bool.
  Variable gs : list grammar_rules.
  Variable find_all : string -> string -> option (list (nat * nat)).
  Variable regexps : list (string * string).
  Variable d : document.
  Variable toks : list token.

  (** leaves for a sequence of terminals *)
  Inductive words_at : list term -> nat -> nat -> list ptree -> Prop :=
  | wa_nil i : words_at [] i i []
  | wa_cons t ts i j tok kids :
      t_type t = TTerminal -> nth_error toks i = Some tok -> tmatch t (Some tok) = true ->
      words_at ts (S i) j kids -> words_at (t :: ts) i j (PTok t i :: kids).

  (** [text_tree t i j p]: tree p shows how the written term t matches the tokens i, ..., j-1. *)
  Inductive text_tree : term -> nat -> nat -> ptree -> Prop :=
  | tt_text t i j x ks kids :
      t_type t = TTerminal -> tokenize (t_value t) = Ret ks ->
      words_at (token_terms (t_meta t) ks) i j kids ->
      text_tree t i j (PRule x (mkRb (token_terms (t_meta t) ks) None) i j kids)
  | tt_any t i j :
      t_type t = TAny -> i <= j <= length toks -> range_allows (t_meta t) (j - i) -> text_tree t i j (PAny i j)
  | tt_rule t i j b b' kids :
      t_type t = TNonterminal -> has_body gs (t_value t) b -> rb_f b' = rb_f b ->
      text_trees (rb_terms b) i j kids -> text_tree t i j (PRule (t_value t) b' i j kids)
  | tt_local t i j b kids :
      t_type t = TNonterminal -> local_alt find_all regexps d (t_value t) b -> words_at (rb_terms b) i j kids ->
      text_tree t i j (PRule (t_value t) b i j kids)
  | tt_list t i j n kids :
      t_type t = TList -> range_allows (t_meta t) n ->
      text_trees (repeat (nonterm (t_value t)) n) i j kids -> text_tree t i j (PList (t_value t) i j kids)
  with text_trees : list term -> nat -> nat -> list ptree -> Prop :=
  | tts_nil i : text_trees [] i i []
  | tts_cons t ts i j k p ps : text_tree t i j p -> text_trees ts j k ps -> text_trees (t :: ts) i k (p :: ps).
End TextTrees.

(** What is asked of the texts of a grammar. *)
Definition usable (tokenize : string -> res (list token)) (L : list refined) (starts : list string) : Prop :=
  compatible L /\ uniform_flags (map rd_before L) /\ no_dangling "g_t" (map rd_before L) /\
  unreserved (map rd_before L) /\ uniform_ranges (map rd_before L) /\ texts_nonempty tokenize (map rd_before L) /\
  starts <> [] /\ forall S, In S starts -> S <> GammaRule /\ own_name (map rd_before L) S.
(** What is asked of a document. *)
Definition fit_document (hash : rulebody -> N) find_all regexps (d : document) : Prop :=
  content d <> [] /\ doc_ok d /\ spans_ok d /\ string_items d /\ no_empty_spans find_all regexps d /\
  hash_separates find_all regexps d hash /\ local_names find_all regexps d.
