(** What matching the frames of a grammar text against a text should give. *)
From Coq Require Import Sorted Permutation.
From Verif Require Import Base ModelTypes ModelText ModelEarley ModelTrees ModelApi ModelSem ModelReader ModelGrammar
  ModelFrames ModelLocal SpecTypes SpecGrammar SpecTree SpecRefine SpecConstruct SpecApi SpecSem SpecLocal SpecEnd SpecIndex SpecFrames.

(** What is asked of the texts of a grammar, whatever the start rules are. *)
Definition sound_texts (tokenize : string -> res (list token)) (L : list refined) : Prop :=
  compatible L /\ uniform_flags (map rd_before L) /\ no_dangling "g_t" (map rd_before L) /\
  unreserved (map rd_before L) /\ uniform_ranges (map rd_before L) /\ texts_nonempty tokenize (map rd_before L) /\
  forall m, In m (map rd_before L) -> lookup m GammaRule = None.

(** Grammar [g] was read from the text [d0], or from a file with that text. *)
Definition read_as (e : env) (d0 : string) (g : grammar) : Prop :=
  exists fuel depth name gt w',
    from_string e fuel depth d0 name gt = Ret (Some g, w') \/
    (e_read e name = Ret d0 /\ from_file e fuel depth name gt = Ret (Some g, w')).

(** What is asked of one call of MatchFrames: maps are visited in some order, the text
    is not blank and is annotated as document [d], whose tokens are in order, and the
    words found in the text, each once, are among those in the index of [g]. *)
Definition call_ready (e : env) (g : grammar) (multi_match : list string -> string -> res (list (string * list (nat * nat))))
    (fo : frame_orders) (ords : nat -> order) (find_all : string -> string -> option (list (nat * nat)))
    (ord : nat -> list (string * entry) -> list (string * entry)) (annotate : string -> string -> res document)
    (ctx text : string) (d : document) (matches : list (string * list (nat * nat))) : Prop :=
  frame_orders_ok fo /\ orders ords /\ (forall i l, Permutation l (ord i l)) /\
  trim_space text <> "" /\ annotate ctx (trim_space text) = Ret d /\
  fit_document (e_hash e) find_all (g_regexps g) d /\ in_order (content d) /\
  multi_match (g_trie g) text = Ret matches /\ NoDup (map fst matches) /\
  forall w, In w (map fst matches) -> In w (g_trie g).

(** From left to right, and longer ones first. *)
Definition before_span (a b : nat * nat) : Prop := fst a < fst b \/ (fst a = fst b /\ snd b < snd a).
(** The slot reaches from the first byte of token i to the last one of token j-1. *)
Definition at_tokens (toks : list token) (ij : nat * nat) (s : slot) : Prop :=
  exists a b, nth_error toks (fst ij) = Some a /\ nth_error toks (snd ij - 1) = Some b /\
    sl_start s = tok_start a /\ sl_end s = tok_end b.

Section Text.
  Variable tokenize : string -> res (list token).
  Variable tmatch : term -> option token -> bool.
  Variable gs : list grammar_rules.
  Variable find_all : string -> string -> option (list (nat * nat)).
  Variable regexps : list (string * string).
  Variable d : document.
  Variable matches : list (string * list (nat * nat)).
  Notation means := (Means tokenize tmatch gs find_all regexps d).

  (** A slot for rule [x] at the tokens i, ..., j-1, with trees of [x] over them. *)
  Definition slot_of (x : string) (ij : nat * nat) (s : slot) : Prop :=
    at_tokens (content d) ij s /\ sl_trees s <> [] /\
    forall p n, In (p, n) (sl_trees s) -> parsed_tokens p (skipn (fst ij) (content d)) /\
      exists kid, erase n = PRule GammaRule (gamma_body x) 0 (snd ij - fst ij) [kid] /\
        text_tree tokenize tmatch gs find_all regexps d (skipn (fst ij) (content d)) (nonterm x) 0 (snd ij - fst ij) kid.

  (** A rule that is looked for and matches the tokens i, ..., j-1. *)
  Definition seen_rule (x : string) (i j : nat) : Prop :=
    wanted gs (map fst matches) x /\ i < length (content d) /\ means x i j.
  (** One slot for every match of the rule, in order. *)
  Definition rule_filled (x : string) (ss : list slot) : Prop :=
    exists spans, StronglySorted before_span spans /\
      (forall i j, In (i, j) spans <-> seen_rule x i j) /\ Forall2 (slot_of x) spans ss.
  (** The slots of a term of a frame. *)
  Definition term_filled (t : term) (ss : list slot) : Prop :=
    match t_type t with
    | TTerminal => ss = word_slots matches (t_value t)
    | TNonterminal => rule_filled (t_value t) ss
    | _ => ss = []
    end.
  (** The text has something for the term. *)
  Definition term_seen (t : term) : Prop :=
    match t_type t with
    | TTerminal => exists hits, lookup matches (t_value t) = Some hits /\ hits <> []
    | TNonterminal => exists i j, seen_rule (t_value t) i j
    | _ => False
    end.

  (** The document brings no alternatives of rule [x]. *)
  Definition text_only (x : string) : Prop := forall b, ~ local_alt find_all regexps d x b.
  (** Every alternative has a word, or a rule to which the document adds nothing. *)
  Definition anchored : Prop :=
    forall x b, has_body gs x b -> exists t, In t (rb_terms b) /\
      (t_type t = TTerminal \/ (t_type t = TNonterminal /\ text_only (t_value t))).
  (** The tokens of the terminal text [t] are those of the document from number i on. *)
  Definition appears_at (t : term) (i : nat) : Prop :=
    exists ks, tokenize (t_value t) = Ret ks /\
      forall n u, nth_error (token_terms (t_meta t) ks) n = Some u ->
        exists k, nth_error (content d) (i + n) = Some k /\ tmatch u (Some k) = true.
  (** Every terminal text of the rules whose tokens are in the document was found as a word. *)
  Definition words_found : Prop :=
    forall t i, occurs gs t -> t_type t = TTerminal -> appears_at t i ->
      trim_space (t_value t) <> "" /\ In (trim_space (t_value t)) (map fst matches).
End Text.
