(** What the parsing calls promise, in terms of derivations. *)
From Verif Require Import Base ModelTypes ModelEarley ModelTrees ModelApi SpecGrammar SpecTree.

(** The parse has a final state tagged [S] that covers the first [k] tokens of its tokens. *)
Definition reports (p : parse_t) (S : string) (k : nat) : Prop :=
  exists ref s, In ref (p_finals p) /\ p_state p ref = Ret s /\ tag s = Ret S
                /\ s_start s = 0 /\ s_end s = k.

(** The parse was made on the token list [ks] (the tokens of columns 1, 2, ...). *)
Definition parsed_tokens (p : parse_t) (ks : list token) : Prop :=
  map c_token (tl (p_columns p)) = map Some ks.

(** Rule [S] derives the tokens number i, ..., j-1. *)
Definition Match tmatch gs toks S i j := Derives tmatch gs toks (nonterm S) i j.
(** The same up to exchanging ranges of special terms of one kind. *)
Definition MatchLax tmatch gs toks S i j := DerivesLax tmatch gs toks (nonterm S) i j.
(** The same by a derivation without empty constituents. *)
Definition MatchNonempty tmatch gs toks S i j := DerivesNonempty tmatch gs toks (nonterm S) i j.

(** The hypotheses shared by all statements: rules are stored under their
    names and the grammar does not use the reserved name. *)
Definition well_formed (gs : list grammar_rules) (starts : list string) : Prop :=
  named_rules gs /\ no_reserved gs starts.

Definition orders (ords : nat -> order) : Prop := forall n, is_order (ords n).

(** Some start rule matches at position i; m is the largest length of such a match. *)
Definition match_at tmatch gs toks (starts : list string) (i : nat) : Prop :=
  exists S j, In S starts /\ Match tmatch gs toks S i j.
Definition longest_at tmatch gs toks (starts : list string) (i m : nat) : Prop :=
  (exists S, In S starts /\ Match tmatch gs toks S i (i + m))
  /\ forall S j, In S starts -> Match tmatch gs toks S i j -> j <= i + m.

(** Spans (start, length) in text order that do not overlap, from position lo on. *)
Fixpoint tiles (lo : nat) (spans : list (nat * nat)) : Prop :=
  match spans with
  | [] => True
  | (i, m) :: spans' => lo <= i /\ tiles (i + m) spans'
  end.
Definition covered (spans : list (nat * nat)) (x : nat) : Prop :=
  exists i m, In (i, m) spans /\ i <= x < i + m.

(** [t] (a tree of parse [p]) is a parse tree of start rule [S] over the tokens
    i, ..., i+k-1 of the text, up to exchanging ranges. *)
Definition tree_at tmatch gs toks (i k : nat) (S : string) (p : parse_t) (t : node) : Prop :=
  parsed_tokens p (skipn i toks) /\
  exists kid, erase t = PRule GammaRule (gamma_body S) 0 k [kid]
    /\ tree_of gs (accepts_by tmatch) (skipn i toks) (some_range gs) (nonterm S) 0 k kid.
