(** What a grammar derives: the specification the chart parser is measured
    against. Nothing here mentions charts, dots or states. *)
From Coq Require Import Permutation.
From Verif Require Import Base ModelTypes ModelEarley SpecTypes.

(** The alternatives of rule [x] in the grammars taken together: a body belongs
    to [x] when some grammar maps [x] to a rule containing it. *)
Definition has_body (gs : list grammar_rules) (x : string) (b : rulebody) : Prop :=
  exists g r h, In g gs /\ lookup g x = Some r /\ In (h, b) (r_body r).

Definition has_alt (gs : list grammar_rules) (x : string) (ts : list term) : Prop :=
  exists b, has_body gs x b /\ rb_terms b = ts.

(** How many repetitions the annotation of an (any) or (list) term allows:
    one or more without a range, between min and max with one, a missing bound being 0. *)
Definition range_allows (m : meta) (n : nat) : Prop :=
  match m with
  | MNil | MMap None None => 0 < n
  | MMap lo hi => (match lo with Some z => z | None => 0 end <= Z.of_nat n <= match hi with Some z => z | None => 0 end)%Z
  | MStr _ => False
  end.

Definition nonterm (x : string) : term := mkTerm x TNonterminal MNil.

Section Derivation.
  (** alternatives of a rule *)
  Variable alt : string -> list term -> Prop.
  (** which terminal accepts which token *)
  Variable accepts : term -> token -> Prop.
  Variable toks : list token.
  (** repetition counts allowed for a special term *)
  Variable count_ok : term -> nat -> Prop.
  (** constraint imposed on the token range of every constituent *)
  Variable span_ok : nat -> nat -> Prop.

  (** [derives t i j]: term [t] derives the tokens number i, ..., j-1. *)
  Inductive derives : term -> nat -> nat -> Prop :=
  | d_terminal t i tok :
      t_type t = TTerminal -> nth_error toks i = Some tok -> accepts t tok ->
      span_ok i (S i) -> derives t i (S i)
  | d_rule t i j ts :
      t_type t = TNonterminal -> alt (t_value t) ts -> derives_seq ts i j ->
      span_ok i j -> derives t i j
  | d_any t i j :
      t_type t = TAny -> i <= j <= length toks -> count_ok t (j - i) ->
      span_ok i j -> derives t i j
  | d_list t i j n :
      t_type t = TList -> count_ok t n ->
      derives_seq (repeat (nonterm (t_value t)) n) i j ->
      span_ok i j -> derives t i j
  with derives_seq : list term -> nat -> nat -> Prop :=
  | ds_nil i : derives_seq [] i i
  | ds_cons t ts i j k : derives t i j -> derives_seq ts j k -> derives_seq (t :: ts) i k.
End Derivation.

Scheme derives_mind := Induction for derives Sort Prop
  with derives_seq_mind := Induction for derives_seq Sort Prop.
Combined Scheme derives_mutind from derives_mind, derives_seq_mind.

(** The annotation of the term itself decides. *)
Definition own_range (t : term) (n : nat) : Prop := range_allows (t_meta t) n.

(** A term occurring in some body of the grammars. *)
Definition occurs (gs : list grammar_rules) (t : term) : Prop :=
  exists x b, has_body gs x b /\ In t (rb_terms b).

(** Ranges may be exchanged between (any) terms, and between (list<x>) terms of one x. *)
Definition some_range (gs : list grammar_rules) (t : term) (n : nat) : Prop :=
  exists t', occurs gs t' /\ t_type t' = t_type t
             /\ (t_type t = TList -> t_value t' = t_value t)
             /\ range_allows (t_meta t') n.

Definition accepts_by (tmatch : term -> option token -> bool) (t : term) (k : token) : Prop :=
  tmatch t (Some k) = true.

(** The meaning of a grammar: [Derives ... t i j]. *)
Definition Derives tmatch gs toks :=
  derives (has_alt gs) (accepts_by tmatch) toks own_range (fun _ _ => True).
Definition DerivesSeq tmatch gs toks :=
  derives_seq (has_alt gs) (accepts_by tmatch) toks own_range (fun _ _ => True).

(** The same with ranges exchanged. *)
Definition DerivesLax tmatch gs toks :=
  derives (has_alt gs) (accepts_by tmatch) toks (some_range gs) (fun _ _ => True).

(** Derivations none of whose constituents is empty. *)
Definition DerivesNonempty tmatch gs toks :=
  derives (has_alt gs) (accepts_by tmatch) toks own_range (fun i j => i < j).

(** All (any) terms carry the same annotation and all (list<x>) terms of one x do. *)
Definition uniform_ranges (gs : list grammar_rules) : Prop :=
  forall t t', occurs gs t -> occurs gs t' -> t_type t = t_type t' ->
    (t_type t = TAny \/ (t_type t = TList /\ t_value t = t_value t')) ->
    t_meta t = t_meta t'.

(** No rule alternative is empty and no range starts at 0 (or below): nothing
    in the grammar can derive the empty token sequence. *)
Definition no_empty (gs : list grammar_rules) : Prop :=
  (forall x b, has_body gs x b -> rb_terms b <> []) /\
  (forall t, occurs gs t -> t_type t = TAny \/ t_type t = TList -> ~ range_allows (t_meta t) 0).

(** The name of the internal start rule does not occur in the grammar or among the starts. *)
Definition no_reserved (gs : list grammar_rules) (starts : list string) : Prop :=
  (forall t, occurs gs t -> t_type t <> TTerminal -> t_value t <> GammaRule)
  /\ ~ In GammaRule starts.

(** Every rule is stored under its own name. *)
Definition named_rules (gs : list grammar_rules) : Prop :=
  forall g x r, In g gs -> lookup g x = Some r -> r_name r = x.

(** All semantic arguments are well-typed. *)
Definition typed_args (gs : list grammar_rules) : Prop :=
  forall x b, has_body gs x b -> wt_rb b.

(** A map iteration order: some permutation at every range statement. *)
Definition is_order (ord : nat -> nat -> nat -> list rulebody -> list rulebody) : Prop :=
  forall i j k l, Permutation (ord i j k l) l.
