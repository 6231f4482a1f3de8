(** Parse trees of a grammar, independent of the chart. *)
From Verif Require Import Base ModelTypes ModelEarley ModelTrees SpecGrammar.

(** A parse tree; every inner node records the token range i, ..., j-1 it covers. *)
Inductive ptree :=
| PTok (t : term) (i : nat)
| PAny (i j : nat)
| PRule (x : string) (b : rulebody) (i j : nat) (kids : list ptree)
| PList (x : string) (i j : nat) (kids : list ptree).

(** The root of the tree of a match of [S] is labelled with the internal rule
    of the start symbol: the reserved name, one child <S>, and nf.I($1). *)
Definition gamma_body (S : string) : rulebody :=
  mkRb [nonterm S] (Some (FMR "nf.I" [Arg "index" (VIdx 1)])).

(** The parse tree a node stands for. *)
Fixpoint erase (n : node) : ptree :=
  match n with
  | Node v kids =>
      match t_type (s_term v) with
      | TTerminal => PTok (s_term v) (s_start v)
      | TAny => PAny (s_start v) (s_end v)
      | TList => PList (t_value (s_term v)) (s_start v) (s_end v) (map erase kids)
      | _ => PRule (t_value (s_term v))
                   (match s_rb v with Some b => b | None => mkRb [] None end)
                   (s_start v) (s_end v) (map erase kids)
      end
  end.

Section TreeOf.
  Variable gs : list grammar_rules.
  Variable accepts : term -> token -> Prop.
  Variable toks : list token.
  Variable count_ok : term -> nat -> Prop.

  (** [tree_of t i j p]: p is a parse tree of term t over the tokens i, ..., j-1.
      The children of a node tile its range from left to right. *)
  Inductive tree_of : term -> nat -> nat -> ptree -> Prop :=
  | to_tok t i tok :
      t_type t = TTerminal -> nth_error toks i = Some tok -> accepts t tok ->
      tree_of t i (S i) (PTok t i)
  | to_any t i j :
      t_type t = TAny -> i <= j <= length toks -> count_ok t (j - i) ->
      tree_of t i j (PAny i j)
  | to_rule t i j b kids :
      t_type t = TNonterminal -> has_body gs (t_value t) b -> trees_of (rb_terms b) i j kids ->
      tree_of t i j (PRule (t_value t) b i j kids)
  | to_list t i j n kids :
      t_type t = TList -> count_ok t n ->
      trees_of (repeat (nonterm (t_value t)) n) i j kids ->
      tree_of t i j (PList (t_value t) i j kids)
  with trees_of : list term -> nat -> nat -> list ptree -> Prop :=
  | tos_nil i : trees_of [] i i []
  | tos_cons t ts i j k p ps :
      tree_of t i j p -> trees_of ts j k ps -> trees_of (t :: ts) i k (p :: ps).
End TreeOf.

Scheme tree_of_mind := Induction for tree_of Sort Prop
  with trees_of_mind := Induction for trees_of Sort Prop.
Combined Scheme tree_of_mutind from tree_of_mind, trees_of_mind.

(** Bodies are either sequences of terminals or free of terminals: what the
    grammar reader produces (refine and the local grammar). *)
Definition separated (gs : list grammar_rules) : Prop :=
  forall x b, has_body gs x b ->
    (forall t, In t (rb_terms b) -> t_type t = TTerminal)
    \/ (forall t, In t (rb_terms b) -> t_type t = TNonterminal \/ t_type t = TAny \/ t_type t = TList).

(** (any) terms are written with the value "any", as the grammar reader does. *)
Definition any_named (gs : list grammar_rules) : Prop :=
  forall t, occurs gs t -> t_type t = TAny -> t_value t = "any".

(** Every parse tree is a derivation. *)
Lemma tree_derives gs accepts toks count_ok :
  (forall t i j p, tree_of gs accepts toks count_ok t i j p ->
     derives (has_alt gs) accepts toks count_ok (fun _ _ => True) t i j)
  /\ (forall ts i j ps, trees_of gs accepts toks count_ok ts i j ps ->
     derives_seq (has_alt gs) accepts toks count_ok (fun _ _ => True) ts i j).
Proof.
  apply tree_of_mutind; intros.
  - eapply d_terminal; eauto.
  - apply d_any; auto.
  - eapply d_rule; eauto. exists b. auto.
  - eapply d_list; eauto.
  - constructor.
  - econstructor; eauto.
Qed.
