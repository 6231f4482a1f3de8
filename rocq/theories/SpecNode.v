(** What the methods of tree nodes show, as relations on the trees. *)
From Verif Require Import Base ModelTypes ModelText ModelEarley ModelTrees ModelApi ModelQuote ModelSem
     SpecGrammar SpecSem.

Definition label (m : node) : string := t_value (s_term (n_value m)).

(** No term is written like the reserved name, not even a word. *)
Definition no_gamma (gs : list grammar_rules) : Prop := forall t, occurs gs t -> t_value t <> GammaRule.

(** [m] is a node below the root of [t]. *)
Definition below (t m : node) : Prop := exists c, In c (n_children t) /\ part_of c m.

(** All nodes of [m] cover some token. *)
Definition nonempty_parts (m : node) : Prop := forall x, part_of m x -> s_start (n_value x) < s_end (n_value x).

(** Nodes for words: terminals, and rules generated for texts. *)
Definition word (m : node) : Prop :=
  t_type (s_term (n_value m)) = TTerminal \/ String.prefix "g_t_" (label m) = true
  \/ String.prefix "l_t_" (label m) = true.

(** ** Outlines: nested labelled token ranges *)
Inductive outline :=
| Leaf (x : string) (i j : nat)
| Inner (x : string) (i j : nat) (l : list outline).

(** Tree stops at nodes without function and at nodes made of words; Bracketed
    only at the latter. *)
Definition tree_stop (m : node) : Prop := function_of m = None \/ Forall word (n_children m).
Definition bracket_stop (m : node) : Prop := Forall word (n_children m).

Inductive outline_of (stop : node -> Prop) : node -> outline -> Prop :=
| so_leaf m : stop m -> outline_of stop m (Leaf (label m) (s_start (n_value m)) (s_end (n_value m)))
| so_inner m l : ~ stop m -> Forall2 (outline_of stop) (n_children m) l ->
    outline_of stop m (Inner (label m) (s_start (n_value m)) (s_end (n_value m)) l).

(** The ranges of the leaves, left to right. *)
Fixpoint fringe (s : outline) : list (nat * nat) :=
  match s with
  | Leaf _ i j => [(i, j)]
  | Inner _ _ _ l => flat_map fringe l
  end.
(** Nonempty ranges that tile i, ..., j-1. *)
Inductive tiles : nat -> nat -> list (nat * nat) -> Prop :=
| ti_nil i : tiles i i []
| ti_cons i j k l : i < j -> tiles j k l -> tiles i k ((i, j) :: l).

Section View.
  Variable toks : list token.
  Variable text : string.
  Variable is_print_hi : rune -> bool.

  (** First and last byte of the tokens i, ..., j-1, and the text between. *)
  Definition bytes_of (i j : nat) : nat * nat :=
    match nth_error toks i, nth_error toks (j - 1) with
    | Some a, Some b => (tok_start a, tok_end b)
    | _, _ => (0, 0)
    end.
  Definition text_of (i j : nat) : string :=
    let '(a, b) := bytes_of i j in substring a (b - a) text.

  (** The nested map of Tree. *)
  Definition entry (x : string) (i j : nat) : list (string * dval) :=
    [("type", DStr x); ("text", DStr (text_of i j)); ("pos", DPos (fst (bytes_of i j)) (snd (bytes_of i j)))].
  Fixpoint tree_view (s : outline) : dval :=
    match s with
    | Leaf x i j => DMap (entry x i j)
    | Inner x i j l => DMap (entry x i j ++ [("nodes", DList (map tree_view l))])
    end.

  (** The text of Bracketed. *)
  Fixpoint brackets (s : outline) : string :=
    match s with
    | Leaf x i j => ("[" ++ x ++ " " ++ quote is_print_hi (text_of i j) ++ "]")%string
    | Inner x _ _ l => ("[" ++ x ++ " " ++ join " " (map brackets l) ++ "]")%string
    end.

  (** The value of @ in a function of node m: text, position and type of m and
      for every child its name and value, or its text if it has no value. *)
  Section Context.
    Variable p : parse_t.
    Variable join_words : list string -> string.
    Variable float_string : bigf -> string.
    Variable call : string -> list dval -> res dval.
    Definition range_text (m : node) : string := text_of (s_start (n_value m)) (s_end (n_value m)).

    Inductive child_entry : node -> dval -> Prop :=
    | ce_value c v : Ev p join_words float_string call c v -> child_entry c (DMap [(label c, v)])
    | ce_text c : EvBad p join_words float_string call c ->
        child_entry c (DMap [(label c, DStr (range_text c))]).
    Inductive context_view : node -> dval -> Prop :=
    | cv_word m vs : t_type (s_term (n_value m)) = TTerminal -> Forall2 child_entry (n_children m) vs ->
        context_view m (DMap [("text", DStr (range_text m));
          ("pos", DPos (fst (bytes_of (s_start (n_value m)) (s_end (n_value m))))
                       (snd (bytes_of (s_start (n_value m)) (s_end (n_value m)))));
          ("nodes", DList vs)])
    | cv_rule m vs : t_type (s_term (n_value m)) <> TTerminal -> Forall2 child_entry (n_children m) vs ->
        context_view m (DMap [("text", DStr (range_text m));
          ("pos", DPos (fst (bytes_of (s_start (n_value m)) (s_end (n_value m))))
                       (snd (bytes_of (s_start (n_value m)) (s_end (n_value m)))));
          ("nodes", DList vs); ("type", DStr (label m))]).
  End Context.
End View.
