(** What the printed form of a state, a chart or a tree shows. *)
From Coq Require Import Ascii.
From Verif Require Import Base ModelTypes ModelText ModelQuote ModelEarley ModelTrees ModelApi ModelString
     SpecGrammar SpecSem.

Definition lacks (c : ascii) (s : string) : Prop := ~ In c (list_ascii_of_string s).

(** A name that can be written between angle brackets. *)
Definition plain_name (x : string) : Prop := lacks ">" x.

Section Shown.
  Variable is_print_hi : rune -> bool.
  Variable float_string : bigf -> string.
  Notation ftext f := (fmr_opt_string is_print_hi float_string f).

  (** Two terms that print alike: annotations are not shown. *)
  Definition term_alike (t u : term) : Prop :=
    t_type t = t_type u /\ (t_type t <> TAny -> t_value t = t_value u).

  (** Two states with the same symbol, alternative, function text, progress and range. *)
  Definition alike (s u : tstate) : Prop :=
    t_type (s_term s) = t_type (s_term u) /\ s_start s = s_start u /\ s_end s = s_end u /\
    match t_type (s_term s) with
    | TNonterminal => t_value (s_term s) = t_value (s_term u) /\ s_dot s = s_dot u
        /\ exists b c, s_rb s = Some b /\ s_rb u = Some c /\ Forall2 term_alike (rb_terms b) (rb_terms c)
                       /\ ftext (rb_f b) = ftext (rb_f c)
    | TAny => True
    | TList => t_value (s_term s) = t_value (s_term u) /\ s_dot s = s_dot u
    | _ => t_value (s_term s) = t_value (s_term u)
    end.

  Inductive tree_alike : node -> node -> Prop :=
  | ta_node v w l m : alike v w -> Forall2 tree_alike l m -> tree_alike (Node v l) (Node w m).

  (** States whose names are plain and whose function text lacks the byte [stop]. *)
  Variable stop : ascii.
  Definition plain_term (t : term) : Prop :=
    match t_type t with
    | TEOF => False
    | TNonterminal | TList => plain_name (t_value t)
    | _ => True
    end.
  Definition plain_body (b : rulebody) : Prop :=
    Forall plain_term (rb_terms b) /\ lacks stop (ftext (rb_f b)).
  Definition plain_state (s : tstate) : Prop :=
    match t_type (s_term s) with
    | TEOF => False
    | TNonterminal => plain_name (t_value (s_term s))
        /\ exists b, s_rb s = Some b /\ plain_body b /\ s_dot s <= length (rb_terms b)
    | TList => plain_name (t_value (s_term s))
    | _ => True
    end.
  Definition plain_tree (t : node) : Prop := forall m, part_of t m -> plain_state (n_value m).

  (** Grammars with plain names and functions. *)
  Definition plain_grammar (gs : list grammar_rules) (starts : list string) : Prop :=
    (forall x b, has_body gs x b -> plain_name x /\ plain_body b) /\ Forall plain_name starts.
End Shown.

(** The nodes of a tree with their depths, parents before children, left to right. *)
Fixpoint walk (depth : nat) (t : node) : list (nat * tstate) :=
  match t with Node v kids => (depth, v) :: flat_map (walk (S depth)) kids end.
