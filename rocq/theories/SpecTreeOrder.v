(** Which parse trees a chart lists. *)
From Verif Require Import Base ModelTypes ModelEarley ModelTrees SpecTypes SpecGrammar SpecTree.

Definition p_start (q : ptree) : nat :=
  match q with PTok _ i => i | PAny i _ => i | PRule _ _ i _ _ => i | PList _ i _ _ => i end.
Definition p_end (q : ptree) : nat :=
  match q with PTok _ i => S i | PAny _ j => j | PRule _ _ _ j _ => j | PList _ _ j _ => j end.
Definition p_kids (q : ptree) : list ptree :=
  match q with PRule _ _ _ _ kids => kids | PList _ _ _ kids => kids | _ => [] end.
Definition p_inner (q : ptree) : bool := match q with PTok _ _ => false | _ => true end.

Inductive subtree : ptree -> ptree -> Prop :=
| sub_self q : subtree q q
| sub_kid q k q' : In k (p_kids q) -> subtree k q' -> subtree q q'.

Section Order.
  Variable cols : list column.

  (** The state of column [p_end q] that completes the root of [q] is at row [r]. *)
  Definition stands (r : nat) (q : ptree) : Prop :=
    exists col s, nth_error cols (p_end q) = Some col /\ nth_error (c_states col) r = Some s
      /\ is_completed s = Ret true /\ s_start s = p_start q /\
      match q with
      | PTok _ _ => False
      | PAny _ _ => t_type (s_term s) = TAny
      | PRule x b _ _ _ => t_type (s_term s) = TNonterminal /\ t_value (s_term s) = x /\ s_rb s = Some b
      | PList x _ _ kids => t_type (s_term s) = TList /\ t_value (s_term s) = x /\ s_dot s = length kids
      end.

  (** [q] at row [r] is in chart order: below every node, the nodes that end
      where it ends stand before it. *)
  Fixpoint in_order (r : nat) (q : ptree) {struct q} : Prop :=
    stands r q /\
    let all := fix all (l : list ptree) : Prop :=
      match l with
      | [] => True
      | k :: l' => match k with
                   | PTok _ _ => True
                   | _ => exists r', in_order r' k /\ (p_end k = p_end q -> r' < r)
                   end /\ all l'
      end in
    match q with
    | PTok _ _ => True
    | PAny _ _ => True
    | PRule _ _ _ _ kids => all kids
    | PList _ _ _ kids => all kids
    end.
End Order.

(** No node of the tree is empty. *)
Definition nowhere_empty (q : ptree) : Prop := forall q', subtree q q' -> p_start q' < p_end q'.

(** [k] is a child of [n] that ends where [n] ends and stands at or after the row of [n]. *)
Definition late (cols : list column) (n k : ptree) : Prop :=
  In k (p_kids n) /\ p_inner k = true /\ p_end k = p_end n
  /\ exists r r', stands cols r n /\ stands cols r' k /\ r <= r'.

(** Two nodes with the same label over the same tokens. *)
Definition same_root (k k' : ptree) : Prop :=
  match k, k' with
  | PTok t i, PTok t' i' => t = t' /\ i = i'
  | PAny i j, PAny i' j' => i = i' /\ j = j'
  | PRule x b i j _, PRule x' b' i' j' _ => x = x' /\ b = b' /\ i = i' /\ j = j'
  | PList x i j kids, PList x' i' j' kids' => x = x' /\ i = i' /\ j = j' /\ length kids = length kids'
  | _, _ => False
  end.

Section Forced.
  Variable gs : list grammar_rules.
  Variable accepts : term -> token -> Prop.
  Variable toks : list token.
  Variable count_ok : term -> nat -> Prop.

  (** The children of [q] are parse trees of what its label calls for. *)
  Definition well_made (q : ptree) : Prop :=
    match q with
    | PTok _ _ => False
    | PAny _ _ => True
    | PRule x b i j kids => trees_of gs accepts toks count_ok (rb_terms b) i j kids
    | PList x i j kids => trees_of gs accepts toks count_ok (repeat (nonterm x) (length kids)) i j kids
    end.

  (** Everything with the label of [n] over the tokens of [n] has the same label for the last child. *)
  Definition forced (n : ptree) : Prop :=
    forall n' l k l' k', same_root n n' -> well_made n' ->
      p_kids n = l ++ [k] -> p_kids n' = l' ++ [k'] -> same_root k k'.
End Forced.
