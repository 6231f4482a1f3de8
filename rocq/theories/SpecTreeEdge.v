(** The right edge of a parse tree. *)
From Verif Require Import Base ModelTypes ModelEarley SpecGrammar SpecTree SpecTreeOrder.

(** Number of inner nodes on the way from the root along the last children. *)
Fixpoint edge (q : ptree) : nat :=
  let last := fix last (l : list ptree) : nat :=
    match l with
    | [] => 0
    | k :: l' => match l' with [] => edge k | _ => last l' end
    end in
  match q with
  | PTok _ _ => 0
  | PAny _ _ => 1
  | PRule _ _ _ _ kids => S (last kids)
  | PList _ _ _ kids => S (last kids)
  end.

Section Shortest.
  Variable gs : list grammar_rules.
  Variable accepts : term -> token -> Prop.
  Variable toks : list token.
  Variable count_ok : term -> nat -> Prop.

  (** No tree with the label of [n] over the tokens of [n] has a shorter right edge. *)
  Definition shortest (n : ptree) : Prop :=
    forall n', same_root n n' -> well_made gs accepts toks count_ok n' -> edge n <= edge n'.
End Shortest.
