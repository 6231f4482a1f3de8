(** Readings that are nested as little as possible on their right side: for every part, no
    way to read the same tokens by the same alternative is nested less on the right. *)
From Verif Require Import Base ModelTypes ModelText ModelEarley ModelTrees ModelApi ModelQuote ModelSem ModelMath ModelFuncs ModelLocal
  SpecTypes SpecGrammar SpecTree SpecRefine SpecLocal SpecFuncs SpecEnd SpecMath SpecMeaning SpecArith SpecWorth.
Local Open Scope list_scope.

(** what counts is the last part *)
Definition of_last {A} (rest : list A) (n m : nat) : nat := match rest with [] => n | _ => m end.

Section Least.
  Variable tokenize : string -> res (list token).
  Variable tmatch : term -> option token -> bool.
  (** the rules as written in the texts *)
  Variable gs : list grammar_rules.
  Variable toks : list token.

  (** Rule [x] can read the tokens i, ..., j-1 with [n] rules nested in each other along the right side;
      the text of a terminal counts as one. *)
  Inductive reach : string -> nat -> nat -> nat -> Prop :=
  | re_body x i j b n : has_body gs x b -> reaches (rb_terms b) i j n -> reach x i j (S n)
  with reaches : list term -> nat -> nat -> nat -> Prop :=
  | rs_nil i : reaches [] i i 0
  | rs_text t ts i j k n : text_at tokenize tmatch toks t i j -> reaches ts j k n -> reaches (t :: ts) i k (of_last ts 1 n)
  | rs_rule t ts i j k m n : t_type t = TNonterminal -> reach (t_value t) i j m -> reaches ts j k n -> reaches (t :: ts) i k (of_last ts m n).

  (** Rule [x] reads the tokens i, ..., j-1 as the expression, with [n] rules nested on the right side, and
      at every part as few as this alternative allows. *)
  Inductive least : string -> nat -> nat -> expression -> nat -> Prop :=
  | le_body x i j b f vs e n : has_body gs x b -> rb_f b = Some f -> leasts (rb_terms b) i j vs n -> f_worth vs f e ->
      (forall n', reaches (rb_terms b) i j n' -> n <= n') -> least x i j e (S n)
  with leasts : list term -> nat -> nat -> list (option expression) -> nat -> Prop :=
  | ls_nil i : leasts [] i i [] 0
  | ls_text t ts i j k vs n : text_at tokenize tmatch toks t i j -> leasts ts j k vs n -> leasts (t :: ts) i k (None :: vs) (of_last ts 1 n)
  | ls_rule t ts i j k e m vs n : t_type t = TNonterminal -> least (t_value t) i j e m -> leasts ts j k vs n ->
      leasts (t :: ts) i k (Some e :: vs) (of_last ts m n).

  (** and none of the alternatives allows fewer. *)
  Definition least_of_all (x : string) (i j : nat) (e : expression) : Prop :=
    exists n, least x i j e n /\ forall n', reach x i j n' -> n <= n'.
End Least.
Scheme reach_m := Minimality for reach Sort Prop with reaches_m := Minimality for reaches Sort Prop.
Combined Scheme reach_mutind from reach_m, reaches_m.
Scheme least_m := Minimality for least Sort Prop with leasts_m := Minimality for leasts Sort Prop.
Combined Scheme least_mutind from least_m, leasts_m.
