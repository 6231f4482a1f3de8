(** The size of a grammar and of a chart. *)
From Verif Require Import Base ModelTypes ModelEarley.

Fixpoint sum (l : list nat) : nat := match l with [] => 0 | n :: l' => n + sum l' end.
(** one for every rule, alternative and term; the start rules count twice *)
Definition body_size (b : rulebody) : nat := 1 + length (rb_terms b).
Definition rule_size (r : rule) : nat := 1 + sum (map (fun hb => body_size (snd hb)) (r_body r)).
Definition rules_size (g : grammar_rules) : nat := sum (map (fun kv => rule_size (snd kv)) g).
Definition grammar_size (gs : list grammar_rules) (starts : list string) : nat :=
  1 + 2 * length starts + sum (map rules_size gs).

(** no alternative has a (list<x>) term *)
Definition no_lists (gs : list grammar_rules) : Prop :=
  forall g kv hb t, In g gs -> In kv g -> In hb (r_body (snd kv)) -> In t (rb_terms (snd hb)) -> t_type t <> TList.
