(** A family of texts with exponentially many parse trees. *)
From Verif Require Import Base ModelTypes ModelEarley.
Local Open Scope list_scope.

Definition many_body (ts : list term) : rulebody := mkRb ts None.
Definition many_t (s : string) : term := mkTerm s TTerminal MNil.
Definition many_n (x : string) : term := mkTerm x TNonterminal MNil.
(** The name refine gives the rule of a word. *)
Definition many_w (s : string) : string := ("g_t_" ++ s)%string.
(** <s> = <u> "a" | "b"; <u> = <s> | <v>; <v> = <s>; *)
Definition g_many : list grammar_rules :=
  [[ ("s", mkRule "s" [(0%N, many_body [many_n "u"; many_n (many_w "a")]); (1%N, many_body [many_n (many_w "b")])]);
     ("u", mkRule "u" [(0%N, many_body [many_n "s"]); (1%N, many_body [many_n "v"])]);
     ("v", mkRule "v" [(0%N, many_body [many_n "s"])]);
     (many_w "a", mkRule (many_w "a") [(0%N, many_body [many_t "a"])]);
     (many_w "b", mkRule (many_w "b") [(0%N, many_body [many_t "b"])]) ]]%string.
(** The word b and then n times the word a. *)
Definition many_words (n : nat) : list string := ("b" :: repeat "a" n)%string.
