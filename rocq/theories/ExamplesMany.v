(** The grammar text of SpecMany.v and a pipeline that gives the words b a ... a. *)
From Verif Require Import Base ModelTypes ModelEarley SpecMany Examples ExamplesGrammar.

Definition text_many : string :=
  ("<s> = <u> " ++ quoted "a" ++ " | " ++ quoted "b" ++ "; <u> = <s> | <v>; <v> = <s>;")%string.
Definition many_annotate (n : nat) (_ _ : string) : res (list token) := Ret (xtoks (many_words n)).
Definition many_local (_ : list token) : res (option grammar_rules) := Ret None.
