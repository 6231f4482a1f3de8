(** The names that the reader of grammars makes up for terminal texts: when they cannot clash. *)
From Verif Require Import Base ModelTypes ModelText ModelEarley ModelReader ModelGrammar
  SpecGrammar SpecNotation SpecRefine SpecConstruct ModelShipped SpecShipped.

(** No text with [P] has the usual name of another, not even after numbering. *)
Definition spelled_apart (tokenize : string -> res (list token)) (ascii : string -> string) (P : string -> Prop) : Prop :=
  forall v v' ks ks' j, P v -> P v' -> tokenize v = Ret ks -> tokenize v' = Ret ks' ->
    usual_name ascii ks = numbered (usual_name ascii ks') j -> v = v'.
(** None has the name of a rule, either. *)
Definition names_apart (tokenize : string -> res (list token)) (ascii : string -> string) (P R : string -> Prop) : Prop :=
  spelled_apart tokenize ascii P /\ (forall v ks, P v -> tokenize v = Ret ks -> ~ R (usual_name ascii ks)).

(** The terminal texts and the rule names of rules *)
Definition terminal_text (gs : list grammar_rules) (v : string) : Prop := exists m mt, In m gs /\ terminal_occurs m v mt.
Definition rule_name (gs : list grammar_rules) (x : string) : Prop := exists m, In m gs /\ lookup m x <> None.

(** [b] is an alternative of <x> in the text of a grammar. *)
Definition alternative_in (e : env) (text x : string) (b : rulebody) : Prop :=
  exists ps its re, e_text e text ps its re /\ In b (written its false x).
(** [text] is the file itself or one that it reaches. *)
Definition file_among (e : env) (main dir text : string) : Prop :=
  text = main \/ exists f, e_reached e main dir f /\ e_read e f = Ret text.

(** The terminal text [v] is written in a rule of the file [name] or one below it. *)
Definition shipped_text (e : env) (l : list (string * string)) (name v : string) : Prop :=
  exists f text x b t, (f = name \/ In f (below name)) /\ In (f, text) l /\ alternative_in e text x b /\
    In t (rb_terms b) /\ t_type t = TTerminal /\ t_value t = v.
