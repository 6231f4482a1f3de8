(** What is expected of the grammar files that come with the repository. *)
From Verif Require Import Base ModelTypes ModelText ModelEarley ModelReader ModelGrammar
  SpecGrammar SpecNotation SpecRefine SpecConstruct SpecSem ModelShipped.

(** The two fractions and the regular expression that occur in the files *)
Definition sf_pattern : string := ".(?:城|都)".
Definition fractions_scan (e : env) : Prop :=
  (exists f, e_scan e "0.5" = Ret f) /\ (exists f, e_scan e "0.01" = Ret f).

(** The trie takes every non-empty key and the tokenizer answers. *)
Definition tools_work (e : env) : Prop :=
  (forall v, v <> ""%string -> e_trie e v = true) /\ (forall v, exists tk, e_tokenize e v = Ret tk).

(** The files [l] are found in the directory [dir]. *)
Definition installed (e : env) (dir : string) (l : list (string * string)) : Prop :=
  forall name text, In (name, text) l ->
    e_read e (e_join e dir name) = Ret text /\ e_abs e (e_join e dir name) = Ret dir.

(** The file that its reader rejects *)
Definition rejected : string := "any.grammar".

(** The files reached from a file: by hand, from the #include lines. *)
Definition below (name : string) : list string :=
  if String.eqb name "limit.grammar" then ["math.zh.grammar"; "number.zh.grammar"]
  else if String.eqb name "math.zh.grammar" then ["number.zh.grammar"]
  else if String.eqb name "sql.grammar" then ["order.grammar"; "limit.grammar"; "math.zh.grammar"; "number.zh.grammar"]
  else if String.eqb name "time.grammar" then ["math.zh.grammar"; "number.zh.grammar"]
  else if String.eqb name "math.en.grammar" then ["number.en.grammar"]
  else if String.eqb name "math.grammar" then ["math.en.grammar"; "number.en.grammar"; "math.zh.grammar"; "number.zh.grammar"]
  else [].

(** Names that no file defines: those of the taggers and of regular expressions *)
Definition given (e : env) (x : string) : Prop :=
  In x ["numeric"; "digits"; "letters"]%string \/ x = substring 0 16 (e_md5 e sf_pattern).

(** [text] has a rule for [x]. *)
Definition defines (e : env) (text x : string) : Prop :=
  exists ps its re it, e_text e text ps its re /\ In it its /\ it_frame it = false /\ it_name it = x.

(** The rules and frames of [text] can be written as [its], where every non-terminal used
    has a rule in the file or in a file it reaches, or is given; and every function fits
    the body it belongs to, so that no index is out of range. The one function with an @
    argument is that of sf.grammar. *)
Definition entity_function : fmr := FMR "fmr.entity" [Arg "context" (VStr "@")].
Definition self_contained (e : env) (l : list (string * string)) (name text : string) : Prop :=
  exists ps its re, e_text e text ps its re /\
    forall it b, In it its -> In b (it_bodies it) ->
      (forall f, rb_f b = Some f -> f = entity_function \/ fun_ok (length (rb_terms b)) f) /\
      (forall t, In t (rb_terms b) -> t_type t = TNonterminal ->
         given e (t_value t) \/ defines e text (t_value t) \/
         exists name' text', In name' (below name) /\ In (name', text') l /\ defines e text' (t_value t)).

(** A text with more than white space has a token that is not white space. *)
Definition texts_have_tokens (e : env) : Prop :=
  forall v ks, trim_space v <> ""%string -> e_tokenize e v = Ret ks -> exists k, In k ks /\ tok_type k <> KSpace.

(** No alternative with function [fn] of a rule of the files [l] contains the text or name [w]. *)
Definition never_written (e : env) (l : list (string * string)) (fn w : string) : Prop :=
  forall name text ps its re x b args t, In (name, text) l -> e_text e text ps its re -> In b (written its false x) ->
    rb_f b = Some (FMR fn args) -> In t (rb_terms b) -> t_value t <> w.
