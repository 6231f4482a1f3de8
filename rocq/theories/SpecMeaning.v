(** What a text means according to the text of a grammar: the tokens i, ..., j-1 read as
    a written term say the text s that Semantic is expected to give. *)
From Verif Require Import Base ModelTypes ModelText ModelEarley ModelTrees ModelApi ModelQuote ModelSem ModelLocal
  SpecTypes SpecGrammar SpecTree SpecRefine SpecLocal SpecSem SpecFuncs SpecEnd.

Section Functions.
  Variable float_string : bigf -> string.
  Variable is_print_hi : rune -> bool.
  (** $0, and $1, $2, ... *)
  Variable z : string.
  Variable ss : list string.

  (** [f_says f s]: the function f, applied, says s. *)
  Inductive f_says : fmr -> string -> Prop :=
  | fs_identity a s : a_says a s -> f_says (FMR "nf.I" [a]) s
  | fs_call fn args l : fn <> "nf.I" -> Forall2 a_says args l -> f_says (FMR fn args) (call_text fn l)
  with a_says : arg -> string -> Prop :=
  | as_string s : a_says (Arg "string" (VStr s)) (quote is_print_hi s)
  | as_int n : a_says (Arg "int" (VInt n)) (dec_Z n)
  | as_float x : a_says (Arg "float" (VFloat x)) (float_string x)
  | as_func f s : f_says f s -> a_says (Arg "func" (VFunc f)) s
  | as_whole : a_says (Arg "index" (VIdx 0)) z
  | as_part k s : nth_error ss k = Some s -> a_says (Arg "index" (VIdx (Z.of_nat (S k)))) s.
End Functions.

Section Says.
  Variable tokenize : string -> res (list token).
  Variable tmatch : term -> option token -> bool.
  (** the rules as written in the text and in the included texts *)
  Variable gs : list grammar_rules.
  Variable find_all : string -> string -> option (list (nat * nat)).
  Variable regexps : list (string * string).
  Variable d : document.
  Variable join_words : list string -> string.
  Variable float_string : bigf -> string.
  Variable is_print_hi : rune -> bool.
  (** the tokens parsed *)
  Variable toks : list token.

  (** The words i, ..., j-1, joined and quoted. *)
  Definition quoted (i j : nat) : string :=
    quote is_print_hi (join_words (map tok_text (firstn (j - i) (skipn i toks)))).
  (** The terminals [ts] match the tokens i, ..., j-1. *)
  Definition words_match (ts : list term) (i j : nat) : Prop :=
    j = i + length ts /\
    forall k t, nth_error ts k = Some t ->
      t_type t = TTerminal /\ exists tok, nth_error toks (i + k) = Some tok /\ tmatch t (Some tok) = true.
  (** An alternative with an optional function, whose parts say [ss]. *)
  Definition body_says (o : option fmr) (i j : nat) (ss : list string) (s : string) : Prop :=
    match o with
    | None => s = quoted i j
    | Some f => f_says float_string is_print_hi (quoted i j) ss f s
    end.

  Inductive says : term -> nat -> nat -> string -> Prop :=
  | sy_text t i j ks : t_type t = TTerminal -> tokenize (t_value t) = Ret ks ->
      words_match (token_terms (t_meta t) ks) i j -> says t i j (quoted i j)
  | sy_any t i j : t_type t = TAny -> i <= j <= length toks -> range_allows (t_meta t) (j - i) ->
      says t i j (quoted i j)
  | sy_rule t i j b ss s : t_type t = TNonterminal -> has_body gs (t_value t) b ->
      say_all (rb_terms b) i j ss -> body_says (rb_f b) i j ss s -> says t i j s
  | sy_local t i j b s : t_type t = TNonterminal -> local_alt find_all regexps d (t_value t) b ->
      words_match (rb_terms b) i j ->
      body_says (rb_f b) i j (map (fun k => quoted k (S k)) (seq i (j - i))) s -> says t i j s
  | sy_list t i j n ss : t_type t = TList -> range_allows (t_meta t) n ->
      say_all (repeat (nonterm (t_value t)) n) i j ss -> says t i j (call_text "fmr.list" ss)
  with say_all : list term -> nat -> nat -> list string -> Prop :=
  | sa_nil i : say_all [] i i []
  | sa_cons t ts i j k s ss : says t i j s -> say_all ts j k ss -> say_all (t :: ts) i k (s :: ss).
End Says.

Scheme says_m := Minimality for says Sort Prop with say_all_m := Minimality for say_all Sort Prop.
Combined Scheme says_mutind from says_m, say_all_m.
