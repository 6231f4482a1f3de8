(** What a text is worth according to the text of a grammar that calculates: readings of
    texts as arithmetic expressions, through alternatives with arithmetical functions. *)
From Verif Require Import Base ModelTypes ModelText ModelEarley ModelTrees ModelApi ModelQuote ModelSem ModelMath ModelFuncs ModelLocal
  SpecTypes SpecGrammar SpecTree SpecRefine SpecLocal SpecFuncs SpecEnd SpecMath SpecMeaning SpecArith.

Section Functions.
  (** what the parts $1, $2, ... are worth, if anything *)
  Variable vs : list (option expression).
  Inductive f_worth : fmr -> expression -> Prop :=
  | fw_identity a x : a_worth a x -> f_worth (FMR "nf.I" [a]) x
  | fw_binary o a b x y : a_worth a x -> a_worth b y -> f_worth (FMR (function_name o) [a; b]) (Binary o x y)
  | fw_negative a x : a_worth a x -> f_worth (FMR "nf.math.neg" [a]) (Negative x)
  with a_worth : arg -> expression -> Prop :=
  | aw_int z : a_worth (Arg "int" (VInt z)) (Number z)
  | aw_func f x : f_worth f x -> a_worth (Arg "func" (VFunc f)) x
  | aw_part k x : nth_error vs k = Some (Some x) -> a_worth (Arg "index" (VIdx (Z.of_nat (S k)))) x.
End Functions.

Section Worth.
  Variable tokenize : string -> res (list token).
  Variable tmatch : term -> option token -> bool.
  (** the rules as written in the texts *)
  Variable gs : list grammar_rules.
  Variable toks : list token.

  (** Term [t] is a text that stands at the tokens i, ..., j-1. *)
  Definition text_at (t : term) (i j : nat) : Prop :=
    t_type t = TTerminal /\ exists ks, tokenize (t_value t) = Ret ks /\ words_match tmatch toks (token_terms (t_meta t) ks) i j.
  (** Rule [x] reads the tokens i, ..., j-1 as the expression. *)
  Inductive worth : string -> nat -> nat -> expression -> Prop :=
  | wo_body x i j b f vs e : has_body gs x b -> rb_f b = Some f -> worths (rb_terms b) i j vs -> f_worth vs f e -> worth x i j e
  with worths : list term -> nat -> nat -> list (option expression) -> Prop :=
  | ws_nil i : worths [] i i []
  | ws_text t ts i j k vs : text_at t i j -> worths ts j k vs -> worths (t :: ts) i k (None :: vs)
  | ws_rule t ts i j k e vs : t_type t = TNonterminal -> worth (t_value t) i j e -> worths ts j k vs -> worths (t :: ts) i k (Some e :: vs).

  (** ** Grammars that calculate *)
  Inductive f_calculates (ts : list term) : fmr -> Prop :=
  | fc_identity a : a_calculates ts a -> f_calculates ts (FMR "nf.I" [a])
  | fc_binary o a b : a_calculates ts a -> a_calculates ts b -> f_calculates ts (FMR (function_name o) [a; b])
  | fc_negative a : a_calculates ts a -> f_calculates ts (FMR "nf.math.neg" [a])
  with a_calculates (ts : list term) : arg -> Prop :=
  | ac_int z : a_calculates ts (Arg "int" (VInt z))
  | ac_func f : f_calculates ts f -> a_calculates ts (Arg "func" (VFunc f))
  | ac_part k t : nth_error ts k = Some t -> t_type t = TNonterminal -> a_calculates ts (Arg "index" (VIdx (Z.of_nat (S k)))).
  (** An alternative with a text that stands nowhere in the document, or with a rule of [N]
      that is written nowhere *)
  Definition idle (N : string -> Prop) (b : rulebody) : Prop := exists t, In t (rb_terms b) /\
    (t_type t = TTerminal /\ (forall i j, ~ text_at t i j) \/
     t_type t = TNonterminal /\ N (t_value t) /\ (forall b', ~ has_body gs (t_value t) b')).
  (** Every alternative of the rules [N] has a function on numbers, and its parts are
      texts and rules of [N]; idle alternatives apart. *)
  Definition calculates (N : string -> Prop) : Prop :=
    forall x b, N x -> has_body gs x b -> idle N b \/
      (Forall (fun t => t_type t = TTerminal \/ t_type t = TNonterminal /\ N (t_value t)) (rb_terms b) /\
       exists f, rb_f b = Some f /\ f_calculates (rb_terms b) f).
End Worth.
Scheme worth_m := Minimality for worth Sort Prop with worths_m := Minimality for worths Sort Prop.
Combined Scheme worth_mutind from worth_m, worths_m.
Scheme f_worth_m := Minimality for f_worth Sort Prop with a_worth_m := Minimality for a_worth Sort Prop.
Combined Scheme f_worth_mutind from f_worth_m, a_worth_m.
Scheme f_calculates_m := Minimality for f_calculates Sort Prop with a_calculates_m := Minimality for a_calculates Sort Prop.
Combined Scheme f_calculates_mutind from f_calculates_m, a_calculates_m.

(** Values of at most ten digits, and no zero with a minus sign *)
Fixpoint modest (x : expression) : Prop :=
  match x with
  | Number z => small z
  | Binary o x y => modest x /\ modest y /\ small (value (Binary o x y)) /\
      (o = Times -> (value x * value y = 0 -> 0 <= value x /\ 0 <= value y)%Z)
  | Negative x => modest x /\ value x <> 0%Z
  end.
(** The tree [t] of parse [p] is worth [x]: Semantic gives the formula, Eval the value. *)
Definition displays (p : parse_t) join_words float_string json is_print_hi (rcall : string -> list dval -> res (list dval))
    (t : node) (x : expression) : Prop :=
  semantic p join_words float_string json is_print_hi (Call rcall) t = Ret (formula x) /\
  (modest x -> exists s, numeral (value x) s /\ eval p join_words float_string (Call rcall) t = Ret (DStr s)).

(** ** Documents of single words *)
(** The tokenizer takes each of the words [V] as one token. *)
Definition words_are_tokens (tokenize : string -> res (list token)) (V : list string) : Prop :=
  forall w, In w V -> exists ks k, tokenize w = Ret ks /\ filter (fun k => negb (is_space_token k)) ks = [k] /\ tok_text k = w.
(** The document consists of the words [ws], each of them one token, as far as the words [V] are concerned. *)
Definition in_words (tokenize : string -> res (list token)) (tmatch : term -> option token -> bool) (V : list string) (d : document) (ws : list string) : Prop :=
  length (content d) = length ws /\
  forall w, In w V -> forall i j, phrase tokenize tmatch (content d) w i j <-> j = S i /\ nth_error ws i = Some w.
(** What alternatives look like *)
Definition call1 (a : arg) : option fmr := Some (FMR "nf.I" [a]).
Definition call2 (o : operation) (a b : arg) : option fmr := Some (FMR (function_name o) [a; b]).
Definition product12 : arg := Arg "func" (VFunc (FMR "nf.math.mul" [part 1; part 2])).
