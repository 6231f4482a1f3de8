(** Which semantic functions survive printing and reading. *)
From Coq Require Import Ascii.
From Verif Require Import Base ModelTypes ModelText ModelQuote SpecNotation.

Section Express.
  Variables letter digit : rune -> bool.
  Variable scan_float : string -> res bigf.
  (** strconv.IsPrint *)
  Variable printable : rune -> bool.
  (** big.Float.String *)
  Variable float_string : bigf -> string.

  (** Texts of printable characters, newlines and tabs; the first one is neither
      white space (other than a newline or a tab) nor an opening parenthesis. *)
  Definition plain_char (c : rune) : Prop :=
    good c /\ (printable c = true \/ c = 10%Z \/ c = 9%Z).
  Definition plain_text (cs : list rune) : Prop :=
    Forall plain_char cs /\
    match cs with [] => True | c :: _ => c = 10%Z \/ c = 9%Z \/ is_space c = false /\ c <> 40%Z end.

  (** Floats that print as decimal fractions with the same value. *)
  Definition plain_float (x : bigf) : Prop :=
    exists ds ds', decimals ds /\ decimals ds' /\ ds <> [] /\
      (float_string x = encode (ds ++ [46]%Z ++ ds') \/ float_string x = ("-" ++ encode (ds ++ [46]%Z ++ ds'))%string) /\
      scan_float (float_string x) = Ret x.

  (** Functions with valid names, at least one argument each, and no context argument. *)
  Inductive plain_arg : arg -> Prop :=
  | pa_string cs : plain_text cs -> plain_arg (Arg "string" (VStr (encode cs)))
  | pa_int z : plain_arg (Arg "int" (VInt z))
  | pa_float x : plain_float x -> plain_arg (Arg "float" (VFloat x))
  | pa_index i : (0 <= i < 2 ^ 63)%Z -> plain_arg (Arg "index" (VIdx i))
  | pa_func f : plain_fmr f -> plain_arg (Arg "func" (VFunc f))
  with plain_args : list arg -> Prop :=
  | pas_last a : plain_arg a -> plain_args [a]
  | pas_more a l : plain_arg a -> plain_args l -> plain_args (a :: l)
  with plain_fmr : fmr -> Prop :=
  | pf_intro fn l : Forall good fn -> func_text letter digit fn -> plain_args l -> plain_fmr (FMR (encode fn) l).

  (** A context argument somewhere inside. *)
  Inductive has_context : fmr -> Prop :=
  | hc_here fn l v : In (Arg "context" v) l -> has_context (FMR fn l)
  | hc_inside fn l f : In (Arg "func" (VFunc f)) l -> has_context f -> has_context (FMR fn l).

  (** No quotation mark in the names of the functions and in printed floats. *)
  Definition unquoted (s : string) : Prop := ~ In "034"%char (list_ascii_of_string s).
  Inductive tidy : fmr -> Prop :=
  | ti_intro fn l : unquoted fn ->
      (forall x, In (Arg "float" (VFloat x)) l -> unquoted (float_string x)) ->
      (forall f, In (Arg "func" (VFunc f)) l -> tidy f) -> tidy (FMR fn l).
End Express.

(** A rule with one alternative, one non-terminal and a function: [<x>=<y>{f};] *)
Definition rule_text (x y f : string) : string := ("<" ++ x ++ ">=<" ++ y ++ ">{" ++ f ++ "};")%string.
