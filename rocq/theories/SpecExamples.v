(** What the programs examples/math and examples/builtin should print. *)
From Verif Require Import Base ModelTypes ModelText ModelEarley ModelApi ModelQuote ModelFuncs ModelPrint ModelReader ModelGrammar ModelMatch ModelLocal ModelProgram
  SpecTypes SpecGrammar SpecRefine SpecConstruct SpecApi SpecLocal SpecSem SpecEnd SpecMeaning SpecArith SpecProgram.

Section Sessions.
  Variable vm : Type.
  Variable run : vm -> string -> option (bool * string * vm).
  (** [sayings l s i j]: the tokens i, ..., j-1 of the line [l] say [s]; [size l n]: the
      line has n tokens; [refused l]: it cannot be annotated *)
  Variable sayings : string -> string -> nat -> nat -> Prop.
  Variable size : string -> nat -> Prop.
  Variable refused : string -> Prop.

  (** The spans are the longest from left to right, and nothing outside them says
      anything. *)
  Definition spans_of (R : string -> nat -> nat -> Prop) (n : nat) (spans : list (nat * nat)) : Prop :=
    tiles 0 spans /\
    (forall i l, In (i, l) spans -> i < n /\ i + l <= n /\ 0 < l /\ forall s j, R s i j -> j <= i + l) /\
    (forall s i j, i < n -> ~ covered spans i -> ~ R s i j).
  (** Something that the span says, at least once. *)
  Definition sayings_of (R : string -> nat -> nat -> Prop) (i j : nat) (ss : list string) : Prop :=
    ss <> [] /\ forall s, In s ss -> R s i j.

  (** math: without -eval the formulas, with it the formulas the machine has an answer
      to, with the answers; the process ends ([Panic]) when the machine panics. *)
  Inductive formulas (eval_flag : bool) : list string -> vm -> string -> res vm -> Prop :=
  | fo_none m : formulas eval_flag [] m "" (Ret m)
  | fo_say s ss m out r : eval_flag = false -> formulas eval_flag ss m out r ->
      formulas eval_flag (s :: ss) m (s ++ newline ++ out)%string r
  | fo_value s ss m a m' out r : eval_flag = true -> run m s = Some (true, a, m') -> formulas eval_flag ss m' out r ->
      formulas eval_flag (s :: ss) m (s ++ " => " ++ a ++ newline ++ out)%string r
  | fo_error s ss m a m' out r : eval_flag = true -> run m s = Some (false, a, m') -> formulas eval_flag ss m' out r ->
      formulas eval_flag (s :: ss) m out r
  | fo_panic s ss m : eval_flag = true -> run m s = None -> formulas eval_flag (s :: ss) m "" Panic.
  (** One block for each span, numbered from [n]. *)
  Inductive math_blocks (eval_flag : bool) (R : string -> nat -> nat -> Prop) : nat -> list (nat * nat) -> vm -> string -> res vm -> Prop :=
  | mb_none n m : math_blocks eval_flag R n [] m "" (Ret m)
  | mb_panic n i l ss spans m out : sayings_of R i (i + l) ss -> formulas eval_flag ss m out Panic ->
      math_blocks eval_flag R n ((i, l) :: spans) m (header n (length ss) ++ out)%string Panic
  | mb_one n i l ss spans m m' out outs r : sayings_of R i (i + l) ss -> formulas eval_flag ss m out (Ret m') ->
      math_blocks eval_flag R (S n) spans m' outs r ->
      math_blocks eval_flag R n ((i, l) :: spans) m (header n (length ss) ++ out ++ outs)%string r.

  (** builtin: every formula with the result of the machine, whether it had an error or
      not. *)
  Inductive results : list string -> vm -> string -> res vm -> Prop :=
  | rs_none m : results [] m "" (Ret m)
  | rs_one s ss m ok a m' out r : run m s = Some (ok, a, m') -> results ss m' out r ->
      results (s :: ss) m (s ++ " = " ++ a ++ newline ++ out)%string r
  | rs_panic s ss m : run m s = None -> results (s :: ss) m "" Panic.
  (** The formulas of all spans. *)
  Inductive all_sayings (R : string -> nat -> nat -> Prop) : list (nat * nat) -> list string -> Prop :=
  | al_none : all_sayings R [] []
  | al_span i l spans ss ss' : sayings_of R i (i + l) ss -> all_sayings R spans ss' -> all_sayings R ((i, l) :: spans) (ss ++ ss').

  (** A line with text, its output and how it ends. *)
  Definition math_text (eval_flag : bool) (l : string) (m : vm) (out : string) (r : res vm) : Prop :=
    exists n spans, size l n /\ spans_of (sayings l) n spans /\ math_blocks eval_flag (sayings l) 0 spans m out r.
  Definition builtin_text (l : string) (m : vm) (out : string) (r : res vm) : Prop :=
    exists n spans ss, size l n /\ spans_of (sayings l) n spans /\ all_sayings (sayings l) spans ss /\ results ss m out r.

  (** A run over the input: what is printed, and how it ends ([Err]: the process is
      stopped). Lines are trimmed; [skip]: blank lines are skipped. *)
  Variable text_out : string -> vm -> string -> res vm -> Prop.
  Variable skip : bool.
  Inductive lines_out (e : input_end) : vm -> string -> string -> res vm -> Prop :=
  | lo_end m s : plain s -> lines_out e m s "" (match e with EndOfInput => Ret m | InputError => Err end)
  | lo_skipped m l rest out r : plain l -> trim_space (l ++ newline)%string = "" -> skip = true -> lines_out e m rest out r ->
      lines_out e m (l ++ newline ++ rest)%string (newline ++ out)%string r
  | lo_blank m l rest : plain l -> trim_space (l ++ newline)%string = "" -> skip = false ->
      lines_out e m (l ++ newline ++ rest)%string newline Err
  | lo_refused m l rest : plain l -> trim_space (l ++ newline)%string <> "" -> refused (l ++ newline)%string ->
      lines_out e m (l ++ newline ++ rest)%string (trim_space (l ++ newline) ++ newline)%string Err
  | lo_panic m l rest out : plain l -> trim_space (l ++ newline)%string <> "" -> text_out (l ++ newline)%string m out Panic ->
      lines_out e m (l ++ newline ++ rest)%string (trim_space (l ++ newline) ++ newline ++ out)%string Panic
  | lo_line m m' l rest out outs r : plain l -> trim_space (l ++ newline)%string <> "" ->
      text_out (l ++ newline)%string m out (Ret m') -> lines_out e m' rest outs r ->
      lines_out e m (l ++ newline ++ rest)%string (trim_space (l ++ newline) ++ newline ++ out ++ newline ++ outs)%string r.
End Sessions.

(** The lines, for a grammar whose texts have the rules [before]. *)
Section Line.
  Variable e : env.
  Variable tmatch : term -> option token -> bool.
  Variable before : list grammar_rules.
  Variable regexps : list (string * string).
  Variable start : string.
  Variable find_all : string -> string -> option (list (nat * nat)).
  Variable annotate : string -> string -> res document.
  Variable join_words : list string -> string.
  Variable float_string : bigf -> string.
  Variable is_print_hi : rune -> bool.
  Definition line_sayings (l s : string) (i j : nat) : Prop :=
    exists d, annotate "" (trim_space l) = Ret d /\
      says (e_tokenize e) tmatch before find_all regexps d join_words float_string is_print_hi (content d) (nonterm start) i j s.
  Definition line_refused (l : string) : Prop :=
    annotate "" (trim_space l) = Err \/ exists d, annotate "" (trim_space l) = Ret d /\ content d = [].
  Definition line_fits (l : string) : Prop :=
    exists d, annotate "" (trim_space l) = Ret d /\ fit_document (e_hash e) find_all regexps d.
End Line.
