(** What the program examples/arithmetic should print. *)
From Verif Require Import Base ModelTypes ModelText ModelEarley ModelApi ModelQuote ModelFuncs ModelPrint ModelProgram ModelLocal
  SpecTypes SpecGrammar SpecConstruct SpecApi SpecLocal SpecEnd SpecArith.

Fixpoint plain (s : string) : Prop :=
  match s with EmptyString => True | String c s' => String c "" <> newline /\ plain s' end.

Section Session.
  Variable vm : Type.
  Variable run : vm -> string -> res (string * vm).
  (** [meanings t x i j]: the tokens i, ..., j-1 of the text [t] can be read as [x];
      [size t]: the number of tokens of [t] *)
  Variable meanings : string -> expression -> nat -> nat -> Prop.
  Variable size : string -> nat -> Prop.

  (** One line for each reading of the list: the formula and what the machine
      answers to it; the process is stopped ([Err]) when it has no answer. *)
  Inductive answers : list expression -> vm -> string -> res vm -> Prop :=
  | an_none m : answers [] m "" (Ret m)
  | an_stop x xs m : run m (formula x) = Err -> answers (x :: xs) m "" Err
  | an_one x xs t m m' out r : run m (formula x) = Ret (t, m') -> answers xs m' out r ->
      answers (x :: xs) m (formula x ++ " = " ++ t ++ newline ++ out)%string r.
  (** The list shows readings of the span, at least one, and with them those from left to
      right; where the whole span is a number word, only the number is sure to be there. *)
  Definition displayed (R : expression -> nat -> nat -> Prop) (i j : nat) (xs : list expression) : Prop :=
    xs <> [] /\ (forall x, In x xs -> R x i j) /\
    forall x, R x i j -> left_to_right x -> (forall z, R (Number z) i j -> exists z', x = Number z') -> In (formula x) (map formula xs).
  (** One block for each span, numbered from [n]. *)
  Definition header (n k : nat) : string :=
    ("p" ++ dec_N (N.of_nat n) ++ " tree number:" ++ dec_N (N.of_nat k) ++ newline)%string.
  Inductive blocks (R : expression -> nat -> nat -> Prop) : nat -> list (nat * nat) -> vm -> string -> res vm -> Prop :=
  | bl_none n m : blocks R n [] m "" (Ret m)
  | bl_stop n i l xs spans m out : displayed R i (i + l) xs -> answers xs m out Err ->
      blocks R n ((i, l) :: spans) m (header n (length xs) ++ out)%string Err
  | bl_one n i l xs spans m m' out outs r : displayed R i (i + l) xs ->
      answers xs m out (Ret m') -> blocks R (S n) spans m' outs r ->
      blocks R n ((i, l) :: spans) m (header n (length xs) ++ out ++ outs)%string r.
  (** The spans are the longest readings, from left to right, and nothing outside them
      can be read. *)
  Definition longest_spans (R : expression -> nat -> nat -> Prop) (n : nat) (spans : list (nat * nat)) : Prop :=
    tiles 0 spans /\
    (forall i l, In (i, l) spans -> i + l <= n /\ 0 < l /\ (exists x, R x i (i + l)) /\ forall x j, R x i j -> j <= i + l) /\
    (forall x i j, i < n -> ~ covered spans i -> ~ R x i j).

  (** A run over the input: what is printed, and how it ends ([Err]: the process is
      stopped). *)
  Inductive session (e : input_end) : vm -> string -> string -> res vm -> Prop :=
  | se_end m s : plain s -> session e m s "" (match e with EndOfInput => Ret m | InputError => Err end)
  | se_blank m l rest : plain l -> trim_space (l ++ newline)%string = "" ->
      session e m (l ++ newline ++ rest)%string (l ++ newline ++ newline)%string Err
  | se_stop m l rest n spans out : plain l -> trim_space (l ++ newline)%string <> "" ->
      size (l ++ newline)%string n -> longest_spans (meanings (l ++ newline)%string) n spans ->
      blocks (meanings (l ++ newline)%string) 0 spans m out Err ->
      session e m (l ++ newline ++ rest)%string (l ++ newline ++ newline ++ out)%string Err
  | se_line m m' l rest n spans out outs r : plain l -> trim_space (l ++ newline)%string <> "" ->
      size (l ++ newline)%string n -> longest_spans (meanings (l ++ newline)%string) n spans ->
      blocks (meanings (l ++ newline)%string) 0 spans m out (Ret m') -> session e m' rest outs r ->
      session e m (l ++ newline ++ rest)%string (l ++ newline ++ newline ++ out ++ newline ++ outs)%string r.
End Session.

(** The lines of the input that are read *)
Inductive line_of : string -> string -> Prop :=
| lo_first l rest : plain l -> line_of (l ++ newline)%string (l ++ newline ++ rest)%string
| lo_later l l' rest : plain l' -> line_of l rest -> line_of l (l' ++ newline ++ rest)%string.

(** Readings of a line: those of the tokens of its document, where words are compared
    as they are written *)
Definition same_text (t : term) (tok : option token) : bool :=
  match tok with Some k => String.eqb (t_value t) (tok_text k) | None => false end.
Section Line.
  Variable e : env.
  Variable find_all : string -> string -> option (list (nat * nat)).
  Variable annotate : string -> string -> res document.
  Definition line_meaning (l : string) (x : expression) (i j : nat) : Prop :=
    exists d, annotate "" (trim_space l) = Ret d /\ reads (e_tokenize e) same_text (content d) x i j.
  Definition line_size (l : string) (n : nat) : Prop :=
    exists d, annotate "" (trim_space l) = Ret d /\ n = length (content d).
  Definition readable_line (l : string) : Prop :=
    exists d, annotate "" (trim_space l) = Ret d /\ fit_document (e_hash e) find_all [] d /\ ~ tagged d "number".
End Line.
