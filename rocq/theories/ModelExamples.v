(** Model of /repo/examples/math/main.go and /repo/examples/builtin/main.go without the
    debug flag: the loops that read lines, parse them and run the meanings of the trees. *)
From Verif Require Import Base ModelTypes ModelText ModelEarley ModelTrees ModelApi ModelQuote ModelSem ModelFuncs
  ModelPrint ModelReader ModelGrammar ModelMatch ModelLocal ModelProgram.

Section Examples.
  (** the JavaScript machine: running a script gives whether it went without error, the
      text of the exported result (%+v) and the machine after it, or a panic ([None]) *)
  Variable vm : Type.
  Variable run : vm -> string -> option (bool * string * vm).
  (** the compiled grammar, and the comparison with the token table after loading it *)
  Variable g : grammar.
  Variable tmatch : term -> option token -> bool.
  Variable ords : nat -> nat -> order.
  Variable hash : rulebody -> N.
  Variable find_all : string -> string -> option (list (nat * nat)).
  Variable span_text : document -> nat -> nat -> string.
  Variable lords : nat -> nat -> list (string * entry) -> list (string * entry).
  Variable annotate : string -> string -> res document.
  Variable join_words : list string -> string.
  Variable float_string : bigf -> string.
  Variable json : dval -> string.
  Variable is_print_hi : rune -> bool.
  Variable call : string -> list dval -> res dval.
  Variable fuel : nat.
  (** the flags -start and -eval *)
  Variable start : string.
  Variable eval_flag : bool.

  (** math/main.go:90-110; the message of glog.Error is not part of the output *)
  Fixpoint math_trees (p : parse_t) (m : vm) (ts : list node) : io vm :=
    match ts with
    | [] => done (Ret m)
    | t :: ts' =>
        seq_io (done (semantic p join_words float_string json is_print_hi call t)) (fun sem =>
        if negb eval_flag then seq_io (put (sem ++ newline)%string) (fun _ => math_trees p m ts')
        else match run m sem with
             | None => done Panic
             | Some (false, _, m') => math_trees p m' ts'
             | Some (true, a, m') => seq_io (put (sem ++ " => " ++ a ++ newline)%string) (fun _ => math_trees p m' ts')
             end)
    end.
  (** math/main.go:86-111 *)
  Fixpoint math_finals (i : nat) (p : parse_t) (m : vm) (refs : list (nat * nat)) : io vm :=
    match refs with
    | [] => done (Ret m)
    | ref :: refs' =>
        seq_io (done (get_trees (p_columns p) fuel ref)) (fun ts =>
        seq_io (put ("p" ++ dec_N (N.of_nat i) ++ " tree number:" ++ dec_N (N.of_nat (length ts)) ++ newline)%string) (fun _ =>
        seq_io (math_trees p m ts) (fun m' =>
        math_finals i p m' refs')))
    end.
  (** math/main.go:85-112 *)
  Fixpoint math_parses (i : nat) (m : vm) (ps : list parse_t) : io vm :=
    match ps with
    | [] => done (Ret m)
    | p :: ps' => seq_io (math_finals i p m (p_finals p)) (fun m' => math_parses (S i) m' ps')
    end.
  (** math/main.go:75-113 *)
  Definition math_line (k : nat) (m : vm) (line : string) : io vm :=
    let text := trim_space line in
    seq_io (put (text ++ newline)%string) (fun _ =>
    if String.eqb text "" then done (Ret m)
    else
      seq_io (done (EarleyParseMaxAll tmatch (ords k) (all_rules g) (doc_tokens annotate)
                      (doc_local hash find_all span_text (g_regexps g) (lords k) annotate "" text) fuel fuel "" text [start])) (fun ps =>
      seq_io (math_parses 0 m ps) (fun m' =>
      seq_io (put newline) (fun _ => done (Ret m'))))).

  (** builtin/main.go:83-101; the result is printed after an error too *)
  Fixpoint builtin_trees (m : vm) (ts : list (parse_t * node)) : io vm :=
    match ts with
    | [] => done (Ret m)
    | (p, t) :: ts' =>
        seq_io (done (semantic p join_words float_string json is_print_hi call t)) (fun sem =>
        match run m sem with
        | None => done Panic
        | Some (_, a, m') => seq_io (put (sem ++ " = " ++ a ++ newline)%string) (fun _ => builtin_trees m' ts')
        end)
    end.
  (** builtin/main.go:76-102 *)
  Definition builtin_line (k : nat) (m : vm) (line : string) : io vm :=
    let text := trim_space line in
    seq_io (put (text ++ newline)%string) (fun _ =>
    seq_io (done (ExtractMaxAll tmatch (ords k) (all_rules g) (doc_tokens annotate)
                    (doc_local hash find_all span_text (g_regexps g) (lords k) annotate "" text) fuel fuel "" text [start])) (fun ts =>
    seq_io (builtin_trees m ts) (fun m' =>
    seq_io (put newline) (fun _ => done (Ret m'))))).
End Examples.

(** math/main.go:67-114, builtin/main.go:68-103: the loop over the lines; [steps] bounds
    their number *)
Fixpoint each_line {vm} (f : nat -> vm -> string -> io vm) (steps k : nat) (m : vm) (input : string) (e : input_end) : io vm :=
  match steps with
  | O => done Fuel
  | S steps' =>
      match read_line input with
      | None => match e with EndOfInput => done (Ret m) | InputError => done Err end
      | Some (line, rest) => seq_io (f k m line) (fun m' => each_line f steps' (S k) m' rest e)
      end
  end.

(** math/main.go:42-65, builtin/main.go:36-66: the grammar, the script and the input are
    opened in this order; a script with an error is fatal. A nil grammar without an error,
    which only the loading of included files gives (cfgrammar.go:50-52), would be dereferenced. *)
Definition open_all {vm} (run : vm -> string -> option (bool * string * vm)) (fresh : vm)
    (file : res (option grammar * world)) (script : res string) (input : res (string * input_end))
    (loop : grammar -> world -> vm -> string -> input_end -> io vm) : io vm :=
  seq_io (done file) (fun gw =>
  seq_io (done script) (fun src =>
  match run fresh src with
  | None => done Panic
  | Some (false, _, _) => done Err
  | Some (true, _, m) =>
      seq_io (done input) (fun inp =>
      match fst gw with
      | None => done Panic
      | Some g => loop g (snd gw) m (fst inp) (snd inp)
      end)
  end)).

(** math/main.go:28-115 [main] *)
Definition math_program vm run (fresh : vm) to_lower ords hash find_all span_text lords annotate join_words float_string json is_print_hi call
    start eval_flag fuel steps file script input : io vm :=
  open_all run fresh file script input (fun g w m text e =>
    each_line (math_line vm run g (terminal_match (lookup (w_tokens w)) to_lower) ords hash find_all span_text lords annotate
      join_words float_string json is_print_hi call fuel start eval_flag) steps 0 m text e).

(** builtin/main.go:27-31: a panic is recovered, its value is printed, and main returns *)
Definition recovered {A} (panic_text : string) (x : io A) : io unit :=
  match snd x with
  | Ret _ => (fst x, Ret tt)
  | Panic => ((fst x ++ panic_text ++ newline)%string, Ret tt)
  | Err => (fst x, Err)
  | Fuel => (fst x, Fuel)
  end.
(** builtin/main.go:26-104 [main] *)
Definition builtin_program vm run (fresh : vm) to_lower ords hash find_all span_text lords annotate join_words float_string json is_print_hi call
    start panic_text fuel steps file script input : io unit :=
  recovered panic_text (open_all run fresh file script input (fun g w m text e =>
    each_line (builtin_line vm run g (terminal_match (lookup (w_tokens w)) to_lower) ords hash find_all span_text lords annotate
      join_words float_string json is_print_hi call fuel start) steps 0 m text e)).
