(** Model of /repo/examples/arithmetic/main.go: the loop that reads lines, parses them
    and runs the meanings of the trees on a JavaScript machine. *)
From Coq Require Import Ascii.
From Verif Require Import Base ModelTypes ModelText ModelEarley ModelTrees ModelApi ModelQuote ModelSem ModelFuncs
  ModelPrint ModelReader ModelGrammar ModelMatch ModelLocal.

(** What a part of the program prints, and how it goes on. [Err] is a call of
    glog.Fatal, which ends the process. (main.go:22-86) *)
Definition io (A : Type) : Type := (string * res A)%type.
(** printing nothing (main.go:52) *)
Definition done {A} (x : res A) : io A := (""%string, x).
(** fmt.Print of a text (main.go:59, 69, 80, 84) *)
Definition put (s : string) : io unit := (s, Ret tt).
(** one after the other (main.go:22-86) *)
Definition seq_io {A B} (x : io A) (k : A -> io B) : io B :=
  match snd x with
  | Ret a => let y := k a in ((fst x ++ fst y)%string, snd y)
  | Err => (fst x, Err)
  | Panic => (fst x, Panic)
  | Fuel => (fst x, Fuel)
  end.

(** bufio.Reader.ReadString('\n') (main.go:52): the line with its line break and the
    rest of the input, or [None] at the end of the input, where the bytes after the
    last line break are dropped (main.go:53-55). *)
Fixpoint read_line (s : string) : option (string * string) :=
  match s with
  | EmptyString => None
  | String c s' =>
      if Ascii.eqb c (of_byte 10) then Some (String c "", s')
      else match read_line s' with Some (l, r) => Some (String c l, r) | None => None end
  end.
(** How the input ends: io.EOF, or another error (main.go:56-58). *)
Inductive input_end := EndOfInput | InputError.

Section Program.
  (** the JavaScript machine: running a script gives the text of its result (%v) and
      the machine after it, or an error *)
  Variable vm : Type.
  Variable run : vm -> string -> res (string * vm).
  (** the compiled grammar and the token table after loading it *)
  Variable g : grammar.
  Variable tmatch : term -> option token -> bool.
  (** map iteration orders, for each line *)
  Variable ords : nat -> nat -> order.
  (** the code around the local grammar of a document *)
  Variable hash : rulebody -> N.
  Variable find_all : string -> string -> option (list (nat * nat)).
  Variable span_text : document -> nat -> nat -> string.
  Variable lords : nat -> nat -> list (string * entry) -> list (string * entry).
  Variable annotate : string -> string -> res document.
  (** the code Semantic calls *)
  Variable join_words : list string -> string.
  Variable float_string : bigf -> string.
  Variable json : dval -> string.
  Variable is_print_hi : rune -> bool.
  Variable call : string -> list dval -> res dval.
  Variable fuel : nat.

  (** main.go:70-81 *)
  Fixpoint run_trees (p : parse_t) (m : vm) (ts : list node) : io vm :=
    match ts with
    | [] => done (Ret m)
    | t :: ts' =>
        seq_io (done (semantic p join_words float_string json is_print_hi call t)) (fun sem =>
        seq_io (done (run m sem)) (fun rm =>
        seq_io (put (sem ++ " = " ++ fst rm ++ newline)%string) (fun _ =>
        run_trees p (snd rm) ts')))
    end.
  (** main.go:66-82 *)
  Fixpoint run_finals (i : nat) (p : parse_t) (m : vm) (refs : list (nat * nat)) : io vm :=
    match refs with
    | [] => done (Ret m)
    | ref :: refs' =>
        seq_io (done (get_trees (p_columns p) fuel ref)) (fun ts =>
        seq_io (put ("p" ++ dec_N (N.of_nat i) ++ " tree number:" ++ dec_N (N.of_nat (length ts)) ++ newline)%string) (fun _ =>
        seq_io (run_trees p m ts) (fun m' =>
        run_finals i p m' refs')))
    end.
  (** main.go:65-83 *)
  Fixpoint run_parses (i : nat) (m : vm) (ps : list parse_t) : io vm :=
    match ps with
    | [] => done (Ret m)
    | p :: ps' => seq_io (run_finals i p m (p_finals p)) (fun m' => run_parses (S i) m' ps')
    end.
  (** main.go:59-84: one line; fmt.Println adds a line break to the one of the line *)
  Definition run_line (k : nat) (m : vm) (line : string) : io vm :=
    seq_io (put (line ++ newline)%string) (fun _ =>
    seq_io (done (EarleyParseMaxAll tmatch (ords k) (all_rules g) (doc_tokens annotate)
                    (doc_local hash find_all span_text (g_regexps g) (lords k) annotate "" line) fuel fuel "" line ["number"%string])) (fun ps =>
    seq_io (run_parses 0 m ps) (fun m' =>
    seq_io (put newline) (fun _ => done (Ret m'))))).
  (** main.go:51-85, where [fuel] bounds the work on one line; [steps] bounds the number of lines *)
  Fixpoint run_lines (steps k : nat) (m : vm) (input : string) (e : input_end) : io vm :=
    match steps with
    | O => done Fuel
    | S steps' =>
        match read_line input with
        | None => match e with EndOfInput => done (Ret m) | InputError => done Err end
        | Some (line, rest) => seq_io (run_line k m line) (fun m' => run_lines steps' (S k) m' rest e)
        end
    end.
End Program.

(** main.go:22-86. [file] is the result of GrammarFromFile on the grammar file (the token
    table it fills is the one the parser looks terms up in), [script] the contents of the
    JavaScript file, [fresh] a new machine and [input] the input file, when it can be
    opened (main.go:39-48). A nil grammar without an error, which only the loading of
    included files gives (cfgrammar.go:50-52), would be dereferenced. *)
Definition main_program vm run (fresh : vm) to_lower ords hash find_all span_text lords annotate join_words float_string json is_print_hi call
    fuel steps (file : res (option grammar * world)) (script : res string) (input : res (string * input_end)) : io vm :=
  seq_io (done file) (fun gw =>
  seq_io (done script) (fun src =>
  seq_io (done (run fresh src)) (fun m =>
  seq_io (done input) (fun inp =>
  match fst gw with
  | None => done Panic
  | Some g =>
      run_lines vm run g (terminal_match (lookup (w_tokens (snd gw))) to_lower) ords hash find_all span_text lords annotate
        join_words float_string json is_print_hi call fuel steps 0 (snd m) (fst inp) (snd inp)
  end)))).
