(** What constructing a grammar from a text and the files it includes should do. *)
From Verif Require Import Base ModelTypes ModelText ModelEarley ModelReader ModelGrammar
  SpecGrammar SpecNotation SpecRefine.

(** A call that returns: a value or an error. *)
Definition calm {A} (x : res A) : Prop := x <> Panic /\ x <> Fuel.

(** Texts of decodable characters in which a newline ends every line comment. *)
Definition clean (d : string) : Prop := exists w, Forall good w /\ d = encode w /\ ~ open_comment w.

Section Construct_.
  Variables letter_hi digit_hi : rune -> bool.
  Variable scan_float : string -> res bigf.
  Variable regexp_ok : string -> bool.
  Variable md5 : string -> string.
  Variable hash : rulebody -> N.
  Variable tokenize : string -> res (list token).
  Variable ascii : string -> string.
  Variable read_file : string -> res string.
  Variable abs_dir : string -> res string.
  Variable join_path : string -> string -> string.

  (** A text whose first bytes do not decode, or decode to the replacement character. *)
  Definition undecodable (d : string) : Prop := exists n, decode_rune d = (RuneError, n).

  (** Text [d] is a grammar text with #include directives [ps], rules and frames
      [its] and regular expressions [re]; an undecodable text counts as empty. *)
  Definition text_of (d : string) (ps : list string) (its : list item) (re : list (string * string)) : Prop :=
    (exists w, Forall good w /\ d = encode w
       /\ w_file (is_letter letter_hi) (is_digit digit_hi) scan_float regexp_ok md5 ps its re w)
    \/ (undecodable d /\ ps = [] /\ its = [] /\ re = []).

  (** The regular expressions of a grammar: those of its text, [re], and of its includes. *)
  Definition regexps_of (re : list (string * string)) (g : grammar) : Prop :=
    NoDup (map fst (g_regexps g)) /\
    (forall h, lookup (g_regexps g) h <> None <->
       In h (map fst re) \/ exists ig, In ig (g_includes g) /\ lookup (g_regexps ig) h <> None) /\
    (forall h v, lookup (g_regexps g) h = Some v ->
       In (h, v) re \/ exists ig, In ig (g_includes g) /\ lookup (g_regexps ig) h = Some v).
  (** Grammar [g] holds the frames of text [d], its rules [rules] with the terminal
      texts replaced according to [T], and nothing else of its own. *)
  Definition written_as (d : string) (g : grammar) (rules : grammar_rules) (T : list (string * string)) : Prop :=
    exists ps its re, text_of d ps its re /\
      denotes hash its true (g_frames g) /\ denotes hash its false rules /\
      refined_by tokenize hash T rules (g_rules g) /\
      named_by tokenize ascii T rules /\
      regexps_of re g.
  Definition holds (d : string) (g : grammar) : Prop := exists rules T, written_as d g rules T.

  (** Files reached by following #include directives from a text in a directory. *)
  Inductive reached (d dir : string) : string -> Prop :=
  | re_direct ps its re p : text_of d ps its re -> In p ps -> reached d dir (join_path dir p)
  | re_step f b fdir ps its re p :
      reached d dir f -> read_file f = Ret b -> abs_dir f = Ret fdir ->
      text_of b ps its re -> In p ps -> reached d dir (join_path fdir p).

  (** [L] lists grammar [g], read from text [d], and its includes before and after refinement. *)
  Definition parts (d : string) (g : grammar) (L : list refined) : Prop :=
    exists p ps, L = p :: ps /\ rd_after p = g_rules g /\ written_as d g (rd_before p) (rd_table p) /\
      Forall2 (fun ig q => rd_after q = g_rules ig /\
                 exists b, read_file (g_name ig) = Ret b /\ written_as b ig (rd_before q) (rd_table q))
              (g_includes g) ps.
End Construct_.

(** The code outside the repository that reading a grammar calls, and the order in
    which maps are visited, in one record. *)
Record env := mkEnv {
  e_letter : rune -> bool;
  e_digit : rune -> bool;
  e_scan : string -> res bigf;
  e_regexp_ok : string -> bool;
  e_md5 : string -> string;
  e_hash : rulebody -> N;
  e_trie : string -> bool;
  e_tokenize : string -> res (list token);
  e_ascii : string -> string;
  e_read : string -> res string;
  e_abs : string -> res string;
  e_join : string -> string -> string;
  e_ord : grammar_rules -> grammar_rules
}.
(** What is assumed of it. *)
Definition env_ok (e : env) : Prop :=
  unicode_tables (e_letter e) (e_digit e) /\
  (forall t, calm (e_scan e t)) /\ (forall t, 16 <= String.length (e_md5 e t)) /\
  (forall t, calm (e_tokenize e t)) /\ (forall f, calm (e_read e f)) /\ (forall f, calm (e_abs e f)) /\
  is_rule_order (e_ord e).
Section Env.
  Variable e : env.
  Definition from_string :=
    GrammarFromString (e_letter e) (e_digit e) (e_scan e) (e_regexp_ok e) (e_md5 e) (e_hash e) (e_trie e)
      (e_tokenize e) (e_ascii e) (e_read e) (e_abs e) (e_join e) (e_ord e).
  Definition from_file :=
    GrammarFromFile (e_letter e) (e_digit e) (e_scan e) (e_regexp_ok e) (e_md5 e) (e_hash e) (e_trie e)
      (e_tokenize e) (e_ascii e) (e_read e) (e_abs e) (e_join e) (e_ord e).
  Definition e_items := w_items (is_letter (e_letter e)) (is_digit (e_digit e)) (e_scan e) (e_regexp_ok e) (e_md5 e).
  Definition e_arg := w_arg (is_letter (e_letter e)) (is_digit (e_digit e)) (e_scan e).
  Definition e_text := text_of (e_letter e) (e_digit e) (e_scan e) (e_regexp_ok e) (e_md5 e).
  Definition e_holds := holds (e_letter e) (e_digit e) (e_scan e) (e_regexp_ok e) (e_md5 e) (e_hash e) (e_tokenize e) (e_ascii e).
  Definition e_reached := reached (e_letter e) (e_digit e) (e_scan e) (e_regexp_ok e) (e_md5 e) (e_read e) (e_abs e) (e_join e).
  Definition e_parts := parts (e_letter e) (e_digit e) (e_scan e) (e_regexp_ok e) (e_md5 e) (e_hash e) (e_tokenize e) (e_ascii e) (e_read e).
End Env.

(** A short grammar text followed by one byte that is not UTF-8: [<a>="b"] and 0xff. *)
Definition bad_byte_text : string :=
  ("<a>=" ++ String (Ascii.ascii_of_nat 34) ("b" ++ String (Ascii.ascii_of_nat 34) (String (Ascii.ascii_of_nat 255) "")))%string.
