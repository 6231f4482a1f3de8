(** What an error of the grammar reader should tell: the place reached in the text and
    what is wrong there. *)
From Verif Require Import Base ModelTypes ModelText ModelQuote ModelReader ModelEarley ModelGrammar ModelReport
  SpecNotation SpecConstruct.
Local Open Scope list_scope.

(** The number of bytes of some characters. *)
Definition size (w : list rune) : nat := String.length (encode w).

(** The place named when the characters [a] have been read: the row is one more than the
    number of newlines among them, not counting one at the very start; the column is the
    number of bytes since the last such newline, the newline itself included; in the first
    row it is the number of bytes read. *)
Definition row_of (a : list rune) : nat := 1 + count_occ Z.eq_dec (tl a) r_newline.
Inductive col_of (a : list rune) : nat -> Prop :=
| col_first : ~ In r_newline (tl a) -> col_of a (size a)
| col_later x y : tl a = x ++ r_newline :: y -> ~ In r_newline y -> col_of a (1 + size y).

Section Objections.
  Variables letter digit is_print_hi : rune -> bool.
  Variable regexp_ok : string -> bool.
  Local Notation Q c := (quote is_print_hi (encode_rune c)).

  (** "|row:R, col:C, c:Q|" for the place after the characters [a] *)
  Definition place (a : list rune) (p : string) : Prop :=
    exists a0 c col, a = a0 ++ [c] /\ col_of a col /\
      p = ("|row:" ++ dec_N (N.of_nat (row_of a)) ++ ", col:" ++ dec_N (N.of_nat col) ++ ", c:" ++ Q c ++ "|")%string.

  (** The usual way to count: rows by the newlines that end the rows before, columns by the
      bytes of the row up to and with the character. *)
  Inductive usual_place (a : list rune) (p : string) : Prop :=
  | usual x y c : a = x ++ y ++ [c] -> (x = [] \/ exists x0, x = x0 ++ [r_newline]) -> ~ In r_newline y ->
      p = ("|row:" ++ dec_N (N.of_nat (1 + count_occ Z.eq_dec x r_newline)) ++ ", col:" ++ dec_N (N.of_nat (size (y ++ [c])))
           ++ ", c:" ++ Q c ++ "|")%string -> usual_place a p.

  (** the character before the place, and the one after it *)
  Definition last_is (a : list rune) (c : rune) : Prop := exists a0, a = a0 ++ [c].
  Definition next_is (b : list rune) (p : rune -> Prop) : Prop :=
    match b with [] => True | c :: _ => p c end.
  Definition last_or_end (a b : list rune) (p : rune -> Prop) : Prop :=
    b = [] \/ exists c, last_is a c /\ p c.

  (** [objection a b what]: [what] is a complaint that fits a text in which [a] has been
      read and [b] follows. *)
  Inductive objection (a b : list rune) : string -> Prop :=
  | ob_expected x c : last_is a c -> c <> x ->
      objection a b (" :expected " ++ Q x ++ ", got " ++ Q c)
  | ob_ended x : b = [] -> objection a b (" :expected " ++ Q x ++ ", got " ++ Q RuneError)
  | ob_slash c : last_is a r_slash -> c <> r_slash -> c <> r_star ->
      match b with [] => c = RuneError | c' :: _ => c = c' end ->
      objection a b (" : invalid char " ++ encode_rune c)
  | ob_no_text : next_is b (fun c => letter c = false /\ c <> r_under) -> objection a b " : no text"
  | ob_unterminated : b = [] -> objection a b " : unterminated string"
  | ob_escape a0 c : a = a0 ++ [r_bslash; c] -> ~ In c [r_bslash; 110; 116; r_quote; r_lparen]%Z ->
      objection a b " : unexpected escape string"
  | ob_number : last_or_end a b (fun c => digit c = false) -> objection a b " : number expected"
  | ob_range hi lo : (hi < lo)%Z -> objection a b (" : max:" ++ dec_Z hi ++ " less than min:" ++ dec_Z lo)
  | ob_special name : name <> "any"%string -> name <> "list"%string ->
      objection a b (": special rule:(" ++ name ++ ") not supported")
  | ob_empty : last_is a r_tick -> objection a b " : empty regexp string"
  | ob_regexp x : last_is a r_tick -> regexp_ok x = false ->
      objection a b (" : `" ++ x ++ "` is not a valid regexp")
  | ob_term : next_is b (fun c => ~ In c [r_lt; r_quote; r_lparen; r_tick]) ->
      objection a b " :invalid term char"
  | ob_function : next_is b (fun c => letter c = false /\ c <> r_under) -> objection a b " : no funcName"
  | ob_dot : last_is a r_dot -> objection a b " : unexpected dot"
  | ob_args : last_or_end a b (fun c => c <> r_comma /\ c <> r_rparen) ->
      objection a b " : unexpected semantic args"
  | ob_format c : last_is a c -> c <> r_lt -> c <> r_lbrack -> objection a b " : format error"
  | ob_directive name : name <> "include"%string ->
      objection a b (": directive:(" ++ name ++ ") not suppported").

  (** [complains file d at_ m]: message [m] names the file, the place of byte [at_] in its
      text [d], and an objection that fits. *)
  Definition complains (file d : string) (at_ : nat) (m : string) : Prop :=
    exists a b p what, Forall good (a ++ b) /\ d = encode (a ++ b) /\ at_ = size a /\
      place a p /\ objection a b what /\ m = (file ++ p ++ what)%string.
  (** The same for any text, of which [rest] need not be decodable: a place, or none when
      nothing has been read. *)
  Definition located (file d : string) (at_ : nat) (m : string) : Prop :=
    exists a rest p what, Forall good a /\ d = (encode a ++ rest)%string /\ at_ = size a /\
      (place a p \/ (a = [] /\ p = "<nil>"%string)) /\ m = (file ++ p ++ what)%string.

  (** Errors that come from other packages and do not name a place: a digit outside ASCII in
      an index or a bound, a number that fmt.Sscan rejects, a file that cannot be read, a
      path without a directory, a failure of the index or of the tokenizer. *)
  Variables scan_error file_error dir_error : string -> string.
  Variable finish_error : string.
  Variables read_file abs_dir : string -> res string.
  Inductive foreign : string -> Prop :=
  | fo_digit c : digit c = true -> ascii_digit c = false ->
      foreign ("strconv.ParseUint: parsing " ++ Q c ++ ": invalid syntax")
  | fo_scan x : foreign (scan_error x)
  | fo_file f : read_file f = Err -> foreign (file_error f)
  | fo_dir f : abs_dir f = Err -> foreign (dir_error f)
  | fo_finish : foreign finish_error.
End Objections.

(** The messages of other packages, and the characters strconv.Quote leaves alone. *)
Record others := mkOthers {
  o_print : rune -> bool;
  o_scan : string -> string;
  o_file : string -> string;
  o_dir : string -> string;
  o_finish : string
}.
Section Calls.
  Variable e : env.
  Variable o : others.
  (** GrammarFromString and GrammarFromFile with their errors *)
  Definition string_report :=
    m_GrammarFromString (e_letter e) (e_digit e) (o_print o) (e_scan e) (e_regexp_ok e) (e_md5 e) (e_hash e) (e_trie e)
      (e_tokenize e) (e_ascii e) (e_read e) (e_abs e) (e_join e) (e_ord e) (o_scan o) (o_file o) (o_dir o) (o_finish o).
  Definition file_report :=
    m_GrammarFromFile (e_letter e) (e_digit e) (o_print o) (e_scan e) (e_regexp_ok e) (e_md5 e) (e_hash e) (e_trie e)
      (e_tokenize e) (e_ascii e) (e_read e) (e_abs e) (e_join e) (e_ord e) (o_scan o) (o_file o) (o_dir o) (o_finish o).
  (** What an error met in [file] with text [d] tells. *)
  Definition tells (file d : string) (m : report) : Prop :=
    match m with
    | Said p t => located (o_print o) file d p t /\
        ((exists w, Forall good w /\ d = encode w) ->
         complains (is_letter (e_letter e)) (is_digit (e_digit e)) (o_print o) (e_regexp_ok e) file d p t)
    | Passed t => foreign (is_digit (e_digit e)) (o_print o) (o_scan o) (o_file o) (o_dir o) (o_finish o)
                    (e_read e) (e_abs e) t
    end.
End Calls.
(** The two models of a call agree: value, error, panic or no end. *)
Definition agrees {A} (x : out A) (y : res A) : Prop :=
  match x, y with
  | Done a, Ret b => a = b
  | Fails _, Err => True
  | Panics, Panic => True
  | Spent, Fuel => True
  | _, _ => False
  end.
