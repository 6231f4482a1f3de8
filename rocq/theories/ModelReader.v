(** Model of the grammar reader: /repo/cfgrammar.go, cfgrammar_comments.go,
    cfgrammar_fmr.go, cfgrammar_regex.go, cfgrammar_special.go and
    cfgrammar_terminal.go, up to the end of the rules (the index and the
    refinement that follow are in ModelGrammar.v).

    Simplifications: the fields [current] and [info] of the parser
    (cfgrammar.go:15-32, 103-116) only feed error messages and are left out
    here, as are the messages (both are in ModelReport.v); the texts of white space and comments, which no caller
    uses except for being empty, are not built. *)
From Coq Require Import Ascii.
From Verif Require Import Base ModelText ModelTypes.

(** cfgrammar.go:34 *)
Definition eof : rune := (-1)%Z.

(** The characters of the notation. *)
Definition r_quote : rune := 34%Z.     (* double quote: cfgrammar.go:197, cfgrammar_terminal.go:6 *)
Definition r_hash : rune := 35%Z.      (* #: cfgrammar.go:350 *)
Definition r_dollar : rune := 36%Z.    (* $: cfgrammar_fmr.go:63 *)
Definition r_lparen : rune := 40%Z.     (* cfgrammar.go:206, cfgrammar_terminal.go:10, cfgrammar_special.go:6 *)
Definition r_rparen : rune := 41%Z.     (* cfgrammar_fmr.go:95, cfgrammar_special.go:68 *)
Definition r_star : rune := 42%Z.     (* cfgrammar_comments.go:29 *)
Definition r_comma : rune := 44%Z.     (* cfgrammar_fmr.go:88, cfgrammar_special.go:39 *)
Definition r_minus : rune := 45%Z.     (* cfgrammar_fmr.go:75 *)
Definition r_dot : rune := 46%Z.     (* cfgrammar_fmr.go:34, 141 *)
Definition r_slash : rune := 47%Z.     (* cfgrammar_comments.go:22 *)
Definition r_semi : rune := 59%Z.     (* cfgrammar.go:333 *)
Definition r_lt : rune := 60%Z.     (* cfgrammar.go:182 *)
Definition r_eq : rune := 61%Z.     (* cfgrammar.go:323 *)
Definition r_gt : rune := 62%Z.     (* cfgrammar.go:182 *)
Definition r_qmark : rune := 63%Z.     (* cfgrammar_terminal.go:13 *)
Definition r_at : rune := 64%Z.     (* cfgrammar_fmr.go:59 *)
Definition r_lbrack : rune := 91%Z.     (* cfgrammar.go:186 *)
Definition r_bslash : rune := 92%Z.     (* cfgrammar_terminal.go:36 *)
Definition r_rbrack : rune := 93%Z.     (* cfgrammar.go:186 *)
Definition r_under : rune := 95%Z.     (* cfgrammar.go:154 *)
Definition r_tick : rune := 96%Z.      (* `: cfgrammar_regex.go:10 *)
Definition r_lbrace : rune := 123%Z.     (* cfgrammar.go:261, cfgrammar_special.go:30 *)
Definition r_bar : rune := 124%Z.     (* cfgrammar.go:287 *)
Definition r_rbrace : rune := 125%Z.     (* cfgrammar.go:266, cfgrammar_special.go:51 *)
Definition r_newline : rune := 10%Z.     (* cfgrammar_comments.go:43 *)
Definition r_tab : rune := 9%Z.     (* cfgrammar_terminal.go:48 *)

(** Two's complement wrap-around of Go's 64-bit int. (cfgrammar.go:225, idx*10 + int(n)) *)
Definition wrap64 (z : Z) : Z := ((z + 2 ^ 63) mod 2 ^ 64 - 2 ^ 63)%Z.

(** Assignment to a Go map key, on an association list. (cfgrammar.go:300, 403) *)
Fixpoint put_N {A} (m : list (N * A)) (k : N) (a : A) : list (N * A) :=
  match m with
  | [] => [(k, a)]
  | (k', a') :: m' => if N.eqb k' k then (k, a) :: m' else (k', a') :: put_N m' k a
  end.
(** The same for string keys (cfgrammar.go:380, 406; cfgrammar_regex.go:34) *)
Fixpoint put {A} (m : list (string * A)) (k : string) (a : A) : list (string * A) :=
  match m with
  | [] => [(k, a)]
  | (k', a') :: m' => if String.eqb k' k then (k, a) :: m' else (k', a') :: put m' k a
  end.

(** The mutable part of [parser] (cfgrammar.go:15-23) together with the map
    g.Regexps that the reader fills while it reads terms. *)
Record rd := mkRd { rd_pos : nat; rd_width : nat; rd_re : list (string * string) }.

Section Reader.
  (** cfgrammar.go:16 *)
  Variable input : string.
  (** unicode.IsLetter and unicode.IsDigit above U+00FF: tables *)
  Variables letter_hi digit_hi : rune -> bool.
  (** fmt.Sscan of a text into a *big.Float: external (math/big) *)
  Variable scan_float : string -> res bigf.
  (** goutil.Regexp(s) succeeds: external (regexp) *)
  Variable regexp_ok : string -> bool.
  (** goutil.MD5: external *)
  Variable md5 : string -> string.
  (** hashstructure.Hash of a rule body: external *)
  Variable hash : rulebody -> N.
  (** step budget of each loop *)
  Variable fuel : nat.

  (** unicode.IsLetter: the Latin-1 part and the table
      (cfgrammar.go:154, cfgrammar_fmr.go:30) *)
  Definition is_letter (r : rune) : bool :=
    ((65 <=? r) && (r <=? 90) || (97 <=? r) && (r <=? 122) || (r =? 170) || (r =? 181)
     || (r =? 186) || (192 <=? r) && (r <=? 214) || (216 <=? r) && (r <=? 246)
     || (248 <=? r) && (r <=? 255) || (255 <? r) && letter_hi r)%Z.
  (** unicode.IsDigit: the Latin-1 part and the table *)
  (** The digits below U+0080, which strconv.ParseUint accepts (cfgrammar.go:219) *)
  Definition ascii_digit (r : rune) : bool := ((48 <=? r) && (r <=? 57))%Z.
  (** unicode.IsDigit (cfgrammar.go:156, 218; cfgrammar_fmr.go:32, 71, 139) *)
  Definition is_digit (r : rune) : bool := ascii_digit r || (255 <? r)%Z && digit_hi r.

  (** cfgrammar.go:92-118 [next]. At a byte that does not start a valid
      encoding, and at U+FFFD itself, it returns eof and leaves [width] alone. *)
  Definition next (s : rd) : rune * rd :=
    if Nat.leb (String.length input) (rd_pos s) then (eof, mkRd (rd_pos s) 0 (rd_re s))
    else
      let '(r, w) := decode_rune (drop (rd_pos s) input) in
      if Z.eqb r RuneError then (eof, s)
      else (r, mkRd (rd_pos s + w) w (rd_re s)).

  (** cfgrammar.go:128-131 [backup]; a negative position would make the slice
      expression of the following [next] panic. *)
  Definition backup (s : rd) : res rd :=
    if Nat.leb (rd_width s) (rd_pos s) then Ret (mkRd (rd_pos s - rd_width s) (rd_width s) (rd_re s))
    else Panic.

  (** cfgrammar.go:120-126 [eat] *)
  Definition eat (c : rune) (s : rd) : res rd :=
    let '(r, s1) := next s in if Z.eqb r c then Ret s1 else Err.

  (** cfgrammar.go:133-137 [peek] *)
  Definition peek (s : rd) : res (rune * rd) :=
    let '(r, s1) := next s in s2 <- backup s1 ;; Ret (r, s2).

  (** cfgrammar.go:139-146 [ws] *)
  Fixpoint ws_loop (n : nat) (s : rd) : res rd :=
    match n with
    | O => Fuel
    | S n' => let '(r, s1) := next s in if is_space r then ws_loop n' s1 else backup s1
    end.
  (** cfgrammar.go:139-146 [ws] *)
  Definition ws (s : rd) : res rd := ws_loop fuel s.

  (** cfgrammar.go:148-168 [text] *)
  Fixpoint text_loop (n : nat) (first : bool) (s : rd) : res (list rune * rd) :=
    match n with
    | O => Fuel
    | S n' =>
        let '(r, s1) := next s in
        if is_letter r || Z.eqb r r_under || is_digit r && negb first then
          ' (rs, s2) <- text_loop n' false s1 ;; Ret (r :: rs, s2)
        else s2 <- backup s1 ;; Ret ([], s2)
    end.
  (** cfgrammar.go:148-168 [text] *)
  Definition text (s : rd) : res (string * rd) :=
    ' (rs, s1) <- text_loop fuel true s ;;
    match rs with [] => Err | _ => Ret (encode rs, s1) end.

  (** cfgrammar.go:170-187 [token], [nonterminal], [frame] *)
  Definition bracketed (b e : rune) (s : rd) : res (string * rd) :=
    s <- eat b s ;; ' (name, s) <- text s ;; s <- eat e s ;; Ret (name, s).
  (** cfgrammar.go:181-183 *)
  Definition nonterminal := bracketed r_lt r_gt.
  (** cfgrammar.go:185-187 [frame] *)
  Definition frame_name := bracketed r_lbrack r_rbrack.

  (** cfgrammar_comments.go:36-49 [lineComment] after the second slash. The
      loop has no test for eof. *)
  Fixpoint line_loop (n : nat) (s : rd) : res rd :=
    match n with
    | O => Fuel
    | S n' => let '(r, s1) := next s in if Z.eqb r r_newline then Ret s1 else line_loop n' s1
    end.
  (** cfgrammar_comments.go:51-70 [multiLineComment] after the star *)
  Fixpoint block_loop (n : nat) (prev : rune) (s : rd) : res rd :=
    match n with
    | O => Fuel
    | S n' =>
        let '(r, s1) := next s in
        if Z.eqb r eof then Err
        else if Z.eqb prev r_star && Z.eqb r r_slash then Ret s1
        else block_loop n' r s1
    end.
  (** cfgrammar_comments.go:21-34 [comment]; the flag tells whether a comment
      was read (its text is then not empty) *)
  Definition comment (s : rd) : res (bool * rd) :=
    let '(r, s1) := next s in
    if negb (Z.eqb r r_slash) then s2 <- backup s1 ;; Ret (false, s2)
    else
      ' (r, s2) <- peek s1 ;;
      if Z.eqb r r_slash then s3 <- eat r_slash s2 ;; s4 <- line_loop fuel s3 ;; Ret (true, s4)
      else if Z.eqb r r_star then s3 <- eat r_star s2 ;; s4 <- block_loop fuel 0%Z s3 ;; Ret (true, s4)
      else Err.
  (** cfgrammar_comments.go:7-19 [comments]; the deferred ws comes last *)
  Fixpoint comments_loop (n : nat) (s : rd) : res rd :=
    match n with
    | O => Fuel
    | S n' =>
        s1 <- ws s ;;
        ' (found, s2) <- comment s1 ;;
        if found then comments_loop n' s2 else ws s2
    end.
  (** cfgrammar_comments.go:7-19 *)
  Definition comments (s : rd) : res rd := comments_loop fuel s.

  (** cfgrammar_terminal.go:31-64 [terminalText] *)
  Definition unescape (r : rune) : option rune :=
    if Z.eqb r r_bslash then Some r_bslash
    else if Z.eqb r 110 then Some r_newline
    else if Z.eqb r 116 then Some r_tab
    else if Z.eqb r r_quote then Some r_quote
    else if Z.eqb r r_lparen then Some r_lparen
    else None.
  (** cfgrammar_terminal.go:34-63: the loop, [prev] being the variable of that name *)
  Fixpoint terminal_loop (n : nat) (prev : rune) (s : rd) : res (list rune * rd) :=
    match n with
    | O => Fuel
    | S n' =>
        let '(r, s1) := next s in
        if Z.eqb r r_quote && negb (Z.eqb prev r_bslash) then s2 <- backup s1 ;; Ret ([], s2)
        else if Z.eqb r eof then Err
        else if Z.eqb prev r_bslash then
          match unescape r with
          | Some c => ' (rs, s2) <- terminal_loop n' 0%Z s1 ;; Ret (c :: rs, s2)
          | None => Err
          end
        else if Z.eqb r r_bslash then terminal_loop n' r s1
        else ' (rs, s2) <- terminal_loop n' r s1 ;; Ret (r :: rs, s2)
    end.
  (** cfgrammar_terminal.go:31-64 [terminalText] *)
  Definition terminal_text (s : rd) : res (string * rd) :=
    ' (rs, s1) <- terminal_loop fuel 0%Z s ;; Ret (encode rs, s1).
  (** cfgrammar_terminal.go:5-29 [terminal]: the flags and the text. The result
      of eat('(') on line 11 is ignored by the code; it cannot fail, peek having
      just seen the character. *)
  Definition terminal (s : rd) : res ((string * string) * rd) :=
    s <- eat r_quote s ;; s <- ws s ;;
    ' (r, s) <- peek s ;;
    ' (flags, s) <-
       (if Z.eqb r r_lparen then
          let '(_, s) := next s in
          s <- ws s ;; s <- eat r_qmark s ;; s <- ws s ;;
          ' (flags, s) <- text s ;; s <- eat r_rparen s ;; Ret (flags, s)
        else Ret (""%string, s)) ;;
    ' (t, s) <- terminal_text s ;;
    s <- eat r_quote s ;; Ret ((flags, t), s).

  (** cfgrammar.go:214-234 [getInt]. strconv.ParseUint of one digit fails for
      the digits outside ASCII. The test of -1 is the test of line 222: a value
      that wraps around to -1 counts as no value. *)
  Fixpoint int_loop (n : nat) (i : Z) (s : rd) : res (Z * rd) :=
    match n with
    | O => Fuel
    | S n' =>
        let '(r, s1) := next s in
        if is_digit r then
          if ascii_digit r then
            int_loop n' (if Z.eqb i (-1) then r - 48 else wrap64 (i * 10 + (r - 48)))%Z s1
          else Err
        else if Z.eqb i (-1) then Err
        else s2 <- backup s1 ;; Ret (i, s2)
    end.
  (** cfgrammar.go:214-234 [getInt] *)
  Definition get_int (s : rd) : res (Z * rd) := int_loop fuel (-1)%Z s.

  (** cfgrammar_special.go:26-57 [specialMeta]; MNil is the nil map, whose
      length is 0 (lines 71, 85) *)
  Definition special_meta (s : rd) : res (meta * rd) :=
    s <- ws s ;;
    ' (r, s) <- peek s ;;
    ' (m, s) <-
       (if Z.eqb r r_lbrace then
          let '(_, s) := next s in
          s <- ws s ;; ' (lo, s) <- get_int s ;; s <- ws s ;; s <- eat r_comma s ;;
          s <- ws s ;; ' (hi, s) <- get_int s ;;
          if (hi <? lo)%Z then Err
          else s <- ws s ;; s <- eat r_rbrace s ;; Ret (MMap (Some lo) (Some hi), s)
        else Ret (MNil, s)) ;;
    s <- ws s ;; Ret (m, s).
  (** cfgrammar_special.go:5-24, 59-89 [special], [list], [any] *)
  Definition special (s : rd) : res (term * rd) :=
    s <- eat r_lparen s ;; s <- ws s ;;
    ' (name, s) <- text s ;; s <- ws s ;;
    if String.eqb name "any" then
      ' (m, s) <- special_meta s ;; s <- eat r_rparen s ;; Ret (mkTerm "any" TAny m, s)
    else if String.eqb name "list" then
      ' (x, s) <- nonterminal s ;;
      ' (m, s) <- special_meta s ;; s <- eat r_rparen s ;; Ret (mkTerm x TList m, s)
    else Err.

  (** cfgrammar_regex.go:9-36 [regex] *)
  Fixpoint regex_loop (n : nat) (s : rd) : res (list rune * rd) :=
    match n with
    | O => Fuel
    | S n' =>
        let '(r, s1) := next s in
        if Z.eqb r r_tick then Ret ([], s1)
        else if Z.eqb r eof then Err
        else ' (rs, s2) <- regex_loop n' s1 ;; Ret (r :: rs, s2)
    end.
  (** cfgrammar_regex.go:9-36 [regex] *)
  Definition regex (s : rd) : res (term * rd) :=
    s <- eat r_tick s ;; s <- ws s ;;
    ' (rs, s) <- regex_loop fuel s ;;
    match rs with
    | [] => Err
    | _ =>
        let x := encode rs in
        if negb (regexp_ok x) then Err
        else
          h <- slice (md5 x) 0 16 ;;
          Ret (mkTerm h TNonterminal MNil, mkRd (rd_pos s) (rd_width s) (put (rd_re s) h x))
    end.

  (** cfgrammar.go:189-212 [term] *)
  Definition read_term (s : rd) : res (term * rd) :=
    ' (r, s) <- peek s ;;
    if Z.eqb r r_lt then ' (x, s) <- nonterminal s ;; Ret (mkTerm x TNonterminal MNil, s)
    else if Z.eqb r r_quote then
      ' ((flags, t), s) <- terminal s ;;
      Ret (mkTerm t TTerminal (if String.eqb flags "" then MNil else MStr flags), s)
    else if Z.eqb r r_lparen then special s
    else if Z.eqb r r_tick then regex s
    else Err.

  (** cfgrammar_fmr.go:22-48 [funcName] *)
  Fixpoint name_loop (n : nat) (first : bool) (prev : rune) (s : rd) : res (list rune * rd) :=
    match n with
    | O => Fuel
    | S n' =>
        let '(r, s1) := next s in
        if is_letter r || Z.eqb r r_under || is_digit r && negb first
           || Z.eqb r r_dot && negb (Z.eqb prev r_dot) && negb first then
          ' (rs, s2) <- name_loop n' false r s1 ;; Ret (r :: rs, s2)
        else s2 <- backup s1 ;; Ret ([], s2)
    end.
  (** cfgrammar_fmr.go:22-48 [funcName] *)
  Definition func_name (s : rd) : res (string * rd) :=
    ' (rs, s) <- name_loop fuel true eof s ;;
    match rs with [] => Err | _ => s <- ws s ;; Ret (encode rs, s) end.

  (** The digits and dots collected by cfgrammar_fmr.go:135-150 [numArg];
      the flag is hasDot. *)
  Fixpoint num_loop (n : nat) (dot : bool) (s : rd) : res ((list rune * bool) * rd) :=
    match n with
    | O => Fuel
    | S n' =>
        let '(r, s1) := next s in
        if is_digit r then
          ' ((rs, d), s2) <- num_loop n' dot s1 ;; Ret ((r :: rs, d), s2)
        else if Z.eqb r r_dot then
          if dot then Err else ' ((rs, d), s2) <- num_loop n' true s1 ;; Ret ((r :: rs, d), s2)
        else Ret (([], dot), s1)
    end.
  (** fmt.Sscan of a digit string into a *big.Int (math/big nat.scan with base
      0): a leading 0 followed by anything means octal, scanning stops at the
      first digit that does not belong to the base, and a digit outside ASCII
      is an error when it is reached. (cfgrammar_fmr.go:166) *)
  Fixpoint scan_digits (base : Z) (acc : Z) (rs : list rune) : res Z :=
    match rs with
    | [] => Ret acc
    | r :: rs' =>
        if ascii_digit r then
          if (r - 48 <? base)%Z then scan_digits base (acc * base + (r - 48))%Z rs' else Ret acc
        else Err
    end.
  (** the base by the first digit (cfgrammar_fmr.go:166) *)
  Definition scan_nat (rs : list rune) : res Z :=
    match rs with
    | r :: (_ :: _) as rs' => if Z.eqb r 48 then scan_digits 8 0 (tl rs) else scan_digits 10 0 rs
    | _ => scan_digits 10 0 rs
    end.
  (** the sign in front (cfgrammar_fmr.go:155-157, 166) *)
  Definition scan_int (neg : bool) (rs : list rune) : res Z :=
    z <- scan_nat rs ;; Ret (if neg then - z else z)%Z.
  (** cfgrammar_fmr.go:135-170 [numArg] *)
  Definition num_arg (neg : bool) (s : rd) : res (arg * rd) :=
    ' ((rs, dot), s) <- num_loop fuel false s ;;
    match rs with
    | [] => Err
    | _ =>
        s <- backup s ;;
        if dot then
          f <- scan_float (encode (if neg then r_minus :: rs else rs)) ;; Ret (Arg "float" (VFloat f), s)
        else z <- scan_int neg rs ;; Ret (Arg "int" (VInt z), s)
    end.

  (** cfgrammar_fmr.go:9-20 [semanticFn]; [args] reads the arguments after the
      opening parenthesis (line 51) *)
  Definition semantic_with (args : rd -> res (list arg * rd)) (s : rd) : res (fmr * rd) :=
    s <- ws s ;; ' (fn, s) <- func_name s ;;
    s <- eat r_lparen s ;; ' (a, s) <- args s ;;
    s <- ws s ;; Ret (FMR fn a, s).
  (** cfgrammar_fmr.go:59-86: one argument, [r] being its first character;
      contextArg, idxArg, strArg, fArg (lines 106-133, 172-180) *)
  Definition one_arg (args : rd -> res (list arg * rd)) (r : rune) (s : rd) : res (arg * rd) :=
    if Z.eqb r r_at then s <- eat r_at s ;; Ret (Arg "context" (VStr "@"), s)
    else if Z.eqb r r_dollar then
      s <- eat r_dollar s ;; ' (i, s) <- get_int s ;; Ret (Arg "index" (VIdx i), s)
    else if Z.eqb r r_quote then
      ' ((_, t), s) <- terminal s ;; Ret (Arg "string" (VStr t), s)
    else if is_digit r then num_arg false s
    else if Z.eqb r r_minus then s <- eat r_minus s ;; num_arg true s
    else ' (f, s) <- semantic_with args s ;; Ret (Arg "func" (VFunc f), s).
  (** cfgrammar_fmr.go:50-104 [funcArgs] after the opening parenthesis *)
  Fixpoint args_loop (n : nat) (s : rd) : res (list arg * rd) :=
    match n with
    | O => Fuel
    | S n' =>
        s <- ws s ;;
        ' (r, s) <- peek s ;;
        ' (a, s) <- one_arg (args_loop n') r s ;;
        if Z.eqb r r_comma then ' (l, s) <- args_loop n' s ;; Ret (a :: l, s)
        else
          s <- ws s ;;
          let '(r, s) := next s in
          if Z.eqb r r_comma then ' (l, s) <- args_loop n' s ;; Ret (a :: l, s)
          else if Z.eqb r r_rparen then Ret ([a], s)
          else Err
    end.
  (** cfgrammar_fmr.go:9-20 [semanticFn] *)
  Definition semantic_fn (s : rd) : res (fmr * rd) := semantic_with (args_loop fuel) s.

  (** cfgrammar.go:236-274 [ruleBody] *)
  Definition starts_term (r : rune) : bool :=
    Z.eqb r r_lt || Z.eqb r r_quote || Z.eqb r r_lparen || Z.eqb r r_tick.
  (** cfgrammar.go:245-259 *)
  Fixpoint terms_loop (n : nat) (s : rd) : res (list term * rd) :=
    match n with
    | O => Fuel
    | S n' =>
        s <- comments s ;;
        ' (r, s) <- peek s ;;
        if negb (starts_term r) then Ret ([], s)
        else
          ' (t, s) <- read_term s ;; s <- comments s ;;
          ' (ts, s) <- terms_loop n' s ;; Ret (t :: ts, s)
    end.
  (** cfgrammar.go:236-274 [ruleBody] *)
  Definition rule_body (s : rd) : res (rulebody * rd) :=
    ' (t, s) <- read_term s ;; s <- comments s ;;
    ' (ts, s) <- terms_loop fuel s ;;
    ' (r, s) <- peek s ;;
    if Z.eqb r r_lbrace then
      let '(_, s) := next s in
      ' (f, s) <- semantic_fn s ;; s <- eat r_rbrace s ;; s <- comments s ;;
      Ret (mkRb (t :: ts) (Some f), s)
    else Ret (mkRb (t :: ts) None, s).

  (** cfgrammar.go:276-303 [ruleBodies] *)
  Fixpoint bodies_loop (n : nat) (m : list (N * rulebody)) (s : rd)
    : res (list (N * rulebody) * rd) :=
    match n with
    | O => Fuel
    | S n' =>
        ' (r, s) <- peek s ;;
        if negb (Z.eqb r r_bar) then Ret (m, s)
        else
          let '(_, s) := next s in
          s <- comments s ;;
          ' (b, s) <- rule_body s ;;
          bodies_loop n' (put_N m (hash b) b) s
    end.
  (** cfgrammar.go:276-303 [ruleBodies] *)
  Definition rule_bodies (s : rd) : res (list (N * rulebody) * rd) :=
    ' (b, s) <- rule_body s ;; bodies_loop fuel [(hash b, b)] s.

  (** cfgrammar.go:305-337 [rule]; [c] is < or [ by the test of line 389 *)
  Definition read_rule (c : rune) (s : rd) : res (rule * rd) :=
    ' (name, s) <- (if Z.eqb c r_lt then nonterminal s
                    else if Z.eqb c r_lbrack then frame_name s else Err) ;;
    s <- comments s ;; s <- eat r_eq s ;; s <- comments s ;;
    ' (m, s) <- rule_bodies s ;; s <- eat r_semi s ;;
    Ret (mkRule name m, s).

  (** cfgrammar.go:401-407: a further rule of the same name adds its bodies *)
  Definition add_rule (rules : list (string * rule)) (r : rule) : list (string * rule) :=
    match lookup rules (r_name r) with
    | Some r0 =>
        put rules (r_name r)
          (mkRule (r_name r0) (fold_left (fun m kb => put_N m (fst kb) (snd kb)) (r_body r) (r_body r0)))
    | None => put rules (r_name r) r
    end.

  (** cfgrammar.go:383-411: the rules up to the end of the text *)
  Fixpoint rules_loop (n : nat) (rules frames : list (string * rule)) (s : rd)
    : res ((list (string * rule) * list (string * rule)) * rd) :=
    match n with
    | O => Fuel
    | S n' =>
        s <- comments s ;;
        ' (c, s) <- peek s ;;
        if negb (Z.eqb c r_lt || Z.eqb c r_lbrack) then Ret ((rules, frames), s)
        else
          ' (r, s) <- read_rule c s ;;
          if Z.eqb c r_lbrack then rules_loop n' rules (add_rule frames r) s
          else rules_loop n' (add_rule rules r) frames s
    end.
  (** cfgrammar.go:383-411: the loop and the test that the text ends *)
  Definition rules_part (s : rd)
    : res ((list (string * rule) * list (string * rule)) * list (string * string)) :=
    ' (rf, s) <- rules_loop fuel [] [] s ;;
    let '(r, s) := next s in
    if Z.eqb r eof then Ret (rf, rd_re s) else Err.

  (** cfgrammar.go:346-382: the #include directives. [load] is the call of
      grammarFromFile on the path joined to the parser's directory (lines
      368-373), with the table of counts [F] threaded through; [None] is a file
      that is skipped (line 374). [G] accumulates g.includes and the regular
      expressions of the included files go to g.Regexps. *)
  Section Includes.
    Context {F G : Type}.
    Variable load : F -> string -> res (option (list G * list (string * string)) * F).
    (** cfgrammar.go:346-382 *)
    Fixpoint includes_loop (n : nat) (fs : F) (gs : list G) (s : rd) : res ((list G * F) * rd) :=
      match n with
      | O => Fuel
      | S n' =>
          s <- comments s ;;
          ' (r, s) <- peek s ;;
          if negb (Z.eqb r r_hash) then Ret ((gs, fs), s)
          else
            let '(_, s) := next s in
            s <- ws s ;;
            ' (name, s) <- text s ;;
            if negb (String.eqb name "include") then Err
            else
              s <- ws s ;;
              ' ((_, path), s) <- terminal s ;;
              ' (ig, fs) <- load fs path ;;
              match ig with
              | None => includes_loop n' fs gs s
              | Some (l, res) =>
                  includes_loop n' fs (gs ++ l)
                    (mkRd (rd_pos s) (rd_width s)
                       (fold_left (fun m kv => put m (fst kv) (snd kv)) res (rd_re s)))
              end
      end.
  End Includes.
End Reader.
