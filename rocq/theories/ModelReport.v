(** Model of the errors of the grammar reader: the functions of ModelReader.v
    once more, with the fields [current] and [info] of the parser and with the
    messages (cfgrammar.go, cfgrammar_comments.go, cfgrammar_fmr.go,
    cfgrammar_regex.go, cfgrammar_special.go, cfgrammar_terminal.go). That both
    models read the same is proved in ProofReport.v.

    Simplification: the rows and columns are unbounded numbers. *)
From Verif Require Import Base ModelText ModelTypes ModelQuote ModelReader ModelEarley ModelGrammar.
Local Open Scope string_scope.

(** cfgrammar.go:25-28 *)
Record position := mkPos { p_row : nat; p_col : nat; p_char : string }.

(** An error value: one made by the reader (fmt.Errorf after posInfo: cfgrammar.go:122, 165,
    211, 229, 318, 360, 410 and in the other files of the reader), or one of another package
    that the reader passes on (cfgrammar.go:40, 44, 56, 60, 219, 284, 413, 416;
    cfgrammar_fmr.go:160, 166). The number is p.pos when the error is made; it is not part of
    the message and only there to state properties. *)
Inductive report := Said (at_ : nat) (text : string) | Passed (text : string).

(** What a call of the reader does: return a value, return an error, panic, not end
    (cfgrammar.go:65-86) *)
Inductive out (A : Type) : Type :=
| Done (a : A)
| Fails (m : report)
| Panics
| Spent.
Arguments Done {A} _.
Arguments Fails {A} _.
Arguments Panics {A}.
Arguments Spent {A}.

(** if err != nil { return err } (cfgrammar.go:157-163 and after every other call) *)
Definition obind {A B} (x : out A) (f : A -> out B) : out B :=
  match x with
  | Done a => f a
  | Fails m => Fails m
  | Panics => Panics
  | Spent => Spent
  end.
Notation "x <~ e ;; k" := (obind e (fun x => k)) (at level 100, e at next level, right associativity).
Notation "' p <~ e ;; k" := (obind e (fun p => k)) (at level 100, p pattern, e at next level, right associativity).

(** A call into other code, with the message of its error (cfgrammar.go:40, 44, 413, 416;
    cfgrammar_fmr.go:160, 166) *)
Definition lift {A} (e : string) (x : res A) : out A :=
  match x with
  | Ret a => Done a
  | Err => Fails (Passed e)
  | Panic => Panics
  | Fuel => Spent
  end.

(** The mutable part of [parser] (cfgrammar.go:15-23): [pos] and [width] with the
    regular expressions as in ModelReader.v, [current] and [info] *)
Record rp := mkRp { rp_rd : rd; rp_cur : option position; rp_info : list (nat * position) }.

(** p.info[k] (cfgrammar.go:103, 115, 130) *)
Fixpoint info_at (m : list (nat * position)) (k : nat) : option position :=
  match m with
  | [] => None
  | (k', q) :: m' => if Nat.eqb k' k then Some q else info_at m' k
  end.

Section Report.
  (** cfgrammar.go:16, 21 *)
  Variables input fname : string.
  (** the tables and other packages of ModelReader.v and ModelQuote.v *)
  Variables letter_hi digit_hi is_print_hi : rune -> bool.
  Variable scan_float : string -> res bigf.
  Variable regexp_ok : string -> bool.
  Variable md5 : string -> string.
  Variable hash : rulebody -> N.
  (** the message of a failing fmt.Sscan of a text (cfgrammar_fmr.go:160, 166) *)
  Variable scan_error : string -> string.
  (** step budget of each loop *)
  Variable fuel : nat.

  (** cfgrammar.go:30-32 [String]; %s of a nil pointer with this method prints <nil>
      (fmt: catchPanic) *)
  Definition pos_string (c : option position) : string :=
    match c with
    | None => "<nil>"
    | Some q => "|row:" ++ dec_N (N.of_nat (p_row q)) ++ ", col:" ++ dec_N (N.of_nat (p_col q))
                ++ ", c:" ++ quote is_print_hi (p_char q) ++ "|"
    end.
  (** cfgrammar.go:88-90 [posInfo] *)
  Definition pos_info (s : rp) : string := fname ++ pos_string (rp_cur s).
  (** fmt.Errorf("%s...", p.posInfo()) (cfgrammar.go:122, 165, 211, 229, 318, 360, 410) *)
  Definition m_fail {A} (s : rp) (what : string) : out A :=
    Fails (Said (rd_pos (rp_rd s)) (pos_info s ++ what)).

  (** cfgrammar.go:92-118 [next] *)
  Definition m_next (s : rp) : rune * rp :=
    let d := rp_rd s in
    if Nat.leb (String.length input) (rd_pos d)
    then (eof, mkRp (mkRd (rd_pos d) 0 (rd_re d)) (rp_cur s) (rp_info s))
    else
      let '(r, w) := decode_rune (drop (rd_pos d) input) in
      if Z.eqb r RuneError then (eof, s)
      else
        let d' := mkRd (rd_pos d + w) w (rd_re d) in
        match info_at (rp_info s) (rd_pos d + w) with
        | None =>
            let q := match rp_cur s with
                     | None => mkPos 1 w (encode_rune r)
                     | Some c => if Z.eqb r r_newline then mkPos (p_row c + 1) w (encode_rune r)
                                 else mkPos (p_row c) (p_col c + w) (encode_rune r)
                     end in
            (r, mkRp d' (Some q) ((rd_pos d + w, q) :: rp_info s))
        | Some q => (r, mkRp d' (Some q) (rp_info s))
        end.

  (** cfgrammar.go:128-131 [backup] *)
  Definition m_backup (s : rp) : out rp :=
    let d := rp_rd s in
    if Nat.leb (rd_width d) (rd_pos d)
    then Done (mkRp (mkRd (rd_pos d - rd_width d) (rd_width d) (rd_re d))
                    (info_at (rp_info s) (rd_pos d - rd_width d)) (rp_info s))
    else Panics.

  (** cfgrammar.go:120-126 [eat] *)
  Definition m_eat (c : rune) (s : rp) : out rp :=
    let '(r, s1) := m_next s in
    if Z.eqb r c then Done s1
    else m_fail s1 (" :expected " ++ quote is_print_hi (encode_rune c) ++ ", got "
                    ++ quote is_print_hi (encode_rune r)).

  (** g.Regexps changed (cfgrammar.go:379-381; cfgrammar_regex.go:34) *)
  Definition m_with_re (f : list (string * string) -> list (string * string)) (s : rp) : rp :=
    let d := rp_rd s in mkRp (mkRd (rd_pos d) (rd_width d) (f (rd_re d))) (rp_cur s) (rp_info s).

  (** cfgrammar.go:133-137 [peek] *)
  Definition m_peek (s : rp) : out (rune * rp) :=
    let '(r, s1) := m_next s in s2 <~ m_backup s1 ;; Done (r, s2).

  (** cfgrammar.go:139-146 [ws] *)
  Fixpoint m_ws_loop (n : nat) (s : rp) : out rp :=
    match n with
    | O => Spent
    | S n' => let '(r, s1) := m_next s in if is_space r then m_ws_loop n' s1 else m_backup s1
    end.
  (** cfgrammar.go:139-146 [ws] *)
  Definition m_ws (s : rp) : out rp := m_ws_loop fuel s.

  (** cfgrammar.go:148-168 [text] *)
  Fixpoint m_text_loop (n : nat) (first : bool) (s : rp) : out (list rune * rp) :=
    match n with
    | O => Spent
    | S n' =>
        let '(r, s1) := m_next s in
        if is_letter letter_hi r || Z.eqb r r_under || is_digit digit_hi r && negb first then
          ' (rs, s2) <~ m_text_loop n' false s1 ;; Done (r :: rs, s2)
        else s2 <~ m_backup s1 ;; Done ([], s2)
    end.
  (** cfgrammar.go:148-168 [text] *)
  Definition m_text (s : rp) : out (string * rp) :=
    ' (rs, s1) <~ m_text_loop fuel true s ;;
    match rs with [] => m_fail s1 " : no text" | _ => Done (encode rs, s1) end.

  (** cfgrammar.go:170-187 [token], [nonterminal], [frame] *)
  Definition m_bracketed (b e : rune) (s : rp) : out (string * rp) :=
    s <~ m_eat b s ;; ' (name, s) <~ m_text s ;; s <~ m_eat e s ;; Done (name, s).
  (** cfgrammar.go:181-183 *)
  Definition m_nonterminal := m_bracketed r_lt r_gt.
  (** cfgrammar.go:185-187 [frame] *)
  Definition m_frame_name := m_bracketed r_lbrack r_rbrack.

  (** cfgrammar_comments.go:36-49 [lineComment] after the second slash. The
      loop has no test for eof. *)
  Fixpoint m_line_loop (n : nat) (s : rp) : out rp :=
    match n with
    | O => Spent
    | S n' => let '(r, s1) := m_next s in if Z.eqb r r_newline then Done s1 else m_line_loop n' s1
    end.
  (** cfgrammar_comments.go:51-70 [multiLineComment] after the star *)
  Fixpoint m_block_loop (n : nat) (prev : rune) (s : rp) : out rp :=
    match n with
    | O => Spent
    | S n' =>
        let '(r, s1) := m_next s in
        if Z.eqb r eof then m_fail s1 " : unterminated string"
        else if Z.eqb prev r_star && Z.eqb r r_slash then Done s1
        else m_block_loop n' r s1
    end.
  (** cfgrammar_comments.go:21-34 [comment]; the flag tells whether a comment
      was read (its text is then not empty) *)
  Definition m_comment (s : rp) : out (bool * rp) :=
    let '(r, s1) := m_next s in
    if negb (Z.eqb r r_slash) then s2 <~ m_backup s1 ;; Done (false, s2)
    else
      ' (r, s2) <~ m_peek s1 ;;
      if Z.eqb r r_slash then s3 <~ m_eat r_slash s2 ;; s4 <~ m_line_loop fuel s3 ;; Done (true, s4)
      else if Z.eqb r r_star then s3 <~ m_eat r_star s2 ;; s4 <~ m_block_loop fuel 0%Z s3 ;; Done (true, s4)
      else m_fail s2 (" : invalid char " ++ encode_rune r).
  (** cfgrammar_comments.go:7-19 [comments]; the deferred ws comes last *)
  Fixpoint m_comments_loop (n : nat) (s : rp) : out rp :=
    match n with
    | O => Spent
    | S n' =>
        s1 <~ m_ws s ;;
        ' (found, s2) <~ m_comment s1 ;;
        if found then m_comments_loop n' s2 else m_ws s2
    end.
  (** cfgrammar_comments.go:7-19 *)
  Definition m_comments (s : rp) : out rp := m_comments_loop fuel s.

  (** cfgrammar_terminal.go:34-63: the loop, [prev] being the variable of that name *)
  Fixpoint m_terminal_loop (n : nat) (prev : rune) (s : rp) : out (list rune * rp) :=
    match n with
    | O => Spent
    | S n' =>
        let '(r, s1) := m_next s in
        if Z.eqb r r_quote && negb (Z.eqb prev r_bslash) then s2 <~ m_backup s1 ;; Done ([], s2)
        else if Z.eqb r eof then m_fail s1 " : unterminated string"
        else if Z.eqb prev r_bslash then
          match unescape r with
          | Some c => ' (rs, s2) <~ m_terminal_loop n' 0%Z s1 ;; Done (c :: rs, s2)
          | None => m_fail s1 " : unexpected escape string"
          end
        else if Z.eqb r r_bslash then m_terminal_loop n' r s1
        else ' (rs, s2) <~ m_terminal_loop n' r s1 ;; Done (r :: rs, s2)
    end.
  (** cfgrammar_terminal.go:31-64 [terminalText] *)
  Definition m_terminal_text (s : rp) : out (string * rp) :=
    ' (rs, s1) <~ m_terminal_loop fuel 0%Z s ;; Done (encode rs, s1).
  (** cfgrammar_terminal.go:5-29 [terminal]: the flags and the text. The result
      of eat('(') on line 11 is ignored by the code; it cannot fail, peek having
      just seen the character. *)
  Definition m_terminal (s : rp) : out ((string * string) * rp) :=
    s <~ m_eat r_quote s ;; s <~ m_ws s ;;
    ' (r, s) <~ m_peek s ;;
    ' (flags, s) <~
       (if Z.eqb r r_lparen then
          let '(_, s) := m_next s in
          s <~ m_ws s ;; s <~ m_eat r_qmark s ;; s <~ m_ws s ;;
          ' (flags, s) <~ m_text s ;; s <~ m_eat r_rparen s ;; Done (flags, s)
        else Done (""%string, s)) ;;
    ' (t, s) <~ m_terminal_text s ;;
    s <~ m_eat r_quote s ;; Done ((flags, t), s).

  (** cfgrammar.go:214-234 [getInt]. strconv.ParseUint of one digit fails for
      the digits outside ASCII. The test of -1 is the test of line 222: a value
      that wraps around to -1 counts as no value. *)
  Fixpoint m_int_loop (n : nat) (i : Z) (s : rp) : out (Z * rp) :=
    match n with
    | O => Spent
    | S n' =>
        let '(r, s1) := m_next s in
        if is_digit digit_hi r then
          if ascii_digit r then
            m_int_loop n' (if Z.eqb i (-1) then r - 48 else wrap64 (i * 10 + (r - 48)))%Z s1
          else Fails (Passed ("strconv.ParseUint: parsing " ++ quote is_print_hi (encode_rune r) ++ ": invalid syntax"))
        else if Z.eqb i (-1) then m_fail s1 " : number expected"
        else s2 <~ m_backup s1 ;; Done (i, s2)
    end.
  (** cfgrammar.go:214-234 [getInt] *)
  Definition m_get_int (s : rp) : out (Z * rp) := m_int_loop fuel (-1)%Z s.

  (** cfgrammar_special.go:26-57 [specialMeta]; MNil is the nil map, whose
      length is 0 (lines 71, 85) *)
  Definition m_special_meta (s : rp) : out (meta * rp) :=
    s <~ m_ws s ;;
    ' (r, s) <~ m_peek s ;;
    ' (m, s) <~
       (if Z.eqb r r_lbrace then
          let '(_, s) := m_next s in
          s <~ m_ws s ;; ' (lo, s) <~ m_get_int s ;; s <~ m_ws s ;; s <~ m_eat r_comma s ;;
          s <~ m_ws s ;; ' (hi, s) <~ m_get_int s ;;
          if (hi <? lo)%Z then m_fail s (" : max:" ++ dec_Z hi ++ " less than min:" ++ dec_Z lo)
          else s <~ m_ws s ;; s <~ m_eat r_rbrace s ;; Done (MMap (Some lo) (Some hi), s)
        else Done (MNil, s)) ;;
    s <~ m_ws s ;; Done (m, s).
  (** cfgrammar_special.go:5-24, 59-89 [special], [list], [any] *)
  Definition m_special (s : rp) : out (term * rp) :=
    s <~ m_eat r_lparen s ;; s <~ m_ws s ;;
    ' (name, s) <~ m_text s ;; s <~ m_ws s ;;
    if String.eqb name "any" then
      ' (m, s) <~ m_special_meta s ;; s <~ m_eat r_rparen s ;; Done (mkTerm "any" TAny m, s)
    else if String.eqb name "list" then
      ' (x, s) <~ m_nonterminal s ;;
      ' (m, s) <~ m_special_meta s ;; s <~ m_eat r_rparen s ;; Done (mkTerm x TList m, s)
    else m_fail s (": special rule:(" ++ name ++ ") not supported").

  (** cfgrammar_regex.go:9-36 [regex] *)
  Fixpoint m_regex_loop (n : nat) (s : rp) : out (list rune * rp) :=
    match n with
    | O => Spent
    | S n' =>
        let '(r, s1) := m_next s in
        if Z.eqb r r_tick then Done ([], s1)
        else if Z.eqb r eof then m_fail s1 " : unterminated string"
        else ' (rs, s2) <~ m_regex_loop n' s1 ;; Done (r :: rs, s2)
    end.
  (** cfgrammar_regex.go:9-36 [regex] *)
  Definition m_regex (s : rp) : out (term * rp) :=
    s <~ m_eat r_tick s ;; s <~ m_ws s ;;
    ' (rs, s) <~ m_regex_loop fuel s ;;
    match rs with
    | [] => m_fail s " : empty regexp string"
    | _ =>
        let x := encode rs in
        if negb (regexp_ok x) then m_fail s (" : `" ++ x ++ "` is not a valid regexp")
        else
          h <~ lift "" (slice (md5 x) 0 16) ;;
          Done (mkTerm h TNonterminal MNil, m_with_re (fun re => put re h x) s)
    end.

  (** cfgrammar.go:189-212 [term] *)
  Definition m_read_term (s : rp) : out (term * rp) :=
    ' (r, s) <~ m_peek s ;;
    if Z.eqb r r_lt then ' (x, s) <~ m_nonterminal s ;; Done (mkTerm x TNonterminal MNil, s)
    else if Z.eqb r r_quote then
      ' ((flags, t), s) <~ m_terminal s ;;
      Done (mkTerm t TTerminal (if String.eqb flags "" then MNil else MStr flags), s)
    else if Z.eqb r r_lparen then m_special s
    else if Z.eqb r r_tick then m_regex s
    else m_fail s " :invalid term char".

  (** cfgrammar_fmr.go:22-48 [funcName] *)
  Fixpoint m_name_loop (n : nat) (first : bool) (prev : rune) (s : rp) : out (list rune * rp) :=
    match n with
    | O => Spent
    | S n' =>
        let '(r, s1) := m_next s in
        if is_letter letter_hi r || Z.eqb r r_under || is_digit digit_hi r && negb first
           || Z.eqb r r_dot && negb (Z.eqb prev r_dot) && negb first then
          ' (rs, s2) <~ m_name_loop n' false r s1 ;; Done (r :: rs, s2)
        else s2 <~ m_backup s1 ;; Done ([], s2)
    end.
  (** cfgrammar_fmr.go:22-48 [funcName] *)
  Definition m_func_name (s : rp) : out (string * rp) :=
    ' (rs, s) <~ m_name_loop fuel true eof s ;;
    match rs with [] => m_fail s " : no funcName" | _ => s <~ m_ws s ;; Done (encode rs, s) end.

  (** The digits and dots collected by cfgrammar_fmr.go:135-150 [numArg];
      the flag is hasDot. *)
  Fixpoint m_num_loop (n : nat) (dot : bool) (s : rp) : out ((list rune * bool) * rp) :=
    match n with
    | O => Spent
    | S n' =>
        let '(r, s1) := m_next s in
        if is_digit digit_hi r then
          ' ((rs, d), s2) <~ m_num_loop n' dot s1 ;; Done ((r :: rs, d), s2)
        else if Z.eqb r r_dot then
          if dot then m_fail s1 " : unexpected dot" else ' ((rs, d), s2) <~ m_num_loop n' true s1 ;; Done ((r :: rs, d), s2)
        else Done (([], dot), s1)
    end.
  (** cfgrammar_fmr.go:135-170 [numArg] *)
  Definition m_num_arg (neg : bool) (s : rp) : out (arg * rp) :=
    ' ((rs, dot), s) <~ m_num_loop fuel false s ;;
    match rs with
    | [] => m_fail s " : number expected"
    | _ =>
        s <~ m_backup s ;;
        if dot then
          let x := encode (if neg then r_minus :: rs else rs) in
          f <~ lift (scan_error x) (scan_float x) ;; Done (Arg "float" (VFloat f), s)
        else z <~ lift (scan_error (encode (if neg then r_minus :: rs else rs))) (scan_int neg rs) ;; Done (Arg "int" (VInt z), s)
    end.

  (** cfgrammar_fmr.go:9-20 [semanticFn]; [args] reads the arguments after the
      opening parenthesis (line 51) *)
  Definition m_semantic_with (args : rp -> out (list arg * rp)) (s : rp) : out (fmr * rp) :=
    s <~ m_ws s ;; ' (fn, s) <~ m_func_name s ;;
    s <~ m_eat r_lparen s ;; ' (a, s) <~ args s ;;
    s <~ m_ws s ;; Done (FMR fn a, s).
  (** cfgrammar_fmr.go:59-86: one argument, [r] being its first character;
      contextArg, idxArg, strArg, fArg (lines 106-133, 172-180) *)
  Definition m_one_arg (args : rp -> out (list arg * rp)) (r : rune) (s : rp) : out (arg * rp) :=
    if Z.eqb r r_at then s <~ m_eat r_at s ;; Done (Arg "context" (VStr "@"), s)
    else if Z.eqb r r_dollar then
      s <~ m_eat r_dollar s ;; ' (i, s) <~ m_get_int s ;; Done (Arg "index" (VIdx i), s)
    else if Z.eqb r r_quote then
      ' ((_, t), s) <~ m_terminal s ;; Done (Arg "string" (VStr t), s)
    else if is_digit digit_hi r then m_num_arg false s
    else if Z.eqb r r_minus then s <~ m_eat r_minus s ;; m_num_arg true s
    else ' (f, s) <~ m_semantic_with args s ;; Done (Arg "func" (VFunc f), s).
  (** cfgrammar_fmr.go:50-104 [funcArgs] after the opening parenthesis *)
  Fixpoint m_args_loop (n : nat) (s : rp) : out (list arg * rp) :=
    match n with
    | O => Spent
    | S n' =>
        s <~ m_ws s ;;
        ' (r, s) <~ m_peek s ;;
        ' (a, s) <~ m_one_arg (m_args_loop n') r s ;;
        if Z.eqb r r_comma then ' (l, s) <~ m_args_loop n' s ;; Done (a :: l, s)
        else
          s <~ m_ws s ;;
          let '(r, s) := m_next s in
          if Z.eqb r r_comma then ' (l, s) <~ m_args_loop n' s ;; Done (a :: l, s)
          else if Z.eqb r r_rparen then Done ([a], s)
          else m_fail s " : unexpected semantic args"
    end.
  (** cfgrammar_fmr.go:9-20 [semanticFn] *)
  Definition m_semantic_fn (s : rp) : out (fmr * rp) := m_semantic_with (m_args_loop fuel) s.

  (** cfgrammar.go:245-259 *)
  Fixpoint m_terms_loop (n : nat) (s : rp) : out (list term * rp) :=
    match n with
    | O => Spent
    | S n' =>
        s <~ m_comments s ;;
        ' (r, s) <~ m_peek s ;;
        if negb (starts_term r) then Done ([], s)
        else
          ' (t, s) <~ m_read_term s ;; s <~ m_comments s ;;
          ' (ts, s) <~ m_terms_loop n' s ;; Done (t :: ts, s)
    end.
  (** cfgrammar.go:236-274 [ruleBody] *)
  Definition m_rule_body (s : rp) : out (rulebody * rp) :=
    ' (t, s) <~ m_read_term s ;; s <~ m_comments s ;;
    ' (ts, s) <~ m_terms_loop fuel s ;;
    ' (r, s) <~ m_peek s ;;
    if Z.eqb r r_lbrace then
      let '(_, s) := m_next s in
      ' (f, s) <~ m_semantic_fn s ;; s <~ m_eat r_rbrace s ;; s <~ m_comments s ;;
      Done (mkRb (t :: ts) (Some f), s)
    else Done (mkRb (t :: ts) None, s).

  (** cfgrammar.go:276-303 [ruleBodies] *)
  Fixpoint m_bodies_loop (n : nat) (m : list (N * rulebody)) (s : rp)
    : out (list (N * rulebody) * rp) :=
    match n with
    | O => Spent
    | S n' =>
        ' (r, s) <~ m_peek s ;;
        if negb (Z.eqb r r_bar) then Done (m, s)
        else
          let '(_, s) := m_next s in
          s <~ m_comments s ;;
          ' (b, s) <~ m_rule_body s ;;
          m_bodies_loop n' (put_N m (hash b) b) s
    end.
  (** cfgrammar.go:276-303 [ruleBodies] *)
  Definition m_rule_bodies (s : rp) : out (list (N * rulebody) * rp) :=
    ' (b, s) <~ m_rule_body s ;; m_bodies_loop fuel [(hash b, b)] s.

  (** cfgrammar.go:305-337 [rule]; [c] is < or [ by the test of line 389 *)
  Definition m_read_rule (c : rune) (s : rp) : out (rule * rp) :=
    ' (name, s) <~ (if Z.eqb c r_lt then m_nonterminal s
                    else if Z.eqb c r_lbrack then m_frame_name s else m_fail s " : unexpected char") ;;
    s <~ m_comments s ;; s <~ m_eat r_eq s ;; s <~ m_comments s ;;
    ' (m, s) <~ m_rule_bodies s ;; s <~ m_eat r_semi s ;;
    Done (mkRule name m, s).

  (** cfgrammar.go:383-411: the rules up to the end of the text *)
  Fixpoint m_rules_loop (n : nat) (rules frames : list (string * rule)) (s : rp)
    : out ((list (string * rule) * list (string * rule)) * rp) :=
    match n with
    | O => Spent
    | S n' =>
        s <~ m_comments s ;;
        ' (c, s) <~ m_peek s ;;
        if negb (Z.eqb c r_lt || Z.eqb c r_lbrack) then Done ((rules, frames), s)
        else
          ' (r, s) <~ m_read_rule c s ;;
          if Z.eqb c r_lbrack then m_rules_loop n' rules (add_rule frames r) s
          else m_rules_loop n' (add_rule rules r) frames s
    end.
  (** cfgrammar.go:383-411: the loop and the test that the text ends *)
  Definition m_rules_part (s : rp)
    : out ((list (string * rule) * list (string * rule)) * list (string * string)) :=
    ' (rf, s) <~ m_rules_loop fuel [] [] s ;;
    let '(r, s) := m_next s in
    if Z.eqb r eof then Done (rf, rd_re (rp_rd s)) else m_fail s " : format error".

  (** cfgrammar.go:346-382: the #include directives. [load] is the call of
      grammarFromFile on the path joined to the parser's directory (lines
      368-373), with the table of counts [F] threaded through; [None] is a file
      that is skipped (line 374). [G] accumulates g.includes and the regular
      expressions of the included files go to g.Regexps. *)
  Section Includes.
    Context {F G : Type}.
    Variable load : F -> string -> out (option (list G * list (string * string)) * F).
    (** cfgrammar.go:346-382 *)
    Fixpoint m_includes_loop (n : nat) (fs : F) (gs : list G) (s : rp) : out ((list G * F) * rp) :=
      match n with
      | O => Spent
      | S n' =>
          s <~ m_comments s ;;
          ' (r, s) <~ m_peek s ;;
          if negb (Z.eqb r r_hash) then Done ((gs, fs), s)
          else
            let '(_, s) := m_next s in
            s <~ m_ws s ;;
            ' (name, s) <~ m_text s ;;
            if negb (String.eqb name "include") then m_fail s (": directive:(" ++ name ++ ") not suppported")
            else
              s <~ m_ws s ;;
              ' ((_, path), s) <~ m_terminal s ;;
              ' (ig, fs) <~ load fs path ;;
              match ig with
              | None => m_includes_loop n' fs gs s
              | Some (l, res) =>
                  m_includes_loop n' fs (gs ++ l)%list
                    (m_with_re (fun re =>
                       fold_left (fun m kv => put m (fst kv) (snd kv)) res re) s)
              end
      end.
  End Includes.
End Report.

Section Construct.
  Variables letter_hi digit_hi is_print_hi : rune -> bool.
  Variable scan_float : string -> res bigf.
  Variable regexp_ok : string -> bool.
  Variable md5 : string -> string.
  Variable hash : rulebody -> N.
  Variable trie_accepts : string -> bool.
  Variable tokenize : string -> res (list token).
  Variable ascii_name : string -> string.
  Variable read_file : string -> res string.
  Variable abs_dir : string -> res string.
  Variable join_path : string -> string -> string.
  Variable ord : grammar_rules -> grammar_rules.
  (** messages of other packages: fmt.Sscan (cfgrammar_fmr.go:160, 166), ioutil.ReadFile
      (cfgrammar.go:38, 54), filepath.Abs (cfgrammar.go:42, 58) and what stops buildIndex or
      refine (cfgrammar.go:413, 416) *)
  Variables scan_error file_error dir_error : string -> string.
  Variable finish_error : string.
  Variable fuel : nat.

  (** cfgrammar.go:49-62 [grammarFromFile] and 368-376, as [include_file] in ModelGrammar.v *)
  Definition m_include_file (read : string -> string -> string -> world -> out (option grammar * world))
             (dir : string) (w : world) (path : string)
    : out (option (list grammar * list (string * string)) * world) :=
    let ifile := join_path dir path in
    let w := bump w ifile in
    if Nat.leb 2 (count (w_files w) ifile) then Done (None, w)
    else
      b <~ lift (file_error ifile) (read_file ifile) ;;
      idir <~ lift (dir_error ifile) (abs_dir ifile) ;;
      ' (og, w) <~ read b ifile idir w ;;
      match og with
      | None => Done (None, w)
      | Some ig => Done (Some (ig :: g_includes ig, g_regexps ig), w)
      end.

  (** cfgrammar.go:69-86 [grammarFromString], as in ModelGrammar.v; the parser starts with no
      position and an empty map (line 73) *)
  Fixpoint m_grammar_from_string (depth : nat) (d name dir : string) (w : world)
    : out (option grammar * world) :=
    match depth with
    | O => Spent
    | S depth' =>
        if Nat.leb 2 (count (w_files w) name) then Done (None, w)
        else
          ' ((includes, w), s) <~
             m_includes_loop d name letter_hi digit_hi is_print_hi fuel
               (m_include_file (m_grammar_from_string depth') dir)
               fuel w [] (mkRp (mkRd 0 0 []) None []) ;;
          ' ((rules, frames), regexps) <~
             m_rules_part d name letter_hi digit_hi is_print_hi scan_float regexp_ok md5 hash scan_error
               fuel s ;;
          ' (g, gt) <~ lift finish_error
             (finish hash trie_accepts tokenize ascii_name ord fuel name rules frames regexps includes
                     (w_tokens w)) ;;
          Done (Some g, bump (mkW (w_files w) gt) name)
    end.

  (** cfgrammar.go:65-67 [GrammarFromString] *)
  Definition m_GrammarFromString (depth : nat) (d name : string) (gt : list (string * token))
    : out (option grammar * world) :=
    m_grammar_from_string depth d name "." (mkW [] gt).
  (** cfgrammar.go:37-47 [GrammarFromFile] *)
  Definition m_GrammarFromFile (depth : nat) (file : string) (gt : list (string * token))
    : out (option grammar * world) :=
    b <~ lift (file_error file) (read_file file) ;; dir <~ lift (dir_error file) (abs_dir file) ;;
    m_grammar_from_string depth b file dir (mkW [(file, 1)] gt).
End Construct.
