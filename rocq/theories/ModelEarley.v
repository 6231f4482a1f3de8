(** Model of /repo/earley.go: the chart parser. *)
From Verif Require Import Base ModelTypes.

(** earley.go:11 [GammaRule], U+0263 in UTF-8 *)
Definition GammaRule : string := "ɣ".

(** earley.go:19-25 [TableState]; Rb is [None] when the pointer is nil. *)
Record tstate := mkSt {
  s_term : term;
  s_rb : option rulebody;
  s_start : nat;
  s_end : nat;
  s_dot : nat
}.

(** The tokens of github.com/liuzl/ling that the code looks at: the text, the
    token type, the byte range, the index in the document, the annotations
    "lemma" and "norm", and the result of Token.String().
    (earley.go:29, local_grammar.go:20-29) *)
Inductive toktype := KWord | KPunct | KSymbol | KLetters | KSpace | KOther.
Record token := mkTok {
  tok_text : string;
  tok_type : toktype;
  tok_start : nat;
  tok_end : nat;
  tok_i : nat;
  tok_lemma : string;
  tok_norm : string;
  tok_string : string
}.

(** earley.go:28-32 [TableColumn] *)
Record column := mkCol {
  c_token : option token;
  c_index : nat;
  c_states : list tstate
}.

(** The part of types.go:16-28 [Grammar] that chart parsing reads: Rules. *)
Definition grammar_rules := list (string * rule).

(** earley.go:44-59 [TableState.Equal] on non-nil states *)
Definition state_equal (s ts : tstate) : bool :=
  if negb (Nat.eqb (s_start s) (s_start ts)) || negb (Nat.eqb (s_end s) (s_end ts))
     || negb (Nat.eqb (s_dot s) (s_dot ts)) || negb (orb_equal (s_rb s) (s_rb ts))
  then false
  else term_equal (s_term s) (s_term ts).

(** earley.go:61-69 [metaEmpty] *)
Definition meta_empty (s : tstate) : bool :=
  match t_meta (s_term s) with
  | MNil => true
  | MMap None None => true
  | _ => false
  end.

(** Go map read [meta["min"]]: 0 when the key is missing. (earley.go:76) *)
Definition mget (v : option Z) : Z := match v with Some z => z | None => 0%Z end.

(** earley.go:71-87 [isCompleted]; [Panic] is the nil dereference of s.Rb *)
Definition is_completed (s : tstate) : res bool :=
  match t_type (s_term s) with
  | TAny | TList =>
      if negb (meta_empty s) then
        match t_meta (s_term s) with
        | MMap lo hi =>
            Ret (Z.leb (mget lo) (Z.of_nat (s_dot s)) && Z.leb (Z.of_nat (s_dot s)) (mget hi))
        | _ => Ret false
        end
      else Ret (Nat.ltb 0 (s_dot s))
  | _ =>
      match s_rb s with
      | None => Panic
      | Some rb => Ret (Nat.leb (length (rb_terms rb)) (s_dot s))
      end
  end.

(** earley.go:92-96 and 99-103: the dot reached the maximum of the range *)
Definition at_max (s : tstate) : bool :=
  if negb (meta_empty s) then
    match t_meta (s_term s) with
    | MMap lo hi => Z.leb (mget hi) (Z.of_nat (s_dot s))
    | _ => false
    end
  else false.

(** earley.go:89-111 [getNextTerm]; [None] is nil *)
Definition get_next_term (s : tstate) : res (option term) :=
  match t_type (s_term s) with
  | TAny => if at_max s then Ret None else Ret (Some (s_term s))
  | TList =>
      if at_max s then Ret None
      else Ret (Some (mkTerm (t_value (s_term s)) TNonterminal (t_meta (s_term s))))
  | _ =>
      done <- is_completed s ;;
      if done : bool then Ret None
      else match s_rb s with
           | None => Panic
           | Some rb => t <- idx (rb_terms rb) (s_dot s) ;; Ret (Some t)
           end
  end.

(** earley.go:122-130: position of the first state Equal to [st], if any *)
Fixpoint find_state (l : list tstate) (st : tstate) : option nat :=
  match l with
  | [] => None
  | s :: l' => if state_equal s st then Some 0
               else match find_state l' st with Some i => Some (S i) | None => None end
  end.

(** earley.go:117-133 [insertToEnd]. The returned pointer is only used for the
    "changed" flags, which nothing reads (handleEpsilons, lines 302-316, is
    never called), so it is dropped. *)
Definition insert_to_end (col : column) (st0 : tstate) (end_ : bool) : column :=
  let st1 := mkSt (s_term st0) (s_rb st0) (s_start st0) (c_index col) (s_dot st0) in
  let st := match t_type (s_term st1) with
            | TAny => mkSt (s_term st1) (s_rb st1) (s_start st1) (s_end st1)
                           (s_end st1 - s_start st1)
            | _ => st1
            end in
  match find_state (c_states col) st with
  | Some i =>
      if end_ then
        mkCol (c_token col) (c_index col)
              (firstn i (c_states col) ++ skipn (S i) (c_states col)
               ++ match nth_error (c_states col) i with Some s => [s] | None => [] end)
      else col
  | None => mkCol (c_token col) (c_index col) (c_states col ++ [st])
  end.

(** earley.go:113-115 [insert] *)
Definition insert (col : column) (st : tstate) : column := insert_to_end col st false.

Section Chart.
  (** earley_terminal_match.go:9 [terminalMatch], see ModelMatch.v; the chart
      parser only calls it. The token is nil for column 0. *)
  Variable tmatch : term -> option token -> bool.
  (** Go's map iteration order: [ord i j k bodies] is the order in which the
      bodies of a rule of the k-th grammar are visited when row j of column i
      is processed. *)
  Variable ord : nat -> nat -> nat -> list rulebody -> list rulebody.
  (** earley.go:36 [Parse.grammars] *)
  Variable grammars : list grammar_rules.

  (** earley.go:235-252 [predict] (the function): visit all bodies of the rule *)
  Definition predict_g (i j k : nat) (g : grammar_rules) (col : column) (t : term) : column :=
    match lookup g (t_value t) with
    | None => col
    | Some r =>
        fold_left (fun c prod =>
                     insert c (mkSt (mkTerm (r_name r) TNonterminal MNil) (Some prod)
                                    (c_index c) 0 0))
                  (ord i j k (map snd (r_body r))) col
    end.

  (** earley.go:261-263: all grammars in turn *)
  Fixpoint predict_gs (i j k : nat) (gs : list grammar_rules) (col : column) (t : term) : column :=
    match gs with
    | [] => col
    | g :: gs' => predict_gs i j (S k) gs' (predict_g i j k g col t) t
    end.

  (** earley.go:254-274 [Parse.predict] *)
  Definition predict (i j : nat) (col : column) (t : term) : column :=
    match t_type t with
    | TNonterminal => predict_gs i j 0 grammars col t
    | TAny | TList => insert col (mkSt t None (c_index col) 0 0)
    | _ => col
    end.

  (** earley.go:213-233 [Parse.scan]: [col] is the next column *)
  Definition scan (col : column) (st : tstate) (t : term) : column :=
    match t_type t with
    | TAny =>
        insert col (mkSt (mkTerm "any" TAny (t_meta t)) (s_rb st) (s_start st) 0 (s_dot st + 1))
    | _ =>
        if tmatch t (c_token col) then
          insert col (mkSt (s_term st) (s_rb st) (s_start st) 0 (s_dot st + 1))
        else col
    end.

  (** earley.go:287-288: does the completed [state] advance one waiting for [next]? *)
  Definition advances (next : term) (state : tstate) : bool :=
    (ttype_eqb (t_type next) TAny && ttype_eqb (t_type (s_term state)) TAny)
    || (ttype_eqb (t_type next) (t_type (s_term state))
        && String.eqb (t_value next) (t_value (s_term state))).

  (** earley.go:282-298: the loop of complete; [sts] is the slice that the range
      statement evaluated once, so states appended meanwhile are not visited *)
  Fixpoint complete_loop (sts : list tstate) (state : tstate) (col : column) : res column :=
    match sts with
    | [] => Ret col
    | st :: sts' =>
        nx <- get_next_term st ;;
        match nx with
        | None => complete_loop sts' state col
        | Some next =>
            if advances next state then
              complete_loop sts' state
                (insert_to_end col
                   (mkSt (mkTerm (t_value (s_term st)) (t_type (s_term st)) (t_meta next))
                         (s_rb st) (s_start st) 0 (s_dot st + 1)) false)
            else complete_loop sts' state col
        end
    end.

  (** earley.go:277-300 [Parse.complete] on column number [i] *)
  Definition complete (cols : list column) (i : nat) (state : tstate) : res (list column) :=
    src <- idx cols (s_start state) ;;
    col <- idx cols i ;;
    col' <- complete_loop (c_states src) state col ;;
    Ret (update cols i col').

  (** earley.go:166-179: what happens with the next term of row j of column i *)
  Definition step_next (cols : list column) (i j : nat) (st : tstate) (t : term)
    : res (list column) :=
    let do_scan :=
      if Nat.ltb (i + 1) (length cols) then
        nxt <- idx cols (i + 1) ;;
        Ret (update cols (i + 1) (scan nxt st t))
      else Ret cols in
    match t_type (s_term st) with
    | TAny => do_scan
    | _ =>
        match t_type t with
        | TNonterminal | TAny | TList =>
            col <- idx cols i ;;
            Ret (update cols i (predict i j col t))
        | TTerminal => do_scan
        | TEOF => Ret cols
        end
    end.

  (** earley.go:157-181: one iteration of the inner loop *)
  Definition step_row (cols : list column) (i j : nat) (st : tstate) : res (list column) :=
    done <- is_completed st ;;
    cols1 <- (if done : bool then complete cols i st else Ret cols) ;;
    nx <- get_next_term st ;;
    match nx with
    | None => Ret cols1
    | Some t => step_next cols1 i j st t
    end.

  (** earley.go:156: the inner loop [for j := 0; j < len(col.states); j++] *)
  Fixpoint col_loop (fuel : nat) (cols : list column) (i j : nat) : res (list column) :=
    match fuel with
    | O => Fuel
    | S fuel' =>
        col <- idx cols i ;;
        match nth_error (c_states col) j with
        | None => Ret cols
        | Some st =>
            cols' <- step_row cols i j st ;;
            col_loop fuel' cols' i (S j)
        end
    end.

  (** earley.go:152: the outer loop over the columns i, i+1, ... (n of them) *)
  Fixpoint cols_loop (fuel : nat) (n : nat) (cols : list column) (i : nat) : res (list column) :=
    match n with
    | O => Ret cols
    | S n' =>
        cols' <- col_loop fuel cols i 0 ;;
        cols_loop fuel n' cols' (S i)
    end.

  (** earley.go:145-149: the begin state of one start rule *)
  Definition begin_state (start : string) : tstate :=
    mkSt (mkTerm GammaRule TNonterminal MNil)
         (Some (mkRb [mkTerm start TNonterminal MNil]
                     (Some (FMR "nf.I" [Arg "index" (VIdx 1)]))))
         0 0 0.

  (** earley.go:199-207: the completed gamma states of one column, as references
      (column, row) *)
  Fixpoint col_finals (i j : nat) (sts : list tstate) : res (list (nat * nat)) :=
    match sts with
    | [] => Ret []
    | s :: sts' =>
        if String.eqb (t_value (s_term s)) GammaRule then
          done <- is_completed s ;;
          rest <- col_finals i (S j) sts' ;;
          Ret (if done : bool then (i, j) :: rest else rest)
        else col_finals i (S j) sts'
    end.

  (** earley.go:198-208: from the last of the first [n] columns down to column 0 *)
  Fixpoint all_finals (n : nat) (cols : list column) : res (list (nat * nat)) :=
    match n with
    | O => Ret []
    | S i =>
        col <- idx cols i ;;
        here <- col_finals i 0 (c_states col) ;;
        rest <- all_finals i cols ;;
        Ret (here ++ rest)
    end.

  (** earley.go:140-211 [Parse.parse]: fills the columns and selects the final
      states; with maxFlag only the first one found is kept. *)
  Definition parse (fuel : nat) (max_flag : bool) (starts : list string) (cols : list column)
    : res (list column * list (nat * nat)) :=
    match starts with
    | [] => Ret (cols, [])
    | _ =>
        c0 <- idx cols 0 ;;
        let c0' := mkCol (c_token c0) (c_index c0) (c_states c0 ++ map begin_state starts) in
        cols' <- cols_loop fuel (length cols) (update cols 0 c0') 0 ;;
        fs <- all_finals (length cols') cols' ;;
        Ret (cols', if max_flag then firstn 1 fs else fs)
    end.

  (** api.go:170-174: the initial columns for a token sequence *)
  Fixpoint token_columns (n : nat) (toks : list token) : list column :=
    match toks with
    | [] => []
    | t :: toks' => mkCol (Some t) n [] :: token_columns (S n) toks'
    end.
  (** api.go:170-174: one column more than tokens *)
  Definition init_columns (toks : list token) : list column :=
    mkCol None 0 [] :: token_columns 1 toks.

  (** api.go:154-180 [earleyParse] (after the emptiness checks) *)
  Definition earley_parse (fuel : nat) (max_flag : bool) (toks : list token)
             (starts : list string) : res (list column * list (nat * nat)) :=
    match starts with
    | [] => Err
    | _ => match toks with
           | [] => Err
           | _ => parse fuel max_flag starts (init_columns toks)
           end
    end.
End Chart.
