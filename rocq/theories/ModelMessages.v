(** Model of the error values of the parsing calls, of Eval and Semantic, of the
    frames and of TermType.UnmarshalJSON: the functions of ModelApi.v, ModelSem.v,
    ModelFrames.v, ModelContext.v and ModelTermType.v once more, with the messages
    (api.go, earley_eval.go, earley_fmr.go, frame_api.go, termtype_jsonenums.go).
    That both models do the same is proved in ProofMessages.v. *)
From Verif Require Import Base ModelTypes ModelText ModelQuote ModelEarley ModelTrees ModelApi ModelSem
  ModelReader ModelGrammar ModelLocal ModelFrames ModelContext ModelTermType.
Local Open Scope list_scope.

(** An error value: made in this package by fmt.Errorf (api.go:157-219, earley_eval.go:25-108,
    earley_fmr.go:30-114, frame_api.go:64, 101, termtype_jsonenums.go:57, 61), or one of another
    package that is passed on (api.go:189, 197, 204, 207, 223; frame_api.go:94; funcs.go:19). *)
Inductive message := Ours (text : string) | Theirs (text : string).

(** What a call does: return a value, return an error, panic, not end (api.go:49-152) *)
Inductive told (A : Type) : Type :=
| Gives (a : A)
| Refuses (m : message)
| Dies
| Hangs.
Arguments Gives {A} _.
Arguments Refuses {A} _.
Arguments Dies {A}.
Arguments Hangs {A}.

(** if err != nil { return nil, err } (api.go:58-60 and after every other call) *)
Definition tbind {A B} (x : told A) (f : A -> told B) : told B :=
  match x with
  | Gives a => f a
  | Refuses m => Refuses m
  | Dies => Dies
  | Hangs => Hangs
  end.
Notation "x <~ e ;; k" := (tbind e (fun x => k)) (at level 100, e at next level, right associativity).
Notation "' p <~ e ;; k" := (tbind e (fun p => k)) (at level 100, p pattern, e at next level, right associativity).

(** A call of something that has no message of its own: the message of its error, if it has
    one (funcs.go:18-20, frame_api.go:92-95) *)
Definition with_message {A} (m : message) (x : res A) : told A :=
  match x with
  | Ret a => Gives a
  | Err => Refuses m
  | Panic => Dies
  | Fuel => Hangs
  end.
(** A call that returns no error value at all (node_methods.go:12-51, earley.go:150-197, earley_ast.go:43-52);
    that no error comes out of these is proved in ProofMessages.v *)
Definition no_error {A} (x : res A) : told A := with_message (Ours "") x.

(** The outcome without the message (err != nil: api.go:58, earley_eval.go:92) *)
Definition erase {A} (x : told A) : res A :=
  match x with
  | Gives a => Ret a
  | Refuses _ => Err
  | Dies => Panic
  | Hangs => Fuel
  end.

(** ** Eval and Semantic *)

(** earley_eval.go:25, earley_fmr.go:30 *)
Definition m_identity : message := Ours "the length of Args of nf.I should be one".
(** earley_eval.go:79, earley_fmr.go:81 *)
Definition m_range (i : Z) (n : nat) : message :=
  Ours ("i=" ++ dec_Z i ++ " not in range [0, " ++ dec_N (N.of_nat n) ++ "]").
(** earley_eval.go:108, earley_fmr.go:114 *)
Definition m_type (ty : string) : message := Ours ("arg.Type: " ++ ty ++ " invalid").

Section Sem.
  Variable p : parse_t.
  Variable join_words : list string -> string.
  Variable float_string : bigf -> string.
  Variable json : dval -> string.
  Variable is_print_hi : rune -> bool.
  Variable call : string -> list dval -> res dval.
  (** the message of a failing Call (funcs.go:18-20): external *)
  Variable call_says : string -> list dval -> string.
  (** fmt.Sprintf("%+v", arg.Value) (earley_eval.go:57): external *)
  Variable show : argval -> string.

  (** earley_eval.go:57, 62, 67, 72, 76; earley_fmr.go:59, 64, 69, 74, 78 *)
  Definition m_kind (v : argval) (kind : string) : message :=
    Ours ("arg.Value: " ++ show v ++ " is not " ++ kind).

  (** earley_eval.go:19-46 [fmrEval] and 48-110 [semEval] *)
  Fixpoint fmr_eval_m (nl : res string) (evs : list (told dval)) (ctx : res dval) (f : fmr) {struct f}
    : told dval :=
    match f with
    | FMR fn args =>
        if String.eqb fn "nf.I" then
          match args with
          | [a] => arg_eval_m nl evs ctx a
          | _ => Refuses m_identity
          end
        else
          vs <~ (fix go (l : list arg) : told (list dval) :=
                   match l with
                   | [] => Gives []
                   | a :: l' => v <~ arg_eval_m nl evs ctx a ;; vs <~ go l' ;; Gives (v :: vs)
                   end) args ;;
          with_message (Theirs (call_says fn vs)) (call fn vs)
    end
  with arg_eval_m (nl : res string) (evs : list (told dval)) (ctx : res dval) (a : arg) {struct a}
    : told dval :=
    match a with
    | Arg ty v =>
        if String.eqb ty "string" then
          match v with VStr s => Gives (DStr s) | _ => Refuses (m_kind v "string") end
        else if String.eqb ty "int" then
          match v with VInt z => Gives (DStr (dec_Z z)) | _ => Refuses (m_kind v "int") end
        else if String.eqb ty "float" then
          match v with VFloat x => Gives (DStr (float_string x)) | _ => Refuses (m_kind v "float") end
        else if String.eqb ty "func" then
          match v with VFunc f => fmr_eval_m nl evs ctx f | _ => Refuses (m_kind v "func") end
        else if String.eqb ty "index" then
          match v with
          | VIdx i =>
              if Z.ltb i 0 || Z.ltb (Z.of_nat (length evs)) i then Refuses (m_range i (length evs))
              else if Z.eqb i 0 then (t <~ no_error nl ;; Gives (DStr t))
              else (e <~ no_error (idx evs (Z.to_nat (i - 1))) ;; e)
          | _ => Refuses (m_kind v "index")
          end
        else if String.eqb ty "context" then no_error ctx
        else Refuses (m_type ty)
    end.

  (** earley_eval.go:9-17 [Eval] *)
  Fixpoint eval_m (n : node) : told dval :=
    match n with
    | Node v ch =>
        let plain := (t <~ no_error (original_text p n) ;; Gives (DStr t)) in
        match s_rb v with
        | None => plain
        | Some b =>
            match rb_f b with
            | None => plain
            | Some f =>
                let evs := map eval_m ch in
                fmr_eval_m (node_nl p join_words n) evs (context_value p n ch (map erase evs)) f
            end
        end
    end.

  (** earley_fmr.go:24-48 [fmrStr] and 50-116 [semStr] *)
  Fixpoint fmr_str_m (nl : string) (sems : list (option (told string))) (ctx : res dval) (f : fmr) {struct f}
    : told string :=
    match f with
    | FMR fn args =>
        if String.eqb fn "nf.I" then
          match args with
          | [a] => sem_str_m nl sems ctx a
          | _ => Refuses m_identity
          end
        else
          ss <~ (fix go (l : list arg) : told (list string) :=
                   match l with
                   | [] => Gives []
                   | a :: l' => s <~ sem_str_m nl sems ctx a ;; ss <~ go l' ;; Gives (s :: ss)
                   end) args ;;
          Gives (fn ++ "(" ++ join ", " ss ++ ")")%string
    end
  with sem_str_m (nl : string) (sems : list (option (told string))) (ctx : res dval) (a : arg) {struct a}
    : told string :=
    match a with
    | Arg ty v =>
        if String.eqb ty "string" then
          match v with VStr s => Gives (quote is_print_hi s) | _ => Refuses (m_kind v "string") end
        else if String.eqb ty "int" then
          match v with VInt z => Gives (dec_Z z) | _ => Refuses (m_kind v "int") end
        else if String.eqb ty "float" then
          match v with VFloat x => Gives (float_string x) | _ => Refuses (m_kind v "float") end
        else if String.eqb ty "func" then
          match v with VFunc f => fmr_str_m nl sems ctx f | _ => Refuses (m_kind v "func") end
        else if String.eqb ty "index" then
          match v with
          | VIdx i =>
              if Z.ltb i 0 || Z.ltb (Z.of_nat (length sems)) i then Refuses (m_range i (length sems))
              else if Z.eqb i 0 then Gives nl
              else (c <~ no_error (idx sems (Z.to_nat (i - 1))) ;;
                    match c with None => Gives "null" | Some r => r end)
          | _ => Refuses (m_kind v "index")
          end
        else if String.eqb ty "context" then (c <~ no_error ctx ;; Gives (json c))
        else Refuses (m_type ty)
    end.

  (** earley_fmr.go:12-22 [Semantic]. The value of @ is made with Eval, whose messages are
      dropped (earley_fmr.go:97-99). *)
  Fixpoint semantic_m (n : node) : told string :=
    match n with
    | Node v ch =>
        t <~ no_error (node_nl p join_words n) ;;
        let nl := quote is_print_hi t in
        match s_rb v with
        | None => Gives nl
        | Some b =>
            match rb_f b with
            | None => Gives nl
            | Some f => fmr_str_m nl (map (fun c => Some (semantic_m c)) ch)
                          (context_value p n ch (map (eval p join_words float_string call) ch)) f
            end
        end
    end.
End Sem.

(** ** The parsing calls *)

Section Api.
  Variable tmatch : term -> option token -> bool.
  Variable ords : nat -> order.
  Variable gs : list grammar_rules.
  Variable text : string.

  (** api.go:154-180 [earleyParse] *)
  Definition earley_parse_m (fuel n : nat) (max_flag : bool) (toks : list token) (starts : list string)
    : told parse_t :=
    match starts with
    | [] => Refuses (Ours "no start rules")
    | _ =>
        match toks with
        | [] => Refuses (Ours "no tokens to parse")
        | _ =>
            '(cols, fs) <~ no_error (parse tmatch (ords n) gs fuel max_flag starts (init_columns toks)) ;;
            Gives (mkParse text cols fs)
        end
    end.

  (** api.go:79-89 *)
  Fixpoint any_loop_m (fuel n : nat) (toks : list token) (starts : list string)
           (p : option parse_t) : told (option parse_t) :=
    match toks with
    | [] => Gives p
    | _ :: toks' =>
        q <~ earley_parse_m fuel n true toks starts ;;
        if has_finals q then Gives (Some q) else any_loop_m fuel (S n) toks' starts (Some q)
    end.

  (** api.go:105-124 *)
  Fixpoint max_all_loop_m (steps fuel n : nat) (toks : list token) (starts : list string)
    : told (list parse_t) :=
    match steps with
    | O => Hangs
    | S steps' =>
        match toks with
        | [] => Gives []
        | _ :: toks' =>
            p <~ earley_parse_m fuel n true toks starts ;;
            if has_finals p then
              m <~ no_error (max_end p (p_finals p) 0) ;;
              rest <~ max_all_loop_m steps' fuel (S n) (skipn m toks) starts ;;
              Gives (p :: rest)
            else max_all_loop_m steps' fuel (S n) toks' starts
        end
    end.

  (** api.go:140-151 *)
  Fixpoint all_loop_m (fuel n : nat) (toks : list token) (starts : list string)
    : told (list parse_t) :=
    match toks with
    | [] => Gives []
    | _ :: toks' =>
        p <~ earley_parse_m fuel n false toks starts ;;
        rest <~ all_loop_m fuel (S n) toks' starts ;;
        Gives (if has_finals p then p :: rest else rest)
    end.
End Api.

Section Calls.
  Variable tmatch : term -> option token -> bool.
  Variable ords : nat -> order.
  Variable gs : list grammar_rules.
  (** api.go:187-210, with the error that is returned *)
  Variable annotate : string -> string -> told (list token).
  (** api.go:221-224 *)
  Variable local_grammar : list token -> told (option grammar_rules).

  (** api.go:182-226 [process] *)
  Definition process_m (ctx text : string) : told (list token * option grammar_rules) :=
    let t := trim_space text in
    if String.eqb t "" then Refuses (Ours "text is empty")
    else
      doc <~ annotate ctx t ;;
      let toks := filter (fun k => match tok_type k with KSpace => false | _ => true end) doc in
      match toks with
      | [] => Refuses (Ours "no tokens")
      | _ => l <~ local_grammar doc ;; Gives (toks, l)
      end.

  (** api.go:55-62 [EarleyParseWithContext] *)
  Definition EarleyParse_m (fuel : nat) (ctx text : string) (starts : list string) : told parse_t :=
    '(toks, l) <~ process_m ctx text ;;
    earley_parse_m tmatch ords (with_local gs l) text fuel 0 true toks starts.
  (** api.go:72-90 *)
  Definition EarleyParseAny_m (fuel : nat) (ctx text : string) (starts : list string)
    : told (option parse_t) :=
    '(toks, l) <~ process_m ctx text ;;
    any_loop_m tmatch ords (with_local gs l) text fuel 0 toks starts None.
  (** api.go:99-125 *)
  Definition EarleyParseMaxAll_m (steps fuel : nat) (ctx text : string) (starts : list string)
    : told (list parse_t) :=
    '(toks, l) <~ process_m ctx text ;;
    max_all_loop_m tmatch ords (with_local gs l) text steps fuel 0 toks starts.
  (** api.go:134-152 *)
  Definition EarleyParseAll_m (fuel : nat) (ctx text : string) (starts : list string)
    : told (list parse_t) :=
    '(toks, l) <~ process_m ctx text ;;
    all_loop_m tmatch ords (with_local gs l) text fuel 0 toks starts.

  (** api_easy_context.go:4-14 (and api_easy.go:4-12) *)
  Definition Parse_m (fuel : nat) (ctx text : string) (starts : list string) :=
    p <~ EarleyParse_m fuel ctx text starts ;; no_error (extract_parses fuel [p]).
  (** api_easy_context.go:17-27 *)
  Definition ParseAny_m (fuel : nat) (ctx text : string) (starts : list string) :=
    p <~ EarleyParseAny_m fuel ctx text starts ;;
    match p with None => Dies | Some p => no_error (extract_parses fuel [p]) end.
  (** api_easy_context.go:30-34 *)
  Definition ExtractMaxAll_m (steps fuel : nat) (ctx text : string) (starts : list string) :=
    ps <~ EarleyParseMaxAll_m steps fuel ctx text starts ;; no_error (extract_parses fuel ps).
  (** api_easy_context.go:37-41 *)
  Definition ExtractAll_m (fuel : nat) (ctx text : string) (starts : list string) :=
    ps <~ EarleyParseAll_m fuel ctx text starts ;; no_error (extract_parses fuel ps).
End Calls.

Section Context.
  Variable address tagger : Type.
  Variable parse_uri : string -> option (address * string).
  Variable uri_string : address -> string -> string.
  Variable api_tagger : string -> option tagger.
  Variable annotate_plain : string -> res document.
  Variable annotate_pro : tagger -> string -> res document.
  Variable ctx_tagger : string.
  (** the messages of url.ParseRequestURI, ling.NewAPITagger, Annotate and AnnotatePro: external
      (api.go:189, 197, 204, 207) *)
  Variable uri_says tagger_says plain_says : string -> string.
  Variable pro_says : tagger -> string -> string.

  (** api.go:186-210 *)
  Definition context_annotate_m (ctx text : string) : told document :=
    if String.eqb ctx "" then with_message (Theirs (plain_says text)) (annotate_plain text)
    else if String.eqb ctx_tagger "" then Refuses (Ours "ctxTagger should be supplied")
    else match parse_uri ctx_tagger with
    | None => Refuses (Theirs (uri_says ctx_tagger))
    | Some (a, raw) =>
        let url := uri_string a (encode_query (set_value (parse_query raw) "context" ctx)) in
        match api_tagger url with
        | None => Refuses (Theirs (tagger_says url))
        | Some t => with_message (Theirs (pro_says t text)) (annotate_pro t text)
        end
    end.
End Context.
(** api.go:187-210: the tokens of the document *)
Definition doc_tokens_m (annotate : string -> string -> told document) (ctx text : string) : told (list token) :=
  d <~ annotate ctx text ;; Gives (d_tokens d).
(** api.go:221: the local grammar of the same document; its errors are those of hashstructure,
    which does not fail (see ModelLocal.v) *)
Definition doc_local_m hash find_all span_text regexps ord (annotate : string -> string -> told document)
           (ctx text : string) (_ : list token) : told (option grammar_rules) :=
  d <~ annotate ctx (trim_space text) ;; no_error (local_grammar hash find_all span_text regexps ord d).

(** ** Frames *)

Section Frames.
  Variable g : grammar.
  Variable key : term -> N.
  Variable multi_match : list string -> string -> res (list (string * list (nat * nat))).
  (** the message of a failing MultiMatch (frame_api.go:93-95): external *)
  Variable trie_says : string -> string.
  Variable fo : frame_orders.

  (** frame_api.go:98-120 *)
  Fixpoint words_loop_m (ms : list (string * list (nat * nat))) (fs : frames) (rules : list string)
    : told (frames * list string) :=
    match ms with
    | [] => Gives (fs, rules)
    | (w, hits) :: ms' =>
        match lookup (g_index g) w with
        | None => Refuses (Ours (w ++ " in trie but not in index"))
        | Some i =>
            fs' <~ no_error (fill_all g (key (mkTerm w TTerminal MNil))
                               (map (fun h => mkSlot (fst h) (snd h) []) hits)
                               (fo_frames fo w (ix_frames i)) fs) ;;
            words_loop_m ms' fs'
              (fold_left (fun rs v => set_add String.eqb rs (fst v)) (fo_rules fo w (ix_rules i)) rules)
        end
    end.

  (** frame_api.go:89-148 [getCandidates] *)
  Definition get_candidates_m (fuel : nat) (text : string) : told (frames * list string) :=
    matches <~ with_message (Theirs (trie_says text)) (multi_match (g_trie g) text) ;;
    '(fs, rules) <~ words_loop_m (fo_matches fo matches) [] [] ;;
    rules' <~ no_error (closure g fo fuel (fo_queue fo rules) rules) ;;
    Gives (fs, fo_starts fo rules').

  (** frame_api.go:58-84 *)
  Fixpoint finals_loop_m (fuel i j : nat) (p : parse_t) (refs : list (nat * nat)) (fs : frames)
    : told frames :=
    match refs with
    | [] => Gives fs
    | ref :: refs' =>
        s <~ no_error (p_state p ref) ;;
        tg <~ no_error (tag s) ;;
        '(a, b) <~ no_error (boundary p s) ;;
        ts <~ no_error (get_trees (p_columns p) fuel ref) ;;
        if String.eqb tg "" then Refuses (Ours "invalid parse")
        else
          match lookup (g_rule_index g) tg with
          | None => finals_loop_m fuel i (S j) p refs' fs
          | Some ix =>
              fs' <~ no_error (fill_all g (key (mkTerm tg TNonterminal MNil))
                                 [mkSlot a b (map (fun t => (p, t)) ts)]
                                 (fo_tag fo i j (ix_frames ix)) fs) ;;
              finals_loop_m fuel i (S j) p refs' fs'
          end
    end.
  (** frame_api.go:57-85 *)
  Fixpoint parses_loop_m (fuel i : nat) (ps : list parse_t) (fs : frames) : told frames :=
    match ps with
    | [] => Gives fs
    | p :: ps' =>
        fs' <~ finals_loop_m fuel i 0 p (p_finals p) fs ;; parses_loop_m fuel (S i) ps' fs'
    end.

  Variable tmatch : term -> option token -> bool.
  Variable ords : nat -> order.
  Variable annotate : string -> string -> told (list token).
  Variable local_grammar : list token -> told (option grammar_rules).

  (** frame_api.go:47-87 [MatchFramesWithContext] *)
  Definition MatchFrames_m (fuel : nat) (ctx text : string) : told frames :=
    '(fs, starts) <~ get_candidates_m fuel text ;;
    ps <~ EarleyParseAll_m tmatch ords (all_rules g) annotate local_grammar fuel ctx text starts ;;
    parses_loop_m fuel 0 ps fs.

  Variable join_words : list string -> string.
  Variable float_string : bigf -> string.
  Variable json : dval -> string.
  Variable is_print_hi : rune -> bool.
  Variable call : string -> list dval -> res dval.
  Variable call_says : string -> list dval -> string.
  Variable show : argval -> string.

  (** frame_api.go:18-37 *)
  Definition frame_string_m (vf : rbkey * frame) : told string :=
    b <~ no_error (frame_body g (fst vf)) ;;
    match rb_f b with
    | None => Gives ""
    | Some f =>
        fmr_str_m float_string json is_print_hi show ""
          (map (fun t => option_map (fun pn =>
                  semantic_m (fst pn) join_words float_string json is_print_hi call show (snd pn))
                  (child key (fr_slots (snd vf)) t)) (rb_terms b))
          Panic f
    end.
  (** the loop of frame_api.go:19-37 *)
  Fixpoint sequence_m {A} (l : list (told A)) : told (list A) :=
    match l with
    | [] => Gives []
    | r :: l' => a <~ r ;; rest <~ sequence_m l' ;; Gives (a :: rest)
    end.
  (** frame_api.go:13-39 [FrameFMRWithContext] *)
  Definition FrameFMR_m (fuel : nat) (ctx text : string) : told (list string) :=
    fs <~ MatchFrames_m fuel ctx text ;;
    sequence_m (map frame_string_m (fo_result fo fs)).
End Frames.

(** ** TermType *)

Section Json.
  Variable json_unmarshal : string -> res string.
  Variable is_print_hi : rune -> bool.
  (** termtype_jsonenums.go:54-65 [UnmarshalJSON] *)
  Definition tt_unmarshal_m (data : string) : told N :=
    s <~ with_message (Ours ("TermType should be a string, got " ++ data)) (json_unmarshal data) ;;
    table <~ no_error tt_name_to_value ;;
    match lookup table s with
    | None => Refuses (Ours ("invalid TermType " ++ quote is_print_hi s))
    | Some v => Gives v
    end.
End Json.
