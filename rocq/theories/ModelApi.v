(** Model of /repo/api.go, api_easy.go, api_easy_context.go and the accessors of
    earley_ast.go: the public parsing calls. *)
From Verif Require Import Base ModelTypes ModelText ModelEarley ModelTrees.

(** earley.go:35-41 [Parse]; the grammars and starts are not read after parsing.
    Final states are references (column, row) into the chart: the code keeps
    pointers to the chart's states. *)
Record parse_t := mkParse {
  p_text : string;
  p_columns : list column;
  p_finals : list (nat * nat)
}.

(** the state a reference points to (earley.go:40) *)
Definition p_state (p : parse_t) (ref : nat * nat) : res tstate :=
  col <- idx (p_columns p) (fst ref) ;; idx (c_states col) (snd ref).

(** The order of the range statement of earley.go:241, at one place of the parse *)
Definition order := nat -> nat -> nat -> list rulebody -> list rulebody.

Section Api.
  Variable tmatch : term -> option token -> bool.
  (** the map order used during the n-th parse of a call *)
  Variable ords : nat -> order.
  (** api.go:163-169: the main grammar, its includes and the local grammar *)
  Variable gs : list grammar_rules.
  Variable text : string.

  (** api.go:154-180 [earleyParse]; [n] counts the parses made by one API call *)
  Definition earley_parse_n (fuel n : nat) (max_flag : bool) (toks : list token)
             (starts : list string) : res parse_t :=
    '(cols, fs) <- earley_parse tmatch (ords n) gs fuel max_flag toks starts ;;
    Ret (mkParse text cols fs).

  (** p.finalStates != nil (api.go:85, 111, 146) *)
  Definition has_finals (p : parse_t) : bool :=
    match p_finals p with [] => false | _ => true end.

  (** api.go:79-89: the loop of EarleyParseAny; [p] is the variable of the same
      name, [None] before the first iteration (nil) *)
  Fixpoint any_loop (fuel n : nat) (toks : list token) (starts : list string)
           (p : option parse_t) : res (option parse_t) :=
    match toks with
    | [] => Ret p
    | _ :: toks' =>
        q <- earley_parse_n fuel n true toks starts ;;
        if has_finals q then Ret (Some q) else any_loop fuel (S n) toks' starts (Some q)
    end.

  (** api.go:113-118: the largest End of the final states *)
  Fixpoint max_end (p : parse_t) (refs : list (nat * nat)) (m : nat) : res nat :=
    match refs with
    | [] => Ret m
    | ref :: refs' =>
        s <- p_state p ref ;;
        max_end p refs' (if Nat.ltb m (s_end s) then s_end s else m)
    end.

  (** api.go:105-124: the loop of EarleyParseMaxAll; [steps] is the step budget
      of the loop, [toks] are the tokens from position i on *)
  Fixpoint max_all_loop (steps fuel n : nat) (toks : list token) (starts : list string)
    : res (list parse_t) :=
    match steps with
    | O => Fuel
    | S steps' =>
        match toks with
        | [] => Ret []
        | _ :: toks' =>
            p <- earley_parse_n fuel n true toks starts ;;
            if has_finals p then
              m <- max_end p (p_finals p) 0 ;;
              rest <- max_all_loop steps' fuel (S n) (skipn m toks) starts ;;
              Ret (p :: rest)
            else max_all_loop steps' fuel (S n) toks' starts
        end
    end.

  (** api.go:140-151: the loop of EarleyParseAll *)
  Fixpoint all_loop (fuel n : nat) (toks : list token) (starts : list string)
    : res (list parse_t) :=
    match toks with
    | [] => Ret []
    | _ :: toks' =>
        p <- earley_parse_n fuel n false toks starts ;;
        rest <- all_loop fuel (S n) toks' starts ;;
        Ret (if has_finals p then p :: rest else rest)
    end.
End Api.

(** earley_ast.go:22-32 [Boundary] on a non-nil state *)
Definition boundary (p : parse_t) (s : tstate) : res (nat * nat) :=
  c1 <- idx (p_columns p) (s_start s + 1) ;;
  match c_token c1 with
  | None => Panic
  | Some t1 =>
      c2 <- idx (p_columns p) (s_end s) ;;
      match c_token c2 with
      | None => Panic
      | Some t2 =>
          let st := tok_start t1 in
          let e := if Nat.ltb (tok_end t2) st then st else tok_end t2 in
          Ret (st, e)
      end
  end.

(** earley_ast.go:35-40 [Tag] on a non-nil state *)
Definition tag (s : tstate) : res string :=
  match s_rb s with
  | None => Panic
  | Some b => t <- idx (rb_terms b) 0 ;; Ret (t_value t)
  end.

(** api_easy.go:44-48: all trees of all final states of all parses, in order *)
Fixpoint extract_finals (fuel : nat) (cols : list column) (refs : list (nat * nat))
  : res (list (node)) :=
  match refs with
  | [] => Ret []
  | ref :: refs' =>
      ts <- get_trees cols fuel ref ;;
      rest <- extract_finals fuel cols refs' ;;
      Ret (ts ++ rest)
  end.
(** the nodes keep a pointer to their Parse; here they are paired with it
    (api_easy.go:43-49) *)
Fixpoint extract_parses (fuel : nat) (ps : list parse_t) : res (list (parse_t * node)) :=
  match ps with
  | [] => Ret []
  | p :: ps' =>
      ts <- extract_finals fuel (p_columns p) (p_finals p) ;;
      rest <- extract_parses fuel ps' ;;
      Ret (map (fun t => (p, t)) ts ++ rest)
  end.

(** What the calls share: the document, the local grammar, the map orders. *)
Section Calls.
  Variable tmatch : term -> option token -> bool.
  Variable ords : nat -> order.
  (** api.go:163-166: g and its includes *)
  Variable gs : list grammar_rules.
  (** api.go:187-210: tokenizing the trimmed text with the NLP pipeline and the
      taggers; external *)
  Variable annotate : string -> string -> res (list token).
  (** api.go:221 [localGrammar], see ModelLocal.v *)
  Variable local_grammar : list token -> res (option grammar_rules).

  (** api.go:182-226 [process] *)
  Definition process (ctx text : string) : res (list token * option grammar_rules) :=
    let t := trim_space text in
    if String.eqb t "" then Err
    else
      doc <- annotate ctx t ;;
      let toks := filter (fun k => match tok_type k with KSpace => false | _ => true end) doc in
      match toks with
      | [] => Err
      | _ => l <- local_grammar doc ;; Ret (toks, l)
      end.

  (** api.go:163-169: the list of grammars of a parse *)
  Definition with_local (l : option grammar_rules) : list grammar_rules :=
    match l with None => gs | Some g => gs ++ [g] end.

  (** api.go:55-62 [EarleyParseWithContext]; the calls without context pass "" *)
  Definition EarleyParse (fuel : nat) (ctx text : string) (starts : list string) : res parse_t :=
    '(toks, l) <- process ctx text ;;
    earley_parse_n tmatch ords (with_local l) text fuel 0 true toks starts.

  (** api.go:72-90 *)
  Definition EarleyParseAny (fuel : nat) (ctx text : string) (starts : list string)
    : res (option parse_t) :=
    '(toks, l) <- process ctx text ;;
    any_loop tmatch ords (with_local l) text fuel 0 toks starts None.

  (** api.go:99-125 *)
  Definition EarleyParseMaxAll (steps fuel : nat) (ctx text : string) (starts : list string)
    : res (list parse_t) :=
    '(toks, l) <- process ctx text ;;
    max_all_loop tmatch ords (with_local l) text steps fuel 0 toks starts.

  (** api.go:134-152 *)
  Definition EarleyParseAll (fuel : nat) (ctx text : string) (starts : list string)
    : res (list parse_t) :=
    '(toks, l) <- process ctx text ;;
    all_loop tmatch ords (with_local l) text fuel 0 toks starts.

  (** api_easy_context.go:4-14 (and api_easy.go:4-12) *)
  Definition Parse (fuel : nat) (ctx text : string) (starts : list string) :=
    p <- EarleyParse fuel ctx text starts ;; extract_parses fuel [p].

  (** api_easy_context.go:17-27. A nil Parse would be dereferenced by
      GetFinalStates; it is only returned for an empty token list, which
      process excludes. *)
  Definition ParseAny (fuel : nat) (ctx text : string) (starts : list string) :=
    p <- EarleyParseAny fuel ctx text starts ;;
    match p with None => Panic | Some p => extract_parses fuel [p] end.

  (** api_easy_context.go:30-34 *)
  Definition ExtractMaxAll (steps fuel : nat) (ctx text : string) (starts : list string) :=
    ps <- EarleyParseMaxAll steps fuel ctx text starts ;; extract_parses fuel ps.

  (** api_easy_context.go:37-41 *)
  Definition ExtractAll (fuel : nat) (ctx text : string) (starts : list string) :=
    ps <- EarleyParseAll fuel ctx text starts ;; extract_parses fuel ps.
End Calls.
