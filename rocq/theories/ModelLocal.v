(** Model of /repo/local_grammar.go and /repo/regexp_tagger.go: the grammar made
    from the document of one call. *)
From Verif Require Import Base ModelTypes ModelText ModelEarley ModelTrees ModelApi ModelReader ModelGrammar.

(** One entry of a span's annotation "value": a []interface{}, whose items are
    JSON values, or anything else. (local_grammar.go:58-61) *)
Inductive entry := EList (items : list argval) | EOther.

(** github.com/liuzl/ling [Span], as far as the code looks at it: the token
    range, the annotation "value" ([None] when it is missing or not a map), and
    the result of String(). The document of a span is the one it is found in.
    (local_grammar.go:45-57) *)
Record span := mkSpan { sp_start : nat; sp_end : nat; sp_value : option (list (string * entry)); sp_string : string }.

(** github.com/liuzl/ling [Document] (local_grammar.go:10, api.go:187) *)
Record document := mkDoc { d_text : string; d_tokens : list token; d_spans : list span }.

Section Local.
  (** hashstructure.Hash of a rule body: external *)
  Variable hash : rulebody -> N.
  (** re.FindAllStringIndex for the pattern; [None] when the pattern does not
      compile: external (regexp) *)
  Variable find_all : string -> string -> option (list (nat * nat)).
  (** ling [Span.String] of the tokens from one index to another: external *)
  Variable span_text : document -> nat -> nat -> string.
  (** types.go:22 Grammar.Regexps, in the order of the range statement of
      regexp_tagger.go:13 *)
  Variable regexps : list (string * string).
  (** the order of the range statement of local_grammar.go:58, per span *)
  Variable ord : nat -> list (string * entry) -> list (string * entry).

  (** regexp_tagger.go:20-29: the last token that starts, or ends, at a byte
      position; [None] is -1 *)
  Definition starting_at (toks : list token) (b : nat) : option nat :=
    fold_left (fun r k => if Nat.eqb (tok_start k) b then Some (tok_i k) else r) toks None.
  (** regexp_tagger.go:25-28: the same for the end *)
  Definition ending_at (toks : list token) (b : nat) : option nat :=
    fold_left (fun r k => if Nat.eqb (tok_end k) b then Some (tok_i k + 1) else r) toks None.

  (** regexp_tagger.go:19-36: the span for one match *)
  Definition match_span (d : document) (typ : string) (m : nat * nat) : list span :=
    match starting_at (d_tokens d) (fst m), ending_at (d_tokens d) (snd m) with
    | Some s, Some e => [mkSpan s e (Some [(typ, EOther)]) (span_text d s e)]
    | _, _ => []
    end.
  (** regexp_tagger.go:8-39 [regexpTag]: the spans it appends. (The early return
      of line 9 changes nothing: without tokens no match has a span.) *)
  Definition regexp_spans (d : document) : list span :=
    flat_map (fun kv => match find_all (snd kv) (d_text d) with
                        | None => []
                        | Some ms => flat_map (match_span d (fst kv)) ms
                        end) regexps.

  (** local_grammar.go:20-30: the name of a token class *)
  Definition class_name (k : toktype) : string :=
    match k with
    | KWord => "word" | KPunct => "punct" | KSymbol => "symbol" | KLetters => "letters" | _ => ""
    end.

  (** local_grammar.go:38-42 and 77-81: l.Rules[k].Body[hash] = rb *)
  Definition add_body (rules : grammar_rules) (k : string) (b : rulebody) : grammar_rules :=
    match lookup rules k with
    | Some r => put rules k (mkRule (r_name r) (put_N (r_body r) (hash b) b))
    | None => put rules k (mkRule k [(hash b, b)])
    end.

  (** local_grammar.go:18-44 *)
  Definition add_token (rules : grammar_rules) (k : token) : grammar_rules :=
    let name := class_name (tok_type k) in
    if String.eqb name "" then rules
    else add_body rules name (mkRb [mkTerm (tok_string k) TTerminal MNil] None).

  (** local_grammar.go:54-57: the texts of the tokens s, ..., s+n-1, Space
      tokens included; an index out of range panics *)
  Fixpoint span_terms (toks : list token) (s n : nat) : res (list term) :=
    match n with
    | O => Ret []
    | S n' =>
        k <- idx toks s ;; rest <- span_terms toks (S s) n' ;;
        Ret (mkTerm (tok_text k) TTerminal MNil :: rest)
    end.
  (** local_grammar.go:59-72: the body for one entry *)
  Definition entry_body (sp : span) (terms : list term) (kv : string * entry) : rulebody :=
    match snd kv with
    | EOther => mkRb terms None
    | EList items =>
        mkRb terms
          (Some (FMR "fmr.list"
             [Arg "string" (VStr (sp_string sp));
              Arg "func" (VFunc (FMR "fmr.entity"
                [Arg "string" (VStr (fst kv));
                 Arg "func" (VFunc (FMR "fmr.list" (map (Arg "string") items)))]))]))
    end.
  (** local_grammar.go:45-83; [i] is the number of the span *)
  Definition add_span (d : document) (i : nat) (sp : span) (rules : grammar_rules) : res grammar_rules :=
    match sp_value sp with
    | None => Ret rules
    | Some m =>
        terms <- span_terms (d_tokens d) (sp_start sp) (sp_end sp - sp_start sp) ;;
        Ret (fold_left (fun rs kv => add_body rs (fst kv) (entry_body sp terms kv)) (ord i m) rules)
    end.
  (** local_grammar.go:45-83: the loop over the spans *)
  Fixpoint add_spans (d : document) (i : nat) (sps : list span) (rules : grammar_rules) : res grammar_rules :=
    match sps with
    | [] => Ret rules
    | sp :: sps' => rules' <- add_span d i sp rules ;; add_spans d (S i) sps' rules'
    end.

  (** local_grammar.go:10-93 [localGrammar] on a document that is not nil; nil
      is returned iff there are no rules. Hashing does not fail on these bodies
      except for JSON values that hashstructure cannot hash; those are left out. *)
  Definition local_grammar (d : document) : res (option grammar_rules) :=
    rules <- add_spans d 0 (d_spans d ++ regexp_spans d) (fold_left add_token (d_tokens d) []) ;;
    match rules with
    | [] => Ret None
    | _ => Ret (Some rules)
    end.
End Local.

(** api.go:182-226 [process] splits what it does with the document: the tokens
    and the local grammar. ModelApi has one parameter for each; these two
    definitions give them from one function [annotate] (api.go:187-210). *)
Definition doc_tokens (annotate : string -> string -> res document) (ctx text : string) : res (list token) :=
  d <- annotate ctx text ;; Ret (d_tokens d).
(** api.go:221: the local grammar of the same document *)
Definition doc_local hash find_all span_text regexps ord (annotate : string -> string -> res document)
           (ctx text : string) (_ : list token) : res (option grammar_rules) :=
  d <- annotate ctx (trim_space text) ;; local_grammar hash find_all span_text regexps ord d.
