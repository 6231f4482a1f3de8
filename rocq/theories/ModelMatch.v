(** Model of /repo/earley_terminal_match.go and the read side of grammar_tokens.go. *)
From Coq Require Import Ascii.
From Verif Require Import Base ModelTypes ModelText ModelEarley ModelQuote.

Section Match.
  (** grammar_tokens.go:14-18 [gTokens.get]: the tokens of all terminal texts
      seen by refine, by token text; [None] is nil. The table is shared by all
      grammars of the process. *)
  Variable gtokens : string -> option token.
  (** strings.ToLower: table based, external *)
  Variable to_lower : string -> string.

  (** earley_terminal_match.go:9-33 [terminalMatch]; the term is never nil, the
      token may be. Meta.(string) gives "" when Meta holds something else. *)
  Definition terminal_match (t : term) (tok : option token) : bool :=
    match tok with
    | None => false
    | Some token =>
        if negb (ttype_eqb (t_type t) TTerminal) then false
        else
          match t_meta t, gtokens (t_value t) with
          | MNil, _ | _, None => String.eqb (t_value t) (tok_text token)
          | m, Some g =>
              let flags := match m with MStr s => s | _ => "" end in
              if contains_byte "l"%char flags then String.eqb (tok_lemma g) (tok_lemma token)
              else if contains_byte "i"%char flags
              then String.eqb (to_lower (tok_norm g)) (to_lower (tok_norm token))
              else false
          end
    end.
End Match.
