(** The token table shared by all grammars and calls of the process, used from
    several goroutines. *)
From Verif Require Import Base ModelTypes ModelText ModelEarley ModelQuote ModelReader ModelGrammar ModelMatch.

(** What a goroutine does to the table: grammar_tokens.go:14-18 [get] and 20-24
    [put]. Each holds the lock of the table, so it is one step; everything
    between two of them is local. *)
Inductive prog :=
| Stop
| Get (k : string) (next : option token -> prog)
| Put (k : string) (t : token) (next : prog).

(** grammar_refine.go:37-51: entering the tokens of a terminal text, in two steps each *)
Fixpoint load_tokens (toks : list token) (next : prog) : prog :=
  match toks with
  | [] => next
  | t :: toks' =>
      if ling_space t then load_tokens toks' next
      else Get (tok_text t) (fun r => match r with
                                      | None => Put (tok_text t) t (load_tokens toks' next)
                                      | Some _ => load_tokens toks' next
                                      end)
  end.

(** earley_terminal_match.go:9-33 [terminalMatch] on terms of type Terminal and
    non-nil tokens (otherwise it returns before the table is read) *)
Definition match_token (to_lower : string -> string) (t : term) (tok : token) (next : bool -> prog) : prog :=
  Get (t_value t) (fun r => next (terminal_match (fun _ => r) to_lower t (Some tok))).

(** One step of goroutine [i]: what it saw or wrote. (grammar_tokens.go:14-24) *)
Inductive event :=
| Saw (i : nat) (k : string) (r : option token)
| Wrote (i : nat) (k : string) (t : token).

(** grammar_tokens.go:10: the map *)
Definition table := list (string * token).
(** Goroutine [i] goes on with [a] (grammar_tokens.go:14-24) *)
Fixpoint set_nth {A} (l : list A) (i : nat) (a : A) : list A :=
  match l, i with
  | [], _ => []
  | _ :: l', O => a :: l'
  | x :: l', S i' => x :: set_nth l' i' a
  end.

(** The goroutines [ps] on table [T], scheduled in any way. (grammar_tokens.go:14-24) *)
Inductive step : table * list prog -> event -> table * list prog -> Prop :=
| st_get T ps i k next : nth_error ps i = Some (Get k next) ->
    step (T, ps) (Saw i k (lookup T k)) (T, set_nth ps i (next (lookup T k)))
| st_put T ps i k t next : nth_error ps i = Some (Put k t next) ->
    step (T, ps) (Wrote i k t) (put T k t, set_nth ps i next).
(** Any number of steps (grammar_tokens.go:14-24) *)
Inductive exec : table * list prog -> list event -> table * list prog -> Prop :=
| ex_nil c : exec c [] c
| ex_step c e c1 tr c2 : step c e c1 -> exec c1 tr c2 -> exec c (e :: tr) c2.
