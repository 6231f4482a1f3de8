(** C32: terminal matching. C34: the JSON form of term types. *)
From Coq Require Import Ascii.
From Verif Require Import Base ModelTypes ModelText ModelEarley ModelQuote ModelMatch ModelTermType SpecMatch ProofMatch.

Theorem C32_without_flags : forall gtokens to_lower t tok,
  t_type t = TTerminal -> t_meta t = MNil ->
  (terminal_match gtokens to_lower t (Some tok) = true <-> t_value t = tok_text tok).
Proof. exact match_plain. Qed.
Print Assumptions C32_without_flags.

Theorem C32_lemma_flag : forall gtokens to_lower t tok g flags,
  t_type t = TTerminal -> t_meta t = MStr flags -> gtokens (t_value t) = Some g -> has_flag "l" flags ->
  (terminal_match gtokens to_lower t (Some tok) = true <-> tok_lemma g = tok_lemma tok).
Proof. exact match_lemma. Qed.
Print Assumptions C32_lemma_flag.

Theorem C32_ignore_case_flag : forall gtokens to_lower t tok g flags,
  t_type t = TTerminal -> t_meta t = MStr flags -> gtokens (t_value t) = Some g ->
  ~ has_flag "l" flags -> has_flag "i" flags ->
  (terminal_match gtokens to_lower t (Some tok) = true <-> to_lower (tok_norm g) = to_lower (tok_norm tok)).
Proof. exact match_ignore_case. Qed.
Print Assumptions C32_ignore_case_flag.

Theorem C32_other_flags_never_match : forall gtokens to_lower t tok g flags,
  t_type t = TTerminal -> t_meta t = MStr flags -> gtokens (t_value t) = Some g ->
  ~ has_flag "l" flags -> ~ has_flag "i" flags ->
  terminal_match gtokens to_lower t (Some tok) = false.
Proof. exact match_other_flags. Qed.
Print Assumptions C32_other_flags_never_match.

(** Terminal texts the token table does not know are compared literally, flags or not. *)
Theorem C32_unknown_text : forall gtokens to_lower t tok,
  t_type t = TTerminal -> gtokens (t_value t) = None ->
  (terminal_match gtokens to_lower t (Some tok) = true <-> t_value t = tok_text tok).
Proof. exact match_unknown. Qed.
Print Assumptions C32_unknown_text.

Theorem C32_only_terminals : forall gtokens to_lower t tok,
  terminal_match gtokens to_lower t tok = true -> t_type t = TTerminal /\ tok <> None.
Proof. exact match_only_terminals. Qed.
Print Assumptions C32_only_terminals.

Definition tok_runs : token := mkTok "Runs" KWord 0 4 0 "run" "runs" "Runs".
Definition tok_ran : token := mkTok "ran" KWord 0 3 0 "run" "ran" "ran".
Definition tok_RUNS : token := mkTok "RUNS" KWord 0 4 0 "RUNS" "RUNS" "RUNS".
Definition known (s : string) : option token := if String.eqb s "Runs" then Some tok_runs else None.
Definition lower (s : string) : string := if String.eqb s "RUNS" then "runs" else s.
Definition runs_with (m : meta) : term := mkTerm "Runs" TTerminal m.

Example C32_example :
  terminal_match known lower (runs_with MNil) (Some tok_runs) = true
  /\ terminal_match known lower (runs_with MNil) (Some tok_RUNS) = false
  /\ terminal_match known lower (runs_with (MStr "l")) (Some tok_ran) = true
  /\ terminal_match known lower (runs_with (MStr "i")) (Some tok_RUNS) = true
  /\ terminal_match known lower (runs_with (MStr "i")) (Some tok_ran) = false
  /\ terminal_match known lower (runs_with (MStr "x")) (Some tok_runs) = false
  /\ has_flag "l" "il" /\ ~ has_flag "l" "i" /\ has_flag "i" "i".
Proof.
  repeat (split; [vm_compute; reflexivity|]).
  rewrite <- !contains_byte_iff. vm_compute. repeat split; congruence.
Qed.

(** * C34. [json_marshal] and [json_unmarshal] are encoding/json on strings;
    only their behaviour on letters, digits and parentheses matters. *)
Theorem C34_defined_types_survive : forall json_marshal json_unmarshal,
  (forall s, plain s = true -> exists d, json_marshal s = Ret d /\ json_unmarshal d = Ret s) ->
  forall t, exists d, tt_marshal json_marshal (tt_code t) = Ret d
                      /\ tt_unmarshal json_unmarshal d = Ret (tt_code t).
Proof. exact tt_round. Qed.
Print Assumptions C34_defined_types_survive.

Theorem C34_other_types_rejected : forall json_marshal json_unmarshal,
  (forall s, plain s = true -> exists d, json_marshal s = Ret d /\ json_unmarshal d = Ret s) ->
  forall i, (5 <= i < 256)%N -> exists d, tt_marshal json_marshal i = Ret d
                      /\ tt_unmarshal json_unmarshal d = Err.
Proof. exact tt_other. Qed.
Print Assumptions C34_other_types_rejected.

Example C34_example :
  (forall s, plain s = true -> exists d, (fun x => Ret (String """" x)) s = Ret d
     /\ (fun d => match d with String _ x => Ret x | EmptyString => Err end) d = Ret s)
  /\ map tt_string [0; 1; 2; 3; 4; 7]%N
     = [Ret "EOF"; Ret "Nonterminal"; Ret "Terminal"; Ret "Any"; Ret "List"; Ret "TermType(7)"].
Proof. split; [intros s _; exists (String """" s); auto|vm_compute; reflexivity]. Qed.
