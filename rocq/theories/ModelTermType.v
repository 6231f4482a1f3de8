(** Model of /repo/termtype_string.go and /repo/termtype_jsonenums.go. *)
From Verif Require Import Base ModelTypes ModelText ModelQuote.

(** types.go:77-88: the byte value of a TermType constant *)
Definition tt_code (t : ttype) : N :=
  match t with TEOF => 0 | TNonterminal => 1 | TTerminal => 2 | TAny => 3 | TList => 4 end%N.

(** termtype_string.go:7 *)
Definition tt_name : string := "EOFNonterminalTerminalAnyList".
(** termtype_string.go:9 *)
Definition tt_index : list nat := [0; 3; 14; 22; 25; 29].

(** termtype_string.go:11-16 [TermType.String]; a TermType is a byte, [i < 256] *)
Definition tt_string (i : N) : res string :=
  if N.leb (N.of_nat (length tt_index - 1)) i then Ret ("TermType(" ++ dec_N i ++ ")")%string
  else
    a <- idx tt_index (N.to_nat i) ;;
    b <- idx tt_index (N.to_nat i + 1) ;;
    slice tt_name a b.

(** termtype_jsonenums.go:28-38: the init function overwrites the table with
    the names that String returns, since TermType is a Stringer. A Go map
    literal with equal keys keeps the last one. *)
Definition tt_name_to_value : res (list (string * N)) :=
  s0 <- tt_string 0 ;; s1 <- tt_string 1 ;; s2 <- tt_string 2 ;; s3 <- tt_string 3 ;; s4 <- tt_string 4 ;;
  Ret [(s4, 4%N); (s3, 3%N); (s2, 2%N); (s1, 1%N); (s0, 0%N)].

Section Json.
  (** encoding/json on Go strings: external *)
  Variable json_marshal : string -> res string.
  Variable json_unmarshal : string -> res string.

  (** termtype_jsonenums.go:42-51 [MarshalJSON]; TermType is a Stringer *)
  Definition tt_marshal (i : N) : res string := s <- tt_string i ;; json_marshal s.

  (** termtype_jsonenums.go:54-65 [UnmarshalJSON] *)
  Definition tt_unmarshal (data : string) : res N :=
    s <- json_unmarshal data ;;
    table <- tt_name_to_value ;;
    match lookup table s with
    | None => Err
    | Some v => Ret v
    end.
End Json.
