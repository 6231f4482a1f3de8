(** What a query string says, and what the tagger of the context should be asked. *)
From Coq Require Import Ascii.
From Verif Require Import Base ModelTypes ModelEarley ModelTrees ModelApi ModelLocal.
Local Open Scope list_scope.

(** The sixteen digits, in both cases. *)
Inductive hex : ascii -> nat -> Prop :=
| hex_dec n : n < 10 -> hex (ascii_of_nat (nat_of_ascii "0" + n)) n
| hex_upper n : n < 6 -> hex (ascii_of_nat (nat_of_ascii "A" + n)) (10 + n)
| hex_lower n : n < 6 -> hex (ascii_of_nat (nat_of_ascii "a" + n)) (10 + n).
(** [spells bad s t]: in a query the text [t] may be written [s]; the bytes [bad], %
    and + cannot stand for themselves. *)
Inductive spells (bad : list ascii) : string -> string -> Prop :=
| sp_nil : spells bad "" ""
| sp_char c s t : c <> "%"%char -> c <> "+"%char -> ~ In c bad -> spells bad s t -> spells bad (String c s) (String c t)
| sp_blank s t : spells bad s t -> spells bad (String "+" s) (String " " t)
| sp_byte a b x y s t : hex a x -> hex b y -> spells bad s t ->
    spells bad (String "%" (String a (String b s))) (String (ascii_of_nat (16 * x + y)) t).
(** One parameter of a query: key=value, or just a key. *)
Inductive parameter : string -> string * string -> Prop :=
| param sk sv k v : spells ["&"; ";"; "="]%char sk k -> spells ["&"; ";"]%char sv v -> parameter (sk ++ "=" ++ sv) (k, v)
| param_key sk k : spells ["&"; ";"; "="]%char sk k -> k <> ""%string -> parameter sk (k, ""%string).
(** A query that lists these parameters. *)
Inductive query : string -> list (string * string) -> Prop :=
| q_none : query "" []
| q_one s p : parameter s p -> query s [p]
| q_more s p q l : parameter s p -> query q l -> query (s ++ "&" ++ q) (p :: l).
(** The values a list of parameters gives a key, in order. *)
Definition values_of (k : string) (l : list (string * string)) : list string :=
  map snd (filter (fun p => String.eqb (fst p) k) l).
(** [l'] is [l] with the parameter [k] set to [v] and nothing else, and all other
    parameters as they were. *)
Definition with_parameter (k v : string) (l l' : list (string * string)) : Prop :=
  values_of k l' = [v] /\ forall k', k' <> k -> values_of k' l' = values_of k' l.

(** The eight calls, for one way to annotate texts. *)
Definition calls tmatch ords gs hash find_all span_text regexps lord (annotate : string -> string -> res document)
    steps fuel ctx text starts :=
  let tokens := doc_tokens annotate in
  let local := doc_local hash find_all span_text regexps lord annotate ctx text in
  (EarleyParse tmatch ords gs tokens local fuel ctx text starts,
   EarleyParseAny tmatch ords gs tokens local fuel ctx text starts,
   EarleyParseMaxAll tmatch ords gs tokens local steps fuel ctx text starts,
   EarleyParseAll tmatch ords gs tokens local fuel ctx text starts,
   Parse tmatch ords gs tokens local fuel ctx text starts,
   ParseAny tmatch ords gs tokens local fuel ctx text starts,
   ExtractMaxAll tmatch ords gs tokens local steps fuel ctx text starts,
   ExtractAll tmatch ords gs tokens local fuel ctx text starts).
(** All eight return an error. *)
Definition all_refuse (r : res parse_t * res (option parse_t) * res (list parse_t) * res (list parse_t) *
    res (list (parse_t * node)) * res (list (parse_t * node)) * res (list (parse_t * node)) * res (list (parse_t * node))) : Prop :=
  r = (Err, Err, Err, Err, Err, Err, Err, Err).
