(** Notions used by the statements about terminals and term types. *)
From Coq Require Import Ascii.
From Verif Require Import Base ModelTypes ModelText.

(** The flag letter [c] occurs in the flag text [s]. *)
Definition has_flag (c : ascii) (s : string) : Prop := exists a b, s = (a ++ String c b)%string.

(** ASCII letters, digits and parentheses: characters JSON writes as they are. *)
Definition plain_char (c : ascii) : bool :=
  let b := byte_of c in
  ((65 <=? b) && (b <=? 90) || (97 <=? b) && (b <=? 122) || (48 <=? b) && (b <=? 57) || (b =? 40) || (b =? 41))%Z.
Fixpoint plain (s : string) : bool :=
  match s with EmptyString => true | String c s' => plain_char c && plain s' end.
