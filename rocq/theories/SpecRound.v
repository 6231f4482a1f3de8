(** Rounding and exponent notation. *)
From Coq Require Import Ascii.
From Verif Require Import Base SpecMath.
Open Scope Z_scope.

(** [m] is z / q rounded to the nearest integer, ties to even. *)
Definition rounded (q z m : Z) : Prop := 2 * Z.abs (z - m * q) <= q /\ (2 * Z.abs (z - m * q) = q -> Z.Even m).
(** The positive [z] rounded to 64 binary digits, [w] rounded to 10 decimal digits. *)
Definition to_64_bits (z w : Z) : Prop :=
  exists s m, 0 <= s /\ (s = 0 /\ z < 2 ^ 64 \/ 2 ^ 63 <= z / 2 ^ s < 2 ^ 64) /\ rounded (2 ^ s) z m /\ w = m * 2 ^ s.
Definition to_10_digits (w v : Z) : Prop :=
  exists t m, 0 <= t /\ 10 ^ 9 <= w / 10 ^ t < 10 ^ 10 /\ rounded (10 ^ t) w m /\ v = m * 10 ^ t.

(** [s] is [v] in exponent notation: one digit, the other digits that are needed
    after a point, the exponent. *)
Definition scientific (v : Z) (s : string) : Prop :=
  exists d ds x e, 1 <= d <= 9 /\ Forall (fun d => 0 <= d <= 9) ds /\ last ds 1 <> 0 /\ 10 <= x /\ (length ds < 10)%nat
    /\ v = number_of (d :: ds) * 10 ^ (x - Z.of_nat (length ds)) /\ numeral x e
    /\ s = (chars_of [d] ++ match ds with [] => "" | _ => "." ++ chars_of ds end ++ "e+" ++ e)%string.

(** [s] is [c] rounded to 64 bits, then to ten digits. *)
Definition printed (c : Z) (s : string) : Prop :=
  exists w v u, to_64_bits (Z.abs c) w /\ to_10_digits w v /\ scientific v u /\ s = ((if (c <? 0)%Z then "-" else "") ++ u)%string.
Close Scope Z_scope.
