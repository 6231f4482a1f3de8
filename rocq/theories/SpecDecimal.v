(** Decimal fractions and their texts. *)
From Coq Require Import Ascii.
From Verif Require Import Base ModelMath SpecMath SpecRound.
Open Scope Z_scope.

(** [x] is the number u * 2^k, with at most 64 binary digits. *)
Definition in_units (k : Z) (x : bfloat) (u : Z) : Prop :=
  exists n m e, x = BFin n m e /\ 0 <= m <= 2 ^ 64 /\ (m = 0 \/ k <= e) /\ u = (if n then -1 else 1) * (m * 2 ^ (e - k)).
(** The numbers around u * 2^k are neither too small nor too large for a big.Float. *)
Definition in_reach (k u : Z) : Prop := -2147483648 <= k /\ k + Z.log2 (Z.abs u) <= 2147483640.

(** [v] is the positive [w] rounded to ten decimal digits, if it has more. *)
Definition to_10 (w v : Z) : Prop := w < 10 ^ 10 /\ v = w \/ to_10_digits w v.

Definition digit_string (ds : list Z) : Prop := Forall (fun d => 0 <= d <= 9) ds.
(** [s] is v / 10^j with a decimal point where needed, without superfluous zeros. *)
Definition fraction (v j : Z) (s : string) : Prop :=
  exists whole frac, digit_string (whole ++ frac) /\ whole <> [] /\ (hd 0 whole = 0 -> whole = [0]) /\ last frac 1 <> 0
    /\ number_of (whole ++ frac) * 10 ^ j = v * 10 ^ Z.of_nat (length frac)
    /\ s = (chars_of whole ++ match frac with [] => "" | _ => "." ++ chars_of frac end)%string.
(** [s] is v / 10^j as one digit, the other digits after a point, and an exponent of at
    least two digits. *)
Definition exponential (v j : Z) (s : string) : Prop :=
  exists d ds x e, 1 <= d <= 9 /\ digit_string ds /\ last ds 1 <> 0 /\ 0 <= x + j
    /\ v * 10 ^ Z.of_nat (length ds) = number_of (d :: ds) * 10 ^ (x + j)
    /\ numeral (Z.abs x) e
    /\ s = (chars_of [d] ++ match ds with [] => "" | _ => "." ++ chars_of ds end ++ "e" ++ (if (x <? 0)%Z then "-" else "+")
            ++ (if (Z.abs x <? 10)%Z then "0" else "") ++ e)%string.
(** The first from 1/10000 up to 10^10, the second outside. *)
Definition decimal_text (v j : Z) (s : string) : Prop :=
  10 ^ j <= v * 10 ^ 4 /\ v < 10 ^ (10 + j) /\ fraction v j s
  \/ (v * 10 ^ 4 < 10 ^ j \/ 10 ^ (10 + j) <= v) /\ exponential v j s.
(** The same with a sign, and for 0. *)
Definition signed_text (c j : Z) (s : string) : Prop :=
  c = 0 /\ s = "0"%string \/ c <> 0 /\ exists t, decimal_text (Z.abs c) j t /\ s = ((if (c <? 0)%Z then "-" else "") ++ t)%string.

(** [s] says a / 10^j: the sign, the digits before the point, and [j] digits after it. *)
Definition reads (a j : Z) (s : string) : Prop :=
  exists whole frac, digit_string (whole ++ frac) /\ whole <> [] /\ Z.of_nat (length frac) = j
    /\ number_of (whole ++ frac) = Z.abs a
    /\ s = ((if (a <? 0)%Z then "-" else "") ++ chars_of whole ++ match frac with [] => "" | _ => "." ++ chars_of frac end)%string.

(** Scanning decimal fractions: the result depends on the number only, respects the sign,
    and is accurate to one part in 2^63. *)
Definition scans_decimals (scan : string -> option bfloat) : Prop :=
  exists num : Z -> Z -> bfloat,
    (forall a j s, Z.abs a < 10 ^ 18 -> 0 <= j <= 300 -> reads a j s -> scan s = Some (num a j)) /\
    (forall a j, Z.abs a < 10 ^ 17 -> 0 <= j <= 299 -> num (10 * a) (j + 1) = num a j) /\
    (forall a j, a <> 0 -> num (- a) j = big_neg (num a j)) /\
    (forall j, num 0 j = BFin false 0 0) /\
    (forall a j, Z.abs a < 10 ^ 18 -> 0 <= j <= 300 ->
       exists k u, -3000 <= k <= 0 /\ in_units k (num a j) u /\ Z.abs (u * 10 ^ j - a * 2 ^ (- k)) * 2 ^ 63 <= Z.abs a * 2 ^ (- k)).
Close Scope Z_scope.
