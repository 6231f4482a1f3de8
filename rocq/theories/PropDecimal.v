(** Calculating with decimal fractions. *)
From Coq Require Import Ascii.
From Verif Require Import Base ModelMath SpecMath SpecRound SpecDecimal ProofFloat ProofDecimal ProofDecimalCalc ProofDecimalText ExamplesDecimal.
Local Open Scope list_scope.
Open Scope Z_scope.

(** What a big.Float prints: the number rounded to ten digits, as a fraction or with an
    exponent. The number u * 2^k is |u| * 5^(-k) / 10^(-k). *)
Theorem C43_printed : forall k x u, k <= 0 -> in_units k x u -> u <> 0 ->
  exists v s, to_10 (Z.abs u * 5 ^ (- k)) v /\ decimal_text v (- k) s /\ big_string x = ((if (u <? 0)%Z then "-" else "") ++ s)%string.
Proof. exact print_units. Qed.
Theorem C43_text_unique : forall c j s s', 0 <= j -> signed_text c j s -> signed_text c j s' -> s = s'.
Proof. exact signed_unique. Qed.

(** Sums and products of numbers of 64 bits are the exact ones rounded to 64 bits. *)
Theorem C43_sum_rounded : forall k x y a b, in_units k x a -> in_units k y b ->
  exists z, big_add x y = Ret z /\ (a + b = 0 -> exists n, z = BFin n 0 0) /\
    (a + b <> 0 -> in_reach k (a + b) -> exists r, in_units k z r /\ to_64_bits (Z.abs (a + b)) (Z.abs r) /\ (r < 0 <-> a + b < 0)).
Proof. exact add_units. Qed.
Theorem C43_product_rounded : forall j k x y a b, in_units j x a -> in_units k y b ->
  exists z, big_mul x y = Ret z /\ (a * b = 0 -> exists n, z = BFin n 0 0) /\
    (a * b <> 0 -> in_reach (j + k) (a * b) -> exists r, in_units (j + k) z r /\ to_64_bits (Z.abs (a * b)) (Z.abs r) /\ (r < 0 <-> a * b < 0)).
Proof. exact mul_units. Qed.

(** Texts with up to ten digits together calculate exactly: a / 10^j and b / 10^l give
    (A + B) / 10^J, unless more than eight digits cancel. *)
Theorem C43_decimal_sum : forall scan, scans_decimals scan -> forall x y a j b l, reads a j x -> reads b l y ->
  Z.abs a < 10 ^ 18 -> Z.abs b < 10 ^ 18 -> 0 <= j <= 300 -> 0 <= l <= 300 ->
  let J := Z.max j l in let A := a * 10 ^ (J - j) in let B := b * 10 ^ (J - l) in
  forall d, 0 <= d -> 10 ^ d <= Z.abs (A + B) < 10 ^ 10 -> Z.abs A + Z.abs B <= 2 * 10 ^ 8 * 10 ^ d ->
  exists s, sum scan x y = Ret s /\ signed_text (A + B) J s.
Proof. exact sum_decimal. Qed.
Theorem C43_decimal_sub : forall scan, scans_decimals scan -> forall x y a j b l, reads a j x -> reads b l y ->
  Z.abs a < 10 ^ 18 -> Z.abs b < 10 ^ 18 -> 0 <= j <= 300 -> 0 <= l <= 300 ->
  let J := Z.max j l in let A := a * 10 ^ (J - j) in let B := b * 10 ^ (J - l) in
  forall d, 0 <= d -> 10 ^ d <= Z.abs (A - B) < 10 ^ 10 -> Z.abs A + Z.abs B <= 2 * 10 ^ 8 * 10 ^ d ->
  exists s, sub scan x y = Ret s /\ signed_text (A - B) J s.
Proof. exact sub_decimal. Qed.
Theorem C43_decimal_small : forall scan, scans_decimals scan -> forall x y a j b l, reads a j x -> reads b l y ->
  Z.abs a < 10 ^ 18 -> Z.abs b < 10 ^ 18 -> 0 <= j <= 300 -> 0 <= l <= 300 ->
  let J := Z.max j l in let A := a * 10 ^ (J - j) in let B := b * 10 ^ (J - l) in Z.abs A < 10 ^ 8 -> Z.abs B < 10 ^ 8 ->
  (exists s, sum scan x y = Ret s /\ signed_text (A + B) J s) /\ (exists s, sub scan x y = Ret s /\ signed_text (A - B) J s).
Proof. exact both_small. Qed.
Theorem C43_decimal_cancels : forall scan, scans_decimals scan -> forall x y a j b l, reads a j x -> reads b l y ->
  Z.abs a < 10 ^ 18 -> Z.abs b < 10 ^ 18 -> 0 <= j <= 300 -> 0 <= l <= 300 ->
  let J := Z.max j l in let A := a * 10 ^ (J - j) in let B := b * 10 ^ (J - l) in Z.abs A < 10 ^ 18 ->
  (A + B = 0 -> sum scan x y = Ret "0"%string) /\ (A = B -> sub scan x y = Ret "0"%string).
Proof. exact both_cancel. Qed.
Theorem C43_decimal_mul : forall scan, scans_decimals scan -> forall x y a j b l, reads a j x -> reads b l y ->
  Z.abs a < 10 ^ 18 -> Z.abs b < 10 ^ 18 -> 0 <= j <= 300 -> 0 <= l <= 300 -> 0 < Z.abs (a * b) < 10 ^ 10 ->
  exists s, mul scan x y = Ret s /\ signed_text (a * b) (j + l) s.
Proof. exact mul_decimal. Qed.
Theorem C43_decimal_mul_zero : forall scan, scans_decimals scan -> forall x y a j b l, reads a j x -> reads b l y ->
  Z.abs a < 10 ^ 18 -> Z.abs b < 10 ^ 18 -> 0 <= j <= 300 -> 0 <= l <= 300 -> a * b = 0 ->
  mul scan x y = Ret (if (a <? 0)%Z || (b <? 0)%Z then "-0" else "0")%string.
Proof. exact mul_zero. Qed.
Theorem C43_decimal_neg : forall scan, scans_decimals scan -> forall x a j, reads a j x -> Z.abs a < 10 ^ 18 -> 0 <= j <= 300 ->
  0 < Z.abs a < 10 ^ 10 -> signed_text (- a) j (neg scan x).
Proof. exact neg_decimal. Qed.

(** When more digits cancel, the ten digits that are printed need not be right:
    100000000.00001 - 100000000 is not 0.00001, with a scanner that rounds to the
    nearest number of 64 bits. *)
Theorem C43_cancellation_refuted : ~ (forall scan, scans_decimals scan -> forall x y a j b l, reads a j x -> reads b l y ->
  Z.abs a < 10 ^ 18 -> Z.abs b < 10 ^ 18 -> 0 <= j <= 300 -> 0 <= l <= 300 ->
  let J := Z.max j l in let A := a * 10 ^ (J - j) in let B := b * 10 ^ (J - l) in
  Z.abs (A - B) < 10 ^ 10 -> exists s, sub scan x y = Ret s /\ signed_text (A - B) J s).
Proof. exact cancellation. Qed.

Example C43_decimal_example :
  scans_decimals decimal_scan /\ reads 1 1 "0.1" /\ reads 2 1 "0.2" /\ sum decimal_scan "0.1" "0.2" = Ret "0.3"%string /\ signed_text 3 1 "0.3" /\
  reads (-12345) 2 "-123.45" /\ mul decimal_scan "-123.45" "0.2" = Ret "-24.69"%string /\ neg decimal_scan "-123.45" = "123.45"%string /\
  sub decimal_scan "-123.45" "0.2" = Ret "-123.65"%string /\ signed_text 1 5 "1e-05" /\ mul decimal_scan "-123.45" "0" = Ret "-0"%string /\
  sub decimal_scan "100000000.00001" "100000000" = Ret "1.000000339e-05"%string.
Proof.
  split; [exact decimal_scan_ok|]. split; [exact tenth|]. split; [exact fifth|]. split; [vm_compute; reflexivity|]. split; [exact three_tenths|].
  split; [exact minus|]. split; [vm_compute; reflexivity|]. split; [vm_compute; reflexivity|]. split; [vm_compute; reflexivity|].
  split; [exact small_text|]. split; vm_compute; reflexivity.
Qed.
(** Products beyond the exponents of a big.Float (32 bits) are infinite or zero, with the sign of the product. *)
Theorem C43_out_of_range : forall scan x y xn xm xe yn ym ye,
  scan x = Some (BFin xn xm xe) -> scan y = Some (BFin yn ym ye) -> 0 < xm -> 0 < ym ->
  (2147483647 <= xe + ye + Z.log2 (xm * ym) -> mul scan x y = Ret (if xorb xn yn then "-Inf" else "+Inf")%string)
  /\ (xe + ye + Z.log2 (xm * ym) + 1 < -2147483648 -> mul scan x y = Ret (if xorb xn yn then "-0" else "0")%string).
Proof. exact mul_out. Qed.
(** 3 * 2^-2000000000 and its negation, 5 * 2^2000000000 *)
Example C43_out_of_range_example :
  let scan s := if String.eqb s "a" then Some (BFin false 3 (-2000000000)) else if String.eqb s "b" then Some (BFin true 3 (-2000000000))
                else Some (BFin false 5 2000000000) in
  mul scan "a" "a" = Ret "0"%string /\ mul scan "a" "b" = Ret "-0"%string /\ mul scan "c" "c" = Ret "+Inf"%string.
Proof. vm_compute. repeat split. Qed.
Print Assumptions C43_printed.
Print Assumptions C43_text_unique.
Print Assumptions C43_sum_rounded.
Print Assumptions C43_product_rounded.
Print Assumptions C43_decimal_sum.
Print Assumptions C43_decimal_sub.
Print Assumptions C43_decimal_small.
Print Assumptions C43_decimal_cancels.
Print Assumptions C43_decimal_mul.
Print Assumptions C43_decimal_mul_zero.
Print Assumptions C43_decimal_neg.
Print Assumptions C43_cancellation_refuted.
Print Assumptions C43_out_of_range.
Close Scope Z_scope.
