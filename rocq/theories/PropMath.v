(** C43: arithmetic (math_funcs.go). [numeral z s]: [s] is the decimal numeral of
    the integer [z]. [scans_floats], [scans_ints]: fmt.Sscan reads numerals exactly
    (floats have 64 bits). [small z]: at most ten digits. *)
From Coq Require Import Znumtheory.
From Verif Require Import Base ModelTypes ModelText ModelEarley ModelTrees ModelApi ModelQuote ModelSem ModelMath ModelFuncs
     SpecTypes SpecGrammar SpecSem SpecMath SpecRound ProofMath ProofRound Examples ExamplesSem ExamplesMath.

(** Every integer has exactly one numeral. *)
Theorem C43_numerals : forall z, exists s, numeral z s /\ forall s', numeral z s' -> s' = s.
Proof. exact numerals_exist. Qed.
Print Assumptions C43_numerals.

(** The sum of two numerals is never an error, and it is the numeral of the sum
    exactly when that has at most ten digits. *)
Theorem C43_sum : forall scan, scans_floats scan -> forall a b x y,
  numeral a x -> numeral b y -> (Z.abs a < 2 ^ 64)%Z -> (Z.abs b < 2 ^ 64)%Z ->
  exists s, sum scan x y = Ret s /\ (numeral (a + b) s <-> small (a + b)).
Proof. exact sum_numerals. Qed.
Print Assumptions C43_sum.

Theorem C43_sub : forall scan, scans_floats scan -> forall a b x y,
  numeral a x -> numeral b y -> (Z.abs a < 2 ^ 64)%Z -> (Z.abs b < 2 ^ 64)%Z ->
  exists s, sub scan x y = Ret s /\ (numeral (a - b) s <-> small (a - b)).
Proof. exact sub_numerals. Qed.
Print Assumptions C43_sub.

(** A zero product of a negative number is printed "-0". *)
Theorem C43_mul : forall scan, scans_floats scan -> forall a b x y,
  numeral a x -> numeral b y -> (Z.abs a < 2 ^ 64)%Z -> (Z.abs b < 2 ^ 64)%Z ->
  exists s, mul scan x y = Ret s /\ (numeral (a * b) s <-> small (a * b) /\ (a * b = 0 -> 0 <= a /\ 0 <= b))%Z.
Proof. exact mul_numerals. Qed.
Print Assumptions C43_mul.

Theorem C43_neg : forall scan, scans_floats scan -> forall a x,
  numeral a x -> (Z.abs a < 2 ^ 64)%Z -> numeral (- a) (neg scan x) <-> small a /\ a <> 0%Z.
Proof. exact neg_numerals. Qed.
Print Assumptions C43_neg.

Example C43_sum_example :
  scans_floats xscan_float
  /\ sum xscan_float "9999999998" "1" = Ret "9999999999" /\ sum xscan_float "9999999999" "1" = Ret "1e+10"
  /\ sub xscan_float "-12" "30" = Ret "-42" /\ sub xscan_float "7" "7" = Ret "0"
  /\ mul xscan_float "-99999" "99999" = Ret "-9999800001" /\ mul xscan_float "123456" "123456" = Ret "1.524138394e+10"
  /\ mul xscan_float "-3" "0" = Ret "-0" /\ neg xscan_float "-5" = "5" /\ neg xscan_float "0" = "-0".
Proof. split; [exact xscan_float_ok|]. vm_compute. repeat split. Qed.

(** Larger results are rounded to the nearest number of 64 bits, that to the nearest
    number of ten digits, ties to even, and come in exponent notation ([printed]). *)
Theorem C43_large : forall scan, scans_floats scan -> forall a b x y,
  numeral a x -> numeral b y -> (Z.abs a < 2 ^ 64)%Z -> (Z.abs b < 2 ^ 64)%Z ->
  (~ small (a + b) -> forall s, sum scan x y = Ret s <-> printed (a + b) s)
  /\ (~ small (a - b) -> forall s, sub scan x y = Ret s <-> printed (a - b) s)
  /\ (~ small (a * b) -> forall s, mul scan x y = Ret s <-> printed (a * b) s)
  /\ (~ small a -> forall s, neg scan x = s <-> printed (- a) s).
Proof. exact large_results. Qed.
Print Assumptions C43_large.

(** The number printed is off by at most one part in 10^9. *)
Theorem C43_close : forall c s, ~ small c -> printed c s ->
  exists v u, scientific v u /\ s = ((if (c <? 0)%Z then "-" else "") ++ u)%string /\ (Z.abs (v - Z.abs c) * 10 ^ 9 <= Z.abs c)%Z.
Proof. exact printed_close. Qed.
Print Assumptions C43_close.

(** A tie, rounded to even; a number of 39 digits; nines. *)
Example C43_large_example :
  sum xscan_float "10000000005" "0" = Ret "1e+10" /\ sum xscan_float "10000000015" "0" = Ret "1.000000002e+10"
  /\ mul xscan_float "18446744073709551615" "18446744073709551615" = Ret "3.402823669e+38"
  /\ sub xscan_float "-99999999999999999" "1" = Ret "-1e+17"
  /\ ~ small 10000000005 /\ printed 10000000005 "1e+10" /\ printed (-10000000015) "-1.000000002e+10".
Proof.
  do 4 (split; [vm_compute; reflexivity|]). split; [unfold small; lia|].
  assert (forall c x, numeral c x -> ~ small c -> (Z.abs c < 2 ^ 64)%Z -> forall s, sum xscan_float x "0" = Ret s <-> printed c s) as H.
  { intros c x Hx Hs Hb s. pose proof (C43_large xscan_float xscan_float_ok c 0 x "0" Hx) as [H _]; try assumption;
      [apply numeral_zero; reflexivity|reflexivity|]. rewrite Z.add_0_r in H. exact (H Hs s). }
  split.
  - apply (H _ "10000000005"); [exact (dec_Z_numeral 10000000005)|unfold small; lia|reflexivity|vm_compute; reflexivity].
  - apply (H _ "-10000000015"); [exact (dec_Z_numeral (-10000000015))|unfold small; lia|reflexivity|vm_compute; reflexivity].
Qed.

(** Sums, products and negations of numerals need not be numerals. *)
Theorem C43_exact_sum_refuted :
  ~ (forall scan, scans_floats scan -> forall a b x y, numeral a x -> numeral b y ->
       exists s, sum scan x y = Ret s /\ numeral (a + b) s).
Proof. exact (not_exact_sum xscan_float xscan_float_ok). Qed.
Print Assumptions C43_exact_sum_refuted.

Theorem C43_exact_mul_refuted :
  ~ (forall scan, scans_floats scan -> forall a b x y, numeral a x -> numeral b y -> small (a * b) ->
       exists s, mul scan x y = Ret s /\ numeral (a * b) s).
Proof. exact (not_exact_mul xscan_float xscan_float_ok). Qed.
Print Assumptions C43_exact_mul_refuted.

Theorem C43_exact_neg_refuted :
  ~ (forall scan, scans_floats scan -> forall a x, numeral a x -> small a -> numeral (- a) (neg scan x)).
Proof. exact (not_exact_neg xscan_float xscan_float_ok). Qed.
Print Assumptions C43_exact_neg_refuted.

(** Texts that are no numbers give "". The functions panic exactly on undefined
    operations with infinities (which Sscan reads from texts such as 1e999999999). *)
Theorem C43_panics : forall scan x y,
  (sum scan x y = Panic <-> exists a b, scan x = Some a /\ scan y = Some b /\ opposite a b)
  /\ (sub scan x y = Panic <-> exists a, scan x = Some a /\ scan y = Some a /\ infinite a)
  /\ (mul scan x y = Panic <-> exists a b, scan x = Some a /\ scan y = Some b /\ (infinite a /\ zero b \/ zero a /\ infinite b))
  /\ (scan x = None \/ scan y = None -> sum scan x y = Ret "" /\ sub scan x y = Ret "" /\ mul scan x y = Ret "")%string.
Proof. exact calc_panics. Qed.
Print Assumptions C43_panics.

Example C43_panics_example :
  let scan s := if String.eqb s "1e999999999" then Some (BInf false) else xscan_float s in
  sub scan "1e999999999" "1e999999999" = Panic /\ sum scan "1e999999999" "1e999999999" = Ret "+Inf"
  /\ mul scan "1e999999999" "0" = Panic /\ sum scan "x" "1" = Ret "".
Proof. vm_compute. repeat split. Qed.

(** Eval computes the arithmetic value of a node ([Arith]), whatever the grammar. *)
Theorem C43_arithmetic : forall p join_words float_string scan rcall, scans_floats scan -> math_registered scan rcall ->
  forall n z, Arith p n z ->
    small z /\ exists s, numeral z s /\ eval p join_words float_string (Call rcall) n = Ret (DStr s).
Proof. exact arith_eval. Qed.
Print Assumptions C43_arithmetic.

(** 12 + 30 * 7 + - 30 *)
Example C43_arithmetic_example :
  scans_floats xscan_float /\ math_registered xscan_float xmath
  /\ values (Call xmath) (xtrees 400 calc_parse) = Some [Ret (DStr "192")]
  /\ exists p t, xtrees 400 calc_parse = Ret [(p, t)] /\ Arith p t 192.
Proof.
  split; [exact xscan_float_ok|]. split; [exact xmath_registered|]. split; [vm_compute; reflexivity|]. exact calc_arith.
Qed.

(** Parity of integers of any size. *)
Theorem C43_parity : forall scan_int z x, scans_ints scan_int -> numeral z x ->
  (even scan_int x = "true"%string <-> Z.Even z) /\ (odd scan_int x = "true"%string <-> Z.Odd z)
  /\ (even scan_int x = "false"%string <-> Z.Odd z) /\ (odd scan_int x = "false"%string <-> Z.Even z).
Proof. exact parity. Qed.
Print Assumptions C43_parity.

(** Texts that are no integers are neither even, nor odd, nor prime. *)
Theorem C43_unreadable : forall scan_int probably_prime x, scan_int x = None ->
  even scan_int x = "false"%string /\ odd scan_int x = "false"%string /\ prime scan_int probably_prime x = "false"%string.
Proof. exact unreadable_int. Qed.
Print Assumptions C43_unreadable.

(** ProbablyPrime is exact below 2^64. *)
Theorem C43_prime : forall scan_int probably_prime z x, scans_ints scan_int ->
  (forall z, (Z.abs z < 2 ^ 64)%Z -> probably_prime z = true <-> Znumtheory.prime z) ->
  (Z.abs z < 2 ^ 64)%Z -> numeral z x -> prime scan_int probably_prime x = "true"%string <-> Znumtheory.prime z.
Proof. exact primality. Qed.
Print Assumptions C43_prime.

(** and the answer for the other numbers is "false". *)
Theorem C43_composite : forall scan_int probably_prime z x, scans_ints scan_int ->
  (forall z, (Z.abs z < 2 ^ 64)%Z -> probably_prime z = true <-> Znumtheory.prime z) ->
  (Z.abs z < 2 ^ 64)%Z -> numeral z x -> prime scan_int probably_prime x = "false"%string <-> ~ Znumtheory.prime z.
Proof. exact prime_answers. Qed.
Print Assumptions C43_composite.

Example C43_parity_example :
  scans_ints xscan_int /\ even xscan_int "-12" = "true" /\ odd xscan_int "-7" = "true"
  /\ odd xscan_int "123456789012345678901234567890123456789" = "true" /\ even xscan_int "1x" = "false" /\ odd xscan_int "1x" = "false"
  /\ (exists f, (forall z, f z = true <-> Znumtheory.prime z) /\ prime xscan_int f "7" = "true" /\ prime xscan_int f "12" = "false").
Proof.
  split; [exact xscan_int_ok|]. do 5 (split; [vm_compute; reflexivity|]). exact exact_primes.
Qed.

(** div and pow work on float64; when an operand is no number, or the divisor is
    zero, the expression itself is returned. *)
Theorem C43_div : forall float64 parse_float is_zero quo print_f x y,
  (forall fx fy, parse_float x = Some fx -> parse_float y = Some fy -> is_zero fy = false ->
     div float64 parse_float is_zero quo print_f x y = print_f (quo fx fy))
  /\ (parse_float x = None \/ parse_float y = None \/ (exists fy, parse_float y = Some fy /\ is_zero fy = true) ->
     div float64 parse_float is_zero quo print_f x y = (x ++ "/" ++ y)%string).
Proof. exact div_outcomes. Qed.
Print Assumptions C43_div.

Theorem C43_pow : forall float64 parse_float power print_f x y,
  (forall fx fy, parse_float x = Some fx -> parse_float y = Some fy ->
     pow float64 parse_float power print_f x y = print_f (power fx fy))
  /\ (parse_float x = None \/ parse_float y = None -> pow float64 parse_float power print_f x y = (x ++ "^" ++ y)%string).
Proof. exact pow_outcomes. Qed.
Print Assumptions C43_pow.

Example C43_div_example :
  let d := div Z xscan_int (Z.eqb 0) Z.div dec_Z in
  d "84" "2" = "42" /\ d "84" "0" = "84/0" /\ d "x" "2" = "x/2" /\ pow Z xscan_int Z.pow dec_Z "2" "10" = "1024"
  /\ pow Z xscan_int Z.pow dec_Z "2" "n" = "2^n".
Proof. vm_compute. repeat split. Qed.
