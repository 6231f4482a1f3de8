(** Model of /repo/math_funcs.go: the registered functions on numbers. The used
    parts of math/big are modelled as well: adding, subtracting, multiplying and
    negating a big.Float of precision 64 and printing it with Text('g', 10). *)
From Coq Require Import Ascii.
From Verif Require Import Base ModelText.
Open Scope Z_scope.

(** A *big.Float: infinite, or (-1)^neg * mant * 2^expo with mant >= 0, where
    mant = 0 is a signed zero. (math_funcs.go:59, 91) *)
Inductive bfloat := BInf (neg : bool) | BFin (neg : bool) (mant expo : Z).

(** math/big float.go [round] and [setExpAndRound]: to 64 bits, to nearest even;
    the exponent of a mantissa in [1/2, 1) is an int32 *)
Definition bits (m : Z) : Z := Z.log2 m + 1.
(** math/big float.go [setExpAndRound]: overflow and underflow (called from math_funcs.go:100-104) *)
Definition in_range (neg : bool) (m e : Z) : bfloat :=
  if m =? 0 then BFin neg 0 0
  else if 2147483647 <? e + bits m then BInf neg
  else if e + bits m <? -2147483648 then BFin neg 0 0
  else BFin neg m e.
(** math/big float.go [setExpAndRound] and [round]: underflow is tested before rounding (called from math_funcs.go:100-104) *)
Definition big_round (neg : bool) (m e : Z) : bfloat :=
  if (m =? 0) || (bits m <=? 64) then in_range neg m e
  else if e + bits m <? -2147483648 then BFin neg 0 0
  else
    let s := bits m - 64 in
    let q := m / 2 ^ s in
    let r := m mod 2 ^ s in
    let h := 2 ^ (s - 1) in
    in_range neg (if (h <? r) || ((r =? h) && Z.odd q) then q + 1 else q) (e + s).

(** math/big float.go [Add]: [xn], [yn] are the signs *)
Definition big_add (x y : bfloat) : res bfloat :=
  match x, y with
  | BInf xn, BInf yn => if Bool.eqb xn yn then Ret x else Panic
  | BInf _, _ => Ret x
  | _, BInf _ => Ret y
  | BFin xn xm xe, BFin yn ym ye =>
      if (xm =? 0) && (ym =? 0) then Ret (BFin (xn && yn) 0 0)
      else if ym =? 0 then Ret x
      else if xm =? 0 then Ret y
      else
        let e := Z.min xe ye in
        let a := xm * 2 ^ (xe - e) in
        let b := ym * 2 ^ (ye - e) in
        Ret (if Bool.eqb xn yn then big_round xn (a + b) e
             else if b <? a then big_round xn (a - b) e
             else if a <? b then big_round (negb xn) (b - a) e
             else BFin false 0 0)
  end.
(** [Neg] (math_funcs.go:63) *)
Definition big_neg (x : bfloat) : bfloat :=
  match x with
  | BInf n => BInf (negb n)
  | BFin n m e => BFin (negb n) m e
  end.
(** [Sub]: as [Add] with the sign of y reversed, also for zeros and infinities
    (math_funcs.go:102) *)
Definition big_sub (x y : bfloat) : res bfloat := big_add x (big_neg y).
(** [Mul] (math_funcs.go:104) *)
Definition big_mul (x y : bfloat) : res bfloat :=
  match x, y with
  | BFin xn xm xe, BFin yn ym ye => Ret (if (xm =? 0) || (ym =? 0) then BFin (xorb xn yn) 0 0 else big_round (xorb xn yn) (xm * ym) (xe + ye))
  | BInf xn, BInf yn => Ret (BInf (xorb xn yn))
  | BInf xn, BFin yn ym _ => if ym =? 0 then Panic else Ret (BInf (xorb xn yn))
  | BFin xn xm _, BInf yn => if xm =? 0 then Panic else Ret (BInf (xorb xn yn))
  end.

(** math/big decimal.go: the digits of an integer, none for 0 *)
Fixpoint digits_acc (fuel : nat) (n : Z) (acc : list Z) : list Z :=
  match fuel with
  | O => acc
  | S fuel' => if n =? 0 then acc else digits_acc fuel' (n / 10) (n mod 10 :: acc)
  end.
(** math/big: the decimal digits of a number (String, math_funcs.go:100-104) *)
Definition digits (n : Z) : list Z := digits_acc (Z.to_nat (bits n)) n [].
(** [trim]: without trailing zeros
    (math/big decimal.go; String, math_funcs.go:63, 100-104) *)
Fixpoint trim_zeros (l : list Z) : list Z :=
  match l with
  | [] => []
  | d :: l' => match trim_zeros l' with [] => if d =? 0 then [] else [d] | t => d :: t end
  end.
(** The value 0.mant * 10^exp (math/big decimal.go; String, math_funcs.go:63, 100-104) *)
Record decimal := mkDec { d_mant : list Z; d_exp : Z }.
(** decimal.go [init]: the exact decimal value of m * 2^e *)
Definition decimal_of (m e : Z) : decimal :=
  if m =? 0 then mkDec [] 0
  else if 0 <=? e then let ds := digits (m * 2 ^ e) in mkDec (trim_zeros ds) (Z.of_nat (length ds))
  else let ds := digits (m * 5 ^ (- e)) in mkDec (trim_zeros ds) (Z.of_nat (length ds) + e).
(** decimal.go [shouldRoundUp], [roundUp], [roundDown], [round] *)
Definition should_round_up (n : nat) (l : list Z) : bool :=
  match skipn n l with
  | [d] => if d =? 5 then match rev (firstn n l) with [] => false | p :: _ => Z.odd p end else 5 <=? d
  | d :: _ => 5 <=? d
  | [] => false
  end.
(** the digits below n in reverse order, incremented and trimmed
    (math/big decimal.go [roundUp]) *)
Fixpoint bump (r : list Z) : list Z :=
  match r with
  | [] => []
  | d :: r' => if 9 <=? d then bump r' else d + 1 :: r'
  end.
(** math/big decimal.go [round] *)
Definition dec_round (n : nat) (d : decimal) : decimal :=
  if Nat.leb (length (d_mant d)) n then d
  else if should_round_up n (d_mant d) then
    match bump (rev (firstn n (d_mant d))) with
    | [] => mkDec [1] (d_exp d + 1)
    | r => mkDec (rev r) (d_exp d)
    end
  else mkDec (trim_zeros (firstn n (d_mant d))) (d_exp d).

(** math/big ftoa.go: a digit as a character (String, math_funcs.go:63, 100-104) *)
Definition digit_char (d : Z) : ascii := of_byte (48 + d).
(** math/big ftoa.go: digits as text (String, math_funcs.go:63, 100-104) *)
Fixpoint digits_text (l : list Z) : string :=
  match l with [] => EmptyString | d :: l' => String (digit_char d) (digits_text l') end.

(** math/big ftoa.go [fmtE]; the exponent has at least two digits *)
Definition fmt_e (prec : nat) (d : decimal) : string :=
  let first := match d_mant d with [] => [0] | c :: _ => [c] end in
  let more := if Nat.ltb 0 prec then
      let f := firstn prec (tl (d_mant d)) in
      String "." (digits_text (f ++ repeat 0 (prec - length f)))
    else EmptyString in
  let x := match d_mant d with [] => 0 | _ => d_exp d - 1 end in
  let ds := digits (Z.abs x) in
  let tail := if Z.abs x <? 10 then repeat 0 (2 - length ds) ++ ds else ds in
  (digits_text first ++ more ++ "e" ++ (if (x <? 0)%Z then "-" else "+") ++ digits_text tail)%string.
(** [fmtF]: the digit i after the point is [at](exp + i), 0 outside
    (math/big ftoa.go; String, math_funcs.go:63, 100-104) *)
Definition digit_at (d : decimal) (i : Z) : Z := if i <? 0 then 0 else nth (Z.to_nat i) (d_mant d) 0.
(** math/big ftoa.go [fmtF] *)
Definition fmt_f (prec : nat) (d : decimal) : string :=
  let whole := if 0 <? d_exp d then
      let n := Z.to_nat (d_exp d) in
      let m := firstn n (d_mant d) in m ++ repeat 0 (n - length m)
    else [0] in
  let frac := if Nat.ltb 0 prec then
      String "." (digits_text (map (fun i => digit_at d (d_exp d + Z.of_nat i)) (seq 0 prec)))
    else EmptyString in
  (digits_text whole ++ frac)%string.
(** ftoa.go [Append] with format 'g' and precision 10: [String] *)
Definition big_string (x : bfloat) : string :=
  match x with
  | BInf n => if n then "-Inf" else "+Inf"
  | BFin n m e =>
      let d := dec_round 10 (decimal_of m e) in
      let len := length (d_mant d) in
      let eprec := if Nat.ltb len 10 && (d_exp d <=? Z.of_nat len) then Z.of_nat len else 10 in
      let x := d_exp d - 1 in
      let prec := if d_exp d <? 10 then Z.of_nat len else 10 in
      let body := if (x <? -4) || (eprec <=? x) then fmt_e (Nat.min 10 len - 1) d
                  else fmt_f (Z.to_nat (Z.max (prec - d_exp d) 0)) d in
      ((if n then "-" else "") ++ body)%string
  end.

Section Math.
  (** fmt.Sscan into a new(big.Float): precision 64 *)
  Variable scan_float : string -> option bfloat.
  (** fmt.Sscan into a new(big.Int) *)
  Variable scan_int : string -> option Z.
  (** big.Int.ProbablyPrime(10) *)
  Variable probably_prime : Z -> bool.
  (** strconv.ParseFloat(_, 64), x == 0, x / y, math.Pow and "%f" on float64 *)
  Variable float64 : Type.
  Variable parse_float : string -> option float64.
  Variable is_zero : float64 -> bool.
  Variables quo power : float64 -> float64 -> float64.
  Variable print_f : float64 -> string.

  (** math_funcs.go:90-108 [calc]; every caller passes one of the three methods *)
  Definition calc (op : bfloat -> bfloat -> res bfloat) (x y : string) : res string :=
    match scan_float x with
    | None => Ret ""
    | Some xf =>
        match scan_float y with
        | None => Ret ""
        | Some yf => z <- op xf yf ;; Ret (big_string z)
        end
    end.
  (** math_funcs.go:22-32 *)
  Definition sum (x y : string) := calc big_add x y.
  (** math_funcs.go:26-28 *)
  Definition sub (x y : string) := calc big_sub x y.
  (** math_funcs.go:30-32 *)
  Definition mul (x y : string) := calc big_mul x y.
  (** math_funcs.go:34-44 *)
  Definition div (x y : string) : string :=
    match parse_float x with
    | None => (x ++ "/" ++ y)%string
    | Some fx =>
        match parse_float y with
        | None => (x ++ "/" ++ y)%string
        | Some fy => if is_zero fy then (x ++ "/" ++ y)%string else print_f (quo fx fy)
        end
    end.
  (** math_funcs.go:46-56 *)
  Definition pow (x y : string) : string :=
    match parse_float x with
    | None => (x ++ "^" ++ y)%string
    | Some fx =>
        match parse_float y with
        | None => (x ++ "^" ++ y)%string
        | Some fy => print_f (power fx fy)
        end
    end.
  (** math_funcs.go:58-64 *)
  Definition neg (x : string) : string :=
    match scan_float x with None => "" | Some xf => big_string (big_neg xf) end.
  (** math_funcs.go:66-88; Bit(0) is the parity, also of negative numbers *)
  Definition even (x : string) : string :=
    match scan_int x with Some z => if Z.even z then "true" else "false" | None => "false" end.
  (** math_funcs.go:74-80 *)
  Definition odd (x : string) : string :=
    match scan_int x with Some z => if Z.odd z then "true" else "false" | None => "false" end.
  (** math_funcs.go:82-88 *)
  Definition prime (x : string) : string :=
    match scan_int x with Some z => if probably_prime z then "true" else "false" | None => "false" end.
End Math.
Close Scope Z_scope.
