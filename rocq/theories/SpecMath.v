(** Numbers and their texts. *)
From Coq Require Import Ascii.
From Verif Require Import Base ModelTypes ModelText ModelEarley ModelTrees ModelApi ModelSem ModelMath SpecSem.
Open Scope Z_scope.

Definition number_of (ds : list Z) : Z := fold_left (fun a d => a * 10 + d) ds 0.
Fixpoint chars_of (ds : list Z) : string :=
  match ds with [] => EmptyString | d :: ds' => String (ascii_of_N (Z.to_N (48 + d))) (chars_of ds') end.

(** [s] is the decimal numeral of [z]: a sign for negative numbers, then digits
    without leading zeros. *)
Definition numeral (z : Z) (s : string) : Prop :=
  exists ds, Forall (fun d => 0 <= d <= 9) ds /\ ds <> [] /\ (hd 0 ds = 0 -> ds = [0]) /\ number_of ds = Z.abs z
    /\ s = ((if (z <? 0)%Z then "-" else "") ++ chars_of ds)%string.

(** Scanning numerals of at most 64 bits is exact. *)
Definition scans_floats (scan : string -> option bfloat) : Prop :=
  forall z s, Z.abs z < 2 ^ 64 -> numeral z s -> scan s = Some (BFin (z <? 0) (Z.abs z) 0).
Definition scans_ints (scan : string -> option Z) : Prop := forall z s, numeral z s -> scan s = Some z.

Definition small (z : Z) : Prop := Z.abs z < 10 ^ 10.

(** Two infinities that cannot be added. *)
Definition opposite (x y : bfloat) : Prop := exists n, x = BInf n /\ y = BInf (negb n).
Definition zero (x : bfloat) : Prop := exists n e, x = BFin n 0 e.
Definition infinite (x : bfloat) : Prop := exists n, x = BInf n.

(** The functions on numbers are in the table of functions (math_funcs.go:10-20). *)
Definition math_registered (scan : string -> option bfloat) (rcall : string -> list dval -> res (list dval)) : Prop :=
  (forall x y, rcall "nf.math.sum" [DStr x; DStr y] = (r <- sum scan x y ;; Ret [DStr r]))
  /\ (forall x y, rcall "nf.math.sub" [DStr x; DStr y] = (r <- sub scan x y ;; Ret [DStr r]))
  /\ (forall x y, rcall "nf.math.mul" [DStr x; DStr y] = (r <- mul scan x y ;; Ret [DStr r]))
  /\ (forall x, rcall "nf.math.neg" [DStr x] = Ret [DStr (neg scan x)]).

(** The arithmetic value of a node: numerals, sums, differences, products and
    negations, as long as every value has at most ten digits and no zero gets a
    minus sign. *)
Section Arithmetic.
  Variable p : parse_t.

  Inductive Arith : node -> Z -> Prop :=
  | Ar_text n t z : function_of n = None -> original_text p n = Ret t -> numeral z t -> small z -> Arith n z
  | Ar_fun n f z : function_of n = Some f -> FArith n f z -> Arith n z
  with FArith : node -> fmr -> Z -> Prop :=
  | FA_identity n a z : AArith n a z -> FArith n (FMR "nf.I" [a]) z
  | FA_sum n a b x y : AArith n a x -> AArith n b y -> small (x + y) -> FArith n (FMR "nf.math.sum" [a; b]) (x + y)
  | FA_sub n a b x y : AArith n a x -> AArith n b y -> small (x - y) -> FArith n (FMR "nf.math.sub" [a; b]) (x - y)
  | FA_mul n a b x y : AArith n a x -> AArith n b y -> small (x * y) -> (x * y = 0 -> 0 <= x /\ 0 <= y) ->
      FArith n (FMR "nf.math.mul" [a; b]) (x * y)
  | FA_neg n a x : AArith n a x -> x <> 0 -> FArith n (FMR "nf.math.neg" [a]) (- x)
  with AArith : node -> arg -> Z -> Prop :=
  | AA_string n s z : numeral z s -> small z -> AArith n (Arg "string" (VStr s)) z
  | AA_int n z : small z -> AArith n (Arg "int" (VInt z)) z
  | AA_func n f z : FArith n f z -> AArith n (Arg "func" (VFunc f)) z
  | AA_child n k c z : nth_error (n_children n) k = Some c -> Arith c z ->
      AArith n (Arg "index" (VIdx (Z.of_nat (S k)))) z.
End Arithmetic.
Scheme Arith_m := Minimality for Arith Sort Prop
  with FArith_m := Minimality for FArith Sort Prop
  with AArith_m := Minimality for AArith Sort Prop.
Combined Scheme Arith_mutind from Arith_m, FArith_m, AArith_m.
Close Scope Z_scope.
