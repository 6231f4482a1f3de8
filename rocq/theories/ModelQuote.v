(** Number and string formatting from Go's strconv and fmt that the code uses. *)
From Coq Require Import Ascii DecimalString.
From Verif Require Import Base ModelText.

(** strconv.FormatUint(n, 10), %d of a non-negative int
    (grammar_refine.go:53; earley_stringer.go:34) *)
Definition dec_N (n : N) : string := NilZero.string_of_uint (N.to_uint n).
(** %d of an int, big.Int.String (earley_fmr.go:62; earley_stringer.go:120) *)
Definition dec_Z (z : Z) : string :=
  match z with
  | Zneg p => "-" ++ dec_N (Npos p)
  | _ => dec_N (Z.to_N z)
  end.

(** lowerhex[n] (strconv.Quote, earley_fmr.go:13) *)
Definition hex_digit (n : Z) : ascii :=
  of_byte (if (n <? 10)%Z then 48 + n else 87 + n)%Z.
(** the last [k] hexadecimal digits of [n], most significant first
    (strconv.Quote, earley_fmr.go:13) *)
Fixpoint hex (k : nat) (n : Z) : string :=
  match k with
  | O => ""
  | S k' => String (hex_digit ((n / 16 ^ Z.of_nat k') mod 16)%Z) (hex k' n)
  end.

Section Quote.
  (** strconv.IsPrint above U+00FF: a table *)
  Variable is_print_hi : rune -> bool.

  (** strconv.IsPrint (strconv.Quote, earley_fmr.go:13) *)
  Definition is_print (r : rune) : bool :=
    (if r <=? 255 then (32 <=? r) && (r <? 127) || (161 <=? r) && (r <=? 255) && negb (r =? 173)
     else is_print_hi r)%Z.

  (** strconv.appendEscapedRune with quote 34 (the double quote character)
      (strconv.Quote, earley_fmr.go:13) *)
  Definition escape_rune (r : rune) : string :=
    (if (r =? 34) || (r =? 92) then String (of_byte 92) (String (of_byte r) "")
     else if is_print r then encode_rune r
     else if r =? 7 then "\a"
     else if r =? 8 then "\b"
     else if r =? 12 then "\f"
     else if r =? 10 then "\n"
     else if r =? 13 then "\r"
     else if r =? 9 then "\t"
     else if r =? 11 then "\v"
     else if (r <? 32) || (r =? 127) then ("\x" ++ hex 2 r)%string
     else if negb (valid_rune r) then ("\u" ++ hex 4 RuneError)%string
     else if r <? 65536 then ("\u" ++ hex 4 r)%string
     else ("\U" ++ hex 8 r)%string)%Z.

  (** strconv.appendQuotedWith: rune by rune, invalid bytes as \xNN; the step
      budget [n] suffices when it is at least the length of the string
      (strconv.Quote, earley_fmr.go:13) *)
  Fixpoint quote_body (n : nat) (s : string) : string :=
    match n with
    | O => ""
    | S n' =>
        match s with
        | EmptyString => ""
        | String c _ =>
            let '(r, w) := decode_rune s in
            ((if Nat.eqb w 1 && Z.eqb r RuneError then "\x" ++ hex 2 (byte_of c) else escape_rune r)
             ++ quote_body n' (drop w s))%string
        end
    end.

  (** strconv.Quote (earley_fmr.go:13, 57; earley_stringer.go:24, 56, 114) *)
  Definition quote (s : string) : string := """" ++ quote_body (String.length s) s ++ """".
End Quote.

(** strings.Join (earley_fmr.go:47; earley_stringer.go:146) *)
Fixpoint join (sep : string) (l : list string) : string :=
  match l with
  | [] => ""
  | [s] => s
  | s :: l' => s ++ sep ++ join sep l'
  end.

(** The byte occurs in the string (strings.ContainsRune with ASCII characters, cfgrammar.go:249, 389) *)
Fixpoint contains_byte (c : ascii) (s : string) : bool :=
  match s with
  | EmptyString => false
  | String c' s' => Ascii.eqb c c' || contains_byte c s'
  end.

(** strings.HasPrefix *)
Definition has_prefix (s p : string) : bool := String.prefix p s.
