(** The pieces of Go's unicode/utf8, unicode and strings packages that the code
    uses on byte strings. Rocq's [string] is a byte string, like Go's. *)
From Verif Require Import Base.
From Coq Require Import Ascii.

(** a byte as a number (cfgrammar.go:97) *)
Definition byte_of (c : ascii) : Z := Z.of_N (N_of_ascii c).
(** the byte with this number (cfgrammar.go:31) *)
Definition of_byte (z : Z) : ascii := ascii_of_N (Z.to_N z).

(** Go's rune (cfgrammar.go:92) *)
Definition rune := Z.
(** unicode/utf8 [RuneError], U+FFFD (cfgrammar.go:98) *)
Definition RuneError : rune := 65533%Z.

(** unicode/utf8: a continuation byte (called from cfgrammar.go:97) *)
Definition cont (b : Z) : bool := (128 <=? b)%Z && (b <=? 191)%Z.

(** unicode/utf8 [DecodeRuneInString]: the first rune of a byte string and its
    width; (RuneError, 0) for the empty string, (RuneError, 1) when the bytes
    are not the shortest encoding of a scalar value. (cfgrammar.go:97) *)
Definition decode_rune (s : string) : rune * nat :=
  (match s with
   | EmptyString => (RuneError, 0%nat)
   | String c0 s0 =>
       let b0 := byte_of c0 in
       if b0 <? 128 then (b0, 1%nat)
       else if b0 <? 194 then (RuneError, 1%nat)
       else if b0 <? 224 then
         match s0 with
         | String c1 _ =>
             let b1 := byte_of c1 in
             if cont b1 then ((b0 - 192) * 64 + (b1 - 128), 2%nat) else (RuneError, 1%nat)
         | _ => (RuneError, 1%nat)
         end
       else if b0 <? 240 then
         match s0 with
         | String c1 (String c2 _) =>
             let b1 := byte_of c1 in let b2 := byte_of c2 in
             if cont b1 && cont b2
                && negb ((b0 =? 224) && (b1 <? 160)) && negb ((b0 =? 237) && (159 <? b1))
             then ((b0 - 224) * 4096 + (b1 - 128) * 64 + (b2 - 128), 3%nat) else (RuneError, 1%nat)
         | _ => (RuneError, 1%nat)
         end
       else if b0 <? 245 then
         match s0 with
         | String c1 (String c2 (String c3 _)) =>
             let b1 := byte_of c1 in let b2 := byte_of c2 in let b3 := byte_of c3 in
             if cont b1 && cont b2 && cont b3
                && negb ((b0 =? 240) && (b1 <? 144)) && negb ((b0 =? 244) && (143 <? b1))
             then ((b0 - 240) * 262144 + (b1 - 128) * 4096 + (b2 - 128) * 64 + (b3 - 128), 4%nat)
             else (RuneError, 1%nat)
         | _ => (RuneError, 1%nat)
         end
       else (RuneError, 1%nat)
   end)%Z.

(** A Unicode scalar value: what utf8.ValidRune accepts. (string(ret), cfgrammar.go:167) *)
Definition valid_rune (r : rune) : bool :=
  ((0 <=? r) && (r <? 55296) || (57343 <? r) && (r <=? 1114111))%Z.

(** the string with these bytes (cfgrammar.go:167) *)
Definition bytes (l : list Z) : string :=
  fold_right (fun b s => String (of_byte b) s) EmptyString l.

(** string(r): the UTF-8 encoding of a rune; invalid runes become U+FFFD.
    (cfgrammar.go:105) *)
Definition encode_rune (r0 : rune) : string :=
  (let r := if valid_rune r0 then r0 else RuneError in
   if r <? 128 then bytes [r]
   else if r <? 2048 then bytes [192 + r / 64; 128 + r mod 64]
   else if r <? 65536 then bytes [224 + r / 4096; 128 + (r / 64) mod 64; 128 + r mod 64]
   else bytes [240 + r / 262144; 128 + (r / 4096) mod 64; 128 + (r / 64) mod 64; 128 + r mod 64])%Z.

(** string(runes) for a []rune
    (cfgrammar.go:145, 167; cfgrammar_terminal.go:38; cfgrammar_fmr.go:47) *)
Fixpoint encode (l : list rune) : string :=
  match l with
  | [] => ""
  | r :: l' => encode_rune r ++ encode l'
  end.

(** s[n:] (cfgrammar.go:97) *)
Fixpoint drop (n : nat) (s : string) : string :=
  match n, s with
  | O, _ => s
  | S n', String _ s' => drop n' s'
  | S _, EmptyString => EmptyString
  end.

(** Go slicing s[a:b]; panics unless a <= b <= len(s).
    (cfgrammar_regex.go:33; node_methods.go:41) *)
Definition slice (s : string) (a b : nat) : res string :=
  if Nat.leb a b && Nat.leb b (String.length s) then Ret (substring a (b - a) s) else Panic.

(** unicode.IsSpace: the Latin-1 switch and the White_Space table.
    (cfgrammar.go:141; strings.TrimSpace in api.go:184) *)
Definition is_space (r : rune) : bool :=
  ((r =? 9) || (r =? 10) || (r =? 11) || (r =? 12) || (r =? 13) || (r =? 32)
   || (r =? 133) || (r =? 160) || (r =? 5760) || ((8192 <=? r) && (r <=? 8202))
   || (r =? 8232) || (r =? 8233) || (r =? 8239) || (r =? 8287) || (r =? 12288))%Z.

(** strings.TrimLeftFunc(s, unicode.IsSpace); [n] is a step budget, enough when
    it is at least the length of the string.
    (strings.TrimSpace: api.go:184, grammar_index.go:35) *)
Fixpoint trim_left (n : nat) (s : string) : string :=
  match n with
  | O => s
  | S n' =>
      match s with
      | EmptyString => s
      | _ => let '(r, w) := decode_rune s in if is_space r then trim_left n' (drop w s) else s
      end
  end.

(** unicode/utf8 [DecodeLastRuneInString]: tries the last 4, 3, 2 bytes from the
    nearest rune start on; the code walks back at most 3 bytes to a byte that
    can start a rune and accepts only if the rune ends the string.
    (strings.TrimSpace: api.go:184, grammar_index.go:35) *)
Definition rune_start (c : ascii) : bool := negb (cont (byte_of c)).
(** the rune at the last [k] bytes if one can start there (strings.TrimSpace: api.go:184) *)
Definition last_rune_at (s : string) (k : nat) : option (rune * nat) :=
  let t := drop (String.length s - k) s in
  match t with
  | String c _ => if rune_start c then Some (decode_rune t) else None
  | EmptyString => None
  end.
(** the walk back (strings.TrimSpace: api.go:184) *)
Fixpoint find_start (s : string) (k limit : nat) : rune * nat :=
  match limit with
  | O => (RuneError, 1)
  | S limit' =>
      if Nat.leb k (String.length s) then
        match last_rune_at s k with
        | Some (r, w) => if Nat.eqb w k then (r, w) else (RuneError, 1)
        | None => find_start s (S k) limit'
        end
      else (RuneError, 1)
  end.
(** the last rune and its width (strings.TrimSpace: api.go:184) *)
Definition decode_last_rune (s : string) : rune * nat :=
  match s with
  | EmptyString => (RuneError, 0)
  | _ => find_start s 1 4
  end.

(** strings.TrimRightFunc(s, unicode.IsSpace)
    (strings.TrimSpace: api.go:184, grammar_index.go:35) *)
Fixpoint trim_right (n : nat) (s : string) : string :=
  match n with
  | O => s
  | S n' =>
      match s with
      | EmptyString => s
      | _ => let '(r, w) := decode_last_rune s in
             if is_space r then trim_right n' (substring 0 (String.length s - w) s) else s
      end
  end.

(** strings.TrimSpace (api.go:184, grammar_index.go:35) *)
Definition trim_space (s : string) : string :=
  let t := trim_left (String.length s) s in trim_right (String.length t) t.
