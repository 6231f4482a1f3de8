(** strconv.Quote and %d can be read back. *)
From Coq Require Import Ascii DecimalString DecimalFacts DecimalNat DecimalN.
From Verif Require Import Base ModelTypes ModelText ModelQuote ProofUtf8 ProofStringContext.

Lemma append_assoc a b c : ((a ++ b) ++ c = a ++ (b ++ c))%string.
Proof. induction a as [|x a IH]; cbn; [reflexivity|]. f_equal. exact IH. Qed.
Lemma append_inj_l a b c : (a ++ b = a ++ c)%string -> b = c.
Proof. induction a as [|x a IH]; cbn; [auto|]. intros [= H]. auto. Qed.
Lemma append_nil_r a : (a ++ "" = a)%string.
Proof. induction a as [|x a IH]; cbn; [reflexivity|]. f_equal. exact IH. Qed.

(** ** Hexadecimal digits *)
Definition unhex1 (c : ascii) : Z := (let b := byte_of c in if b <? 58 then b - 48 else b - 87)%Z.
Fixpoint unhex (k : nat) (acc : Z) (u : string) : Z * string :=
  match k, u with
  | S k', String c u' => unhex k' (acc * 16 + unhex1 c)%Z u'
  | _, _ => (acc, u)
  end.
Lemma unhex1_digit n : (0 <= n < 16)%Z -> unhex1 (hex_digit n) = n.
Proof.
  intros H. unfold unhex1, hex_digit. destruct (Z.ltb_spec n 10); rewrite byte_of_byte by lia.
  - destruct (Z.ltb_spec (48 + n) 58); lia.
  - destruct (Z.ltb_spec (87 + n) 58); lia.
Qed.
Lemma unhex_hex k : forall n acc a, (0 <= n)%Z ->
  unhex k acc (hex k n ++ a) = (acc * 16 ^ Z.of_nat k + n mod 16 ^ Z.of_nat k, a)%Z.
Proof.
  induction k as [|k IH]; intros n acc a Hn.
  - cbn [hex unhex append]. change (16 ^ Z.of_nat 0)%Z with 1%Z. rewrite Z.mod_1_r. f_equal. lia.
  - cbn [hex append unhex]. rewrite IH by exact Hn.
    pose proof (Z.mod_pos_bound (n / 16 ^ Z.of_nat k) 16 ltac:(lia)). rewrite unhex1_digit by lia. f_equal.
    rewrite Nat2Z.inj_succ, Z.pow_succ_r by lia. pose proof (Z.pow_pos_nonneg 16 (Z.of_nat k) ltac:(lia) ltac:(lia)) as P.
    rewrite (Z.mul_comm 16 (16 ^ Z.of_nat k)), Z.rem_mul_r by lia. lia.
Qed.

(** ** One step of Quote *)
Definition esc_char (c : ascii) : option ascii :=
  (let b := byte_of c in
   if b =? 97 then Some (of_byte 7) else if b =? 98 then Some (of_byte 8) else if b =? 102 then Some (of_byte 12)
   else if b =? 110 then Some (of_byte 10) else if b =? 114 then Some (of_byte 13) else if b =? 116 then Some (of_byte 9)
   else if b =? 118 then Some (of_byte 11) else if (b =? 34) || (b =? 92) then Some c else None)%Z.
Definition unesc (u : string) : option (string * string) :=
  match u with
  | EmptyString => None
  | String c u1 =>
      if (byte_of c =? 92)%Z then
        match u1 with
        | EmptyString => None
        | String d u2 =>
            let e := byte_of d in
            if (e =? 120)%Z then let '(v, r) := unhex 2 0 u2 in Some (String (of_byte v) "", r)
            else if (e =? 117)%Z then let '(v, r) := unhex 4 0 u2 in Some (encode_rune v, r)
            else if (e =? 85)%Z then let '(v, r) := unhex 8 0 u2 in Some (encode_rune v, r)
            else match esc_char d with Some x => Some (String x "", u2) | None => None end
        end
      else let '(r, w) := decode_rune u in Some (encode_rune r, drop w u)
  end.

Section Quote.
  Variable is_print_hi : rune -> bool.
  Notation piece s := (let '(r, w) := decode_rune s in
    if Nat.eqb w 1 && Z.eqb r RuneError then match s with String c _ => "\x" ++ hex 2 (byte_of c) | _ => "" end
    else escape_rune is_print_hi r)%string.

  Lemma encode_small r : (0 <= r < 128)%Z -> encode_rune r = String (of_byte r) "".
  Proof.
    intros H. unfold encode_rune, valid_rune. replace (0 <=? r)%Z with true by (symmetry; apply Z.leb_le; lia).
    replace (r <? 55296)%Z with true by (symmetry; apply Z.ltb_lt; lia). cbn [andb orb].
    replace (r <? 128)%Z with true by (symmetry; apply Z.ltb_lt; lia). reflexivity.
  Qed.

  Lemma escape_back r a : valid_rune r = true -> unesc (escape_rune is_print_hi r ++ a) = Some (encode_rune r, a).
  Proof.
    intros Hv. pose proof (valid_rune_range r Hv) as Hr. unfold escape_rune.
    destruct ((r =? 34) || (r =? 92))%Z eqn:E0.
    { apply orb_true_iff in E0 as [E|E]; apply Z.eqb_eq in E; subst r; reflexivity. }
    apply orb_false_iff in E0 as [E34 E92]. apply Z.eqb_neq in E34, E92.
    destruct (is_print is_print_hi r).
    { pose proof (encode_rune_length r) as L. destruct (encode_rune r) as [|c u] eqn:E; [cbn in L; lia|].
      assert (byte_of c <> 92%Z) as Hc.
      { destruct (encode_rune_bytes r c) as [B|[B1 B2]]; [rewrite E; left; reflexivity|lia|lia]. }
      cbn [append unesc]. rewrite (proj2 (Z.eqb_neq _ _) Hc).
      change (String c (u ++ a)) with (String c u ++ a)%string. rewrite <- E, decode_encode by exact Hv.
      rewrite drop_append. reflexivity. }
    repeat match goal with |- context [if (r =? ?k)%Z then _ else _] =>
      destruct (Z.eqb_spec r k); [subst r; reflexivity|] end.
    destruct ((r <? 32) || (r =? 127))%Z eqn:E1.
    { assert (0 <= r < 128)%Z as B by (apply orb_true_iff in E1 as [E1|E1]; [apply Z.ltb_lt in E1|apply Z.eqb_eq in E1]; lia).
      rewrite append_assoc. cbn [append unesc]. change (byte_of "\" =? 92)%Z with true. cbn iota.
      change (byte_of "x" =? 120)%Z with true. cbn iota zeta. rewrite unhex_hex by lia.
      rewrite encode_small by exact B. change (16 ^ Z.of_nat 2)%Z with 256%Z. rewrite Z.mod_small by lia. reflexivity. }
    rewrite Hv. cbn [negb]. destruct (Z.ltb_spec r 65536).
    - rewrite append_assoc. cbn [append unesc]. change (byte_of "\" =? 92)%Z with true. cbn iota.
      change (byte_of "u" =? 120)%Z with false. change (byte_of "u" =? 117)%Z with true. cbn iota zeta. rewrite unhex_hex by lia.
      change (16 ^ Z.of_nat 4)%Z with 65536%Z. rewrite Z.mod_small by lia. reflexivity.
    - rewrite append_assoc. cbn [append unesc]. change (byte_of "\" =? 92)%Z with true. cbn iota.
      change (byte_of "U" =? 120)%Z with false. change (byte_of "U" =? 117)%Z with false. change (byte_of "U" =? 85)%Z with true.
      cbn iota zeta. rewrite unhex_hex by lia.
      change (16 ^ Z.of_nat 8)%Z with 4294967296%Z. rewrite Z.mod_small by lia. reflexivity.
  Qed.

  Lemma piece_back s a : s <> EmptyString ->
    exists k, s = (k ++ drop (snd (decode_rune s)) s)%string /\ k <> EmptyString /\ unesc (piece s ++ a) = Some (k, a).
  Proof.
    intros Hs. destruct (decode_rune s) as [r w] eqn:D. cbn [snd].
    destruct (Nat.eqb w 1 && Z.eqb r RuneError) eqn:E.
    - apply andb_true_iff in E as [E1 E2]. apply Nat.eqb_eq in E1. subst w. destruct s as [|c s]; [congruence|].
      exists (String c ""). split; [reflexivity|]. split; [discriminate|].
      rewrite append_assoc. cbn [append unesc]. change (byte_of "\" =? 92)%Z with true. cbn iota.
      change (byte_of "x" =? 120)%Z with true. cbn iota zeta. pose proof (byte_range c). rewrite unhex_hex by lia.
      change (16 ^ Z.of_nat 2)%Z with 256%Z. rewrite Z.mod_small by lia. rewrite Z.add_0_l, of_byte_of. reflexivity.
    - destruct (decode_whole s r w D Hs) as (Hv & Hw & t & Ht).
      { intros [E1 E2]. subst. cbn in E. discriminate. }
      exists (encode_rune r). split; [rewrite Ht at 1; rewrite Ht, Hw, drop_append; reflexivity|].
      split; [intros E0; pose proof (encode_rune_length r) as L; rewrite E0 in L; cbn in L; lia|].
      apply escape_back. exact Hv.
  Qed.

  Lemma piece_start s a : s <> EmptyString -> exists c u, (piece s ++ a = String c u)%string /\ byte_of c <> 34%Z.
  Proof.
    intros Hs. destruct (decode_rune s) as [r w] eqn:D.
    destruct (Nat.eqb w 1 && Z.eqb r RuneError) eqn:E.
    - destruct s as [|c s]; [congruence|]. eexists _, _. split; [reflexivity|discriminate].
    - destruct (decode_whole s r w D Hs) as (Hv & _).
      { intros [E1 E2]. subst. cbn in E. discriminate. }
      unfold escape_rune.
      destruct ((r =? 34) || (r =? 92))%Z eqn:E0; [eexists _, _; split; [reflexivity|discriminate]|].
      apply orb_false_iff in E0 as [E34 E92]. apply Z.eqb_neq in E34, E92.
      destruct (is_print is_print_hi r).
      { pose proof (encode_rune_length r) as L. destruct (encode_rune r) as [|c u] eqn:E'; [cbn in L; lia|].
        eexists _, _. split; [reflexivity|]. destruct (encode_rune_bytes r c) as [B|[B1 B2]]; [rewrite E'; left; reflexivity|lia|lia]. }
      repeat match goal with |- context [if ?b then _ else _] => destruct b; [eexists _, _; split; [reflexivity|discriminate]|] end.
      eexists _, _. split; [reflexivity|discriminate].
  Qed.

  Lemma quote_body_step n s : s <> EmptyString ->
    quote_body is_print_hi (S n) s = (piece s ++ quote_body is_print_hi n (drop (snd (decode_rune s)) s))%string.
  Proof. intros Hs. destruct s as [|c s]; [congruence|]. cbn [quote_body]. destruct (decode_rune (String c s)) as [r w]. reflexivity. Qed.

  Lemma quote_body_inj : forall n s m t a b, String.length s <= n -> String.length t <= m ->
    (quote_body is_print_hi n s ++ String """" a = quote_body is_print_hi m t ++ String """" b)%string -> s = t /\ a = b.
  Proof.
    assert (forall n, quote_body is_print_hi n EmptyString = EmptyString) as Q0 by (intros [|n]; reflexivity).
    induction n as [|n IH]; intros s m t a b Hn Hm H.
    - destruct s; [|cbn in Hn; lia]. cbn [quote_body append] in H. destruct t as [|c t]; [rewrite Q0 in H; injection H as ->; auto|].
      destruct m as [|m]; [cbn in Hm; lia|]. rewrite quote_body_step, append_assoc in H by discriminate.
      match type of H with _ = (?p ++ ?r)%string => destruct (piece_start (String c t) r ltac:(discriminate)) as (d & u & E & Hd) end.
      rewrite E in H. injection H as <- _. elim Hd. reflexivity.
    - destruct s as [|x s].
      + rewrite Q0 in H. destruct t as [|c t]; [rewrite Q0 in H; injection H as ->; auto|].
        destruct m as [|m]; [cbn in Hm; lia|]. rewrite quote_body_step, append_assoc in H by discriminate.
        change ("" ++ String "034" a)%string with (String "034" a) in H.
        match type of H with _ = (?p ++ ?r)%string => destruct (piece_start (String c t) r ltac:(discriminate)) as (d & u & E & Hd) end.
        rewrite E in H. injection H as <- _. elim Hd. reflexivity.
      + rewrite quote_body_step, append_assoc in H by discriminate.
        destruct t as [|y t].
        { rewrite Q0 in H. change ("" ++ String "034" b)%string with (String "034" b) in H.
          match type of H with (?p ++ ?r)%string = _ => destruct (piece_start (String x s) r ltac:(discriminate)) as (d & u & E & Hd) end.
          rewrite E in H. injection H as -> _. elim Hd. reflexivity. }
        destruct m as [|m]; [cbn in Hm; lia|]. rewrite quote_body_step, append_assoc in H by discriminate.
        match type of H with (_ ++ ?r)%string = (_ ++ ?r')%string =>
          destruct (piece_back (String x s) r ltac:(discriminate)) as (k & E1 & K1 & U1);
          destruct (piece_back (String y t) r' ltac:(discriminate)) as (k' & E2 & K2 & U2) end.
        rewrite H, U2 in U1. pose proof (f_equal (fun o => match o with Some p => fst p | None => EmptyString end) U1) as Ek.
        apply (f_equal (fun o => match o with Some p => snd p | None => EmptyString end)) in U1. cbn [fst snd] in Ek, U1. subst k'.
        assert (forall z k r, z = (k ++ r)%string -> k <> EmptyString -> String.length r < String.length z) as Hlen.
        { intros z k0 r0 -> Hk. rewrite string_length_append. destruct k0; [congruence|]. cbn. lia. }
        pose proof (Hlen _ _ _ E1 K1). pose proof (Hlen _ _ _ E2 K2).
        cbn [String.length] in Hn, Hm. apply eq_sym, IH in U1; [destruct U1 as [E ->]|cbn [String.length] in *; lia|cbn [String.length] in *; lia].
        split; [|reflexivity]. rewrite E1, E2, E. reflexivity.
  Qed.

  Lemma quote_inj s t a b : (quote is_print_hi s ++ a = quote is_print_hi t ++ b)%string -> s = t /\ a = b.
  Proof.
    unfold quote. cbn [append]. intros [= H]. rewrite !append_assoc in H. cbn [append] in H.
    apply quote_body_inj in H; auto.
  Qed.
End Quote.

(** ** Decimal numbers *)
Definition is_digit (c : ascii) : Prop := (48 <= byte_of c <= 57)%Z.
Definition no_digit_first (s : string) : Prop := match s with EmptyString => True | String c _ => ~ is_digit c end.
Lemma uint_digits d : forall c u, NilEmpty.string_of_uint d = String c u -> is_digit c.
Proof. destruct d; cbn; intros c u [= <- _]; unfold is_digit; cbn; lia. Qed.
Lemma uint_prefix d : forall d' a b, no_digit_first a -> no_digit_first b ->
  (NilEmpty.string_of_uint d ++ a = NilEmpty.string_of_uint d' ++ b)%string -> d = d' /\ a = b.
Proof.
  induction d; intros d' a b Ha Hb H; destruct d'; cbn in H;
    try (injection H as H; destruct (IHd _ _ _ Ha Hb H) as [-> ->]; auto; fail); try discriminate H; auto.
  all: exfalso; first [ rewrite H in Ha; apply Ha; unfold is_digit; cbn; lia | rewrite <- H in Hb; apply Hb; unfold is_digit; cbn; lia ].
Qed.
Lemma dec_N_nonnil n : N.to_uint n <> Decimal.Nil.
Proof. destruct n; cbn; [discriminate|]. apply DecimalPos.Unsigned.to_uint_nonnil. Qed.
Lemma dec_N_prefix n m a b : no_digit_first a -> no_digit_first b ->
  (dec_N n ++ a = dec_N m ++ b)%string -> n = m /\ a = b.
Proof.
  intros Ha Hb H. unfold dec_N, NilZero.string_of_uint in H.
  pose proof (dec_N_nonnil n) as Hn. pose proof (dec_N_nonnil m) as Hm.
  assert (N.to_uint n = N.to_uint m /\ a = b) as [E ->].
  { apply uint_prefix; auto. destruct (N.to_uint n); [congruence|..]; destruct (N.to_uint m); congruence. }
  split; [|reflexivity]. rewrite <- (DecimalN.Unsigned.of_to n), E. apply DecimalN.Unsigned.of_to.
Qed.
