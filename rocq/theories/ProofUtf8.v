(** UTF-8: decoding an encoded rune, and the first bytes of a byte string. *)
From Coq Require Import Ascii.
From Verif Require Import Base ModelText.
Open Scope Z_scope.

Lemma byte_of_byte b : 0 <= b < 256 -> byte_of (of_byte b) = b.
Proof.
  intros H. unfold byte_of, of_byte. rewrite N_ascii_embedding.
  - apply Z2N.id. lia.
  - change 256%N with (Z.to_N 256). apply Z2N.inj_lt; lia.
Qed.

Lemma byte_range c : 0 <= byte_of c < 256.
Proof. unfold byte_of. pose proof (N_ascii_bounded c). lia. Qed.

Ltac zbool :=
  repeat match goal with
  | |- context [?a <? ?b] => let E := fresh "E" in destruct (Z.ltb_spec a b) as [E|E]; try (exfalso; lia)
  | |- context [?a <=? ?b] => let E := fresh "E" in destruct (Z.leb_spec a b) as [E|E]; try (exfalso; lia)
  | |- context [?a =? ?b] => let E := fresh "E" in destruct (Z.eqb_spec a b) as [E|E]; try (exfalso; lia)
  end.

Lemma valid_rune_range r : valid_rune r = true -> 0 <= r < 55296 \/ 57344 <= r <= 1114111.
Proof. unfold valid_rune. zbool; simpl; intros; try discriminate; lia. Qed.

Lemma decode_encode r t :
  valid_rune r = true ->
  decode_rune (encode_rune r ++ t)%string = (r, String.length (encode_rune r)).
Proof.
  intros Hv. pose proof (valid_rune_range r Hv) as Hr.
  unfold encode_rune. rewrite Hv.
  pose proof (Z.div_mod r 64 ltac:(lia)). pose proof (Z.mod_pos_bound r 64 ltac:(lia)).
  pose proof (Z.div_mod (r / 64) 64 ltac:(lia)). pose proof (Z.mod_pos_bound (r / 64) 64 ltac:(lia)).
  pose proof (Z.div_mod (r / 4096) 64 ltac:(lia)). pose proof (Z.mod_pos_bound (r / 4096) 64 ltac:(lia)).
  assert (r / 4096 = r / 64 / 64) by (rewrite Z.div_div by lia; reflexivity).
  assert (r / 262144 = r / 4096 / 64) by (rewrite Z.div_div by lia; reflexivity).
  destruct (Z.ltb_spec r 128); [|destruct (Z.ltb_spec r 2048); [|destruct (Z.ltb_spec r 65536)]].
  - cbn [bytes fold_right append decode_rune String.length]. rewrite byte_of_byte by lia.
    zbool. reflexivity.
  - cbn [bytes fold_right append decode_rune String.length]. rewrite !byte_of_byte by lia.
    unfold cont. zbool; cbn [andb negb]; f_equal; lia.
  - cbn [bytes fold_right append decode_rune String.length]. rewrite !byte_of_byte by lia.
    unfold cont. zbool; cbn [andb negb]; f_equal; lia.
  - cbn [bytes fold_right append decode_rune String.length]. rewrite !byte_of_byte by lia.
    unfold cont. zbool; cbn [andb negb]; f_equal; lia.
Qed.


Lemma encode_rune_length r : (1 <= String.length (encode_rune r) <= 4)%nat.
Proof.
  unfold encode_rune.
  destruct (valid_rune r); repeat match goal with |- context [if ?b then _ else _] => destruct b end;
    cbn [bytes fold_right String.length]; lia.
Qed.

Lemma of_byte_of c : of_byte (byte_of c) = c.
Proof. unfold of_byte, byte_of. rewrite N2Z.id. apply ascii_N_embedding. Qed.

Lemma cont_range b : cont b = true -> 128 <= b <= 191.
Proof. unfold cont. zbool; cbn [andb]; intros; try discriminate; lia. Qed.

Lemma divmod_unique r q m d : 0 <= m < d -> r = q * d + m -> r / d = q /\ r mod d = m.
Proof.
  intros Hm ->. split.
  - rewrite Z.div_add_l by lia. rewrite Z.div_small by lia. lia.
  - rewrite Z.add_comm, Z.mod_add by lia. apply Z.mod_small. lia.
Qed.

(** A byte string that starts with a decodable rune. *)
Lemma decode_whole s r w :
  decode_rune s = (r, w) -> s <> EmptyString -> ~ (w = 1%nat /\ r = RuneError) ->
  valid_rune r = true /\ w = String.length (encode_rune r)
  /\ exists t, s = (encode_rune r ++ t)%string.
Proof.
  intros H Hs Hr. destruct s as [|c0 s0]; [congruence|].
  unfold decode_rune in H.
  pose proof (byte_range c0) as R0.
  destruct (Z.ltb_spec (byte_of c0) 128).
  { injection H as <- <-. assert (Hv : valid_rune (byte_of c0) = true) by (unfold valid_rune; zbool; reflexivity).
    split; [exact Hv|]. unfold encode_rune. rewrite Hv.
    zbool. cbn. rewrite of_byte_of. split; [reflexivity|]. exists s0. reflexivity. }
  destruct (Z.ltb_spec (byte_of c0) 194); [injection H as <- <-; exfalso; apply Hr; auto|].
  destruct (Z.ltb_spec (byte_of c0) 224).
  { destruct s0 as [|c1 s1]; [injection H as <- <-; exfalso; apply Hr; auto|].
    destruct (cont (byte_of c1)) eqn:C1; [|injection H as <- <-; exfalso; apply Hr; auto].
    apply cont_range in C1. injection H as <- <-.
    set (r := (byte_of c0 - 192) * 64 + (byte_of c1 - 128)) in *.
    assert (Hv : valid_rune r = true) by (unfold valid_rune; zbool; reflexivity).
    split; [exact Hv|]. unfold encode_rune. rewrite Hv.
    destruct (divmod_unique r (byte_of c0 - 192) (byte_of c1 - 128) 64 ltac:(lia) ltac:(lia)) as [D M].
    zbool. cbn [bytes fold_right append String.length]. split; [reflexivity|]. exists s1.
    replace (192 + r / 64) with (byte_of c0) by lia. replace (128 + r mod 64) with (byte_of c1) by lia.
    rewrite !of_byte_of. reflexivity. }
  destruct (Z.ltb_spec (byte_of c0) 240).
  { destruct s0 as [|c1 [|c2 s2]]; [injection H as <- <-; exfalso; apply Hr; auto|injection H as <- <-; exfalso; apply Hr; auto|].
    destruct (cont (byte_of c1)) eqn:C1; [|injection H as <- <-; exfalso; apply Hr; auto].
    destruct (cont (byte_of c2)) eqn:C2; [|injection H as <- <-; exfalso; apply Hr; auto].
    apply cont_range in C1. apply cont_range in C2. cbn [andb] in H.
    destruct (negb ((byte_of c0 =? 224) && (byte_of c1 <? 160))) eqn:X1;
      [|injection H as <- <-; exfalso; apply Hr; auto].
    destruct (negb ((byte_of c0 =? 237) && (159 <? byte_of c1))) eqn:X2;
      [|injection H as <- <-; exfalso; apply Hr; auto].
    cbn [andb] in H. injection H as <- <-.
    set (r := (byte_of c0 - 224) * 4096 + (byte_of c1 - 128) * 64 + (byte_of c2 - 128)) in *.
    assert (HX : 2048 <= r /\ (r < 55296 \/ 57344 <= r)).
    { revert X1 X2. zbool; cbn [andb negb]; intros; try discriminate; lia. }
    assert (Hv : valid_rune r = true)
      by (unfold valid_rune; zbool; cbn [andb orb]; try reflexivity; exfalso; lia).
    split; [exact Hv|]. unfold encode_rune. rewrite Hv.
    destruct (divmod_unique r ((byte_of c0 - 224) * 64 + (byte_of c1 - 128)) (byte_of c2 - 128) 64
                ltac:(lia) ltac:(lia)) as [D M].
    destruct (divmod_unique (r / 64) (byte_of c0 - 224) (byte_of c1 - 128) 64 ltac:(lia) ltac:(lia)) as [D1 M1].
    assert (r / 4096 = byte_of c0 - 224) by (change 4096 with (64 * 64); rewrite <- Z.div_div by lia; exact D1).
    zbool. cbn [bytes fold_right append String.length]. split; [reflexivity|]. exists s2.
    replace (224 + r / 4096) with (byte_of c0) by lia.
    replace (128 + (r / 64) mod 64) with (byte_of c1) by lia.
    replace (128 + r mod 64) with (byte_of c2) by lia.
    rewrite !of_byte_of. reflexivity. }
  destruct (Z.ltb_spec (byte_of c0) 245); [|injection H as <- <-; exfalso; apply Hr; auto].
  { destruct s0 as [|c1 [|c2 [|c3 s3]]]; try (injection H as <- <-; exfalso; apply Hr; auto).
    destruct (cont (byte_of c1)) eqn:C1; [|injection H as <- <-; exfalso; apply Hr; auto].
    destruct (cont (byte_of c2)) eqn:C2; [|injection H as <- <-; exfalso; apply Hr; auto].
    destruct (cont (byte_of c3)) eqn:C3; [|injection H as <- <-; exfalso; apply Hr; auto].
    apply cont_range in C1. apply cont_range in C2. apply cont_range in C3. cbn [andb] in H.
    destruct (negb ((byte_of c0 =? 240) && (byte_of c1 <? 144))) eqn:X1;
      [|injection H as <- <-; exfalso; apply Hr; auto].
    destruct (negb ((byte_of c0 =? 244) && (143 <? byte_of c1))) eqn:X2;
      [|injection H as <- <-; exfalso; apply Hr; auto].
    cbn [andb] in H. injection H as <- <-.
    set (r := (byte_of c0 - 240) * 262144 + (byte_of c1 - 128) * 4096 + (byte_of c2 - 128) * 64
              + (byte_of c3 - 128)) in *.
    assert (HX : 65536 <= r <= 1114111).
    { revert X1 X2. zbool; cbn [andb negb]; intros; try discriminate; lia. }
    assert (Hv : valid_rune r = true)
      by (unfold valid_rune; zbool; cbn [andb orb]; try reflexivity; exfalso; lia).
    split; [exact Hv|]. unfold encode_rune. rewrite Hv.
    destruct (divmod_unique r ((byte_of c0 - 240) * 4096 + (byte_of c1 - 128) * 64 + (byte_of c2 - 128))
                (byte_of c3 - 128) 64 ltac:(lia) ltac:(lia)) as [D M].
    destruct (divmod_unique (r / 64) ((byte_of c0 - 240) * 64 + (byte_of c1 - 128)) (byte_of c2 - 128) 64
                ltac:(lia) ltac:(lia)) as [D1 M1].
    assert (E4 : r / 4096 = r / 64 / 64) by (change 4096 with (64 * 64); rewrite <- Z.div_div by lia; reflexivity).
    destruct (divmod_unique (r / 4096) (byte_of c0 - 240) (byte_of c1 - 128) 64 ltac:(lia) ltac:(lia)) as [D2 M2].
    assert (r / 262144 = byte_of c0 - 240) by (change 262144 with (4096 * 64); rewrite <- Z.div_div by lia; exact D2).
    zbool. cbn [bytes fold_right append String.length]. split; [reflexivity|]. exists s3.
    replace (240 + r / 262144) with (byte_of c0) by lia.
    replace (128 + (r / 4096) mod 64) with (byte_of c1) by lia.
    replace (128 + (r / 64) mod 64) with (byte_of c2) by lia.
    replace (128 + r mod 64) with (byte_of c3) by lia.
    rewrite !of_byte_of. reflexivity. }
Qed.
Lemma decode_valid s r w :
  decode_rune s = (r, w) -> r <> RuneError ->
  valid_rune r = true /\ w = String.length (encode_rune r)
  /\ exists t, s = (encode_rune r ++ t)%string.
Proof.
  intros H Hr. apply decode_whole; [exact H| |intros [_ E]; congruence].
  intros ->. injection H as <- <-. congruence.
Qed.
Close Scope Z_scope.

Lemma drop_append a b : drop (String.length a) (a ++ b)%string = b.
Proof. induction a; simpl; auto. Qed.
Lemma drop_plus a : forall b s, drop (a + b) s = drop b (drop a s).
Proof.
  induction a as [|a IH]; intros b s; simpl; [reflexivity|].
  destruct s; [destruct b; reflexivity|]. apply IH.
Qed.
Lemma drop_length n : forall s, String.length (drop n s) = String.length s - n.
Proof.
  induction n as [|n IH]; intros s; simpl; [lia|]. destruct s; simpl; [reflexivity|]. apply IH.
Qed.
Lemma encode_app a b : encode (a ++ b) = (encode a ++ encode b)%string.
Proof.
  induction a as [|r a IH]; simpl; [reflexivity|]. rewrite IH.
  generalize (encode_rune r). clear. intros s. induction s as [|c s IHs]; simpl; [reflexivity|].
  f_equal. exact IHs.
Qed.
Lemma encode_length_nonempty r l : encode (r :: l) <> ""%string.
Proof.
  simpl. pose proof (encode_rune_length r). destruct (encode_rune r); simpl in *; [lia|discriminate].
Qed.
Lemma string_length_append s t : String.length (s ++ t)%string = String.length s + String.length t.
Proof. induction s; simpl; auto. Qed.
Lemma encode_length l : length l <= String.length (encode l).
Proof.
  induction l as [|r l IH]; simpl; [lia|]. rewrite string_length_append.
  pose proof (encode_rune_length r). lia.
Qed.
