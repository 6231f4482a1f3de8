(** The functions on numbers compute with numerals of at most ten digits. *)
From Coq Require Import Ascii.
From Verif Require Import Base ModelTypes ModelText ModelEarley ModelTrees ModelApi ModelQuote ModelSem ModelMath ModelFuncs SpecNotation SpecSem
     SpecMath ProofUtf8 ProofNumber ProofString ProofSem.
From Coq Require Znumtheory.
Open Scope Z_scope.

(** ** Digits *)
Notation digit_list := (Forall (fun d => 0 <= d <= 9)).

Lemma number_app a b : number_of (a ++ b) = number_of a * 10 ^ Z.of_nat (length b) + number_of b.
Proof.
  unfold number_of. rewrite fold_left_app. generalize (fold_left (fun a d => a * 10 + d) a 0). clear a.
  induction b as [|d b IH] using rev_ind; intros z; [cbn; lia|].
  rewrite !fold_left_app, app_length. cbn [fold_left length]. rewrite IH, Nat2Z.inj_add, Z.pow_add_r by lia. cbn [Z.of_nat Pos.of_succ_nat].
  change (10 ^ 1) with 10. lia.
Qed.
Lemma number_cons d l : number_of (d :: l) = d * 10 ^ Z.of_nat (length l) + number_of l.
Proof. change (d :: l) with ([d] ++ l). rewrite number_app. reflexivity. Qed.
Lemma number_bounds l : digit_list l -> 0 <= number_of l < 10 ^ Z.of_nat (length l).
Proof.
  induction 1 as [|d l Hd F IH]; [cbn; lia|]. rewrite number_cons. cbn [length]. rewrite Nat2Z.inj_succ, Z.pow_succ_r by lia. nia.
Qed.
Lemma number_lead l : digit_list l -> hd 0 l <> 0 -> 10 ^ Z.of_nat (length l) <= 10 * number_of l.
Proof.
  intros F H. destruct l as [|d l]; [cbn in H; lia|]. inversion F; subst. cbn [hd] in H. rewrite number_cons. cbn [length].
  rewrite Nat2Z.inj_succ, Z.pow_succ_r by lia. pose proof (number_bounds l H3).
  assert (0 < 10 ^ Z.of_nat (length l)) by (apply Z.pow_pos_nonneg; lia). nia.
Qed.

Lemma digits_acc_spec fuel : forall n acc, 0 <= n < 2 ^ Z.of_nat fuel -> exists ds, ModelMath.digits_acc fuel n acc = ds ++ acc
  /\ digit_list ds /\ number_of ds = n /\ (ds <> [] -> hd 0 ds <> 0).
Proof.
  induction fuel as [|fuel IH]; intros n acc Hn.
  { exists []. split; [reflexivity|]. split; [constructor|]. split; [cbn in *; lia|congruence]. }
  cbn [ModelMath.digits_acc]. destruct (Z.eqb_spec n 0) as [->|Hne]; [exists []; split; [reflexivity|]; split; [constructor|]; split; [reflexivity|congruence]|].
  pose proof (Z.div_mod n 10 ltac:(lia)) as Hdm. pose proof (Z.mod_pos_bound n 10 ltac:(lia)) as Hm.
  destruct (IH (n / 10) (n mod 10 :: acc)) as (ds & E & F & V & H).
  { split; [apply Z.div_pos; lia|]. apply Z.div_lt_upper_bound; [lia|]. rewrite Nat2Z.inj_succ, Z.pow_succ_r in Hn by lia. lia. }
  exists (ds ++ [n mod 10]). split; [rewrite E, <- app_assoc; reflexivity|]. split; [apply Forall_app; split; [exact F|constructor; [lia|constructor]]|].
  split; [rewrite number_app, V; cbn; lia|]. intros _. destruct ds as [|d ds]; [|cbn in *; apply H; congruence].
  cbn [app hd]. cbn in V. lia.
Qed.
Lemma digits_spec n : 0 < n -> digit_list (digits n) /\ number_of (digits n) = n /\ hd 0 (digits n) <> 0 /\ digits n <> [].
Proof.
  intros Hn. unfold digits. destruct (digits_acc_spec (Z.to_nat (bits n)) n []) as (ds & E & F & V & H).
  { unfold bits. pose proof (Z.log2_spec n Hn). pose proof (Z.log2_nonneg n). rewrite Z2Nat.id by lia. lia. }
  rewrite E, app_nil_r. assert (ds <> []) as Hne by (intros ->; cbn in V; lia). auto.
Qed.

Lemma number_unique : forall a b, digit_list a -> digit_list b -> length a = length b -> number_of a = number_of b -> a = b.
Proof.
  induction a as [|d a IH]; intros [|d' b] Fa Fb Hl Hv; try discriminate; [reflexivity|]. inversion Fa; inversion Fb; subst.
  rewrite !number_cons in Hv. injection Hl as Hl. rewrite Hl in Hv. pose proof (number_bounds a H2) as Ba. pose proof (number_bounds b H6) as Bb.
  rewrite Hl in Ba. assert (d = d') as -> by nia. f_equal. apply IH; auto. lia.
Qed.
Lemma number_length a b : digit_list a -> digit_list b -> hd 0 a <> 0 -> hd 0 b <> 0 -> number_of a = number_of b -> length a = length b.
Proof.
  intros Fa Fb Ha Hb E. pose proof (number_bounds a Fa) as Ba. pose proof (number_bounds b Fb) as Bb.
  pose proof (number_lead a Fa Ha) as La. pose proof (number_lead b Fb Hb) as Lb.
  assert (forall i j : nat, 10 ^ Z.of_nat i <= 10 * number_of a -> number_of a < 10 ^ Z.of_nat j -> (i <= j)%nat) as K.
  { intros i j H1 H2. assert (10 ^ Z.of_nat i < 10 ^ Z.of_nat (S j)) as H by (rewrite Nat2Z.inj_succ, Z.pow_succ_r by lia; lia).
    apply Z.pow_lt_mono_r_iff in H; lia. }
  apply Nat.le_antisymm; apply K; lia.
Qed.

(** ** Numerals *)
Lemma digits_chars l : digits_text l = chars_of l.
Proof. induction l as [|d l IH]; [reflexivity|]. cbn [digits_text chars_of]. rewrite IH. reflexivity. Qed.

Lemma numeral_zero s : numeral 0 s <-> s = "0"%string.
Proof.
  split.
  - intros (ds & F & Hne & Hz & V & ->). change (Z.abs 0) with 0 in V. change (0 <? 0) with false.
    destruct (Z.eq_dec (hd 0 ds) 0) as [E|E]; [rewrite (Hz E); reflexivity|]. exfalso. pose proof (number_lead ds F E).
    assert (0 < 10 ^ Z.of_nat (length ds)) by (apply Z.pow_pos_nonneg; lia). lia.
  - intros ->. exists [0]. repeat split; auto; [constructor; [lia|constructor]|congruence].
Qed.
Lemma numeral_nonzero z s : z <> 0 ->
  numeral z s <-> s = ((if (z <? 0)%Z then "-" else "") ++ digits_text (digits (Z.abs z)))%string.
Proof.
  intros Hz. destruct (digits_spec (Z.abs z) ltac:(lia)) as (F & V & H & Hne). split.
  - intros (ds & F' & Hne' & Hz' & V' & ->).
    assert (ds = digits (Z.abs z)) as ->; [|reflexivity].
    assert (hd 0 ds <> 0) as H'. { intros E. rewrite (Hz' E) in V'. cbn in V'. lia. }
    apply number_unique; auto; [|congruence]. apply number_length; auto. congruence.
  - intros ->. exists (digits (Z.abs z)). repeat split; auto. intros E. contradiction.
Qed.
Lemma numeral_unique z s s' : numeral z s -> numeral z s' -> s = s'.
Proof.
  intros H H'. destruct (Z.eq_dec z 0) as [->|Hz].
  - apply numeral_zero in H. apply numeral_zero in H'. congruence.
  - apply (numeral_nonzero z) in H; [|exact Hz]. apply (numeral_nonzero z) in H'; [|exact Hz]. congruence.
Qed.

Lemma numeral_no_e z s : numeral z s -> ~ In "e"%char (list_ascii_of_string s).
Proof.
  intros (ds & F & _ & _ & _ & ->) H.
  assert (In "e"%char (list_ascii_of_string (chars_of ds))) as K.
  { destruct (z <? 0)%Z; [|exact H]. cbn in H. destruct H as [H|H]; [discriminate H|exact H]. }
  clear H. induction F as [|d ds Hd F IH]; [exact K|]. cbn in K. destruct K as [K|K]; [|exact (IH K)].
  assert (d = 0 \/ d = 1 \/ d = 2 \/ d = 3 \/ d = 4 \/ d = 5 \/ d = 6 \/ d = 7 \/ d = 8 \/ d = 9) as C by lia.
  repeat (destruct C as [->|C]; [discriminate K|]). subst d. discriminate K.
Qed.

Lemma dec_Z_numeral z : numeral z (dec_Z z).
Proof.
  assert (forall ds, decimals ds -> encode ds = chars_of (map (fun c => c - 48) ds)) as Henc.
  { induction 1 as [|c ds Hc F IH]; [reflexivity|]. cbn [encode map chars_of]. rewrite IH. unfold encode_rune.
    replace (valid_rune c) with true by (symmetry; unfold valid_rune; rewrite orb_true_iff, andb_true_iff, Z.leb_le, Z.ltb_lt; lia).
    replace (c <? 128) with true by (symmetry; apply Z.ltb_lt; lia). replace (48 + (c - 48)) with c by lia. reflexivity. }
  assert (forall ds, decimal_value ds = number_of (map (fun c => c - 48) ds)) as Hval.
  { intros ds. unfold decimal_value, number_of. generalize 0. induction ds as [|c ds IH]; intros a; [reflexivity|]. cbn [fold_left map]. apply IH. }
  assert (forall n, numeral (Z.of_N n) (dec_N n)) as HN.
  { intros n. destruct (dec_N_digits n) as (c & ds & E & D & V & H). exists (map (fun c => c - 48) (c :: ds)).
    split; [rewrite Forall_map; revert D; apply Forall_impl; lia|]. split; [discriminate|].
    split. { cbn. intros E0. destruct H as [H|H]; [lia|]. subst ds. cbn. f_equal. exact E0. }
    split; [rewrite <- Hval, V; lia|]. destruct (Z.ltb_spec (Z.of_N n) 0); [lia|]. rewrite E. apply (Henc (c :: ds) D). }
  unfold dec_Z. destruct z as [|q|q].
  - exact (HN 0%N).
  - exact (HN (N.pos q)).
  - destruct (HN (N.pos q)) as (ds & F & H1 & H2 & H3 & E). exists ds. repeat (split; [assumption|]). rewrite E. reflexivity.
Qed.

(** ** Printing integers *)
Lemma trim_zeros_spec l : exists k, l = trim_zeros l ++ repeat 0 k /\ (length (trim_zeros l) + k = length l)%nat.
Proof.
  induction l as [|d l (k & E & Hk)]; [exists 0%nat; auto|]. cbn [trim_zeros]. destruct (trim_zeros l) as [|x t] eqn:Et.
  - destruct (Z.eqb_spec d 0) as [->|Hd].
    + exists (S k). cbn in *. split; [f_equal; exact E|lia].
    + exists k. cbn in *. split; [f_equal; exact E|lia].
  - exists k. cbn in *. split; [f_equal; exact E|lia].
Qed.

Lemma print_small n z : 0 < z < 10 ^ 10 ->
  big_string (BFin n z 0) = ((if n then "-" else "") ++ digits_text (digits z))%string.
Proof.
  intros Hz. destruct (digits_spec z ltac:(lia)) as (F & V & H & Hne). unfold big_string, decimal_of.
  destruct (Z.eqb_spec z 0); [lia|]. change (0 <=? 0) with true. cbn iota. change (2 ^ 0) with 1. rewrite Z.mul_1_r.
  set (ds := digits z) in *. destruct (trim_zeros_spec ds) as (k & Ek & Hk). set (t := trim_zeros ds) in *.
  assert (length ds <= 10)%nat as HL.
  { pose proof (number_lead ds F H). rewrite V in *.
    destruct (Nat.le_gt_cases (length ds) 10) as [|G]; [assumption|exfalso].
    assert (10 ^ 11 <= 10 ^ Z.of_nat (length ds)) by (apply Z.pow_le_mono_r; lia). lia. }
  assert (0 < length ds)%nat as HL0 by (destruct ds; [congruence|cbn; lia]).
  unfold dec_round. cbn [d_mant d_exp].
  replace (Nat.leb (length t) 10) with true by (symmetry; apply Nat.leb_le; lia). cbn [d_mant d_exp].
  set (L := Z.of_nat (length ds)) in *.
  assert (((L - 1 <? -4) || ((if Nat.ltb (length t) 10 && (L <=? Z.of_nat (length t)) then Z.of_nat (length t) else 10) <=? L - 1)) = false) as ->.
  { apply orb_false_intro; [apply Z.ltb_ge; lia|]. apply Z.leb_gt.
    destruct (Nat.ltb (length t) 10); cbn [andb]; [|lia]. destruct (Z.leb_spec L (Z.of_nat (length t))); lia. }
  assert (Z.to_nat (Z.max ((if L <? 10 then Z.of_nat (length t) else 10) - L) 0) = 0%nat) as ->.
  { destruct (Z.ltb_spec L 10); lia. }
  unfold fmt_f. cbn [d_mant d_exp]. replace (0 <? L) with true by (symmetry; apply Z.ltb_lt; lia).
  change (Nat.ltb 0 0) with false. cbn iota. f_equal.
  replace (Z.to_nat L) with (length ds) by lia. rewrite firstn_all2 by lia.
  replace (length ds - length t)%nat with k by lia. rewrite <- Ek. clear. induction (digits_text ds); [reflexivity|]. cbn. f_equal. assumption.
Qed.
Lemma print_zero n : big_string (BFin n 0 0) = if n then "-0"%string else "0"%string.
Proof. destruct n; reflexivity. Qed.

Lemma dec_round_large d : 11 <= d_exp d -> (length (d_mant (dec_round 10 d)) <= 10)%nat /\ 11 <= d_exp (dec_round 10 d).
Proof.
  intros H. unfold dec_round. destruct (Nat.leb_spec (length (d_mant d)) 10) as [Hl|Hl]; [auto|].
  assert (forall r, (length (bump r) <= length r)%nat) as Hb.
  { induction r as [|x r IH]; [auto|]. cbn [bump]. destruct (9 <=? x); cbn; lia. }
  destruct (should_round_up 10 (d_mant d)).
  - pose proof (Hb (rev (firstn 10 (d_mant d)))) as Hb'. rewrite rev_length, firstn_length_le in Hb' by lia.
    destruct (bump (rev (firstn 10 (d_mant d)))) as [|x r] eqn:E.
    + cbn. lia.
    + cbn [d_mant d_exp]. rewrite rev_length. split; [|exact H]. exact Hb'.
  - cbn [d_mant d_exp]. destruct (trim_zeros_spec (firstn 10 (d_mant d))) as (k & _ & Hk). rewrite firstn_length_le in Hk by lia. lia.
Qed.

Lemma string_in_app c a b : In c (list_ascii_of_string (a ++ b)) <-> In c (list_ascii_of_string a) \/ In c (list_ascii_of_string b).
Proof. induction a as [|x a IH]; cbn; [tauto|]. rewrite IH. tauto. Qed.

Lemma fmt_e_has_e k d : In "e"%char (list_ascii_of_string (fmt_e k d)).
Proof. unfold fmt_e. rewrite !string_in_app. cbn. tauto. Qed.

Lemma print_large n m e : 0 <= e -> 10 ^ 10 <= m * 2 ^ e -> In "e"%char (list_ascii_of_string (big_string (BFin n m e))).
Proof.
  intros He Hm. unfold big_string, decimal_of.
  assert (0 < 2 ^ e) by (apply Z.pow_pos_nonneg; lia).
  destruct (Z.eqb_spec m 0) as [->|Hne]; [lia|]. replace (0 <=? e) with true by (symmetry; apply Z.leb_le; lia).
  set (v := m * 2 ^ e) in *. set (ds := digits v). destruct (digits_spec v ltac:(lia)) as (F & V & Hd & _). fold ds in F, V, Hd.
  assert (11 <= Z.of_nat (length ds)) as HL.
  { pose proof (number_bounds ds F) as B. rewrite V in B.
    destruct (Z.le_gt_cases 11 (Z.of_nat (length ds))) as [|G]; [assumption|exfalso].
    assert (10 ^ Z.of_nat (length ds) <= 10 ^ 10) by (apply Z.pow_le_mono_r; lia). lia. }
  destruct (dec_round_large (mkDec (trim_zeros ds) (Z.of_nat (length ds))) HL) as [R1 R2].
  set (d := dec_round 10 (mkDec (trim_zeros ds) (Z.of_nat (length ds)))) in *.
  match goal with |- context [if ?c then fmt_e _ _ else _] => assert (c = true) as -> end.
  { apply orb_true_intro. right. apply Z.leb_le. replace (d_exp d <=? Z.of_nat (length (d_mant d))) with false by (symmetry; apply Z.leb_gt; lia).
    rewrite andb_false_r. lia. }
  rewrite string_in_app. right. apply fmt_e_has_e.
Qed.

(** ** Arithmetic *)
Definition fl (z : Z) : bfloat := BFin (z <? 0) (Z.abs z) 0.
Definition rnd (z : Z) : bfloat := big_round (z <? 0) (Z.abs z) 0.

Lemma bits_bound m k : 0 < m -> m < 2 ^ k -> bits m <= k.
Proof. intros Hm H. unfold bits. apply Z.log2_lt_pow2 in H; lia. Qed.
Lemma bits_lower m : 0 < m -> 2 ^ (bits m - 1) <= m < 2 ^ bits m.
Proof. intros H. unfold bits. pose proof (Z.log2_spec m H). replace (Z.log2 m + 1 - 1) with (Z.log2 m) by lia. lia. Qed.
Lemma rnd_exact z : Z.abs z < 2 ^ 64 -> rnd z = fl z.
Proof.
  intros H. unfold rnd, fl, big_round. destruct (Z.eqb_spec (Z.abs z) 0) as [E|E].
  - cbn [orb]. rewrite E. reflexivity.
  - pose proof (bits_bound (Z.abs z) 64 ltac:(lia) H) as B. replace (bits (Z.abs z) <=? 64) with true by (symmetry; apply Z.leb_le; exact B).
    cbn [orb]. unfold in_range. destruct (Z.eqb_spec (Z.abs z) 0); [lia|].
    assert (0 <= bits (Z.abs z)) by (unfold bits; pose proof (Z.log2_nonneg (Z.abs z)); lia).
    destruct (Z.ltb_spec 2147483647 (0 + bits (Z.abs z))); [lia|]. destruct (Z.ltb_spec (0 + bits (Z.abs z)) (-2147483648)); [lia|]. reflexivity.
Qed.
Lemma rnd_large z : 2 ^ 64 <= Z.abs z < 2 ^ 1000 -> exists n m e, rnd z = BFin n m e /\ 0 <= e /\ 10 ^ 10 <= m * 2 ^ e.
Proof.
  intros [H1 H2]. unfold rnd, big_round. set (a := Z.abs z) in *.
  assert (65 <= bits a) as B1. { unfold bits. apply Z.log2_le_pow2 in H1; lia. }
  assert (bits a <= 1000) as B2 by (apply bits_bound; lia).
  destruct (Z.eqb_spec a 0); [lia|]. replace (bits a <=? 64) with false by (symmetry; apply Z.leb_gt; lia). cbn [orb].
  destruct (Z.ltb_spec (0 + bits a) (-2147483648)); [lia|].
  set (s := bits a - 64).
  pose proof (bits_lower a ltac:(lia)) as BL.
  assert (2 ^ 63 <= a / 2 ^ s < 2 ^ 64) as Hq.
  { assert (0 < 2 ^ s) by (apply Z.pow_pos_nonneg; lia). split.
    - apply Z.div_le_lower_bound; [assumption|]. rewrite <- Z.pow_add_r by lia. replace (s + 63) with (bits a - 1) by lia. lia.
    - apply Z.div_lt_upper_bound; [assumption|]. rewrite <- Z.pow_add_r by lia. replace (s + 64) with (bits a) by lia. lia. }
  match goal with |- context [in_range _ ?q' _] => assert (2 ^ 63 <= q' <= 2 ^ 64) as Hq' end.
  { match goal with |- context [if ?c then _ else _] => destruct c end; lia. }
  match type of Hq' with _ <= ?q' <= _ => set (q := q') in * end.
  assert (0 < bits q <= 65) as Bq. { split; [unfold bits; pose proof (Z.log2_nonneg q); lia|apply bits_bound; lia]. }
  exists (z <? 0), q, (0 + s). unfold in_range. destruct (Z.eqb_spec q 0); [lia|].
  destruct (Z.ltb_spec 2147483647 (0 + s + bits q)); [lia|]. destruct (Z.ltb_spec (0 + s + bits q) (-2147483648)); [lia|].
  split; [reflexivity|]. split; [lia|]. assert (1 <= 2 ^ (0 + s)) by (apply (Z.pow_le_mono_r 2 0); lia). nia.
Qed.

Lemma print_exact z : small z -> forall s, numeral z s <-> big_string (rnd z) = s.
Proof.
  intros Hs s. unfold small in Hs. rewrite rnd_exact by lia. unfold fl. destruct (Z.eq_dec z 0) as [->|Hz].
  - rewrite numeral_zero. change (big_string (BFin (0 <? 0) (Z.abs 0) 0)) with "0"%string. split; congruence.
  - rewrite numeral_nonzero by exact Hz. rewrite print_small by lia. split; congruence.
Qed.
Lemma print_not z : 10 ^ 10 <= Z.abs z < 2 ^ 1000 -> forall y, ~ numeral y (big_string (rnd z)).
Proof.
  intros H y Hn. apply numeral_no_e in Hn. apply Hn. destruct (Z.lt_ge_cases (Z.abs z) (2 ^ 64)) as [L|L].
  - rewrite rnd_exact by exact L. apply print_large; lia.
  - destruct (rnd_large z ltac:(lia)) as (n & m & e & -> & He & Hm). apply print_large; assumption.
Qed.

Lemma add_exact a b : Z.abs a < 2 ^ 64 -> Z.abs b < 2 ^ 64 -> big_add (fl a) (fl b) = Ret (rnd (a + b)).
Proof.
  intros Ha Hb. unfold fl at 1 2. cbn [big_add].
  destruct (Z.eqb_spec (Z.abs a) 0) as [Ea|Ea], (Z.eqb_spec (Z.abs b) 0) as [Eb|Eb]; cbn [andb].
  - assert (a = 0) as -> by lia. assert (b = 0) as -> by lia. reflexivity.
  - assert (a = 0) as -> by lia. rewrite rnd_exact by lia. reflexivity.
  - assert (b = 0) as -> by lia. rewrite Z.add_0_r, rnd_exact by lia. reflexivity.
  - cbn [Z.min Z.compare Z.sub Z.add Z.opp]. change (2 ^ 0) with 1. rewrite !Z.mul_1_r. unfold rnd. f_equal.
    destruct (Z.ltb_spec a 0), (Z.ltb_spec b 0); cbn [Bool.eqb negb].
    + destruct (Z.ltb_spec (a + b) 0); [|lia]. f_equal. lia.
    + destruct (Z.ltb_spec (Z.abs b) (Z.abs a)); [|destruct (Z.ltb_spec (Z.abs a) (Z.abs b))].
      * destruct (Z.ltb_spec (a + b) 0); [|lia]. f_equal. lia.
      * destruct (Z.ltb_spec (a + b) 0); [lia|]. f_equal. lia.
      * replace (a + b) with 0 by lia. reflexivity.
    + destruct (Z.ltb_spec (Z.abs b) (Z.abs a)); [|destruct (Z.ltb_spec (Z.abs a) (Z.abs b))].
      * destruct (Z.ltb_spec (a + b) 0); [lia|]. f_equal. lia.
      * destruct (Z.ltb_spec (a + b) 0); [|lia]. f_equal. lia.
      * replace (a + b) with 0 by lia. reflexivity.
    + destruct (Z.ltb_spec (a + b) 0); [lia|]. f_equal. lia.
Qed.

Lemma sub_exact a b : Z.abs a < 2 ^ 64 -> Z.abs b < 2 ^ 64 -> big_sub (fl a) (fl b) = Ret (rnd (a - b)).
Proof.
  intros Ha Hb. unfold big_sub. destruct (Z.eq_dec b 0) as [->|Hn].
  - rewrite Z.sub_0_r, rnd_exact by exact Ha. unfold fl at 1. cbn [fl big_neg big_add Z.abs Z.ltb Z.compare negb].
    destruct (Z.eqb_spec (Z.abs a) 0) as [E|E]; cbn [andb]; [|reflexivity]. assert (a = 0) as -> by lia. reflexivity.
  - replace (big_neg (fl b)) with (fl (- b)).
    + rewrite add_exact by lia. reflexivity.
    + unfold fl, big_neg. f_equal; [|lia]. destruct (Z.ltb_spec (- b) 0), (Z.ltb_spec b 0); try reflexivity; lia.
Qed.
Lemma mul_exact a b : big_mul (fl a) (fl b) =
  Ret (if a * b =? 0 then BFin (xorb (a <? 0) (b <? 0)) 0 0 else rnd (a * b)).
Proof.
  unfold fl. cbn [big_mul]. f_equal.
  destruct (Z.eqb_spec (Z.abs a) 0) as [Ea|Ea], (Z.eqb_spec (Z.abs b) 0) as [Eb|Eb], (Z.eqb_spec (a * b) 0) as [E|E]; cbn [orb];
    try reflexivity; try (exfalso; nia).
  unfold rnd. rewrite Z.abs_mul. f_equal. destruct (Z.ltb_spec a 0), (Z.ltb_spec b 0), (Z.ltb_spec (a * b) 0); cbn [xorb]; try reflexivity; nia.
Qed.

Section Functions.
  Variable scan : string -> option bfloat.
  Hypothesis Hscan : scans_floats scan.
  Variables (a b : Z) (x y : string).
  Hypothesis Ha : numeral a x.
  Hypothesis Hb : numeral b y.
  Hypothesis Ba : Z.abs a < 2 ^ 64.
  Hypothesis Bb : Z.abs b < 2 ^ 64.

  Lemma sum_numerals : exists s, sum scan x y = Ret s /\ (numeral (a + b) s <-> small (a + b)).
  Proof using Hscan Ha Hb Ba Bb.
    unfold sum, calc. rewrite (Hscan a x Ba Ha), (Hscan b y Bb Hb). fold (fl a) (fl b). rewrite add_exact by assumption.
    cbn [bind]. eexists. split; [reflexivity|]. split; intros H.
    - destruct (Z.lt_ge_cases (Z.abs (a + b)) (10 ^ 10)) as [L|L]; [exact L|exfalso].
      eapply print_not; [|exact H]. split; [exact L|]. apply (Z.lt_trans _ (2 ^ 65)); [lia|reflexivity].
    - apply (print_exact (a + b) H). reflexivity.
  Qed.
  Lemma sub_numerals : exists s, sub scan x y = Ret s /\ (numeral (a - b) s <-> small (a - b)).
  Proof using Hscan Ha Hb Ba Bb.
    unfold sub, calc. rewrite (Hscan a x Ba Ha), (Hscan b y Bb Hb). fold (fl a) (fl b). rewrite sub_exact by assumption.
    cbn [bind]. eexists. split; [reflexivity|]. split; intros H.
    - destruct (Z.lt_ge_cases (Z.abs (a - b)) (10 ^ 10)) as [L|L]; [exact L|exfalso].
      eapply print_not; [|exact H]. split; [exact L|]. apply (Z.lt_trans _ (2 ^ 65)); [lia|reflexivity].
    - apply (print_exact (a - b) H). reflexivity.
  Qed.
  Lemma mul_numerals : exists s, mul scan x y = Ret s /\ (numeral (a * b) s <-> small (a * b) /\ (a * b = 0 -> 0 <= a /\ 0 <= b)).
  Proof using Hscan Ha Hb Ba Bb.
    unfold mul, calc. rewrite (Hscan a x Ba Ha), (Hscan b y Bb Hb). fold (fl a) (fl b). rewrite mul_exact.
    cbn [bind]. eexists. split; [reflexivity|]. destruct (Z.eqb_spec (a * b) 0) as [E|E].
    - rewrite E, print_zero. rewrite numeral_zero. assert (a = 0 \/ b = 0) as C by nia.
      destruct (Z.ltb_spec a 0), (Z.ltb_spec b 0); cbn [xorb]; split; intros H'; try (exfalso; lia); try discriminate H'; try reflexivity;
        split; unfold small; try lia; intros _; lia.
    - split; intros H.
      + split; [|intros; lia]. destruct (Z.lt_ge_cases (Z.abs (a * b)) (10 ^ 10)) as [L|L]; [exact L|exfalso].
        eapply print_not; [|exact H]. split; [exact L|]. apply (Z.lt_trans _ (2 ^ 128)); [|reflexivity].
        rewrite Z.abs_mul. change (2 ^ 128) with (2 ^ 64 * 2 ^ 64). nia.
      + apply (print_exact (a * b) (proj1 H)). reflexivity.
  Qed.
  Lemma neg_numerals : numeral (- a) (neg scan x) <-> small a /\ a <> 0.
  Proof using Hscan Ha Ba.
    clear Bb Hb b y.
    unfold neg. rewrite (Hscan a x Ba Ha). destruct (Z.eq_dec a 0) as [->|Hn].
    - change (numeral (-0) "-0" <-> small 0 /\ 0 <> 0). change (-0) with 0. rewrite numeral_zero. split; [discriminate|intros [_ H]; congruence].
    - assert (big_neg (BFin (a <? 0) (Z.abs a) 0) = rnd (- a)) as ->.
      { rewrite rnd_exact by lia. unfold fl, big_neg. f_equal; [|lia]. destruct (Z.ltb_spec (- a) 0), (Z.ltb_spec a 0); try reflexivity; lia. }
      split; intros H.
      + split; [|exact Hn]. destruct (Z.lt_ge_cases (Z.abs a) (10 ^ 10)) as [L|L]; [exact L|exfalso].
        eapply print_not; [|exact H]. split; [lia|]. apply (Z.lt_trans _ (2 ^ 65)); [lia|reflexivity].
      + apply (print_exact (- a)); [|reflexivity]. destruct H as [H _]. unfold small in *. lia.
  Qed.
End Functions.

(** ** Arithmetic on trees *)
Lemma arith_eval p join_words float_string scan rcall : scans_floats scan -> math_registered scan rcall ->
  (forall n z, Arith p n z -> small z /\ exists s, numeral z s /\ eval p join_words float_string (Call rcall) n = Ret (DStr s)).
Proof.
  intros Hscan (Hsum & Hsub & Hmul & Hneg).
  assert (forall z, small z -> Z.abs z < 2 ^ 64) as Hb by (unfold small; intros; lia).
  assert (
    (forall n z, Arith p n z -> small z /\ exists s, numeral z s /\ Ev p join_words float_string (Call rcall) n (DStr s))
    /\ (forall n f z, FArith p n f z -> small z /\ exists s, numeral z s /\ FEv p join_words float_string (Call rcall) n f (DStr s))
    /\ (forall n a z, AArith p n a z -> small z /\ exists s, numeral z s /\ AEv p join_words float_string (Call rcall) n a (DStr s))) as H.
  { apply Arith_mutind.
    - intros n t z H1 H2 H3 H4. split; [exact H4|]. exists t. split; [exact H3|]. apply Ev_plain; assumption.
    - intros n f z H1 _ (Hs & s & H2 & H3). split; [exact Hs|]. exists s. split; [exact H2|]. eapply Ev_fun; eauto.
    - intros n a z _ (Hs & s & H2 & H3). split; [exact Hs|]. exists s. split; [exact H2|]. apply FE_identity. exact H3.
    - intros n a b x y _ (Sx & sx & Nx & Ex) _ (Sy & sy & Ny & Ey) Hs. split; [exact Hs|].
      destruct (sum_numerals scan Hscan x y sx sy Nx Ny (Hb x Sx) (Hb y Sy)) as (s & E & Hn). exists s. split; [apply Hn; exact Hs|].
      eapply FE_call; [discriminate|repeat (constructor; eauto)|]. unfold Call. rewrite Hsum, E. reflexivity.
    - intros n a b x y _ (Sx & sx & Nx & Ex) _ (Sy & sy & Ny & Ey) Hs. split; [exact Hs|].
      destruct (sub_numerals scan Hscan x y sx sy Nx Ny (Hb x Sx) (Hb y Sy)) as (s & E & Hn). exists s. split; [apply Hn; exact Hs|].
      eapply FE_call; [discriminate|repeat (constructor; eauto)|]. unfold Call. rewrite Hsub, E. reflexivity.
    - intros n a b x y _ (Sx & sx & Nx & Ex) _ (Sy & sy & Ny & Ey) Hs H0. split; [exact Hs|].
      destruct (mul_numerals scan Hscan x y sx sy Nx Ny (Hb x Sx) (Hb y Sy)) as (s & E & Hn). exists s. split; [apply Hn; auto|].
      eapply FE_call; [discriminate|repeat (constructor; eauto)|]. unfold Call. rewrite Hmul, E. reflexivity.
    - intros n a x _ (Sx & sx & Nx & Ex) H0. split; [unfold small in *; lia|].
      exists (neg scan sx). split; [apply (neg_numerals scan Hscan x sx Nx (Hb x Sx)); auto|].
      eapply FE_call; [discriminate|repeat (constructor; eauto)|]. unfold Call. rewrite Hneg. reflexivity.
    - intros n s z H1 H2. split; [exact H2|]. exists s. split; [exact H1|constructor].
    - intros n z H1. split; [exact H1|]. exists (dec_Z z). split; [apply dec_Z_numeral|constructor].
    - intros n f z _ (Hs & s & H2 & H3). split; [exact Hs|]. exists s. split; [exact H2|constructor; exact H3].
    - intros n k c z H1 _ (Hs & s & H2 & H3). split; [exact Hs|]. exists s. split; [exact H2|]. eapply AE_child; eauto. }
  intros n z Hn. destruct (proj1 H n z Hn) as (Hs & s & H2 & H3). split; [exact Hs|]. exists s. split; [exact H2|].
  apply eval_iff. exact H3.
Qed.

(** ** Failures *)
Lemma add_panics x y : big_add x y = Panic <-> opposite x y.
Proof.
  unfold opposite. destruct x as [xn|xn xm xe], y as [yn|yn ym ye]; cbn [big_add].
  - destruct xn, yn; cbn; split; try discriminate; try reflexivity; try (intros (n & [= <-] & [= ]); fail); eauto.
  - split; [discriminate|]. intros (n & _ & [=]).
  - split; [discriminate|]. intros (n & [=] & _).
  - split; [|intros (n & [=] & _)]. destruct ((xm =? 0) && (ym =? 0)); [discriminate|]. destruct (ym =? 0); [discriminate|].
    destruct (xm =? 0); discriminate.
Qed.
Lemma calc_outcomes scan op x y :
  (calc scan op x y = Panic <-> exists a b, scan x = Some a /\ scan y = Some b /\ op a b = Panic)
  /\ (scan x = None \/ scan y = None -> calc scan op x y = Ret ""%string).
Proof.
  unfold calc. destruct (scan x) as [a|], (scan y) as [b|]; split; try (intros [H|H]; discriminate H); auto;
    try (split; [discriminate|intros (a' & b' & H1 & H2 & _); discriminate]).
  split.
  - destruct (op a b) eqn:E; try discriminate. intros _. eauto.
  - intros (a' & b' & [= <-] & [= <-] & ->). reflexivity.
Qed.
Lemma calc_panics scan x y :
  (sum scan x y = Panic <-> exists a b, scan x = Some a /\ scan y = Some b /\ opposite a b)
  /\ (sub scan x y = Panic <-> exists a, scan x = Some a /\ scan y = Some a /\ infinite a)
  /\ (mul scan x y = Panic <-> exists a b, scan x = Some a /\ scan y = Some b /\ (infinite a /\ zero b \/ zero a /\ infinite b))
  /\ (scan x = None \/ scan y = None -> sum scan x y = Ret "" /\ sub scan x y = Ret "" /\ mul scan x y = Ret "")%string.
Proof.
  split; [|split; [|split]].
  - unfold sum. rewrite (proj1 (calc_outcomes scan big_add x y)). split; intros (a & b & H1 & H2 & H3); exists a, b; rewrite add_panics in *; auto.
  - unfold sub. rewrite (proj1 (calc_outcomes scan big_sub x y)). unfold big_sub. split.
    + intros (a & b & H1 & H2 & H3). apply add_panics in H3. destruct H3 as (n & -> & H3). exists (BInf n).
      destruct b as [k|k m e]; [|discriminate H3]. injection H3 as H3. assert (k = n) as -> by (destruct k, n; auto; discriminate).
      repeat split; auto. exists n. reflexivity.
    + intros (a & H1 & H2 & (n & ->)). exists (BInf n), (BInf n). repeat split; auto. apply add_panics. exists n. auto.
  - unfold mul. rewrite (proj1 (calc_outcomes scan big_mul x y)). split; intros (a & b & H1 & H2 & H3); exists a, b; (split; [exact H1|]); (split; [exact H2|]).
    + destruct a as [an|an am ae], b as [bn|bn bm be]; cbn in H3; try discriminate.
      * destruct (Z.eqb_spec bm 0) as [->|]; [|discriminate]. left. split; [exists an; auto|exists bn, be; auto].
      * destruct (Z.eqb_spec am 0) as [->|]; [|discriminate]. right. split; [exists an, ae; auto|exists bn; auto].
    + destruct H3 as [[(n & ->) (k & e & ->)]|[(k & e & ->) (n & ->)]]; reflexivity.
  - intros H. unfold sum, sub, mul. repeat split; apply calc_outcomes; exact H.
Qed.

(** ** Parity *)
Lemma parity scan_int z x : scans_ints scan_int -> numeral z x ->
  (even scan_int x = "true"%string <-> Z.Even z) /\ (odd scan_int x = "true"%string <-> Z.Odd z)
  /\ (even scan_int x = "false"%string <-> Z.Odd z) /\ (odd scan_int x = "false"%string <-> Z.Even z).
Proof.
  intros Hscan Hx. unfold even, odd. rewrite (Hscan z x Hx). rewrite <- Z.even_spec, <- Z.odd_spec, <- Z.negb_even.
  destruct (Z.even z); cbn; intuition congruence.
Qed.
Lemma primality scan_int probably_prime z x : scans_ints scan_int ->
  (forall z, Z.abs z < 2 ^ 64 -> probably_prime z = true <-> Znumtheory.prime z) ->
  Z.abs z < 2 ^ 64 -> numeral z x -> prime scan_int probably_prime x = "true"%string <-> Znumtheory.prime z.
Proof.
  intros Hscan Hp Hz Hx. unfold prime. rewrite (Hscan z x Hx), <- (Hp z Hz). destruct (probably_prime z); split; congruence.
Qed.
Lemma prime_answers scan_int probably_prime z x : scans_ints scan_int ->
  (forall z, Z.abs z < 2 ^ 64 -> probably_prime z = true <-> Znumtheory.prime z) ->
  Z.abs z < 2 ^ 64 -> numeral z x -> prime scan_int probably_prime x = "false"%string <-> ~ Znumtheory.prime z.
Proof.
  intros Hscan Hp Hz Hx. unfold prime. rewrite (Hscan z x Hx), <- (Hp z Hz). destruct (probably_prime z); split; congruence.
Qed.
Lemma unreadable scan_int x : scan_int x = None -> even scan_int x = "false"%string /\ odd scan_int x = "false"%string.
Proof. intros E. unfold even, odd. rewrite E. auto. Qed.
Close Scope Z_scope.

Lemma div_outcomes float64 parse_float is_zero quo print_f x y :
  (forall fx fy, parse_float x = Some fx -> parse_float y = Some fy -> is_zero fy = false ->
     div float64 parse_float is_zero quo print_f x y = print_f (quo fx fy))
  /\ (parse_float x = None \/ parse_float y = None \/ (exists fy, parse_float y = Some fy /\ is_zero fy = true) ->
     div float64 parse_float is_zero quo print_f x y = (x ++ "/" ++ y)%string).
Proof.
  unfold div. split.
  - intros fx fy -> -> ->. reflexivity.
  - intros [->|[->|(fy & -> & ->)]]; destruct (parse_float x); reflexivity.
Qed.
Lemma pow_outcomes float64 parse_float power print_f x y :
  (forall fx fy, parse_float x = Some fx -> parse_float y = Some fy ->
     pow float64 parse_float power print_f x y = print_f (power fx fy))
  /\ (parse_float x = None \/ parse_float y = None -> pow float64 parse_float power print_f x y = (x ++ "^" ++ y)%string).
Proof.
  unfold pow. split.
  - intros fx fy -> ->. reflexivity.
  - intros [->| ->]; destruct (parse_float x); reflexivity.
Qed.

Lemma numerals_exist z : exists s, numeral z s /\ forall s', numeral z s' -> s' = s.
Proof. exists (dec_Z z). split; [apply dec_Z_numeral|]. intros s' H. exact (numeral_unique z _ _ H (dec_Z_numeral z)). Qed.
Lemma unreadable_int scan_int probably_prime x : scan_int x = None ->
  even scan_int x = "false"%string /\ odd scan_int x = "false"%string /\ prime scan_int probably_prime x = "false"%string.
Proof. intros E. unfold even, odd, prime. rewrite E. auto. Qed.

Lemma not_exact_sum scan : scans_floats scan ->
  ~ (forall scan, scans_floats scan -> forall a b x y, numeral a x -> numeral b y ->
       exists s, sum scan x y = Ret s /\ numeral (a + b) s).
Proof.
  intros Hs C. destruct (C scan Hs 9999999999 1 _ _ (dec_Z_numeral _) (dec_Z_numeral _))%Z as (s & E & N).
  destruct (sum_numerals scan Hs 9999999999 1 _ _ (dec_Z_numeral _) (dec_Z_numeral _) ltac:(lia) ltac:(lia))%Z as (s' & E' & I).
  rewrite E in E'. injection E' as <-. apply I in N. unfold small in N. lia.
Qed.
Lemma not_exact_mul scan : scans_floats scan ->
  ~ (forall scan, scans_floats scan -> forall a b x y, numeral a x -> numeral b y -> small (a * b) ->
       exists s, mul scan x y = Ret s /\ numeral (a * b) s).
Proof.
  intros Hs C. destruct (C scan Hs (-1) 0 _ _ (dec_Z_numeral _) (dec_Z_numeral _) ltac:(unfold small; lia))%Z as (s & E & N).
  destruct (mul_numerals scan Hs (-1) 0 _ _ (dec_Z_numeral _) (dec_Z_numeral _) ltac:(lia) ltac:(lia))%Z as (s' & E' & I).
  rewrite E in E'. injection E' as <-. apply I in N. lia.
Qed.
Lemma not_exact_neg scan : scans_floats scan ->
  ~ (forall scan, scans_floats scan -> forall a x, numeral a x -> small a -> numeral (- a) (neg scan x)).
Proof.
  intros Hs C. pose proof (C scan Hs 0 _ (dec_Z_numeral _) ltac:(unfold small; lia))%Z as N.
  apply (neg_numerals scan Hs 0 _ (dec_Z_numeral _) ltac:(lia))%Z in N. lia.
Qed.
