(** Addition and multiplication of big.Float are exact operations followed by rounding. *)
From Coq Require Import Ascii.
From Verif Require Import Base ModelMath SpecMath SpecRound ProofMath ProofRound SpecDecimal.
Open Scope Z_scope.

Lemma to_64_self m j : 0 < m <= 2 ^ 64 -> 0 <= j -> to_64_bits (m * 2 ^ j) (m * 2 ^ j).
Proof.
  intros Hm Hj. set (z := m * 2 ^ j). assert (0 < 2 ^ j) as Pj by (apply pow_pos; lia). assert (0 < z) as Hz by (unfold z; nia).
  destruct (Z.lt_ge_cases z (2 ^ 64)) as [L|L].
  { exists 0, z. split; [lia|]. split; [left; auto|]. change (2 ^ 0) with 1. rewrite Z.mul_1_r. split; [|reflexivity].
    split; replace (z - z * 1) with 0 by lia; cbn; lia. }
  pose proof (bits_lower z Hz) as B.
  assert (65 <= bits z) as B1 by (unfold bits; apply Z.log2_le_pow2 in L; lia).
  assert (exists s q, 0 <= s /\ z = q * 2 ^ s /\ 2 ^ 63 <= q < 2 ^ 64) as (s & q & Hs & E & Hq).
  { destruct (Z.eq_dec m (2 ^ 64)) as [->|Hne].
    - exists (j + 1), (2 ^ 63). split; [lia|]. split; [|lia]. unfold z. rewrite Z.pow_add_r by lia. change (2 ^ 64) with (2 ^ 63 * 2 ^ 1). lia.
    - set (s := bits z - 64). assert (s <= j) as Hsj.
      { assert (bits z <= 64 + j); [|lia]. apply bits_bound; [exact Hz|]. unfold z. rewrite Z.pow_add_r by lia. nia. }
      exists s, (m * 2 ^ (j - s)). split; [lia|]. split.
      + unfold z. rewrite <- Z.mul_assoc, <- Z.pow_add_r by lia. f_equal. f_equal. lia.
      + assert (z = m * 2 ^ (j - s) * 2 ^ s) as E. { unfold z. rewrite <- Z.mul_assoc, <- Z.pow_add_r by lia. f_equal. f_equal. lia. }
        assert (0 < 2 ^ s) by (apply pow_pos; lia).
        assert (2 ^ (bits z - 1) = 2 ^ 63 * 2 ^ s) as E1 by (rewrite <- Z.pow_add_r by lia; f_equal; lia).
        assert (2 ^ (bits z) = 2 ^ 64 * 2 ^ s) as E2 by (rewrite <- Z.pow_add_r by lia; f_equal; lia).
        rewrite E1, E2, E in B. nia. }
  assert (0 < 2 ^ s) by (apply pow_pos; lia).
  exists s, q. split; [exact Hs|]. split; [right; rewrite E, Z.div_mul by lia; exact Hq|]. rewrite E. split; [|reflexivity].
  split; replace (q * 2 ^ s - q * 2 ^ s) with 0 by lia; cbn; lia.
Qed.

(** rounding, with any exponent *)
Lemma round_units n a k : 0 < a -> in_reach k a ->
  exists m e, big_round n a k = BFin n m e /\ 0 < m <= 2 ^ 64 /\ k <= e /\ to_64_bits a (m * 2 ^ (e - k)).
Proof.
  intros Ha [R1 R2]. rewrite Z.abs_eq in R2 by lia. unfold big_round. destruct (Z.eqb_spec a 0); [lia|]. cbn [orb].
  assert (bits a = Z.log2 a + 1) as EB by reflexivity. pose proof (Z.log2_nonneg a) as L0.
  destruct (Z.leb_spec (bits a) 64) as [B|B].
  - pose proof (bits_lower a Ha) as BL. assert (a < 2 ^ 64) as L. { apply Z.lt_le_trans with (2 ^ bits a); [lia|]. apply Z.pow_le_mono_r; lia. }
    exists a, k. unfold in_range. destruct (Z.eqb_spec a 0); [lia|].
    destruct (Z.ltb_spec 2147483647 (k + bits a)); [lia|]. destruct (Z.ltb_spec (k + bits a) (-2147483648)); [lia|].
    split; [reflexivity|]. split; [lia|]. split; [lia|]. rewrite Z.sub_diag, Z.pow_0_r, Z.mul_1_r.
    exists 0, a. split; [lia|]. split; [left; auto|]. change (2 ^ 0) with 1. rewrite Z.mul_1_r. split; [|reflexivity].
    split; replace (a - a * 1) with 0 by lia; cbn; lia.
  - destruct (Z.ltb_spec (k + bits a) (-2147483648)); [lia|].
    set (s := bits a - 64). pose proof (bits_lower a Ha) as BL.
    assert (0 < 2 ^ s) as Hs by (apply Z.pow_pos_nonneg; lia).
    assert (2 ^ 63 <= a / 2 ^ s < 2 ^ 64) as Hq.
    { split.
      - apply Z.div_le_lower_bound; [assumption|]. rewrite <- Z.pow_add_r by lia. replace (s + 63) with (bits a - 1) by lia. lia.
      - apply Z.div_lt_upper_bound; [assumption|]. rewrite <- Z.pow_add_r by lia. replace (s + 64) with (bits a) by lia. lia. }
    pose proof (Z.div_mod a (2 ^ s) ltac:(lia)) as Hdm. pose proof (Z.mod_pos_bound a (2 ^ s) Hs) as Hr.
    assert (2 ^ s = 2 * 2 ^ (s - 1)) as Hh by (rewrite <- Z.pow_succ_r by lia; f_equal; lia).
    set (q := a / 2 ^ s) in *. set (r := a mod 2 ^ s) in *. set (h := 2 ^ (s - 1)) in *.
    set (q' := if (h <? r) || (r =? h) && Z.odd q then q + 1 else q).
    assert (2 ^ 63 <= q' <= 2 ^ 64) as Hq' by (unfold q'; destruct (_ || _); lia).
    assert (rounded (2 ^ s) a q') as HR.
    { unfold q'. destruct (Z.ltb_spec h r) as [G|G]; cbn [orb].
      - split; [nia|]. intros E. exfalso. nia.
      - destruct (Z.eqb_spec r h) as [E|E]; cbn [andb].
        + destruct (Z.odd q) eqn:O.
          * split; [nia|]. intros _. apply Z.even_spec. rewrite Z.even_add, <- Z.negb_odd, O. reflexivity.
          * split; [nia|]. intros _. apply Z.even_spec. rewrite <- Z.negb_odd, O. reflexivity.
        + split; [nia|]. intros E'. exfalso. nia. }
    assert (0 < bits q' <= 65) as Bq. { split; [unfold bits; pose proof (Z.log2_nonneg q'); lia|apply bits_bound; lia]. }
    exists q', (k + s). unfold in_range. destruct (Z.eqb_spec q' 0); [lia|].
    destruct (Z.ltb_spec 2147483647 (k + s + bits q')); [lia|]. destruct (Z.ltb_spec (k + s + bits q') (-2147483648)); [lia|].
    split; [reflexivity|]. split; [lia|]. split; [lia|]. replace (k + s - k) with s by lia.
    exists s, q'. split; [lia|]. split; [right; exact Hq|]. auto.
Qed.

Lemma units_lower k k' x u : in_units k x u -> k' <= k -> in_units k' x (u * 2 ^ (k - k')).
Proof.
  intros (n & m & e & -> & Hm & He & ->) Hk. exists n, m, e. split; [reflexivity|]. split; [exact Hm|]. destruct He as [->|He].
  - split; [left; reflexivity|]. destruct n; lia.
  - split; [right; lia|]. replace (e - k') with ((e - k) + (k - k')) by lia. rewrite Z.pow_add_r by lia. destruct n; lia.
Qed.
Lemma units_neg k x u : in_units k x u -> in_units k (big_neg x) (- u).
Proof.
  intros (n & m & e & -> & Hm & He & ->). exists (negb n), m, e. split; [reflexivity|]. split; [exact Hm|]. split; [exact He|]. destruct n; cbn [negb]; lia.
Qed.

(** the result [z] is [c], in units of 2^k, rounded *)
Definition rounds_to (k c : Z) (z : bfloat) : Prop :=
  exists r, in_units k z r /\ to_64_bits (Z.abs c) (Z.abs r) /\ (r < 0 <-> c < 0).

Lemma round_signed (n : bool) a k : 0 < a -> in_reach k a -> rounds_to k ((if n then -1 else 1) * a) (big_round n a k).
Proof.
  intros Ha Hr. destruct (round_units n a k Ha Hr) as (m & e & -> & Hm & He & Ht).
  assert (0 < 2 ^ (e - k)) by (apply pow_pos; lia).
  exists ((if n then -1 else 1) * (m * 2 ^ (e - k))). split; [exists n, m, e; split; [reflexivity|]; split; [lia|]; split; [right; exact He|reflexivity]|].
  split.
  - replace (Z.abs ((if n then -1 else 1) * a)) with a by (destruct n; lia).
    replace (Z.abs ((if n then -1 else 1) * (m * 2 ^ (e - k)))) with (m * 2 ^ (e - k)) by (destruct n; nia). exact Ht.
  - destruct n; nia.
Qed.
Lemma keeps k x u : in_units k x u -> u <> 0 -> rounds_to k u x.
Proof.
  intros H Hu. exists u. split; [exact H|]. split; [|tauto]. destruct H as (n & m & e & -> & Hm & He & ->).
  assert (m <> 0) by (intros ->; apply Hu; destruct n; lia). assert (k <= e) by tauto. assert (0 < 2 ^ (e - k)) by (apply pow_pos; lia).
  replace (Z.abs ((if n then -1 else 1) * (m * 2 ^ (e - k)))) with (m * 2 ^ (e - k)) by (destruct n; nia). apply to_64_self; lia.
Qed.

Lemma reach_abs k u u' : Z.abs u = Z.abs u' -> in_reach k u -> in_reach k u'.
Proof. intros E [H1 H2]. split; [exact H1|]. rewrite <- E. exact H2. Qed.
Lemma reach_units k e u : k <= e -> in_reach k (u * 2 ^ (e - k)) -> u <> 0 -> in_reach e u.
Proof.
  intros He [H1 H2] Hu. split; [lia|]. rewrite Z.abs_mul, (Z.abs_eq (2 ^ (e - k))) in H2 by (apply Z.pow_nonneg; lia).
  rewrite Z.log2_mul_pow2 in H2 by lia. lia.
Qed.
Lemma rounds_lower k k' c z : rounds_to k c z -> k' <= k -> c <> 0 -> rounds_to k' (c * 2 ^ (k - k')) z.
Proof.
  intros (r & H1 & H2 & H3) Hk Hc. assert (0 < 2 ^ (k - k')) as P by (apply pow_pos; lia).
  exists (r * 2 ^ (k - k')). split; [apply units_lower; assumption|]. rewrite !Z.abs_mul, (Z.abs_eq (2 ^ (k - k'))) by lia. split; [|nia].
  destruct H2 as (s & m & Hs & Hc2 & HR & E). destruct Hc2 as [[-> L]|L].
  - change (2 ^ 0) with 1 in *. assert (m = Z.abs c) as Em by (destruct HR; lia). rewrite Z.mul_1_r in E. rewrite E, Em.
    apply to_64_self; lia.
  - exists (s + (k - k')), m. split; [lia|]. assert (0 < 2 ^ s) by (apply pow_pos; lia). rewrite Z.pow_add_r by lia.
    split; [right; rewrite Z.div_mul_cancel_r by lia; exact L|]. split; [|rewrite E; lia].
    destruct HR as [HR1 HR2]. unfold rounded. replace (Z.abs c * 2 ^ (k - k') - m * (2 ^ s * 2 ^ (k - k'))) with ((Z.abs c - m * 2 ^ s) * 2 ^ (k - k')) by lia.
    rewrite Z.abs_mul, (Z.abs_eq (2 ^ (k - k'))) by lia. split; [nia|]. intros T. apply HR2. nia.
Qed.

Lemma add_units k x y a b : in_units k x a -> in_units k y b ->
  exists z, big_add x y = Ret z /\ (a + b = 0 -> exists n, z = BFin n 0 0) /\ (a + b <> 0 -> in_reach k (a + b) -> rounds_to k (a + b) z).
Proof.
  intros Hx Hy. pose proof (keeps k x a Hx) as Kx. pose proof (keeps k y b Hy) as Ky.
  destruct Hx as (xn & xm & xe & -> & Hxm & Hxe & Ea). destruct Hy as (yn & ym & ye & -> & Hym & Hye & Eb). cbn [big_add].
  destruct (Z.eqb_spec xm 0) as [X0|X0], (Z.eqb_spec ym 0) as [Y0|Y0]; cbn [andb].
  - subst xm ym. eexists. split; [reflexivity|]. split; [intros _; exists (xn && yn); reflexivity|]. intros C. exfalso. apply C. subst a b. destruct xn, yn; lia.
  - assert (a = 0) as Ea0 by (subst a xm; destruct xn; lia). assert (k <= ye) by tauto. assert (0 < 2 ^ (ye - k)) by (apply pow_pos; lia).
    eexists. split; [reflexivity|]. rewrite Ea0, Z.add_0_l. split; [intros C; exfalso; subst b; destruct yn; nia|]. intros C _. apply Ky. exact C.
  - assert (b = 0) as Eb0 by (subst b ym; destruct yn; lia). assert (k <= xe) by tauto. assert (0 < 2 ^ (xe - k)) by (apply pow_pos; lia).
    eexists. split; [reflexivity|]. rewrite Eb0, Z.add_0_r. split; [intros C; exfalso; subst a; destruct xn; nia|]. intros C _. apply Kx. exact C.
  - assert (k <= xe) as Kxe by tauto. assert (k <= ye) as Kye by tauto. set (e := Z.min xe ye). set (A := xm * 2 ^ (xe - e)). set (B := ym * 2 ^ (ye - e)).
    assert (k <= e) as Ke by lia. assert (0 < 2 ^ (xe - e)) by (apply pow_pos; lia). assert (0 < 2 ^ (ye - e)) by (apply pow_pos; lia).
    assert (0 < A) by (unfold A; nia). assert (0 < B) by (unfold B; nia). assert (0 < 2 ^ (e - k)) as Pk by (apply pow_pos; lia).
    assert (a = (if xn then -1 else 1) * A * 2 ^ (e - k)) as Ea'.
    { rewrite Ea. unfold A. replace (xe - k) with ((xe - e) + (e - k)) by lia. rewrite Z.pow_add_r by lia. destruct xn; lia. }
    assert (b = (if yn then -1 else 1) * B * 2 ^ (e - k)) as Eb'.
    { rewrite Eb. unfold B. replace (ye - k) with ((ye - e) + (e - k)) by lia. rewrite Z.pow_add_r by lia. destruct yn; lia. }
    clearbody A B. clear Kx Ky Ea Eb.
    assert (forall n c, 0 < c -> a + b = (if n : bool then -1 else 1) * c * 2 ^ (e - k) -> in_reach k (a + b) -> rounds_to k (a + b) (big_round n c e)) as HR.
    { intros n c Hc E Hr. rewrite E in *. apply rounds_lower; [|lia|destruct n; lia]. apply round_signed; [exact Hc|].
      apply (reach_abs e ((if n then -1 else 1) * c)); [destruct n; lia|]. apply (reach_units k e); [lia|exact Hr|destruct n; lia]. }
    assert (xn = yn \/ xn = negb yn) as [-> | ->] by (destruct xn, yn; auto).
    + rewrite Bool.eqb_reflx. eexists. split; [reflexivity|]. split; [intros C; exfalso; destruct yn; nia|]. intros _. apply HR; [lia|]. destruct yn; lia.
    + replace (Bool.eqb (negb yn) yn) with false by (destruct yn; reflexivity). rewrite Bool.negb_involutive.
      destruct (Z.ltb_spec B A); [|destruct (Z.ltb_spec A B)]; eexists; (split; [reflexivity|]).
      * split; [intros C; exfalso; destruct yn; cbn [negb] in *; nia|]. intros _. apply HR; [lia|]. destruct yn; cbn [negb] in *; lia.
      * split; [intros C; exfalso; destruct yn; cbn [negb] in *; nia|]. intros _. apply HR; [lia|]. destruct yn; cbn [negb] in *; lia.
      * split; [intros _; exists false; reflexivity|]. intros C. exfalso. apply C. assert (A = B) as -> by lia. destruct yn; cbn [negb] in *; lia.
Qed.

Lemma mul_units j k x y a b : in_units j x a -> in_units k y b ->
  exists z, big_mul x y = Ret z /\ (a * b = 0 -> exists n, z = BFin n 0 0) /\ (a * b <> 0 -> in_reach (j + k) (a * b) -> rounds_to (j + k) (a * b) z).
Proof.
  intros (xn & xm & xe & -> & Hxm & Hxe & Ea) (yn & ym & ye & -> & Hym & Hye & Eb). cbn [big_mul]. eexists. split; [reflexivity|].
  destruct (Z.eqb_spec xm 0) as [X0|X0]; cbn [orb].
  { split; [intros _; eexists; reflexivity|]. intros C. exfalso. apply C. subst. destruct xn, yn; lia. }
  destruct (Z.eqb_spec ym 0) as [Y0|Y0].
  { split; [intros _; eexists; reflexivity|]. intros C. exfalso. apply C. subst. destruct xn, yn; lia. }
  assert (j <= xe) as Kx by tauto. assert (k <= ye) as Ky by tauto. assert (0 < 2 ^ (xe - j)) by (apply pow_pos; lia). assert (0 < 2 ^ (ye - k)) by (apply pow_pos; lia).
  assert (a * b = (if xorb xn yn then -1 else 1) * (xm * ym) * 2 ^ (xe + ye - (j + k))) as E.
  { rewrite Ea, Eb. replace (xe + ye - (j + k)) with ((xe - j) + (ye - k)) by lia. rewrite Z.pow_add_r by lia. destruct xn, yn; cbn [xorb]; lia. }
  split.
  { intros C. exfalso. rewrite Ea, Eb in C. destruct xn, yn; nia. }
  intros C Hr. rewrite E in *. assert (0 < xm * ym) by nia. apply rounds_lower; [|lia|destruct xn, yn; cbn [xorb]; lia].
  apply round_signed; [lia|]. apply (reach_abs _ ((if xorb xn yn then -1 else 1) * (xm * ym))); [destruct xn, yn; cbn [xorb]; lia|].
  apply (reach_units (j + k)); [lia|exact Hr|destruct xn, yn; cbn [xorb]; lia].
Qed.

(** results that are too large or too small for an exponent of 32 bits *)
Lemma round_out n a k : 0 < a ->
  (2147483647 < k + bits a -> big_round n a k = BInf n) /\ (k + bits a < -2147483648 -> big_round n a k = BFin n 0 0).
Proof.
  intros Ha. unfold big_round. destruct (Z.eqb_spec a 0); [lia|]. cbn [orb].
  destruct (Z.leb_spec (bits a) 64) as [B|B].
  - unfold in_range. destruct (Z.eqb_spec a 0); [lia|].
    split; intros H; destruct (Z.ltb_spec 2147483647 (k + bits a)); try lia; auto.
    destruct (Z.ltb_spec (k + bits a) (-2147483648)); [reflexivity|lia].
  - destruct (Z.ltb_spec (k + bits a) (-2147483648)) as [U|U]; [split; [lia|reflexivity]|].
    set (s := bits a - 64). pose proof (bits_lower a Ha) as BL.
    assert (0 < 2 ^ s) as Hs by (apply Z.pow_pos_nonneg; lia).
    assert (2 ^ 63 <= a / 2 ^ s < 2 ^ 64) as Hq.
    { split.
      - apply Z.div_le_lower_bound; [assumption|]. rewrite <- Z.pow_add_r by lia. replace (s + 63) with (bits a - 1) by lia. lia.
      - apply Z.div_lt_upper_bound; [assumption|]. rewrite <- Z.pow_add_r by lia. replace (s + 64) with (bits a) by lia. lia. }
    match goal with |- context [in_range _ ?q _] => set (q' := q) end.
    assert (2 ^ 63 <= q' <= 2 ^ 64) as Hq' by (unfold q'; destruct (_ || _); lia).
    assert (64 <= bits q' <= 65) as Bq.
    { split; [|apply bits_bound; lia]. unfold bits. assert (63 <= Z.log2 q'); [|lia]. apply Z.log2_le_pow2; lia. }
    unfold in_range. destruct (Z.eqb_spec q' 0); [lia|].
    split; intros H; destruct (Z.ltb_spec 2147483647 (k + s + bits q')); try lia; auto.
Qed.
Lemma mul_out scan x y xn xm xe yn ym ye : scan x = Some (BFin xn xm xe) -> scan y = Some (BFin yn ym ye) -> 0 < xm -> 0 < ym ->
  (2147483647 <= xe + ye + Z.log2 (xm * ym) -> mul scan x y = Ret (if xorb xn yn then "-Inf" else "+Inf")%string)
  /\ (xe + ye + Z.log2 (xm * ym) + 1 < -2147483648 -> mul scan x y = Ret (if xorb xn yn then "-0" else "0")%string).
Proof.
  intros Ex Ey Hx Hy. unfold mul, calc. rewrite Ex, Ey. cbn [big_mul bind].
  destruct (Z.eqb_spec xm 0); [lia|]. destruct (Z.eqb_spec ym 0); [lia|]. cbn [orb bind].
  destruct (round_out (xorb xn yn) (xm * ym) (xe + ye) ltac:(nia)) as [O U]. unfold bits in O, U.
  split; intros H; [rewrite O by lia|rewrite U by lia; rewrite print_zero]; reflexivity.
Qed.
Close Scope Z_scope.
