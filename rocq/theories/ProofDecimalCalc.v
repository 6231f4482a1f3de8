(** Calculating with decimal fractions. *)
From Coq Require Import Ascii.
From Verif Require Import Base ModelMath SpecMath SpecRound ProofMath ProofRound SpecDecimal ProofFloat ProofDecimal.
Local Open Scope list_scope.
Open Scope Z_scope.

Lemma to_64_close z w : to_64_bits z w -> 0 < z -> Z.abs (w - z) * 2 ^ 64 <= z.
Proof.
  intros (s & m & Hs & Hc & [R _] & ->) Hz. destruct Hc as [[-> L]|[L _]].
  - change (2 ^ 0) with 1 in *. assert (m = z) as -> by lia. replace (z * 1 - z) with 0 by lia. cbn. lia.
  - assert (0 < 2 ^ s) as P by (apply pow_pos; lia). pose proof (Z.mul_div_le z (2 ^ s) ltac:(lia)).
    replace (Z.abs (m * 2 ^ s - z)) with (Z.abs (z - m * 2 ^ s)) by lia. nia.
Qed.
Lemma rounds_close k c z : rounds_to k c z -> c <> 0 -> exists r, in_units k z r /\ Z.abs (r - c) * 2 ^ 64 <= Z.abs c.
Proof.
  intros (r & H1 & H2 & H3) Hc. exists r. split; [exact H1|]. pose proof (to_64_close _ _ H2 ltac:(lia)) as H. replace (Z.abs (r - c)) with (Z.abs (Z.abs r - Z.abs c)) by lia. exact H.
Qed.

Lemma lead_digit n : 0 < n -> exists d, 0 <= d /\ 10 ^ d <= n < 10 ^ (d + 1).
Proof.
  intros Hn. destruct (digits_spec n Hn) as (F & V & Hh & Hne). pose proof (number_lead _ F Hh) as B1. pose proof (number_bounds _ F) as B2. rewrite V in B1, B2.
  set (q := Z.of_nat (length (digits n))) in *. assert (1 <= q) by (unfold q; destruct (digits n); [congruence|cbn [length]; lia]).
  exists (q - 1). split; [lia|]. replace (q - 1 + 1) with q by lia. replace q with (Z.succ (q - 1)) in B1 by lia. rewrite Z.pow_succ_r in B1 by lia. lia.
Qed.

(** a number close to a short one is printed as the short one *)
Lemma round_back N p d W : 11 <= p -> 0 <= d <= 9 -> 10 ^ d <= N < 10 ^ (d + 1) ->
  Z.abs (W - N * 10 ^ p) * (2 * 10 ^ 10) <= 10 ^ p * 10 ^ d -> to_10_digits W (N * 10 ^ p).
Proof.
  intros Hp Hd HN HW. set (t := p + d - 9). set (T := 10 ^ (t - 1)). assert (0 < T) as PT by (apply pow_pos; lia).
  assert (10 ^ t = 10 * T) as ET by (unfold T; rewrite <- Z.pow_succ_r by lia; f_equal; lia).
  set (m := N * 10 ^ (9 - d)). assert (0 < 10 ^ (9 - d)) as Pd by (apply pow_pos; lia).
  assert (N * 10 ^ p = m * (10 * T)) as EM. { unfold m. rewrite <- ET, <- Z.mul_assoc, <- Z.pow_add_r by lia. f_equal. f_equal. lia. }
  assert (10 ^ p * 10 ^ d = 10 ^ 10 * T) as EP. { unfold T. rewrite <- !Z.pow_add_r by lia. f_equal. lia. }
  assert (10 ^ 9 <= m < 10 ^ 10) as Bm.
  { assert (10 ^ d * 10 ^ (9 - d) = 10 ^ 9) as E1 by (rewrite <- Z.pow_add_r by lia; f_equal; lia).
    assert (10 ^ (d + 1) * 10 ^ (9 - d) = 10 ^ 10) as E2 by (rewrite <- Z.pow_add_r by lia; f_equal; lia). unfold m. nia. }
  rewrite EP in HW. rewrite EM in *. assert (2 * Z.abs (W - m * (10 * T)) <= T) as HC by lia. clear HW EP EM.
  destruct (Z.lt_ge_cases W (m * (10 * T))) as [L|L]; [destruct (Z.eq_dec m (10 ^ 9)) as [E|E]|].
  - exists (t - 1), (10 ^ 10). fold T. split; [lia|]. rewrite E in *. split; [|split; [|lia]].
    + assert (W / T = 10 ^ 10 - 1) as ->; [|lia]. symmetry. apply (Z.div_unique W T _ (W - (10 ^ 10 - 1) * T)); lia.
    + split; [lia|]. intros _. exists 5000000000. reflexivity.
  - exists t, m. rewrite ET. split; [lia|]. split; [|split; [|reflexivity]].
    + assert (W / (10 * T) = m - 1) as ->; [|lia]. symmetry. apply (Z.div_unique W (10 * T) _ (W - (m - 1) * (10 * T))); lia.
    + unfold rounded. split; lia.
  - exists t, m. rewrite ET. split; [lia|]. split; [|split; [|reflexivity]].
    + assert (W / (10 * T) = m) as ->; [|lia]. symmetry. apply (Z.div_unique W (10 * T) _ (W - m * (10 * T))); lia.
    + unfold rounded. split; lia.
Qed.

Lemma scaled_le A p2 p5 w u d d' : 0 < p2 -> 0 < p5 -> 0 < w -> d <= d' -> A * u <= p2 * d -> A * (p5 * w) * u <= p2 * p5 * w * d'.
Proof.
  intros H1 H2 H3 Hd H. replace (A * (p5 * w) * u) with (A * u * (p5 * w)) by ring. replace (p2 * p5 * w * d') with (p2 * d' * (p5 * w)) by ring.
  assert (0 <= p5 * w) as Hp by (apply Z.mul_nonneg_nonneg; lia). apply Z.mul_le_mono_nonneg_r; [exact Hp|].
  apply Z.le_trans with (p2 * d); [exact H|]. apply Z.mul_le_mono_nonneg_l; [lia|exact Hd].
Qed.
Lemma abs_signed a b p q : (a <? 0) = (b <? 0) -> Z.abs (Z.abs a * p - Z.abs b * q) = Z.abs (a * p - b * q).
Proof.
  destruct (Z.ltb_spec a 0) as [Ha|Ha], (Z.ltb_spec b 0) as [Hb|Hb]; intros E; try discriminate E.
  - rewrite (Z.abs_neq a), (Z.abs_neq b), <- (Z.abs_opp (a * p - b * q)) by lia. f_equal. ring.
  - rewrite (Z.abs_eq a), (Z.abs_eq b) by lia. reflexivity.
Qed.
Lemma rounded_pos W T Q q : 0 < T -> 10 ^ 9 <= Q -> T * Q <= W -> 2 * Z.abs (W - q * T) <= T -> 0 < q * T.
Proof.
  intros HT HQ HW H. assert (T * 1 <= T * Q) as H1 by (apply Z.mul_le_mono_nonneg_l; [lia|]; assert (0 < 10 ^ 9) by reflexivity; lia).
  lia.
Qed.

Lemma close_prints k x r c J d : k <= 0 -> 0 <= J -> in_units k x r -> 0 <= d -> 10 ^ d <= Z.abs c < 10 ^ 10 ->
  Z.abs (r * 10 ^ J - c * 2 ^ (- k)) * (2 * 10 ^ 10) <= 2 ^ (- k) * 10 ^ d -> signed_text c J (big_string x).
Proof.
  intros Hk HJ Hx Hd Hc HE. assert (0 < 2 ^ (- k)) as P2 by (apply pow_pos; lia). assert (0 < 5 ^ (- k)) as P5 by (apply pow_pos; lia).
  assert (0 < 10 ^ J) as PJ by (apply pow_pos; lia). assert (0 < 10 ^ d) as Pd by (apply pow_pos; lia).
  assert (10 ^ (- k) = 2 ^ (- k) * 5 ^ (- k)) as E10 by (change 10 with (2 * 5); apply Z.pow_mul_l).
  assert (Z.abs (r * 10 ^ J - c * 2 ^ (- k)) < Z.abs c * 2 ^ (- k)) as HS by nia.
  assert (0 < r * c) as Hs. { destruct (Z.lt_trichotomy c 0) as [C|[C|C]]; [|lia|]; destruct (Z.lt_trichotomy r 0) as [R|[R|R]]; nia. }
  assert (r <> 0) as Hr by nia. assert ((r <? 0) = (c <? 0)) as Es by (destruct (Z.ltb_spec r 0), (Z.ltb_spec c 0); nia).
  destruct (print_units k x r Hk Hx Hr) as (v & s & Hv & Ht & ->). rewrite Es. right. split; [lia|]. exists s. split; [|reflexivity].
  destruct (lead_digit (Z.abs c) ltac:(lia)) as (d' & Hd' & Bd').
  assert (10 ^ d <= 10 ^ d') as HD. { apply Z.pow_le_mono_r; [lia|]. destruct (Z.le_gt_cases d d'); [assumption|exfalso]. assert (10 ^ (d' + 1) <= 10 ^ d) by (apply Z.pow_le_mono_r; lia). lia. }
  assert (d' <= 9) as HD9. { destruct (Z.le_gt_cases d' 9); [assumption|exfalso]. assert (10 ^ 10 <= 10 ^ d') by (apply Z.pow_le_mono_r; lia). lia. }
  pose proof (round_back (Z.abs c) (- k + 11) d' (Z.abs r * 5 ^ (- k) * 10 ^ (J + 11)) ltac:(lia) ltac:(lia) Bd') as RB.
  assert (to_10_digits (Z.abs r * 5 ^ (- k) * 10 ^ (J + 11)) (Z.abs c * 10 ^ (- k + 11))) as RB'.
  { apply RB. rewrite (Z.pow_add_r 10 J), (Z.pow_add_r 10 (- k)) by lia.
    replace (Z.abs r * 5 ^ (- k) * (10 ^ J * 10 ^ 11) - Z.abs c * (10 ^ (- k) * 10 ^ 11)) with ((Z.abs r * 10 ^ J - Z.abs c * 2 ^ (- k)) * (5 ^ (- k) * 10 ^ 11)) by (rewrite E10; lia).
    rewrite Z.abs_mul, (Z.abs_eq (5 ^ (- k) * 10 ^ 11)) by lia.
    assert (Z.abs (Z.abs r * 10 ^ J - Z.abs c * 2 ^ (- k)) = Z.abs (r * 10 ^ J - c * 2 ^ (- k))) as -> by (apply abs_signed; exact Es).
    rewrite E10. apply (scaled_le _ _ _ (10 ^ 11) (2 * 10 ^ 10) (10 ^ d)); [exact P2|exact P5|reflexivity|exact HD|exact HE]. }
  clear RB. assert (0 < v) as Vp.
  { destruct Hv as [[_ ->]|(t & q & Ht' & D & [R _] & ->)]; [apply Z.mul_pos_pos; [lia|exact P5]|]. assert (0 < 10 ^ t) as HT by (apply pow_pos; lia).
    exact (rounded_pos _ _ _ _ HT (proj1 D) (Z.mul_div_le (Z.abs r * 5 ^ (- k)) (10 ^ t) HT) R). }
  assert (v * 10 ^ (J + 11) = Z.abs c * 10 ^ (- k + 11)) as EV.
  { apply (to_10_scale _ _ (J + 11)) in Hv; [|apply Z.mul_pos_pos; [lia|exact P5]|lia]. destruct Hv as [[L _]|Hv]; [exfalso|apply (to_10_unique _ _ _ Hv RB')].
    destruct RB' as (t & q & Ht' & D & _). assert (0 < 10 ^ t) by (apply pow_pos; lia). 
    rewrite Z.pow_add_r in L by lia. assert (0 < Z.abs r * 5 ^ (- k) * 10 ^ J) by (apply Z.mul_pos_pos; [apply Z.mul_pos_pos; [lia|exact P5]|exact PJ]). nia. }
  apply (text_scale (Z.abs c) J (- k + 11)); [lia|lia|lia|]. rewrite <- EV. replace (J + (- k + 11)) with (- k + (J + 11)) by lia.
  apply text_scale; [exact Vp|lia|lia|exact Ht].
Qed.

(** ** Exact cancellation *)
Lemma cancel x k u : in_units k x u -> big_add x (big_neg x) = Ret (BFin false 0 0).
Proof.
  intros (n & m & e & -> & _). cbn [big_neg big_add]. destruct (Z.eqb_spec m 0); cbn [andb]; [destruct n; reflexivity|].
  replace (Bool.eqb n (negb n)) with false by (destruct n; reflexivity). rewrite Z.ltb_irrefl. reflexivity.
Qed.
Lemma zero_text : big_string (BFin false 0 0) = "0"%string.
Proof. reflexivity. Qed.

Lemma twice X C S : Z.abs (X - C) * 2 ^ 63 <= S -> Z.abs C <= S -> Z.abs X <= 2 * S.
Proof. lia. Qed.
Lemma apart X C S G : Z.abs (X - C) * 2 ^ 63 <= S -> S <= 200000000 * G -> 0 < G -> G <= Z.abs C -> X <> 0.
Proof. lia. Qed.
Lemma sum_error X C S G R : Z.abs (X - C) * 2 ^ 63 <= S -> Z.abs X <= 2 * S -> Z.abs (R - X) * 2 ^ 64 <= Z.abs X -> S <= 200000000 * G -> Z.abs (R - C) * (2 * 10 ^ 10) <= G.
Proof. lia. Qed.
Lemma mul_error X C G R : Z.abs (X - C) * 2 ^ 63 <= 3 * Z.abs C -> Z.abs X <= 4 * Z.abs C -> Z.abs (R - X) * 2 ^ 64 <= Z.abs X -> Z.abs C <= 10 * G -> Z.abs (R - C) * (2 * 10 ^ 10) <= G.
Proof. lia. Qed.

Section Calc.
  Variable scan : string -> option bfloat.
  Hypothesis Hscan : scans_decimals scan.

  Lemma reach_bound k u T D q : -6000 <= k <= 0 -> 0 < T -> 0 <= q <= 400000000 -> 0 <= D <= 10 ^ 10 -> Z.abs u * T <= q * (D * 2 ^ (- k)) -> in_reach k u.
  Proof using Type.
    clear. intros Hk HT Hq HD H. split; [lia|].
    assert (Z.abs u * 1 <= Z.abs u * T) as B1 by (apply Z.mul_le_mono_nonneg_l; lia).
    assert (Z.abs u <= q * D * 2 ^ (- k)) as B2 by lia. apply Z.log2_le_mono in B2.
    assert (0 <= q * D <= 4000000000000000000) as B3 by nia. destruct (Z.eq_dec (q * D) 0) as [E|E]; [rewrite E in B2; cbn in B2; lia|].
    rewrite Z.log2_mul_pow2 in B2 by lia. assert (Z.log2 (q * D) <= 61) by (apply (Z.log2_le_mono _ 4000000000000000000); lia). lia.
  Qed.

  (** the sum of two numbers read with [J] digits after the point *)
  Lemma add_close k1 k2 x y u1 u2 A B J d : -3000 <= k1 <= 0 -> -3000 <= k2 <= 0 -> 0 <= J ->
    in_units k1 x u1 -> in_units k2 y u2 ->
    Z.abs (u1 * 10 ^ J - A * 2 ^ (- k1)) * 2 ^ 63 <= Z.abs A * 2 ^ (- k1) ->
    Z.abs (u2 * 10 ^ J - B * 2 ^ (- k2)) * 2 ^ 63 <= Z.abs B * 2 ^ (- k2) ->
    0 <= d -> 10 ^ d <= Z.abs (A + B) < 10 ^ 10 -> Z.abs A + Z.abs B <= 2 * 10 ^ 8 * 10 ^ d ->
    exists z, big_add x y = Ret z /\ signed_text (A + B) J (big_string z).
  Proof using Type.
    clear. intros Hk1 Hk2 HJ Hx Hy E1 E2 Hd HC HS. set (k := Z.min k1 k2). assert (-6000 <= k <= 0) as Hk by lia. assert (0 <= 10 ^ d <= 10 ^ 10) as BD by (pose proof (pow_pos 10 d); lia).
    apply (units_lower k1 k) in Hx; [|lia]. apply (units_lower k2 k) in Hy; [|lia].
    assert (forall q u c, k <= q <= 0 -> Z.abs (u * 10 ^ J - c * 2 ^ (- q)) * 2 ^ 63 <= Z.abs c * 2 ^ (- q) ->
      Z.abs (u * 2 ^ (q - k) * 10 ^ J - c * 2 ^ (- k)) * 2 ^ 63 <= Z.abs c * 2 ^ (- k)) as L.
    { intros q u c Hq H. replace (- k) with (- q + (q - k)) by lia. rewrite Z.pow_add_r by lia. assert (0 < 2 ^ (q - k)) by (apply pow_pos; lia).
      replace (u * 2 ^ (q - k) * 10 ^ J - c * (2 ^ (- q) * 2 ^ (q - k))) with ((u * 10 ^ J - c * 2 ^ (- q)) * 2 ^ (q - k)) by lia.
      rewrite Z.abs_mul, (Z.abs_eq (2 ^ (q - k))) by lia. apply (Z.mul_le_mono_nonneg_r _ _ (2 ^ (q - k))) in H; lia. }
    apply L in E1; [|lia]. apply L in E2; [|lia]. clear L. set (a := u1 * 2 ^ (k1 - k)) in *. set (b := u2 * 2 ^ (k2 - k)) in *.
    destruct (add_units k x y a b Hx Hy) as (z & Ez & _ & Hr). exists z. split; [exact Ez|].
    assert (0 < 2 ^ (- k)) as P2 by (apply pow_pos; lia). assert (0 < 10 ^ J) as PJ by (apply pow_pos; lia). assert (0 < 10 ^ d) as Pd by (apply pow_pos; lia).
    set (K2 := 2 ^ (- k)) in *. set (TJ := 10 ^ J) in *.
    assert (Z.abs ((a + b) * TJ - (A + B) * K2) * 2 ^ 63 <= (Z.abs A + Z.abs B) * K2) as E3 by (clear - E1 E2; lia).
    set (D := 10 ^ d) in *. assert (0 < D * K2) as PG by (apply Z.mul_pos_pos; assumption).
    assert ((Z.abs A + Z.abs B) * K2 <= 200000000 * (D * K2)) as E6 by (rewrite Z.mul_assoc; apply Z.mul_le_mono_nonneg_r; [lia|exact HS]).
    assert (D * K2 <= Z.abs (A + B) * K2) as E7 by (apply Z.mul_le_mono_nonneg_r; lia).
    assert (Z.abs ((A + B) * K2) = Z.abs (A + B) * K2) as E9 by (clear - P2; rewrite Z.abs_mul, (Z.abs_eq K2); lia).
    assert (a + b <> 0) as Hab. { intros E. rewrite <- E9 in E7. apply (apart _ _ _ _ E3 E6 PG E7). rewrite E. reflexivity. }
    assert (Z.abs ((A + B) * K2) <= (Z.abs A + Z.abs B) * K2) as E8 by (rewrite E9; clear - P2; apply Z.mul_le_mono_nonneg_r; lia).
    pose proof (twice _ _ _ E3 E8) as BU.
    assert (in_reach k (a + b)) as HR.
    { apply (reach_bound k (a + b) TJ D 400000000); [exact Hk|exact PJ|lia|exact BD|]. fold K2. rewrite <- (Z.abs_eq TJ), <- Z.abs_mul by (clear - PJ; lia). clear - BU E6. lia. }
    destruct (rounds_close k _ z (Hr Hab HR) Hab) as (r & Hz & Er).
    apply (close_prints k z r (A + B) J d); [clear - Hk; lia|exact HJ|exact Hz|exact Hd|exact HC|]. fold K2. fold TJ.
    assert (Z.abs (r * TJ - (a + b) * TJ) * 2 ^ 64 <= Z.abs ((a + b) * TJ)) as E4.
    { clear - Er PJ. replace (r * TJ - (a + b) * TJ) with ((r - (a + b)) * TJ) by lia. rewrite !Z.abs_mul, (Z.abs_eq TJ) by lia. apply (Z.mul_le_mono_nonneg_r _ _ TJ) in Er; lia. }
    fold D. rewrite (Z.mul_comm K2 D). exact (sum_error _ _ _ _ _ E3 BU E4 E6).
  Qed.

  Lemma mul_close k1 k2 x y u1 u2 a b j l : -3000 <= k1 <= 0 -> -3000 <= k2 <= 0 -> 0 <= j -> 0 <= l ->
    in_units k1 x u1 -> in_units k2 y u2 ->
    Z.abs (u1 * 10 ^ j - a * 2 ^ (- k1)) * 2 ^ 63 <= Z.abs a * 2 ^ (- k1) ->
    Z.abs (u2 * 10 ^ l - b * 2 ^ (- k2)) * 2 ^ 63 <= Z.abs b * 2 ^ (- k2) ->
    0 < Z.abs (a * b) < 10 ^ 10 ->
    exists z, big_mul x y = Ret z /\ signed_text (a * b) (j + l) (big_string z).
  Proof using Type.
    clear. intros Hk1 Hk2 Hj Hl Hx Hy E1 E2 HC. destruct (mul_units k1 k2 x y u1 u2 Hx Hy) as (z & Ez & _ & Hr). exists z. split; [exact Ez|].
    destruct (lead_digit (Z.abs (a * b)) ltac:(lia)) as (d & Hd & Bd). assert (0 < 10 ^ d) as Pd by (apply pow_pos; lia).
    replace (10 ^ (d + 1)) with (10 * 10 ^ d) in Bd by (rewrite <- Z.pow_succ_r by lia; reflexivity).
    assert (0 < 2 ^ (- k1)) as P1 by (apply pow_pos; lia). assert (0 < 2 ^ (- k2)) as P2 by (apply pow_pos; lia).
    assert (0 < 10 ^ j) as Pj by (apply pow_pos; lia). assert (0 < 10 ^ l) as Pl by (apply pow_pos; lia).
    assert (2 ^ (- (k1 + k2)) = 2 ^ (- k1) * 2 ^ (- k2)) as EK by (rewrite <- Z.pow_add_r by lia; f_equal; lia).
    assert (10 ^ (j + l) = 10 ^ j * 10 ^ l) as EJ by (apply Z.pow_add_r; lia).
    set (K1 := 2 ^ (- k1)) in *. set (K2 := 2 ^ (- k2)) in *. set (X := u1 * 10 ^ j) in *. set (Y := u2 * 10 ^ l) in *. set (al := a * K1) in *. set (be := b * K2) in *.
    assert (Z.abs a * K1 = Z.abs al) as Ea by (unfold al; rewrite Z.abs_mul, (Z.abs_eq K1); lia).
    assert (Z.abs b * K2 = Z.abs be) as Eb by (unfold be; rewrite Z.abs_mul, (Z.abs_eq K2); lia).
    rewrite Ea in E1. rewrite Eb in E2.
    assert (a <> 0 /\ b <> 0) as [Ha Hb] by (split; intros ->; lia).
    assert (al <> 0) as Hal by (clear - Ha P1; unfold al; nia). assert (be <> 0) as Hbe by (clear - Hb P2; unfold be; nia).
    assert (Z.abs X <= 2 * Z.abs al) as BX by (clear - E1; lia). assert (Z.abs Y <= 2 * Z.abs be) as BY by (clear - E2; lia).
    assert (X <> 0) as HX by (clear - E1 Hal; lia). assert (Y <> 0) as HY by (clear - E2 Hbe; lia).
    assert (Z.abs (X * Y) <= 4 * Z.abs (al * be)) as BXY by (rewrite !Z.abs_mul; clear - BX BY; pose proof (Z.mul_le_mono_nonneg (Z.abs X) (2 * Z.abs al) (Z.abs Y) (2 * Z.abs be) ltac:(lia) BX ltac:(lia) BY); lia).
    assert (Z.abs (X * Y - al * be) * 2 ^ 63 <= 3 * Z.abs (al * be)) as E3.
    { replace (X * Y - al * be) with ((X - al) * Y + al * (Y - be)) by lia.
      assert (Z.abs ((X - al) * Y) * 2 ^ 63 <= 2 * Z.abs (al * be)) as F1.
      { rewrite !Z.abs_mul. clear - E1 BY. pose proof (Z.mul_le_mono_nonneg (Z.abs (X - al) * 2 ^ 63) (Z.abs al) (Z.abs Y) (2 * Z.abs be) ltac:(lia) E1 ltac:(lia) BY). lia. }
      assert (Z.abs (al * (Y - be)) * 2 ^ 63 <= Z.abs (al * be)) as F2.
      { rewrite !Z.abs_mul. clear - E2. pose proof (Z.mul_le_mono_nonneg_l _ _ (Z.abs al) ltac:(lia) E2). lia. }
      clear - F1 F2. lia. }
    assert (u1 * u2 <> 0) as Hu by (clear - HX HY; intros E; apply Z.mul_eq_0 in E as [E|E]; [apply HX; unfold X|apply HY; unfold Y]; rewrite E; reflexivity).
    assert (u1 * u2 * 10 ^ (j + l) = X * Y) as EXY by (rewrite EJ; unfold X, Y; clear; lia).
    assert (Z.abs (al * be) = Z.abs (a * b) * (K1 * K2)) as Eab by (rewrite !Z.abs_mul; rewrite <- Ea, <- Eb; clear; lia).
    assert (in_reach (k1 + k2) (u1 * u2)) as HR.
    { apply (reach_bound (k1 + k2) (u1 * u2) (10 ^ (j + l)) (Z.abs (a * b)) 4); [clear - Hk1 Hk2; lia|rewrite EJ; apply Z.mul_pos_pos; assumption|clear; lia|clear - HC; lia|].
      rewrite EK, <- Eab. clear - BXY EXY EJ Pj Pl. assert (0 < 10 ^ (j + l)) by (rewrite EJ; apply Z.mul_pos_pos; assumption).
      rewrite <- (Z.abs_eq (10 ^ (j + l))), <- Z.abs_mul, EXY by lia. exact BXY. }
    destruct (rounds_close (k1 + k2) _ z (Hr Hu HR) Hu) as (r & Hz & Er).
    apply (close_prints (k1 + k2) z r (a * b) (j + l) d); [clear - Hk1 Hk2; lia|clear - Hj Hl; lia|exact Hz|exact Hd|clear - Bd HC; lia|]. rewrite EK.
    assert (Z.abs (r * 10 ^ (j + l) - X * Y) * 2 ^ 64 <= Z.abs (X * Y)) as E4.
    { clear - EXY EJ Er Pj Pl. assert (0 < 10 ^ (j + l)) by (rewrite EJ; apply Z.mul_pos_pos; assumption). rewrite <- EXY. replace (r * 10 ^ (j + l) - u1 * u2 * 10 ^ (j + l)) with ((r - u1 * u2) * 10 ^ (j + l)) by lia.
      rewrite (Z.abs_mul (r - u1 * u2)), (Z.abs_mul (u1 * u2)), (Z.abs_eq (10 ^ (j + l))) by lia. apply (Z.mul_le_mono_nonneg_r _ _ (10 ^ (j + l))) in Er; lia. }
    replace (a * b * (K1 * K2)) with (al * be) by (unfold al, be; clear; lia).
    assert (Z.abs (al * be) <= 10 * 10 ^ d * (K1 * K2)) as E6 by (rewrite Eab; apply Z.mul_le_mono_nonneg_r; [clear - P1 P2; apply Z.mul_nonneg_nonneg; lia|clear - Bd; lia]).
    assert (Z.abs (al * be) <= 10 * (K1 * K2 * 10 ^ d)) as E7 by (clear - E6; lia). exact (mul_error _ _ _ _ E3 BXY E4 E7).
  Qed.

  Section Texts.
    Variables (x y : string) (a j b l : Z).
    Hypothesis Hx : reads a j x.
    Hypothesis Hy : reads b l y.
    Hypothesis Ha : Z.abs a < 10 ^ 18.
    Hypothesis Hb : Z.abs b < 10 ^ 18.
    Hypothesis Hj : 0 <= j <= 300.
    Hypothesis Hl : 0 <= l <= 300.
    Let J := Z.max j l.
    Let A := a * 10 ^ (J - j).
    Let B := b * 10 ^ (J - l).

    Lemma widen k u c q : 0 <= q <= J -> Z.abs (u * 10 ^ q - c * 2 ^ (- k)) * 2 ^ 63 <= Z.abs c * 2 ^ (- k) ->
      Z.abs (u * 10 ^ J - c * 10 ^ (J - q) * 2 ^ (- k)) * 2 ^ 63 <= Z.abs (c * 10 ^ (J - q)) * 2 ^ (- k).
    Proof using Type.
      clear. intros Hq H. replace J with (q + (J - q)) at 1 by lia. rewrite Z.pow_add_r by lia. assert (0 < 10 ^ (J - q)) by (apply pow_pos; lia).
      replace (u * (10 ^ q * 10 ^ (J - q)) - c * 10 ^ (J - q) * 2 ^ (- k)) with ((u * 10 ^ q - c * 2 ^ (- k)) * 10 ^ (J - q)) by lia.
      rewrite !Z.abs_mul, (Z.abs_eq (10 ^ (J - q))) by lia. apply (Z.mul_le_mono_nonneg_r _ _ (10 ^ (J - q))) in H; lia.
    Qed.

    Lemma J_facts : 0 <= j <= J /\ 0 <= l <= J /\ 0 <= J.
    Proof using Hj Hl. clear - Hj Hl J. unfold J. lia. Qed.

    Lemma sum_decimal d : 0 <= d -> 10 ^ d <= Z.abs (A + B) < 10 ^ 10 -> Z.abs A + Z.abs B <= 2 * 10 ^ 8 * 10 ^ d ->
      exists s, sum scan x y = Ret s /\ signed_text (A + B) J s.
    Proof using Hscan Hx Hy Ha Hb Hj Hl.
      intros Hd HC HS. destruct Hscan as (num & N1 & N2 & N3 & N0 & N4). unfold sum, calc. rewrite (N1 a j x Ha Hj Hx), (N1 b l y Hb Hl Hy).
      destruct (N4 a j Ha Hj) as (k1 & u1 & Hk1 & U1 & E1). destruct (N4 b l Hb Hl) as (k2 & u2 & Hk2 & U2 & E2).
      destruct J_facts as (J1 & J2 & J0). apply widen in E1; [|exact J1]. apply widen in E2; [|exact J2].
      destruct (add_close k1 k2 _ _ u1 u2 A B J d Hk1 Hk2 J0 U1 U2 E1 E2 Hd HC HS) as (z & -> & T). cbn [bind]. eexists. split; [reflexivity|exact T].
    Qed.
    Lemma sub_decimal d : 0 <= d -> 10 ^ d <= Z.abs (A - B) < 10 ^ 10 -> Z.abs A + Z.abs B <= 2 * 10 ^ 8 * 10 ^ d ->
      exists s, sub scan x y = Ret s /\ signed_text (A - B) J s.
    Proof using Hscan Hx Hy Ha Hb Hj Hl.
      intros Hd HC HS. destruct Hscan as (num & N1 & N2 & N3 & N0 & N4). unfold sub, calc. rewrite (N1 a j x Ha Hj Hx), (N1 b l y Hb Hl Hy).
      destruct (N4 a j Ha Hj) as (k1 & u1 & Hk1 & U1 & E1). destruct (N4 b l Hb Hl) as (k2 & u2 & Hk2 & U2 & E2).
      destruct J_facts as (J1 & J2 & J0). apply widen in E1; [|exact J1]. apply widen in E2; [|exact J2]. apply units_neg in U2. unfold big_sub.
      assert (Z.abs (- u2 * 10 ^ J - - B * 2 ^ (- k2)) * 2 ^ 63 <= Z.abs (- B) * 2 ^ (- k2)) as E2'.
      { replace (- u2 * 10 ^ J - - B * 2 ^ (- k2)) with (- (u2 * 10 ^ J - B * 2 ^ (- k2))) by lia. rewrite !Z.abs_opp. exact E2. }
      replace (A - B) with (A + - B) in * by (clear; lia). assert (Z.abs A + Z.abs (- B) <= 2 * 10 ^ 8 * 10 ^ d) as HS' by (rewrite Z.abs_opp; exact HS).
      destruct (add_close k1 k2 _ _ u1 (- u2) A (- B) J d Hk1 Hk2 J0 U1 U2 E1 E2' Hd HC HS') as (z & -> & T). cbn [bind]. eexists. split; [reflexivity|exact T].
    Qed.
    Lemma mul_decimal : 0 < Z.abs (a * b) < 10 ^ 10 -> exists s, mul scan x y = Ret s /\ signed_text (a * b) (j + l) s.
    Proof using Hscan Hx Hy Ha Hb Hj Hl.
      intros HC. destruct Hscan as (num & N1 & N2 & N3 & N0 & N4). unfold mul, calc. rewrite (N1 a j x Ha Hj Hx), (N1 b l y Hb Hl Hy).
      destruct (N4 a j Ha Hj) as (k1 & u1 & Hk1 & U1 & E1). destruct (N4 b l Hb Hl) as (k2 & u2 & Hk2 & U2 & E2).
      destruct (mul_close k1 k2 _ _ u1 u2 a b j l Hk1 Hk2 (proj1 Hj) (proj1 Hl) U1 U2 E1 E2 HC) as (z & -> & T). cbn [bind]. eexists. split; [reflexivity|exact T].
    Qed.
    Lemma neg_decimal : 0 < Z.abs a < 10 ^ 10 -> signed_text (- a) j (neg scan x).
    Proof using Hscan Hx Ha Hj.
      clear - Hscan Hx Ha Hj. intros HC. destruct Hscan as (num & N1 & N2 & N3 & N0 & N4). unfold neg. rewrite (N1 a j x Ha Hj Hx).
      destruct (N4 a j Ha Hj) as (k1 & u1 & Hk1 & U1 & E1). apply units_neg in U1.
      destruct (lead_digit (Z.abs a) ltac:(lia)) as (d & Hd & Bd). assert (0 < 10 ^ d) as Pd by (apply pow_pos; lia).
      replace (10 ^ (d + 1)) with (10 * 10 ^ d) in Bd by (rewrite <- Z.pow_succ_r by lia; reflexivity).
      assert (0 < 2 ^ (- k1)) as P1 by (apply pow_pos; lia).
      apply (close_prints k1 _ (- u1) (- a) j d); [clear - Hk1; lia|exact (proj1 Hj)|exact U1|exact Hd|clear - Bd HC; lia|].
      replace (- u1 * 10 ^ j - - a * 2 ^ (- k1)) with (- (u1 * 10 ^ j - a * 2 ^ (- k1))) by lia. rewrite Z.abs_opp.
      pose proof (Z.mul_le_mono_nonneg_r (Z.abs a) (10 * 10 ^ d) (2 ^ (- k1)) ltac:(lia) ltac:(lia)) as E3. clear - E1 E3. lia.
    Qed.

    Lemma num_widen (num : Z -> Z -> bfloat) : (forall a j, Z.abs a < 10 ^ 17 -> 0 <= j <= 299 -> num (10 * a) (j + 1) = num a j) ->
      forall i c q, Z.abs (c * 10 ^ Z.of_nat i) < 10 ^ 18 -> 0 <= q -> q + Z.of_nat i <= 300 -> num (c * 10 ^ Z.of_nat i) (q + Z.of_nat i) = num c q.
    Proof using Type.
      clear. intros H. induction i as [|i IH]; intros c q B1 B2 B3; [change (Z.of_nat 0) with 0; change (10 ^ 0) with 1; f_equal; lia|].
      rewrite Nat2Z.inj_succ in *. rewrite Z.pow_succ_r in * by lia. pose proof (pow_pos 10 (Z.of_nat i) ltac:(lia) ltac:(lia)).
      replace (c * (10 * 10 ^ Z.of_nat i)) with (10 * (c * 10 ^ Z.of_nat i)) in * by lia. replace (q + Z.succ (Z.of_nat i)) with (q + Z.of_nat i + 1) by lia.
      rewrite H; [apply IH|..]; lia.
    Qed.
    Lemma sum_cancels : A + B = 0 -> Z.abs A < 10 ^ 18 -> sum scan x y = Ret "0"%string.
    Proof using Hscan Hx Hy Ha Hb Hj Hl.
      intros HC HA. destruct Hscan as (num & N1 & N2 & N3 & N0 & N4). unfold sum, calc. rewrite (N1 a j x Ha Hj Hx), (N1 b l y Hb Hl Hy).
      destruct (N4 a j Ha Hj) as (k1 & u1 & _ & U1 & _).
      pose proof (num_widen num N2 (Z.to_nat (J - j)) a j) as W1. pose proof (num_widen num N2 (Z.to_nat (J - l)) b l) as W2. destruct J_facts as (J1 & J2 & J0). rewrite Z2Nat.id in W1 by (clear - J1; lia). rewrite Z2Nat.id in W2 by (clear - J2; lia).
      fold A in W1. fold B in W2. rewrite <- W2, <- W1 in * by lia. replace (j + (J - j)) with J in * by lia. replace (l + (J - l)) with J in * by lia.
      replace B with (- A) by lia. destruct (Z.eq_dec A 0) as [->|NA]; [change (- 0) with 0; rewrite N0; reflexivity|].
      rewrite N3 by exact NA. rewrite (cancel _ _ _ U1). reflexivity.
    Qed.
    Lemma sub_cancels : A = B -> Z.abs A < 10 ^ 18 -> sub scan x y = Ret "0"%string.
    Proof using Hscan Hx Hy Ha Hb Hj Hl.
      intros HC HA. destruct Hscan as (num & N1 & N2 & N3 & N0 & N4). unfold sub, calc, big_sub. rewrite (N1 a j x Ha Hj Hx), (N1 b l y Hb Hl Hy).
      destruct (N4 a j Ha Hj) as (k1 & u1 & _ & U1 & _).
      pose proof (num_widen num N2 (Z.to_nat (J - j)) a j) as W1. pose proof (num_widen num N2 (Z.to_nat (J - l)) b l) as W2. destruct J_facts as (J1 & J2 & J0). rewrite Z2Nat.id in W1 by (clear - J1; lia). rewrite Z2Nat.id in W2 by (clear - J2; lia).
      fold A in W1. fold B in W2. rewrite <- W2, <- W1 in * by lia. replace (j + (J - j)) with J in * by lia. replace (l + (J - l)) with J in * by lia.
      rewrite <- HC. rewrite (cancel _ _ _ U1). reflexivity.
    Qed.
    Lemma mul_zero : a * b = 0 -> mul scan x y = Ret (if (a <? 0)%Z || (b <? 0)%Z then "-0" else "0")%string.
    Proof using Hscan Hx Hy Ha Hb Hj Hl.
      intros HC. destruct Hscan as (num & N1 & N2 & N3 & N0 & N4). unfold mul, calc. rewrite (N1 a j x Ha Hj Hx), (N1 b l y Hb Hl Hy).
      assert (forall c q, Z.abs c < 10 ^ 18 -> 0 <= q <= 300 -> exists m e, num c q = BFin (c <? 0) m e) as S.
      { intros c q Hc Hq. destruct (Z.eq_dec c 0) as [->|Nc]; [exists 0, 0; apply N0|]. destruct (N4 c q Hc Hq) as (k & u & Hk & (n & m & e & E & Hm & He & Eu) & D).
        exists m, e. rewrite E. f_equal. assert (0 < 2 ^ (- k)) by (apply pow_pos; lia). assert (0 < 10 ^ q) by (apply pow_pos; lia).
        assert (0 <= m * 2 ^ (e - k)) by (apply Z.mul_nonneg_nonneg; [lia|apply Z.pow_nonneg; lia]). clear Hx Hy Ha Hb Hj Hl HC N1 N2 N3 N0 N4 E A B. set (M := m * 2 ^ (e - k)) in *. set (K := 2 ^ (- k)) in *. set (Q := 10 ^ q) in *.
        destruct (Z.ltb_spec c 0), n; try reflexivity; exfalso; subst u; clear He Hm J; nia. }
      destruct (S a j Ha Hj) as (m1 & e1 & S1). destruct (S b l Hb Hl) as (m2 & e2 & S2).
      destruct (Z.eq_dec a 0) as [->|Na].
      - rewrite N0, S2. cbn [big_mul]. cbn [Z.eqb orb xorb bind]. destruct (b <? 0); reflexivity.
      - assert (b = 0) as -> by lia. rewrite N0, S1. cbn [big_mul]. rewrite orb_true_r. cbn [bind]. destruct (a <? 0); reflexivity.
    Qed.
    Lemma sum_small : Z.abs A < 10 ^ 8 -> Z.abs B < 10 ^ 8 -> exists s, sum scan x y = Ret s /\ signed_text (A + B) J s.
    Proof using Hscan Hx Hy Ha Hb Hj Hl.
      intros HA HB. destruct (Z.eq_dec (A + B) 0) as [E|E].
      - exists "0"%string. split; [apply sum_cancels; [exact E|clear - HA; lia]|left; split; [exact E|reflexivity]].
      - apply (sum_decimal 0); change (10 ^ 0) with 1; clear - HA HB E; lia.
    Qed.
    Lemma sub_small : Z.abs A < 10 ^ 8 -> Z.abs B < 10 ^ 8 -> exists s, sub scan x y = Ret s /\ signed_text (A - B) J s.
    Proof using Hscan Hx Hy Ha Hb Hj Hl.
      intros HA HB. destruct (Z.eq_dec (A - B) 0) as [E|E].
      - exists "0"%string. split; [apply sub_cancels; [clear - E; lia|clear - HA; lia]|left; split; [exact E|reflexivity]].
      - apply (sub_decimal 0); change (10 ^ 0) with 1; clear - HA HB E; lia.
    Qed.
    Lemma both_small : Z.abs A < 10 ^ 8 -> Z.abs B < 10 ^ 8 ->
      (exists s, sum scan x y = Ret s /\ signed_text (A + B) J s) /\ (exists s, sub scan x y = Ret s /\ signed_text (A - B) J s).
    Proof using Hscan Hx Hy Ha Hb Hj Hl. intros HA HB. split; [apply sum_small|apply sub_small]; assumption. Qed.
    Lemma both_cancel : Z.abs A < 10 ^ 18 -> (A + B = 0 -> sum scan x y = Ret "0"%string) /\ (A = B -> sub scan x y = Ret "0"%string).
    Proof using Hscan Hx Hy Ha Hb Hj Hl. intros HA. split; intros E; [apply sum_cancels|apply sub_cancels]; assumption. Qed.
  End Texts.
End Calc.
Close Scope Z_scope.
