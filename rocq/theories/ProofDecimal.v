(** Printing a big.Float: ten digits, with a point or an exponent. *)
From Coq Require Import Ascii.
From Verif Require Import Base ModelMath SpecMath SpecRound ProofMath ProofRound SpecDecimal ProofFloat.
Local Open Scope list_scope.
Open Scope Z_scope.

(** ** Rounding to ten digits, any number *)
Definition good_decimal (d : decimal) : Prop :=
  digit_list (d_mant d) /\ d_mant d <> [] /\ hd 0 (d_mant d) <> 0 /\ last (d_mant d) 1 <> 0 /\ (length (d_mant d) <= 10)%nat
  /\ Z.of_nat (length (d_mant d)) <= d_exp d.

Lemma round_any w : 0 < w -> let ds := digits w in
  let d := dec_round 10 (mkDec (trim_zeros ds) (Z.of_nat (length ds))) in
  good_decimal d /\ to_10 w (value d).
Proof.
  intros Hw ds d. destruct (Z.lt_ge_cases w (10 ^ 10)) as [L|L].
  - destruct (digits_spec w Hw) as (F & V & Hh & Hne). fold ds in F, V, Hh, Hne.
    assert (length ds <= 10)%nat as HL.
    { pose proof (number_lead ds F Hh) as B. rewrite V in B.
      destruct (Nat.le_gt_cases (length ds) 10) as [|G]; [assumption|exfalso].
      assert (10 ^ 11 <= 10 ^ Z.of_nat (length ds)) by (apply Z.pow_le_mono_r; lia). lia. }
    destruct (trim_zeros_spec ds) as (k & Ek & Hk). pose proof (trim_number ds) as HN. rewrite V in HN.
    pose proof (trim_last ds) as Hlast. pose proof (trim_digits ds F) as Ft. set (t := trim_zeros ds) in *.
    assert (t <> []) as Htne by (intros E; rewrite E in HN; change (number_of []) with 0 in HN; lia).
    assert (hd 0 t <> 0) as Hht by (rewrite Ek in Hh; destruct t; [congruence|exact Hh]).
    unfold d, dec_round. cbn [d_mant d_exp]. replace (Nat.leb (length t) 10) with true by (symmetry; apply Nat.leb_le; lia).
    split; [unfold good_decimal; cbn [d_mant d_exp]; repeat (split; [assumption|]); lia|].
    left. split; [exact L|]. unfold value. cbn [d_mant d_exp]. rewrite <- HN. f_equal. f_equal. lia.
  - destruct (round_ten w L) as [(P1 & P2 & P3 & P4 & P5 & P6) T]. fold ds in P1, P2, P3, P4, P5, P6, T. fold d in P1, P2, P3, P4, P5, P6, T.
    split; [|right; exact T]. repeat (split; [assumption|]). lia.
Qed.

Lemma dec_round_shift n m E j : dec_round n (mkDec m (E - j)) = let d := dec_round n (mkDec m E) in mkDec (d_mant d) (d_exp d - j).
Proof.
  unfold dec_round. cbn [d_mant d_exp]. destruct (Nat.leb (length m) n); [reflexivity|]. destruct (should_round_up n m); [|reflexivity].
  destruct (bump (rev (firstn n m))); [|reflexivity]. cbn [d_mant d_exp]. f_equal. lia.
Qed.

Lemma nth_skipn (l : list Z) : forall n, (n < length l)%nat -> nth n l 0 :: skipn (S n) l = skipn n l.
Proof. induction l as [|a l IH]; intros n Hn; [cbn in Hn; lia|]. destruct n as [|n]; [reflexivity|]. cbn [nth]. cbn in Hn. change (nth n l 0 :: skipn (S n) l = skipn n l). apply IH. lia. Qed.
(** the digits of the text after the point *)
Lemma frac_digits d p : forall i, (forall k, (k < p)%nat -> 0 <= d_exp d + Z.of_nat (i + k)) ->
  (Z.to_nat (d_exp d + Z.of_nat i) + p = length (d_mant d))%nat ->
  map (fun i => digit_at d (d_exp d + Z.of_nat i)) (seq i p) = skipn (Z.to_nat (d_exp d + Z.of_nat i)) (d_mant d).
Proof.
  induction p as [|p IH]; intros i H HL; [rewrite skipn_all2 by lia; reflexivity|]. cbn [seq map].
  pose proof (H 0%nat ltac:(lia)) as H0. rewrite Nat.add_0_r in H0.
  rewrite IH; [| |replace (Z.to_nat (d_exp d + Z.of_nat (S i))) with (S (Z.to_nat (d_exp d + Z.of_nat i))) by lia; lia].
  - replace (Z.to_nat (d_exp d + Z.of_nat (S i))) with (S (Z.to_nat (d_exp d + Z.of_nat i))) by lia.
    unfold digit_at. destruct (Z.ltb_spec (d_exp d + Z.of_nat i) 0); [lia|].
    apply nth_skipn. lia.
  - intros k Hk. specialize (H (S k) ltac:(lia)). replace (S i + k)%nat with (i + S k)%nat by lia. exact H.
Qed.
Lemma map_zero_digits d p : forall i, d_exp d + Z.of_nat (i + p) <= 0 -> map (fun i => digit_at d (d_exp d + Z.of_nat i)) (seq i p) = repeat 0 p.
Proof.
  induction p as [|p IH]; intros i H; [reflexivity|]. cbn [seq map repeat]. f_equal.
  - unfold digit_at. destruct (Z.ltb_spec (d_exp d + Z.of_nat i) 0); [reflexivity|lia].
  - apply IH. lia.
Qed.

Lemma text_app (a b : list Z) : chars_of (a ++ b) = (chars_of a ++ chars_of b)%string.
Proof. induction a as [|x a IH]; [reflexivity|]. cbn. rewrite IH. reflexivity. Qed.

Section Body.
  Variables (mant : list Z) (E j : Z).
  Hypothesis F : digit_list mant.
  Hypothesis Hne : mant <> [].
  Hypothesis Hh : hd 0 mant <> 0.
  Hypothesis Hl : last mant 1 <> 0.
  Hypothesis Hlen : (length mant <= 10)%nat.
  Hypothesis Hj : 0 <= j.
  Hypothesis HE : Z.of_nat (length mant) <= E + j.
  Let d := mkDec mant E.
  Let len := Z.of_nat (length mant).
  Let v := number_of mant * 10 ^ (E + j - len).

  Lemma len_pos : 0 < len.
  Proof using Hne. clear - Hne len. unfold len. destruct mant; [congruence|cbn [length]; lia]. Qed.
  Lemma v_bounds : 10 ^ (E + j - 1) <= v < 10 ^ (E + j).
  Proof using F Hne Hh HE. clear - F Hne Hh HE v len.
    pose proof len_pos. pose proof (number_lead mant F Hh) as B1. pose proof (number_bounds mant F) as B2. fold len in B1, B2.
    assert (0 < 10 ^ (E + j - len)) by (apply pow_pos; lia).
    assert (10 ^ (E + j) = 10 ^ len * 10 ^ (E + j - len)) as E1 by (rewrite <- Z.pow_add_r by lia; f_equal; lia).
    assert (10 ^ (E + j) = 10 * 10 ^ (E + j - 1)) as E2 by (rewrite <- Z.pow_succ_r by lia; f_equal; lia).
    unfold v. nia.
  Qed.

  Lemma plain_text : 0 < E -> fraction v j (fmt_f (Z.to_nat (Z.max (len - E) 0)) d).
  Proof using F Hne Hh Hl Hlen Hj HE.
    intros HE0. pose proof len_pos as Lp. unfold fmt_f. unfold d. cbn [d_mant d_exp]. replace (0 <? E) with true by (symmetry; apply Z.ltb_lt; lia).
    destruct (Z.le_gt_cases len E) as [L|L].
    - replace (Z.to_nat (Z.max (len - E) 0)) with 0%nat by lia. change (Nat.ltb 0 0) with false. cbn iota.
      rewrite firstn_all2 by lia. exists (mant ++ repeat 0 (Z.to_nat E - length mant)), []. rewrite app_nil_r.
      split; [apply Forall_app; split; [exact F|apply Forall_forall; intros y Hy; apply repeat_spec in Hy; lia]|].
      split; [intros C; apply app_eq_nil in C; tauto|].
      split; [destruct mant; [congruence|cbn in *; tauto]|]. split; [cbn; lia|]. split.
      + rewrite number_app, number_zeros, repeat_length. cbn [length]. change (10 ^ Z.of_nat 0) with 1. unfold v.
        replace (Z.of_nat (Z.to_nat E - length mant)) with (E - len) by lia. replace (E + j - len) with ((E - len) + j) by lia. rewrite Z.pow_add_r by lia. lia.
      + rewrite digits_chars. reflexivity.
    - replace (Nat.ltb 0 (Z.to_nat (Z.max (len - E) 0))) with true by (symmetry; apply Nat.ltb_lt; lia).
      change (mkDec mant E) with d.
      assert (map (fun i => digit_at d (E + Z.of_nat i)) (seq 0 (Z.to_nat (Z.max (len - E) 0))) = skipn (Z.to_nat E) mant) as M.
      { pose proof (frac_digits d (Z.to_nat (Z.max (len - E) 0)) 0) as M. cbn [d_exp d_mant d] in M. change (Z.of_nat 0) with 0 in M. rewrite Z.add_0_r in M.
        apply M; [intros k Hk; lia|lia]. }
      rewrite M. replace (Z.to_nat E - length (firstn (Z.to_nat E) mant))%nat with 0%nat by (rewrite firstn_length_le; lia). cbn [repeat]. rewrite app_nil_r.
      exists (firstn (Z.to_nat E) mant), (skipn (Z.to_nat E) mant). rewrite firstn_skipn. split; [exact F|].
      assert (length (skipn (Z.to_nat E) mant) = Z.to_nat (len - E)) as Ls by (rewrite skipn_length; lia).
      assert (skipn (Z.to_nat E) mant <> []) as Sne by (intros C; rewrite C in Ls; cbn in Ls; lia).
      split; [intros C; apply (f_equal (@length Z)) in C; rewrite firstn_length_le in C by lia; cbn in C; lia|].
      split; [destruct mant as [|c l]; [congruence|]; destruct (Z.to_nat E) eqn:EE; [lia|]; cbn in *; tauto|].
      split; [rewrite <- (firstn_skipn (Z.to_nat E) mant) in Hl; rewrite last_app_nonempty in Hl by exact Sne; exact Hl|]. split.
      + rewrite Ls. unfold v. rewrite <- Z.mul_assoc, <- Z.pow_add_r by lia. f_equal. f_equal. lia.
      + rewrite !digits_chars. destruct (skipn (Z.to_nat E) mant); [congruence|]. reflexivity.
  Qed.
  Lemma small_text : E <= 0 -> fraction v j (fmt_f (Z.to_nat (Z.max (len - E) 0)) d).
  Proof using F Hne Hh Hl Hlen Hj HE.
    intros HE0. pose proof len_pos as Lp. unfold fmt_f. unfold d. cbn [d_mant d_exp]. replace (0 <? E) with false by (symmetry; apply Z.ltb_ge; lia).
    replace (Nat.ltb 0 (Z.to_nat (Z.max (len - E) 0))) with true by (symmetry; apply Nat.ltb_lt; lia). change (mkDec mant E) with d.
    assert (map (fun i => digit_at d (E + Z.of_nat i)) (seq 0 (Z.to_nat (Z.max (len - E) 0))) = repeat 0 (Z.to_nat (- E)) ++ mant) as M.
    { replace (Z.to_nat (Z.max (len - E) 0)) with (Z.to_nat (- E) + length mant)%nat by lia. rewrite seq_app, map_app. f_equal.
      - apply (map_zero_digits d). cbn [d d_exp]. lia.
      - pose proof (frac_digits d (length mant) (0 + Z.to_nat (- E))) as M. cbn [d_exp d_mant d] in M.
        replace (E + Z.of_nat (0 + Z.to_nat (- E))) with 0 in M by lia. apply M; [intros k Hk; lia|cbn; lia]. }
    rewrite M. exists [0], (repeat 0 (Z.to_nat (- E)) ++ mant). split.
    { constructor; [lia|]. apply Forall_app. split; [|exact F]. apply Forall_forall. intros y Hy. apply repeat_spec in Hy. lia. }
    split; [discriminate|]. split; [reflexivity|]. split; [rewrite last_app_nonempty by exact Hne; exact Hl|]. split.
    - rewrite !number_app, number_zeros, app_length, repeat_length. change (number_of [0]) with 0. unfold v.
      rewrite !Z.mul_0_l, !Z.add_0_l. rewrite <- Z.mul_assoc, <- Z.pow_add_r by lia. f_equal. f_equal. lia.
    - rewrite !digits_chars. destruct (repeat 0 (Z.to_nat (- E)) ++ mant) eqn:C; [apply app_eq_nil in C; tauto|]. reflexivity.
  Qed.
  Lemma exponent_text : E - 1 < -4 \/ 10 <= E - 1 -> exponential v j (fmt_e (Nat.min 10 (length mant) - 1) d).
  Proof using F Hne Hh Hl Hlen Hj HE.
    intros HX. rewrite Nat.min_r by exact Hlen. pose proof len_pos as Lp. unfold d, v, len in *. clear d v len.
    destruct mant as [|c ds]; [congruence|]. cbn [hd length] in *. inversion F as [|? ? Hc F']; subst.
    assert (Z.abs (E - 1) <> 0) as Hx0 by lia.
    exists c, ds, (E - 1), (digits_text (digits (Z.abs (E - 1)))). split; [lia|]. split; [exact F'|].
    split; [destruct ds; [cbn; lia|exact Hl]|]. split; [lia|]. split.
    { rewrite <- Z.mul_assoc, <- Z.pow_add_r by lia. f_equal. f_equal. lia. }
    split; [apply numeral_nonzero; [lia|]; destruct (Z.ltb_spec (Z.abs (E - 1)) 0); [lia|]; rewrite (Z.abs_eq (Z.abs _)) by lia; reflexivity|].
    unfold fmt_e. cbn [d_mant d_exp tl]. rewrite Nat.sub_succ, Nat.sub_0_r, firstn_all, Nat.sub_diag. cbn [repeat]. rewrite app_nil_r.
    assert (digits_text (if Z.abs (E - 1) <? 10 then repeat 0 (2 - length (digits (Z.abs (E - 1)))) ++ digits (Z.abs (E - 1)) else digits (Z.abs (E - 1)))
            = ((if (Z.abs (E - 1) <? 10)%Z then "0" else "") ++ digits_text (digits (Z.abs (E - 1))))%string) as T.
    { destruct (Z.ltb_spec (Z.abs (E - 1)) 10) as [L|L]; [|reflexivity].
      destruct (digits_spec (Z.abs (E - 1)) ltac:(lia)) as (G1 & G2 & G3 & G4).
      assert (length (digits (Z.abs (E - 1))) = 1)%nat as L1.
      { pose proof (number_lead _ G1 G3) as B. rewrite G2 in B. destruct (digits (Z.abs (E - 1))) as [|x [|y l]]; [congruence|reflexivity|exfalso].
        cbn [length] in B. rewrite !Nat2Z.inj_succ, !Z.pow_succ_r in B by lia. pose proof (pow_pos 10 (Z.of_nat (length l)) ltac:(lia) ltac:(lia)). lia. }
      rewrite L1. reflexivity. }
    rewrite T. destruct ds as [|c' ds']; [reflexivity|]. rewrite (digits_chars (c' :: ds')). reflexivity.
  Qed.

  Definition body_of (d : decimal) : string :=
    let len := length (d_mant d) in
    let eprec := if Nat.ltb len 10 && (d_exp d <=? Z.of_nat len) then Z.of_nat len else 10 in
    let x := d_exp d - 1 in
    let prec := if d_exp d <? 10 then Z.of_nat len else 10 in
    if (x <? -4) || (eprec <=? x) then fmt_e (Nat.min 10 len - 1) d else fmt_f (Z.to_nat (Z.max (prec - d_exp d) 0)) d.
  Lemma body_text : decimal_text v j (body_of d).
  Proof using F Hne Hh Hl Hlen Hj HE.
    pose proof v_bounds as VB. pose proof len_pos as Lp. unfold body_of. cbn [d d_mant d_exp]. fold len. change (mkDec mant E) with d.
    match goal with |- context [(E - 1 <? -4) || ?c] => assert (c = (10 <=? E - 1)) as -> end.
    { destruct (Nat.ltb_spec (length mant) 10); cbn [andb]; [|reflexivity]. destruct (Z.leb_spec E len); [|reflexivity].
      transitivity false; [apply Z.leb_gt; lia|symmetry; apply Z.leb_gt; lia]. }
    destruct (Z.ltb_spec (E - 1) (-4)) as [L|L]; cbn [orb]; [|destruct (Z.leb_spec 10 (E - 1)) as [G|G]].
    - right. split; [|apply exponent_text; lia]. left.
      assert (10 ^ (E + j) * 10 ^ 4 <= 10 ^ j) by (rewrite <- Z.pow_add_r by lia; apply Z.pow_le_mono_r; lia). nia.
    - right. split; [|apply exponent_text; lia]. right.
      assert (10 ^ (10 + j) <= 10 ^ (E + j - 1)) by (apply Z.pow_le_mono_r; lia). lia.
    - left. assert (10 ^ j <= 10 ^ (E + j - 1) * 10 ^ 4) by (rewrite <- Z.pow_add_r by lia; apply Z.pow_le_mono_r; lia).
      assert (10 ^ (E + j) <= 10 ^ (10 + j)) by (apply Z.pow_le_mono_r; lia). split; [nia|]. split; [lia|].
      replace (Z.max ((if E <? 10 then len else 10) - E) 0) with (Z.max (len - E) 0) by (destruct (Z.ltb_spec E 10); lia).
      destruct (Z.lt_ge_cases 0 E); [apply plain_text|apply small_text]; lia.
  Qed.
End Body.

Definition sign_text (n : bool) : string := if n then "-" else "".
Lemma print_body n m e : big_string (BFin n m e) = (sign_text n ++ body_of (dec_round 10 (decimal_of m e)))%string.
Proof. reflexivity. Qed.

(** w / 10^j *)
Lemma print_decimal w j : 0 < w -> 0 <= j -> let ds := digits w in
  exists v, to_10 w v /\ decimal_text v j (body_of (dec_round 10 (mkDec (trim_zeros ds) (Z.of_nat (length ds) - j)))).
Proof.
  intros Hw Hj ds. destruct (round_any w Hw) as [(G1 & G2 & G3 & G4 & G5 & G6) T]. fold ds in G1, G2, G3, G4, G5, G6, T.
  rewrite dec_round_shift. set (d := dec_round 10 (mkDec (trim_zeros ds) (Z.of_nat (length ds)))) in *. cbv zeta.
  exists (value d). split; [exact T|]. pose proof (body_text (d_mant d) (d_exp d - j) j G1 G2 G3 G4 G5 Hj) as B.
  replace (d_exp d - j + j) with (d_exp d) in B by lia. exact (B G6).
Qed.

(** ** Scaling *)
Lemma to_10_scale w v i : 0 < w -> 0 <= i -> to_10 w v -> to_10 (w * 10 ^ i) (v * 10 ^ i).
Proof.
  intros Hw Hi. assert (0 < 10 ^ i) as Pi by (apply pow_pos; lia). intros [[L ->]|(t & m & Ht & D & [R1 R2] & ->)].
  - destruct (Z.lt_ge_cases (w * 10 ^ i) (10 ^ 10)) as [L2|L2]; [left; auto|]. right.
    (* the number of digits of w *)
    destruct (digits_spec w Hw) as (F & V & Hh & Hne). pose proof (number_lead _ F Hh) as B1. pose proof (number_bounds _ F) as B2. rewrite V in B1, B2.
    set (q := Z.of_nat (length (digits w))) in *. assert (1 <= q) by (unfold q; destruct (digits w); [congruence|cbn [length]; lia]).
    assert (q <= 10) as Q10. { destruct (Z.le_gt_cases q 10); [assumption|exfalso]. assert (10 ^ 11 <= 10 ^ q) by (apply Z.pow_le_mono_r; lia). lia. }
    assert (10 < q + i \/ q + i = 10 + 0 \/ q + i < 10) as HQ by lia.
    assert (11 <= q + i) as HQ11.
    { destruct (Z.le_gt_cases 11 (q + i)); [assumption|exfalso]. assert (10 ^ q * 10 ^ i <= 10 ^ 10) by (rewrite <- Z.pow_add_r by lia; apply Z.pow_le_mono_r; lia). nia. }
    clear HQ. set (t := q + i - 10). set (m := w * 10 ^ (10 - q)). assert (0 < 10 ^ t) as Pt by (apply pow_pos; lia).
    assert (w * 10 ^ i = m * 10 ^ t) as Em. { unfold m. rewrite <- Z.mul_assoc, <- Z.pow_add_r by lia. f_equal. f_equal. lia. }
    assert (10 ^ 9 <= m < 10 ^ 10) as Bm.
    { unfold m. assert (10 ^ q * 10 ^ (10 - q) = 10 ^ 10) as E by (rewrite <- Z.pow_add_r by lia; f_equal; lia). pose proof (pow_pos 10 (10 - q) ltac:(lia) ltac:(lia)).
      split; [nia|]. rewrite <- E. nia. }
    exists t, m. split; [lia|]. rewrite Em, Z.div_mul by lia. split; [exact Bm|]. split; [|reflexivity].
    unfold rounded. replace (m * 10 ^ t - m * 10 ^ t) with 0 by lia. cbn. split; lia.
  - right. exists (t + i), m. split; [lia|]. rewrite Z.pow_add_r by lia. assert (0 < 10 ^ t) by (apply pow_pos; lia). rewrite Z.div_mul_cancel_r by lia.
    split; [exact D|]. split; [|lia]. unfold rounded. replace (w * 10 ^ i - m * (10 ^ t * 10 ^ i)) with ((w - m * 10 ^ t) * 10 ^ i) by lia.
    rewrite Z.abs_mul, (Z.abs_eq (10 ^ i)) by lia. split; [nia|]. intros E. apply R2. nia.
Qed.
Lemma fraction_scale v j i s : 0 <= j -> 0 <= i -> fraction (v * 10 ^ i) (j + i) s <-> fraction v j s.
Proof.
  intros Hj Hi. assert (0 < 10 ^ i) by (apply pow_pos; lia).
  split; intros (whole & frac & H1 & H2 & H3 & H4 & H5 & H6); exists whole, frac; repeat (split; [assumption|]); (split; [|exact H6]).
  - rewrite Z.pow_add_r in H5 by lia. nia.
  - rewrite Z.pow_add_r by lia. nia.
Qed.
Lemma exponential_scale v j i s : 0 <= j -> 0 <= i -> exponential v j s -> exponential (v * 10 ^ i) (j + i) s.
Proof.
  intros Hj Hi (d & ds & x & e & H1 & H2 & H3 & H4 & H5 & H6 & H7). exists d, ds, x, e. repeat (split; [assumption|]).
  split; [lia|]. split; [|auto]. replace (x + (j + i)) with ((x + j) + i) by lia. rewrite Z.pow_add_r by lia. nia.
Qed.
Lemma exponential_unscale v j i s : 0 < v -> 0 <= j -> 0 <= i -> exponential (v * 10 ^ i) (j + i) s -> exponential v j s.
Proof.
  intros Hv Hj Hi (d & ds & x & e & H1 & H2 & H3 & H4 & H5 & H6 & H7). exists d, ds, x, e. repeat (split; [assumption|]).
  assert (0 < 10 ^ i) by (apply pow_pos; lia).
  assert (0 <= x + j) as Hxj.
  { destruct (Z.le_gt_cases 0 (x + j)); [assumption|exfalso].
    (* the number of digits of d ds is at most ten to the i *)
    set (L := Z.of_nat (length ds)) in *. assert (digit_list (d :: ds)) as F by (constructor; [lia|exact H2]).
    pose proof (number_bounds _ F) as B. cbn [length] in B. rewrite Nat2Z.inj_succ in B. fold L in B. rewrite Z.pow_succ_r in B by lia.
    set (N := number_of (d :: ds)) in *.
    assert (10 * 10 ^ (x + (j + i)) <= 10 ^ i) by (rewrite <- Z.pow_succ_r by lia; apply Z.pow_le_mono_r; lia).
    pose proof (pow_pos 10 (x + (j + i)) ltac:(lia) ltac:(lia)). pose proof (pow_pos 10 L ltac:(lia) ltac:(lia)).
    assert (v * (10 ^ i) * 10 ^ L < 10 ^ L * 10 ^ i) by nia. nia. }
  split; [exact Hxj|]. split; [|auto]. replace (x + (j + i)) with ((x + j) + i) in H5 by lia. rewrite Z.pow_add_r in H5 by lia. nia.
Qed.
Lemma text_scale v j i s : 0 < v -> 0 <= j -> 0 <= i -> decimal_text (v * 10 ^ i) (j + i) s <-> decimal_text v j s.
Proof.
  intros Hv Hj Hi. assert (0 < 10 ^ i) by (apply pow_pos; lia). unfold decimal_text. replace (10 + (j + i)) with ((10 + j) + i) by lia.
  rewrite !(Z.pow_add_r 10 _ i) by lia. rewrite fraction_scale by lia. split.
  - intros [(A & B & C)|[A B]]; [left; split; [nia|]; split; [nia|exact C]|right; split; [nia|]; apply (exponential_unscale v j i); assumption].
  - intros [(A & B & C)|[A B]]; [left; split; [nia|]; split; [nia|exact C]|right; split; [nia|]; apply exponential_scale; assumption].
Qed.

(** ** A number in units of 2^k *)
Lemma print_units k x u : k <= 0 -> in_units k x u -> u <> 0 ->
  exists v s, to_10 (Z.abs u * 5 ^ (- k)) v /\ decimal_text v (- k) s /\ big_string x = ((if (u <? 0)%Z then "-" else "") ++ s)%string.
Proof.
  intros Hk (n & m & e & -> & Hm & He & Eu) Hu.
  assert (m <> 0) as Hm0 by (intros ->; apply Hu; destruct n; lia). assert (k <= e) as Ke by tauto. assert (0 < 2 ^ (e - k)) as P2 by (apply pow_pos; lia).
  assert (Z.abs u = m * 2 ^ (e - k)) as Ea by (destruct n; nia).
  assert ((u <? 0) = n) as Es by (destruct n; [apply Z.ltb_lt; nia|apply Z.ltb_ge; nia]).
  rewrite print_body, Es. change (if n then "-"%string else ""%string) with (sign_text n).
  assert (exists w j, 0 < w /\ 0 <= j <= - k /\ Z.abs u * 5 ^ (- k) = w * 10 ^ (- k - j) /\
    decimal_of m e = mkDec (trim_zeros (digits w)) (Z.of_nat (length (digits w)) - j)) as (w & j & Hw & Hj & Ew & ->).
  { unfold decimal_of. destruct (Z.eqb_spec m 0); [lia|]. destruct (Z.leb_spec 0 e).
    - exists (m * 2 ^ e), 0. assert (0 < 2 ^ e) by (apply pow_pos; lia). split; [nia|]. split; [lia|]. split.
      + rewrite Ea, Z.sub_0_r. replace (e - k) with (e + - k) by lia. rewrite Z.pow_add_r by lia.
        change 10 with (2 * 5). rewrite Z.pow_mul_l. lia.
      + cbv zeta. rewrite Z.sub_0_r. reflexivity.
    - exists (m * 5 ^ (- e)), (- e). assert (0 < 5 ^ (- e)) by (apply pow_pos; lia). split; [nia|]. split; [lia|]. split.
      + rewrite Ea. replace (- k - - e) with (e - k) by lia. change 10 with (2 * 5). rewrite Z.pow_mul_l.
        replace (- k) with ((e - k) + - e) by lia. rewrite (Z.pow_add_r 5) by lia. lia.
      + cbv zeta. f_equal. lia. }
  destruct (print_decimal w j Hw ltac:(lia)) as (v & Hv & HT).
  exists (v * 10 ^ (- k - j)), (body_of (dec_round 10 (mkDec (trim_zeros (digits w)) (Z.of_nat (length (digits w)) - j)))).
  split; [rewrite Ew; apply to_10_scale; [exact Hw|lia|exact Hv]|]. split; [|reflexivity].
  assert (0 < v) as Vp.
  { destruct Hv as [[_ ->]|(t & q & Ht & D & [R _] & ->)]; [exact Hw|]. assert (0 < 10 ^ t) by (apply pow_pos; lia).
    pose proof (Z.mul_div_le w (10 ^ t) ltac:(lia)). nia. }
  replace (- k) with (j + (- k - j)) at 2 by lia. apply text_scale; [exact Vp|lia|lia|exact HT].
Qed.
Close Scope Z_scope.
