(** Numbers of more than ten digits. *)
From Coq Require Import Ascii.
From Verif Require Import Base ModelMath SpecMath SpecRound ProofMath.
Open Scope Z_scope.

Lemma pow_pos b n : 0 < b -> 0 <= n -> 0 < b ^ n. Proof. intros. apply Z.pow_pos_nonneg; lia. Qed.

(** ** Lists of digits *)
Lemma head_nonzero l : digit_list l -> l <> [] -> 10 ^ Z.of_nat (length l) <= 10 * number_of l -> hd 0 l <> 0.
Proof.
  intros F Hne H E. destruct l as [|d l]; [congruence|]. cbn in E. subst d. inversion F; subst. rewrite number_cons in H. cbn [length] in H.
  rewrite Nat2Z.inj_succ, Z.pow_succ_r in H by lia. pose proof (number_bounds l H3). lia.
Qed.
Lemma number_zeros k : number_of (repeat 0 k) = 0.
Proof. induction k as [|k IH]; [reflexivity|]. cbn [repeat]. rewrite number_cons, IH. lia. Qed.
Lemma trim_last l : last (trim_zeros l) 1 <> 0.
Proof.
  induction l as [|d l IH]; [cbn; lia|]. cbn [trim_zeros]. destruct (trim_zeros l) as [|x t] eqn:E.
  - destruct (Z.eqb_spec d 0); cbn; lia.
  - exact IH.
Qed.
Lemma trim_digits l : digit_list l -> digit_list (trim_zeros l).
Proof. intros F. destruct (trim_zeros_spec l) as (k & E & _). rewrite E in F. apply Forall_app in F as [F _]. exact F. Qed.
Lemma number_last_pos l : digit_list l -> l <> [] -> last l 1 <> 0 -> 0 < number_of l.
Proof.
  intros F Hne H. destruct (exists_last Hne) as (l' & x & ->). rewrite last_last in H. apply Forall_app in F as [F1 F2]. inversion F2; subst.
  rewrite number_app. cbn [length]. change (10 ^ Z.of_nat 1) with 10. change (number_of [x]) with x.
  pose proof (number_bounds l' F1). lia.
Qed.
Lemma number_odd l x : Z.odd (number_of (l ++ [x])) = Z.odd x.
Proof.
  rewrite number_app. cbn [length]. change (10 ^ Z.of_nat 1) with 10. change (number_of [x]) with x. rewrite Z.odd_add, Z.odd_mul.
  change (Z.odd 10) with false. rewrite andb_false_r. apply Bool.xorb_false_l.
Qed.
Lemma last_app_nonempty {A} (a b : list A) d : b <> [] -> last (a ++ b) d = last b d.
Proof. intros H. destruct (exists_last H) as (b' & x & ->). rewrite app_assoc, !last_last. reflexivity. Qed.

(** adding one *)
Lemma bump_spec r : digit_list r ->
  match bump r with
  | [] => number_of (rev r) + 1 = 10 ^ Z.of_nat (length r)
  | b => digit_list b /\ hd 0 b <> 0 /\ exists j, (length b + j = length r)%nat /\ number_of (rev b) * 10 ^ Z.of_nat j = number_of (rev r) + 1
  end.
Proof.
  induction 1 as [|d r Hd F IH]; [reflexivity|]. cbn [bump rev length]. destruct (Z.leb_spec 9 d) as [H9|H9].
  - assert (d = 9) as -> by lia. assert (number_of (rev r ++ [9]) = number_of (rev r) * 10 + 9) as E by (rewrite number_app; reflexivity).
    rewrite E, Nat2Z.inj_succ, Z.pow_succ_r by lia. destruct (bump r) as [|x b]; [lia|]. destruct IH as (F' & Hh & j & Hj & Hv). cbn [length rev] in Hj, Hv.
    split; [exact F'|]. split; [exact Hh|]. exists (S j). split; [lia|]. rewrite Nat2Z.inj_succ, Z.pow_succ_r by lia. lia.
  - split; [constructor; [lia|exact F]|]. split; [cbn; lia|]. exists 0%nat. split; [cbn; lia|]. cbn [rev]. rewrite !number_app. cbn [length].
    change (number_of [d + 1]) with (d + 1). change (number_of [d]) with d. change (Z.of_nat 0) with 0. rewrite Z.pow_0_r. lia.
Qed.

(** ** Rounding to ten digits *)
Definition value (d : decimal) : Z := number_of (d_mant d) * 10 ^ (d_exp d - Z.of_nat (length (d_mant d))).
Definition proper (d : decimal) : Prop :=
  digit_list (d_mant d) /\ d_mant d <> [] /\ hd 0 (d_mant d) <> 0 /\ last (d_mant d) 1 <> 0 /\ (length (d_mant d) <= 10)%nat /\ 11 <= d_exp d.

Lemma trim_number l : number_of (trim_zeros l) * 10 ^ Z.of_nat (length l - length (trim_zeros l)) = number_of l.
Proof.
  destruct (trim_zeros_spec l) as (k & E & Hk). transitivity (number_of (trim_zeros l ++ repeat 0 k)); [|rewrite <- E; reflexivity].
  rewrite number_app, number_zeros, repeat_length. replace (length l - length (trim_zeros l))%nat with k; [lia|].
  apply (f_equal (@length Z)) in E. rewrite app_length, repeat_length in E. lia.
Qed.

Lemma round_ten w : 10 ^ 10 <= w -> let ds := digits w in
  let d := dec_round 10 (mkDec (trim_zeros ds) (Z.of_nat (length ds))) in
  proper d /\ to_10_digits w (value d).
Proof.
  intros Hw ds d. destruct (digits_spec w ltac:(lia)) as (F & V & Hh & Hne). fold ds in F, V, Hh, Hne.
  assert (11 <= length ds)%nat as HL.
  { pose proof (number_bounds ds F) as B. rewrite V in B.
    destruct (Nat.le_gt_cases 11 (length ds)) as [|G]; [assumption|exfalso].
    assert (10 ^ Z.of_nat (length ds) <= 10 ^ 10) by (apply Z.pow_le_mono_r; lia). lia. }
  set (hi := firstn 10 ds). set (lo := skipn 10 ds). assert (ds = hi ++ lo) as Hds by (symmetry; apply firstn_skipn).
  assert (length hi = 10)%nat as Hhi by (apply firstn_length_le; lia).
  assert (length lo = length ds - 10)%nat as Hlo by apply skipn_length.
  set (T := Z.of_nat (length lo)). assert (0 <= T) by lia.
  assert (digit_list hi /\ digit_list lo) as [Fhi Flo] by (apply Forall_app; rewrite <- Hds; exact F).
  assert (w = number_of hi * 10 ^ T + number_of lo) as Hval by (rewrite <- V, Hds, number_app; reflexivity).
  pose proof (number_bounds lo Flo) as Blo. fold T in Blo. pose proof (number_bounds hi Fhi) as Bhi. rewrite Hhi in Bhi. change (10 ^ Z.of_nat 10) with (10 ^ 10) in Bhi.
  assert (hd 0 hi <> 0) as Hhd by (rewrite Hds in Hh; destruct hi; [discriminate Hhi|exact Hh]).
  pose proof (number_lead hi Fhi Hhd) as Lhi. rewrite Hhi in Lhi. change (10 ^ Z.of_nat 10) with (10 * 10 ^ 9) in Lhi.
  assert (0 < 10 ^ T) as HT by (apply pow_pos; lia).
  assert (w / 10 ^ T = number_of hi) as Hdiv.
  { rewrite Hval, Z.add_comm, Z.div_add, Z.div_small by lia. lia. }
  destruct (trim_zeros_spec ds) as (k & Ek & Hk). set (t := trim_zeros ds) in *.
  pose proof (trim_last ds) as Hlast. fold t in Hlast. pose proof (trim_digits ds F) as Ft. fold t in Ft.
  assert (forall v, (exists m, rounded (10 ^ T) w m /\ v = m * 10 ^ T) -> to_10_digits w v) as Hto.
  { intros v (m & R & ->). exists T, m. split; [lia|]. rewrite Hdiv. split; [lia|]. auto. }
  assert (t <> []) as Htne by (intros E; rewrite E in Ek; cbn in Ek; pose proof V as V'; rewrite Ek, number_zeros in V'; lia).
  assert (hd 0 t <> 0) as Hht by (rewrite Ek in Hh; destruct t; [congruence|exact Hh]).
  unfold d, dec_round. cbn [d_mant d_exp]. destruct (Nat.leb_spec (length t) 10) as [Hl|Hl].
  { (* at most ten digits *)
    split; [unfold proper; cbn [d_mant d_exp]; repeat (split; [assumption|]); lia|]. apply Hto. exists (number_of hi).
    assert (number_of lo = 0) as E0.
    { assert (lo = repeat 0 (length lo)) as ->; [|apply number_zeros].
      unfold lo. rewrite Ek, skipn_app, (skipn_all2 t) by lia. cbn [app].
      assert (forall n m, skipn n (repeat 0 m) = repeat 0 (m - n)) as Hsk.
      { induction n as [|n IH]; intros m; [rewrite Nat.sub_0_r; reflexivity|]. destruct m; [reflexivity|]. cbn. apply IH. }
      rewrite Hsk, repeat_length. reflexivity. }
    split.
    - split; [rewrite Hval, E0; replace (number_of hi * 10 ^ T + 0 - number_of hi * 10 ^ T) with 0 by lia; cbn; lia|].
      rewrite Hval, E0. replace (number_of hi * 10 ^ T + 0 - number_of hi * 10 ^ T) with 0 by lia. cbn. lia.
    - unfold value. cbn [d_mant d_exp]. pose proof (trim_number ds) as Ht. fold t in Ht.
      replace (Z.of_nat (length ds) - Z.of_nat (length t)) with (Z.of_nat (length ds - length t)) by lia. rewrite Ht, V, Hval, E0. lia. }
  (* more than ten *)
  assert (firstn 10 t = hi) as Hfhi.
  { unfold hi. rewrite Ek, firstn_app. replace (10 - length t)%nat with 0%nat by lia. cbn [firstn]. rewrite app_nil_r. reflexivity. }
  set (lt := skipn 10 t). assert (lo = lt ++ repeat 0 k) as Hlt.
  { unfold lo, lt. rewrite Ek at 1. rewrite skipn_app. replace (10 - length t)%nat with 0%nat by lia. reflexivity. }
  assert (lt <> []) as Hltne by (intros E; apply (f_equal (@length Z)) in E; unfold lt in E; rewrite skipn_length in E; cbn in E; lia).
  assert (last lt 1 <> 0) as Hltl.
  { rewrite <- (firstn_skipn 10 t) in Hlast. fold lt in Hlast. rewrite last_app_nonempty in Hlast by exact Hltne. exact Hlast. }
  assert (digit_list lt) as Flt by (rewrite Hlt in Flo; apply Forall_app in Flo; tauto).
  assert (number_of lo = number_of lt * 10 ^ Z.of_nat k) as Nlo by (rewrite Hlt, number_app, number_zeros, repeat_length; lia).
  assert (T = Z.of_nat (length lt) + Z.of_nat k) as ET by (unfold T; rewrite Hlt, app_length, repeat_length; lia).
  assert (exists h' p, hi = h' ++ [p]) as (h' & p & Ehi).
  { destruct (exists_last (l := hi)) as (h' & p & E); [intros E; rewrite E in Hhi; discriminate|]. eauto. }
  assert (Z.odd (number_of hi) = Z.odd p) as Hodd by (rewrite Ehi; apply number_odd).
  set (R := number_of lo) in *.
  assert ((should_round_up 10 t = true -> 10 ^ T < 2 * R \/ 2 * R = 10 ^ T /\ Z.odd (number_of hi) = true)
          /\ (should_round_up 10 t = false -> 2 * R < 10 ^ T \/ 2 * R = 10 ^ T /\ Z.odd (number_of hi) = false)) as [Hup Hdown].
  { unfold should_round_up. fold lt. rewrite Hfhi. rewrite Hodd. rewrite Ehi, rev_app_distr. cbn [rev app].
    assert (0 < 10 ^ Z.of_nat k) as Hk0 by (apply pow_pos; lia).
    destruct lt as [|c lt']; [congruence|]. pose proof (Forall_inv Flt) as Hc. pose proof (Forall_inv_tail Flt) as Flt'. cbv beta in Hc.
    rewrite ET, Nlo. rewrite Z.pow_add_r by lia. cbn [length]. rewrite Nat2Z.inj_succ, Z.pow_succ_r by lia. rewrite number_cons.
    set (P := 10 ^ Z.of_nat (length lt')) in *. set (K := 10 ^ Z.of_nat k) in *.
    pose proof (number_bounds lt' Flt') as Bl. fold P in Bl.
    destruct lt' as [|c' l''].
    - change P with 1 in *. change (number_of []) with 0 in *. destruct (Z.eqb_spec c 5) as [->|Hn5].
      + split; intros ->; right; split; try reflexivity; lia.
      + split; intros H5; [apply Z.leb_le in H5; left; nia|apply Z.leb_gt in H5; left; nia].
    - assert (0 < number_of (c' :: l'')) as Hpos by (apply number_last_pos; [exact Flt'|discriminate|exact Hltl]).
      set (N := number_of (c' :: l'')) in *. clearbody N P K.
      split; intros H5; [apply Z.leb_le in H5|apply Z.leb_gt in H5]; left.
      + enough (10 * P < 2 * (c * P + N)) by nia. nia.
      + enough (2 * (c * P + N) < 10 * P) by nia. nia. }
  destruct (should_round_up 10 t).
  - specialize (Hup eq_refl). clear Hdown. rewrite Hfhi.
    assert (rounded (10 ^ T) w (number_of hi + 1)) as HR.
    { split; [rewrite Hval; fold R; nia|]. intros E. destruct Hup as [Hup|[_ Ho]]; [exfalso; rewrite Hval in E; fold R in E; nia|].
      apply Z.even_spec. rewrite Z.even_add, <- Z.negb_odd, Ho. reflexivity. }
    assert (digit_list (rev hi)) as Frev by (apply Forall_rev; exact Fhi).
    pose proof (bump_spec (rev hi) Frev) as Hb. rewrite rev_involutive, rev_length, Hhi in Hb.
    destruct (bump (rev hi)) as [|x b].
    + split.
      { unfold proper. cbn [d_mant d_exp]. split; [constructor; [lia|constructor]|]. cbn. repeat split; try lia; discriminate. }
      apply Hto. exists (number_of hi + 1). split; [exact HR|]. rewrite Hb. unfold value. cbn [d_mant d_exp length number_of fold_left].
      unfold number_of. cbn [fold_left]. rewrite Z.mul_0_l, Z.add_0_l, Z.mul_1_l. rewrite <- Z.pow_add_r by lia. f_equal. lia.
    + destruct Hb as (Fb & Hxb & j & Hj & Hv). cbn [hd] in Hxb. set (b1 := x :: b) in *.
      assert (length (rev b1) = length b1) as Hrl by apply rev_length.
      assert (rev b1 <> []) as Hrne by (intros E; rewrite E in Hrl; discriminate Hrl).
      split.
      { unfold proper. cbn [d_mant d_exp]. split; [apply Forall_rev; exact Fb|]. split; [exact Hrne|]. split; [|split; [|split; [lia|lia]]].
        - apply head_nonzero; [apply Forall_rev; exact Fb|exact Hrne|]. rewrite Hrl.
          assert (0 < 10 ^ Z.of_nat j) as HPj by (apply pow_pos; lia).
          assert (10 ^ Z.of_nat (length b1) * 10 ^ Z.of_nat j <= 10 * number_of (rev b1) * 10 ^ Z.of_nat j) as Hm;
            [|apply (Z.mul_le_mono_pos_r _ _ (10 ^ Z.of_nat j) HPj); exact Hm].
          rewrite <- Z.pow_add_r by lia. replace (Z.of_nat (length b1) + Z.of_nat j) with 10 by lia. rewrite <- Z.mul_assoc, Hv. lia.
        - unfold b1. cbn [rev]. rewrite last_last. exact Hxb. }
      apply Hto. exists (number_of hi + 1). split; [exact HR|]. rewrite <- Hv. unfold value. cbn [d_mant d_exp]. rewrite Hrl, <- Z.mul_assoc, <- Z.pow_add_r by lia.
      f_equal. f_equal. lia.
  - specialize (Hdown eq_refl). clear Hup. rewrite Hfhi.
    assert (rounded (10 ^ T) w (number_of hi)) as HR.
    { split; [rewrite Hval; fold R; nia|]. intros E. destruct Hdown as [Hd|[_ Ho]]; [exfalso; rewrite Hval in E; fold R in E; nia|].
      apply Z.even_spec. rewrite <- Z.negb_odd, Ho. reflexivity. }
    destruct (trim_zeros_spec hi) as (k2 & E2 & Hk2). pose proof (trim_number hi) as Hn2.
    assert (trim_zeros hi <> []) as Hne2 by (intros E; rewrite E in Hn2; change (number_of []) with 0 in Hn2; lia).
    split.
    { unfold proper. cbn [d_mant d_exp]. split; [apply trim_digits; exact Fhi|]. split; [exact Hne2|]. split; [|split; [apply trim_last|split; [lia|lia]]].
      rewrite E2 in Hhd. destruct (trim_zeros hi); [congruence|exact Hhd]. }
    apply Hto. exists (number_of hi). split; [exact HR|]. unfold value. cbn [d_mant d_exp]. rewrite <- Hn2.
    rewrite <- Z.mul_assoc, <- Z.pow_add_r by lia. f_equal. f_equal. lia.
Qed.

Lemma print_exponent n m e : 0 <= e -> 10 ^ 10 <= m * 2 ^ e -> exists v u, to_10_digits (m * 2 ^ e) v /\ scientific v u
  /\ big_string (BFin n m e) = ((if n then "-" else "") ++ u)%string.
Proof.
  intros He Hm. unfold big_string, decimal_of.
  assert (0 < 2 ^ e) by (apply Z.pow_pos_nonneg; lia).
  destruct (Z.eqb_spec m 0) as [->|Hne]; [lia|]. replace (0 <=? e) with true by (symmetry; apply Z.leb_le; lia).
  set (w := m * 2 ^ e) in *. destruct (round_ten w Hm) as [(F & Hn & Hh & Hl & Hlen & Hexp) Hto]. set (ds := digits w) in *.
  set (d := dec_round 10 (mkDec (trim_zeros ds) (Z.of_nat (length ds)))) in *. clearbody d.
  match goal with |- context [if ?c then fmt_e _ _ else _] => assert (c = true) as -> end.
  { apply orb_true_intro. right. apply Z.leb_le. replace (d_exp d <=? Z.of_nat (length (d_mant d))) with false by (symmetry; apply Z.leb_gt; lia).
    rewrite andb_false_r. lia. }
  exists (value d), (fmt_e (Nat.min 10 (length (d_mant d)) - 1) d). split; [exact Hto|]. split; [|reflexivity].
  rewrite Nat.min_r by exact Hlen. destruct d as [[|c ds'] E]; [cbn in Hn; congruence|]. cbn [d_mant d_exp hd length] in *.
  inversion F as [|? ? Hc F']; subst.
  exists c, ds', (E - 1), (digits_text (digits (E - 1))). split; [lia|]. split; [exact F'|].
  split; [destruct ds'; [cbn; lia|exact Hl]|]. split; [lia|]. split; [lia|]. split.
  { unfold value. cbn [d_mant d_exp length]. f_equal. f_equal. lia. }
  split; [apply numeral_nonzero; [lia|]; destruct (Z.ltb_spec (E - 1) 0); [lia|]; rewrite Z.abs_eq by lia; reflexivity|].
  unfold fmt_e. cbn [d_mant d_exp tl]. rewrite Nat.sub_succ, Nat.sub_0_r, firstn_all, Nat.sub_diag. cbn [repeat]. rewrite app_nil_r.
  destruct (Z.ltb_spec (E - 1) 0); [lia|]. rewrite Z.abs_eq by lia. destruct (Z.ltb_spec (E - 1) 10); [lia|].
  destruct ds' as [|c' ds']; [reflexivity|]. rewrite (digits_chars (c' :: ds')). reflexivity.
Qed.

(** ** Rounding to 64 bits *)
Lemma rnd_bits z : 0 < Z.abs z < 2 ^ 1000 -> exists m e, rnd z = BFin (z <? 0) m e /\ 0 <= e /\ to_64_bits (Z.abs z) (m * 2 ^ e).
Proof.
  intros [H1 H2]. destruct (Z.lt_ge_cases (Z.abs z) (2 ^ 64)) as [L|L].
  { rewrite rnd_exact by exact L. exists (Z.abs z), 0. split; [reflexivity|]. split; [lia|]. exists 0, (Z.abs z). split; [lia|]. split; [left; auto|].
    change (2 ^ 0) with 1. split; [split; [replace (Z.abs z - Z.abs z * 1) with 0 by lia; cbn; lia|replace (Z.abs z - Z.abs z * 1) with 0 by lia; cbn; lia]|reflexivity]. }
  unfold rnd, big_round. set (a := Z.abs z) in *.
  assert (65 <= bits a) as B1. { unfold bits. apply Z.log2_le_pow2 in L; lia. }
  assert (bits a <= 1000) as B2 by (apply bits_bound; lia).
  destruct (Z.eqb_spec a 0); [lia|]. replace (bits a <=? 64) with false by (symmetry; apply Z.leb_gt; lia). cbn [orb].
  destruct (Z.ltb_spec (0 + bits a) (-2147483648)); [lia|].
  set (s := bits a - 64). pose proof (bits_lower a ltac:(lia)) as BL.
  assert (0 < 2 ^ s) as Hs by (apply Z.pow_pos_nonneg; lia).
  assert (2 ^ 63 <= a / 2 ^ s < 2 ^ 64) as Hq.
  { split.
    - apply Z.div_le_lower_bound; [assumption|]. rewrite <- Z.pow_add_r by lia. replace (s + 63) with (bits a - 1) by lia. lia.
    - apply Z.div_lt_upper_bound; [assumption|]. rewrite <- Z.pow_add_r by lia. replace (s + 64) with (bits a) by lia. lia. }
  pose proof (Z.div_mod a (2 ^ s) ltac:(lia)) as Hdm. pose proof (Z.mod_pos_bound a (2 ^ s) Hs) as Hr.
  assert (2 ^ s = 2 * 2 ^ (s - 1)) as Hh by (rewrite <- Z.pow_succ_r by lia; f_equal; lia).
  set (q := a / 2 ^ s) in *. set (r := a mod 2 ^ s) in *. set (h := 2 ^ (s - 1)) in *.
  set (q' := if (h <? r) || (r =? h) && Z.odd q then q + 1 else q).
  assert (2 ^ 63 <= q' <= 2 ^ 64) as Hq' by (unfold q'; destruct (_ || _); lia).
  assert (rounded (2 ^ s) a q') as HR.
  { unfold q'. destruct (Z.ltb_spec h r) as [G|G]; cbn [orb].
    - split; [nia|]. intros E. exfalso. nia.
    - destruct (Z.eqb_spec r h) as [E|E]; cbn [andb].
      + destruct (Z.odd q) eqn:O.
        * split; [nia|]. intros _. apply Z.even_spec. rewrite Z.even_add, <- Z.negb_odd, O. reflexivity.
        * split; [nia|]. intros _. apply Z.even_spec. rewrite <- Z.negb_odd, O. reflexivity.
      + split; [nia|]. intros E'. exfalso. nia. }
  assert (0 < bits q' <= 65) as Bq. { split; [unfold bits; pose proof (Z.log2_nonneg q'); lia|apply bits_bound; lia]. }
  exists q', s. unfold in_range. destruct (Z.eqb_spec q' 0); [lia|].
  destruct (Z.ltb_spec 2147483647 (0 + s + bits q')); [lia|]. destruct (Z.ltb_spec (0 + s + bits q') (-2147483648)); [lia|].
  split; [reflexivity|]. split; [lia|]. exists s, q'. split; [lia|]. split; [right; exact Hq|]. auto.
Qed.

Lemma rounded_large z w : 10 ^ 10 <= z -> to_64_bits z w -> 10 ^ 10 <= w.
Proof.
  intros Hz (s & m & Hs & Hc & [R _] & ->). assert (0 < 2 ^ s) by (apply Z.pow_pos_nonneg; lia). destruct Hc as [[-> H1]|[H1 _]].
  - change (2 ^ 0) with 1 in *. lia.
  - assert (2 ^ 63 * 2 ^ s <= z) as H2. { pose proof (Z.mul_div_le z (2 ^ s) ltac:(lia)). nia. } nia.
Qed.

Lemma print_rounded z : 10 ^ 10 <= Z.abs z < 2 ^ 1000 -> exists w v u, to_64_bits (Z.abs z) w /\ to_10_digits w v /\ scientific v u
  /\ big_string (rnd z) = ((if (z <? 0)%Z then "-" else "") ++ u)%string.
Proof.
  intros H. destruct (rnd_bits z ltac:(lia)) as (m & e & -> & He & Hto). pose proof (rounded_large _ _ (proj1 H) Hto) as Hl.
  destruct (print_exponent (z <? 0) m e He Hl) as (v & u & Hv & Hu & E). exists (m * 2 ^ e), v, u. auto.
Qed.

(** ** The printed form is unique and close *)
Lemma rounded_unique q z m m' : 0 < q -> rounded q z m -> rounded q z m' -> m = m'.
Proof.
  intros Hq. enough (forall m m', rounded q z m -> rounded q z m' -> ~ m < m') as H by (intros H1 H2; pose proof (H m m' H1 H2); pose proof (H m' m H2 H1); lia).
  clear m m'. intros m m' [H1 E1] [H2 E2] L. assert ((m' - m) * q <= q) by lia.
  assert (m' = m + 1) as -> by nia. specialize (E1 ltac:(lia)). specialize (E2 ltac:(lia)). apply Z.even_spec in E1, E2.
  rewrite Z.even_add, E1 in E2. discriminate.
Qed.
Lemma scale_unique b k z s s' : 1 < b -> 0 < k -> 0 <= s -> 0 <= s' -> b ^ (k - 1) <= z / b ^ s < b ^ k -> b ^ (k - 1) <= z / b ^ s' < b ^ k -> s = s'.
Proof.
  intros Hb Hk. enough (forall s s', 0 <= s -> 0 <= s' -> b ^ (k - 1) <= z / b ^ s < b ^ k -> b ^ (k - 1) <= z / b ^ s' < b ^ k -> ~ s < s') as H.
  { intros H1 H2 H3 H4. pose proof (H s s' H1 H2 H3 H4). pose proof (H s' s H2 H1 H4 H3). lia. }
  clear s s'. intros s s' Hs Hs' [L1 L2] [L3 L4] L. assert (0 < b ^ s) by (apply pow_pos; lia). assert (0 < b ^ s') by (apply pow_pos; lia).
  assert (0 < b ^ (k - 1)) by (apply pow_pos; lia).
  assert (b ^ s * b <= b ^ s') as P by (rewrite Z.mul_comm, <- Z.pow_succ_r by lia; apply Z.pow_le_mono_r; lia).
  assert (b ^ k = b ^ (k - 1) * b) as Pk by (rewrite Z.mul_comm, <- Z.pow_succ_r by lia; f_equal; lia).
  pose proof (Z.mul_div_le z (b ^ s') ltac:(lia)). pose proof (Z.mul_succ_div_gt z (b ^ s) ltac:(lia)).
  assert (b ^ (k - 1) * b ^ s' <= z) by nia. assert (z < b ^ k * b ^ s) by nia. nia.
Qed.
Lemma to_64_unique z w w' : 0 < z -> to_64_bits z w -> to_64_bits z w' -> w = w'.
Proof.
  intros Hz (s & m & Hs & Hc & R & ->) (s' & m' & Hs' & Hc' & R' & ->).
  assert (forall s, 0 <= s -> z < 2 ^ 64 -> 2 ^ 63 <= z / 2 ^ s -> s = 0) as Hzero.
  { clear. intros s Hs H H1. destruct (Z.eq_dec s 0) as [|N]; [assumption|exfalso].
    assert (2 ^ 1 <= 2 ^ s) as P by (apply Z.pow_le_mono_r; lia). pose proof (Z.mul_div_le z (2 ^ s) ltac:(lia)). change (2 ^ 1) with 2 in P. 
    assert (2 * 2 ^ 63 <= 2 ^ s * (z / 2 ^ s)) by nia. change (2 ^ 64) with (2 * 2 ^ 63) in H. lia. }
  assert (s = s') as ->.
  { destruct Hc as [[-> H]|H], Hc' as [[-> H']|H']; [reflexivity|symmetry; apply Hzero; tauto|apply Hzero; tauto|].
    apply (scale_unique 2 64 z); first [lia|exact H|exact H']. }
  f_equal. eapply rounded_unique; [|exact R|exact R']. apply pow_pos; lia.
Qed.
Lemma to_10_unique w v v' : to_10_digits w v -> to_10_digits w v' -> v = v'.
Proof.
  intros (t & m & Ht & Hc & R & ->) (t' & m' & Ht' & Hc' & R' & ->).
  assert (t = t') as -> by (apply (scale_unique 10 10 w); first [lia|exact Hc|exact Hc']).
  f_equal. eapply rounded_unique; [|exact R|exact R']. apply pow_pos; lia.
Qed.
Lemma zeros_unique (a b : list Z) k k' : last a 1 <> 0 -> last b 1 <> 0 -> a ++ repeat 0 k = b ++ repeat 0 k' -> a = b.
Proof.
  enough (forall a b k k', last a 1 <> 0 -> a ++ repeat 0 k = b ++ repeat 0 k' -> (length a <= length b)%nat) as H.
  { intros Ha Hb E. pose proof (H a b k k' Ha E). pose proof (H b a k' k Hb (eq_sym E)).
    apply (f_equal (firstn (length a))) in E. rewrite !firstn_app in E. replace (length a - length a)%nat with 0%nat in E by lia.
    replace (length a - length b)%nat with 0%nat in E by lia. rewrite firstn_all in E. cbn [firstn] in E. rewrite !app_nil_r in E.
    rewrite E. apply firstn_all2. lia. }
  clear. intros a b k k' Ha E. destruct (Nat.le_gt_cases (length a) (length b)) as [|G]; [assumption|exfalso].
  assert (a <> []) as Hne by (intros ->; cbn in G; lia). destruct (exists_last Hne) as (a' & x & ->). rewrite last_last in Ha.
  rewrite app_length in G. cbn in G. apply (f_equal (fun l => nth_error l (length a'))) in E. rewrite <- app_assoc in E.
  rewrite (nth_error_app2 a'), Nat.sub_diag in E by lia. cbn in E. rewrite nth_error_app2 in E by lia. symmetry in E. apply nth_error_In in E.
  apply repeat_spec in E. congruence.
Qed.
Lemma scientific_unique v u u' : scientific v u -> scientific v u' -> u = u'.
Proof.
  intros (d & ds & x & e & Hd & F & Hl & Hx & Hlen & V & He & ->) (d' & ds' & x' & e' & Hd' & F' & Hl' & Hx' & Hlen' & V' & He' & ->).
  assert (forall d ds x, 1 <= d <= 9 -> Forall (fun d => 0 <= d <= 9) ds -> (length ds < 10)%nat -> 10 <= x ->
     v = number_of (d :: ds) * 10 ^ (x - Z.of_nat (length ds)) ->
     let l := (d :: ds) ++ repeat 0 (Z.to_nat (x - Z.of_nat (length ds))) in
     digit_list l /\ hd 0 l <> 0 /\ number_of l = v /\ Z.of_nat (length l) = x + 1) as Hfull.
  { clear. intros d ds x Hd F Hlen Hx V l. unfold l. split; [|split; [|split]].
    - apply Forall_app. split; [constructor; [lia|exact F]|]. apply Forall_forall. intros y Hy. apply repeat_spec in Hy. lia.
    - cbn. lia.
    - rewrite number_app, number_zeros, repeat_length, V, Z2Nat.id by lia. lia.
    - rewrite app_length, repeat_length. cbn [length]. lia. }
  destruct (Hfull d ds x Hd F Hlen Hx V) as (D1 & D2 & D3 & D4). destruct (Hfull d' ds' x' Hd' F' Hlen' Hx' V') as (D1' & D2' & D3' & D4').
  set (l := (d :: ds) ++ _) in *. set (l' := (d' :: ds') ++ _) in *.
  assert (l = l') as E by (apply number_unique; [assumption|assumption|apply number_length; congruence|congruence]).
  assert (x = x') as -> by (rewrite E in D4; lia).
  assert (d :: ds = d' :: ds') as Ed.
  { apply (zeros_unique (d :: ds) (d' :: ds') _ _) in E; [exact E| |].
    - destruct ds; [cbn; lia|exact Hl].
    - destruct ds'; [cbn; lia|exact Hl']. }
  injection Ed as -> ->. rewrite (numeral_unique _ _ _ He He'). reflexivity.
Qed.
Lemma printed_unique c s s' : c <> 0 -> printed c s -> printed c s' -> s = s'.
Proof.
  intros Hc (w & v & u & H1 & H2 & H3 & ->) (w' & v' & u' & H1' & H2' & H3' & ->).
  assert (w' = w) as -> by (apply (to_64_unique (Z.abs c)); [lia|assumption|assumption]). rewrite (to_10_unique _ _ _ H2' H2) in H3'.
  rewrite (scientific_unique _ _ _ H3' H3). reflexivity.
Qed.

Lemma rounding_error c w v : 10 ^ 10 <= c -> to_64_bits c w -> to_10_digits w v -> Z.abs (v - c) * 10 ^ 9 <= c.
Proof.
  intros Hc Hw Hv. pose proof (rounded_large _ _ Hc Hw) as Hl. destruct Hw as (s & m & Hs & Hcase & [R _] & Ew). destruct Hv as (t & D & Ht & [L _] & [R' _] & Ev).
  assert (0 < 2 ^ s) by (apply pow_pos; lia). assert (0 < 10 ^ t) by (apply pow_pos; lia).
  rewrite <- Ew in R. rewrite <- Ev in R'.
  assert (10 ^ t * 10 ^ 9 <= w) as B1. { pose proof (Z.mul_div_le w (10 ^ t) ltac:(lia)). nia. }
  assert (Z.abs (c - w) * 2 ^ 64 <= c) as B2.
  { destruct Hcase as [[-> _]|[L2 _]]; [change (2 ^ 0) with 1 in *; lia|]. pose proof (Z.mul_div_le c (2 ^ s) ltac:(lia)). 
    assert (2 ^ s * 2 ^ 63 <= c) by nia. change (2 ^ 64) with (2 * 2 ^ 63). nia. }
  assert (2 * Z.abs (w - v) * 10 ^ 9 <= w) by nia. lia.
Qed.

(** ** The functions *)
Section Large.
  Variable scan : string -> option bfloat.
  Hypothesis Hscan : scans_floats scan.
  Variables (a b : Z) (x y : string).
  Hypothesis Ha : numeral a x.
  Hypothesis Hb : numeral b y.
  Hypothesis Ba : Z.abs a < 2 ^ 64.
  Hypothesis Bb : Z.abs b < 2 ^ 64.
  Lemma large_results :
    (~ small (a + b) -> forall s, sum scan x y = Ret s <-> printed (a + b) s)
    /\ (~ small (a - b) -> forall s, sub scan x y = Ret s <-> printed (a - b) s)
    /\ (~ small (a * b) -> forall s, mul scan x y = Ret s <-> printed (a * b) s)
    /\ (~ small a -> forall s, neg scan x = s <-> printed (- a) s).
  Proof using Hscan Ha Hb Ba Bb.
    assert (forall c, ~ small c -> Z.abs c < 2 ^ 128 -> forall s, big_string (rnd c) = s <-> printed c s) as Hp.
    { intros c Hc Hb'. assert (printed c (big_string (rnd c))) as P.
      { destruct (print_rounded c) as (w & v & u & H); [|exists w, v, u; exact H].
        unfold small in Hc. split; [lia|]. apply (Z.lt_trans _ (2 ^ 128)); [exact Hb'|reflexivity]. }
      intros s. split; [intros <-; exact P|]. apply printed_unique; [|exact P]. intros ->. apply Hc. reflexivity. }
    assert (forall c, ~ small c -> Z.abs c < 2 ^ 128 -> forall s, Ret (big_string (rnd c)) = Ret s <-> printed c s) as Hp'.
    { intros c Hc Hb' s. rewrite <- (Hp c Hc Hb' s). split; congruence. }
    unfold sum, sub, mul, neg, calc. rewrite (Hscan a x Ba Ha), (Hscan b y Bb Hb). fold (fl a) (fl b).
    rewrite add_exact, sub_exact, mul_exact by assumption. cbn [bind].
    assert (2 ^ 128 = 2 ^ 64 * 2 ^ 64) as E128 by reflexivity.
    split; [|split; [|split]]; intros Hs.
    - apply Hp'; [exact Hs|lia].
    - apply Hp'; [exact Hs|lia].
    - destruct (Z.eqb_spec (a * b) 0) as [E|E]; [exfalso; apply Hs; rewrite E; reflexivity|]. apply Hp'; [exact Hs|].
      rewrite Z.abs_mul, E128. nia.
    - replace (big_neg (fl a)) with (rnd (- a)); [apply Hp; [unfold small in *; lia|lia]|]. rewrite rnd_exact by lia. unfold fl, big_neg. f_equal; [|lia].
      unfold small in Hs. destruct (Z.ltb_spec (- a) 0), (Z.ltb_spec a 0); try reflexivity; lia.
  Qed.
End Large.
Lemma printed_close c s : ~ small c -> printed c s ->
  exists v u, scientific v u /\ s = ((if (c <? 0)%Z then "-" else "") ++ u)%string /\ Z.abs (v - Z.abs c) * 10 ^ 9 <= Z.abs c.
Proof.
  intros Hc (w & v & u & H1 & H2 & H3 & ->). exists v, u. split; [exact H3|]. split; [reflexivity|]. apply (rounding_error _ w); try assumption. unfold small in Hc. lia.
Qed.
Close Scope Z_scope.
