(** A scanner of decimal fractions: rounds to the nearest number of 64 bits. *)
From Coq Require Import Ascii.
From Verif Require Import Base ModelMath SpecMath SpecRound ProofMath ProofRound SpecDecimal ProofDecimalText.
Local Open Scope list_scope.
Open Scope Z_scope.

Definition digit_value (c : ascii) : option Z :=
  let n := Z.of_nat (nat_of_ascii c) in if (48 <=? n) && (n <=? 57) then Some (n - 48) else None.
Fixpoint read_digits (s : string) : list Z * string :=
  match s with
  | EmptyString => ([], EmptyString)
  | String c s' => match digit_value c with Some d => let (ds, r) := read_digits s' in (d :: ds, r) | None => ([], s) end
  end.
Definition read_fraction (s : string) : option (Z * Z) :=
  let (w, r) := read_digits s in
  match w, r with
  | [], _ => None
  | _, EmptyString => Some (number_of w, 0)
  | _, String "." r' =>
      match read_digits r' with
      | (d :: ds, EmptyString) => Some (number_of (w ++ d :: ds), Z.of_nat (length (d :: ds)))
      | _ => None
      end
  | _, _ => None
  end.
(** the nearest number of 64 bits *)
Definition nearest (a j : Z) : bfloat :=
  if a =? 0 then BFin false 0 0
  else
    let k0 := 63 - bits (Z.abs a) + bits (10 ^ j) in
    let k := if Z.abs a * 2 ^ (k0 + 1) <=? 10 ^ j * 2 ^ 64 then k0 + 1 else k0 in
    let q := Z.abs a * 2 ^ k / 10 ^ j in
    let r := Z.abs a * 2 ^ k mod 10 ^ j in
    BFin (a <? 0) (if (10 ^ j <? 2 * r) || ((2 * r =? 10 ^ j) && Z.odd q) then q + 1 else q) (- k).
Fixpoint lowest (fuel : nat) (a j : Z) : bfloat :=
  match fuel with
  | O => nearest a j
  | S fuel' => if a mod 10 =? 0 then lowest fuel' (a / 10) (j - 1) else nearest a j
  end.
Definition decimal_number (a j : Z) : bfloat := if a =? 0 then BFin false 0 0 else lowest (Z.to_nat j) a j.
Definition decimal_scan (s : string) : option bfloat :=
  match s with
  | String "-" s' => match read_fraction s' with Some (a, j) => Some (if a =? 0 then BFin true 0 0 else decimal_number (- a) j) | None => None end
  | _ => match read_fraction s with Some (a, j) => Some (decimal_number a j) | None => None end
  end.

Lemma digit_value_char d : 0 <= d <= 9 -> digit_value (ascii_of_N (Z.to_N (48 + d))) = Some d.
Proof. intros H. assert (d = 0 \/ d = 1 \/ d = 2 \/ d = 3 \/ d = 4 \/ d = 5 \/ d = 6 \/ d = 7 \/ d = 8 \/ d = 9) as C by lia. repeat destruct C as [->|C]; try reflexivity. rewrite C. reflexivity. Qed.
Lemma read_digits_app ds r : Forall (fun d => 0 <= d <= 9) ds -> read_digits r = ([], r) -> read_digits (chars_of ds ++ r)%string = (ds, r).
Proof.
  induction 1 as [|d ds Hd F IH]; intros Hr; [exact Hr|]. cbn [chars_of String.append read_digits]. rewrite digit_value_char by exact Hd. rewrite (IH Hr). reflexivity.
Qed.
Lemma read_fraction_text whole frac : Forall (fun d => 0 <= d <= 9) (whole ++ frac) -> whole <> [] ->
  read_fraction (chars_of whole ++ match frac with [] => "" | _ => "." ++ chars_of frac end)%string = Some (number_of (whole ++ frac), Z.of_nat (length frac)).
Proof.
  intros F Hne. apply Forall_app in F as [F1 F2]. unfold read_fraction. rewrite read_digits_app by (first [exact F1|destruct frac; reflexivity]).
  destruct whole as [|w whole]; [congruence|]. destruct frac as [|d ds]; [rewrite app_nil_r; reflexivity|]. cbn [String.append].
  pose proof (read_digits_app (d :: ds) "" F2 eq_refl) as R.
  assert ((chars_of (d :: ds) ++ "")%string = chars_of (d :: ds)) as E by (clear; induction (chars_of (d :: ds)) as [|c s IH]; [reflexivity|cbn; rewrite IH; reflexivity]).
  rewrite E in R. rewrite R. reflexivity.
Qed.
Lemma chars_no_minus whole r : Forall (fun d => 0 <= d <= 9) whole -> whole <> [] -> forall A (f : string -> A) g,
  match (chars_of whole ++ r)%string with String "-" s' => f s' | _ => g end = g.
Proof.
  intros F Hne A f g. destruct whole as [|d ds]; [congruence|]. inversion F; subst. cbn [chars_of String.append].
  assert (d = 0 \/ d = 1 \/ d = 2 \/ d = 3 \/ d = 4 \/ d = 5 \/ d = 6 \/ d = 7 \/ d = 8 \/ d = 9) as C by lia. repeat destruct C as [->|C]; try reflexivity. rewrite C. reflexivity.
Qed.

Lemma nearest_close a j : a <> 0 -> Z.abs a < 10 ^ 18 -> 0 <= j <= 300 ->
  exists k u, -3000 <= k <= 0 /\ in_units k (nearest a j) u /\ Z.abs (u * 10 ^ j - a * 2 ^ (- k)) * 2 ^ 63 <= Z.abs a * 2 ^ (- k).
Proof.
  intros Ha Hb Hj. unfold nearest. destruct (Z.eqb_spec a 0) as [|_]; [contradiction|].
  set (T := 10 ^ j). assert (0 < T) as PT by (apply pow_pos; lia). set (w := Z.abs a) in *. assert (0 < w) as Hw by lia.
  assert (bits w = Z.log2 w + 1) as Bw by reflexivity. assert (bits T = Z.log2 T + 1) as BT by reflexivity.
  pose proof (Z.log2_spec w Hw) as Lw. pose proof (Z.log2_spec T PT) as LT. pose proof (Z.log2_nonneg w) as Nw. pose proof (Z.log2_nonneg T) as NT.
  assert (Z.log2 w <= 59) as Uw by (apply (Z.log2_le_mono w 1000000000000000000); lia).
  assert (Z.log2 T <= 1200) as UT.
  { assert (T <= 2 ^ (4 * j)) as H by (rewrite Z.pow_mul_r by lia; apply Z.pow_le_mono_l; lia). apply Z.log2_le_mono in H. rewrite Z.log2_pow2 in H by lia. lia. }
  set (k0 := 63 - bits w + bits T). set (k := if w * 2 ^ (k0 + 1) <=? T * 2 ^ 64 then k0 + 1 else k0).
  assert (k0 <= k <= k0 + 1) as Hk by (unfold k; destruct (_ <=? _); lia).
  assert (w * 2 ^ k <= T * 2 ^ 64) as Up.
  { unfold k. destruct (Z.leb_spec (w * 2 ^ (k0 + 1)) (T * 2 ^ 64)) as [L|L]; [exact L|].
    assert (2 ^ Z.succ (Z.log2 w) * 2 ^ k0 = 2 ^ Z.log2 T * 2 ^ 64) as E by (rewrite <- !Z.pow_add_r by lia; f_equal; lia).
    assert (0 < 2 ^ k0) by (apply pow_pos; lia). change (2 ^ 64) with 18446744073709551616 in *. nia. }
  assert (2 ^ 62 * T <= w * 2 ^ k) as Lo.
  { assert (2 ^ 62 * 2 ^ Z.succ (Z.log2 T) = 2 ^ Z.log2 w * 2 ^ k0) as E by (rewrite <- !Z.pow_add_r by lia; f_equal; lia).
    assert (2 ^ k0 <= 2 ^ k) as P by (apply Z.pow_le_mono_r; lia). assert (0 < 2 ^ k0) by (apply pow_pos; lia).
    assert (2 ^ Z.log2 w * 2 ^ k0 <= w * 2 ^ k) by (apply Z.mul_le_mono_nonneg; lia). change (2 ^ 62) with 4611686018427387904 in *. nia. }
  cbv zeta. set (N := w * 2 ^ k) in *. set (q := N / T). set (r := N mod T).
  pose proof (Z.div_mod N T ltac:(lia)) as DM. pose proof (Z.mod_pos_bound N T PT) as MB. fold q in DM. fold r in DM, MB.
  set (m := if (T <? 2 * r) || ((2 * r =? T) && Z.odd q) then q + 1 else q).
  assert (2 * Z.abs (m * T - N) <= T) as Near.
  { unfold m. destruct (Z.ltb_spec T (2 * r)) as [L|L]; cbn [orb]; [nia|]. destruct (Z.eqb_spec (2 * r) T) as [E|E]; cbn [andb]; [destruct (Z.odd q)|]; nia. }
  assert (0 <= m <= 2 ^ 64) as Bm. { split; [|destruct (Z.le_gt_cases m (2 ^ 64)); [assumption|]]; change (2 ^ 64) with 18446744073709551616 in *; change (2 ^ 62) with 4611686018427387904 in *; nia. }
  exists (- k), ((if a <? 0 then -1 else 1) * m). split; [lia|]. split.
  - exists (a <? 0), m, (- k). split; [reflexivity|]. split; [exact Bm|]. split; [right; lia|]. rewrite Z.sub_diag. change (2 ^ 0) with 1. lia.
  - rewrite Z.opp_involutive. fold w N. replace ((if a <? 0 then -1 else 1) * m * T - a * 2 ^ k) with ((if a <? 0 then -1 else 1) * (m * T - N)) by (unfold N, w; destruct (Z.ltb_spec a 0); nia).
    rewrite Z.abs_mul. replace (Z.abs (if a <? 0 then -1 else 1)) with 1 by (destruct (a <? 0); reflexivity).
    clear - Near Lo. change (2 ^ 63) with (2 * 2 ^ 62). lia.
Qed.
Lemma lowest_close fuel : forall a j, a <> 0 -> Z.abs a < 10 ^ 18 -> Z.of_nat fuel <= j <= 300 ->
  exists k u, -3000 <= k <= 0 /\ in_units k (lowest fuel a j) u /\ Z.abs (u * 10 ^ j - a * 2 ^ (- k)) * 2 ^ 63 <= Z.abs a * 2 ^ (- k).
Proof.
  induction fuel as [|fuel IH]; intros a j Ha Hb Hj; [apply nearest_close; [exact Ha|exact Hb|lia]|]. cbn [lowest].
  destruct (Z.eqb_spec (a mod 10) 0) as [E|E]; [|apply nearest_close; [exact Ha|exact Hb|lia]].
  pose proof (Z.div_mod a 10 ltac:(lia)) as DM. rewrite E, Z.add_0_r in DM.
  destruct (IH (a / 10) (j - 1) ltac:(lia) ltac:(lia) ltac:(lia)) as (k & u & Hk & Hu & HE). exists k, u. split; [exact Hk|]. split; [exact Hu|].
  set (a' := a / 10) in *. clearbody a'. clear E IH. subst a. replace j with (Z.succ (j - 1)) at 1 by lia. rewrite Z.pow_succ_r by lia.
  replace (u * (10 * 10 ^ (j - 1)) - 10 * a' * 2 ^ (- k)) with (10 * (u * 10 ^ (j - 1) - a' * 2 ^ (- k))) by lia.
  rewrite !(Z.abs_mul 10). change (Z.abs 10) with 10. lia.
Qed.
Lemma nearest_neg a j : a <> 0 -> nearest (- a) j = big_neg (nearest a j).
Proof.
  intros Ha. unfold nearest. destruct (Z.eqb_spec a 0); [contradiction|]. destruct (Z.eqb_spec (- a) 0); [lia|]. cbn [big_neg]. rewrite Z.abs_opp.
  replace (- a <? 0) with (negb (a <? 0)) by (destruct (Z.ltb_spec a 0), (Z.ltb_spec (- a) 0); try reflexivity; lia). reflexivity.
Qed.
Lemma lowest_neg fuel : forall a j, a <> 0 -> lowest fuel (- a) j = big_neg (lowest fuel a j).
Proof.
  induction fuel as [|fuel IH]; intros a j Ha; [apply nearest_neg; exact Ha|]. cbn [lowest].
  destruct (Z.eqb_spec (a mod 10) 0) as [E|E].
  - rewrite Z.mod_opp_l_z by lia. cbn [Z.eqb]. rewrite Z.div_opp_l_z by lia. apply IH. pose proof (Z.div_mod a 10 ltac:(lia)). lia.
  - rewrite Z.mod_opp_l_nz by lia. pose proof (Z.mod_pos_bound a 10 ltac:(lia)). destruct (Z.eqb_spec (10 - a mod 10) 0); [lia|]. apply nearest_neg. exact Ha.
Qed.

Lemma decimal_scan_ok : scans_decimals decimal_scan.
Proof.
  exists decimal_number. split; [|split; [|split; [|split]]].
  - intros a j s Ha Hj (whole & frac & F & Hne & Hl & V & ->). pose proof (read_fraction_text whole frac F Hne) as R.
    assert (Forall (fun d => 0 <= d <= 9) whole) as Fw by (apply Forall_app in F; tauto). rewrite Hl in R. rewrite V in R.
    set (fr := match frac with [] => ""%string | _ => ("." ++ chars_of frac)%string end) in *. pose proof (chars_no_minus whole fr Fw Hne) as M. set (t := (chars_of whole ++ fr)%string) in *. clearbody t.
    destruct (Z.ltb_spec a 0) as [L|L].
    + unfold decimal_scan. cbn [String.append]. rewrite R. destruct (Z.eqb_spec (Z.abs a) 0); [lia|]. do 2 f_equal. lia.
    + unfold decimal_scan. cbn [String.append]. rewrite M. rewrite R. do 2 f_equal. lia.
  - intros a j Ha Hj. unfold decimal_number. destruct (Z.eqb_spec a 0) as [->|N]; [reflexivity|]. destruct (Z.eqb_spec (10 * a) 0); [lia|].
    replace (Z.to_nat (j + 1)) with (S (Z.to_nat j)) by lia. cbn [lowest]. replace (10 * a) with (a * 10) by lia. rewrite Z.mod_mul by lia. cbn [Z.eqb].
    rewrite Z.div_mul by lia. f_equal. lia.
  - intros a j Ha. unfold decimal_number. destruct (Z.eqb_spec a 0); [contradiction|]. destruct (Z.eqb_spec (- a) 0); [lia|]. apply lowest_neg. exact Ha.
  - intros j. reflexivity.
  - intros a j Ha Hj. unfold decimal_number. destruct (Z.eqb_spec a 0) as [->|N].
    + exists 0, 0. split; [lia|]. split; [exists false, 0, 0; split; [reflexivity|]; split; [lia|]; split; [left; reflexivity|reflexivity]|].
      rewrite !Z.mul_0_l. cbn. lia.
    + apply lowest_close; [exact N|exact Ha|lia].
Qed.
Close Scope Z_scope.

(** ** Texts *)
Open Scope Z_scope.
Example tenth : reads 1 1 "0.1".
Proof. exists [0], [1]. split; [repeat constructor; lia|]. repeat (split; [first [discriminate|reflexivity]|]). reflexivity. Qed.
Example fifth : reads 2 1 "0.2".
Proof. exists [0], [2]. split; [repeat constructor; lia|]. repeat (split; [first [discriminate|reflexivity]|]). reflexivity. Qed.
Example minus : reads (-12345) 2 "-123.45".
Proof. exists [1; 2; 3], [4; 5]. split; [repeat constructor; lia|]. repeat (split; [first [discriminate|reflexivity]|]). reflexivity. Qed.
Example long_text : reads 10000000000001 5 "100000000.00001".
Proof. exists [1; 0; 0; 0; 0; 0; 0; 0; 0], [0; 0; 0; 0; 1]. split; [repeat constructor; lia|]. repeat (split; [first [discriminate|reflexivity]|]). reflexivity. Qed.
Example whole_text : reads 100000000 0 "100000000".
Proof. exists [1; 0; 0; 0; 0; 0; 0; 0; 0], []. split; [repeat constructor; lia|]. repeat (split; [first [discriminate|reflexivity]|]). reflexivity. Qed.
Example three_tenths : signed_text 3 1 "0.3".
Proof.
  right. split; [lia|]. exists "0.3"%string. split; [|reflexivity]. left. split; [lia|]. split; [lia|]. exists [0], [3].
  split; [repeat constructor; lia|]. repeat (split; [first [discriminate|reflexivity|lia]|]). reflexivity.
Qed.
Example small_text : signed_text 1 5 "1e-05".
Proof.
  right. split; [lia|]. exists "1e-05"%string. split; [|reflexivity]. right. split; [left; reflexivity|]. exists 1, [], (-5), "5"%string.
  split; [lia|]. split; [constructor|]. split; [discriminate|]. split; [lia|]. split; [reflexivity|]. split; [|reflexivity].
  exists [5]. split; [repeat constructor; lia|]. split; [discriminate|]. split; [discriminate|]. split; reflexivity.
Qed.
Lemma cancellation : ~ (forall scan, scans_decimals scan -> forall x y a j b l, reads a j x -> reads b l y ->
  Z.abs a < 10 ^ 18 -> Z.abs b < 10 ^ 18 -> 0 <= j <= 300 -> 0 <= l <= 300 ->
  let J := Z.max j l in let A := a * 10 ^ (J - j) in let B := b * 10 ^ (J - l) in
  Z.abs (A - B) < 10 ^ 10 -> exists s, sub scan x y = Ret s /\ signed_text (A - B) J s).
Proof.
  intros H. destruct (H decimal_scan decimal_scan_ok _ _ _ _ _ _ long_text whole_text ltac:(lia) ltac:(lia) ltac:(lia) ltac:(lia) ltac:(reflexivity)) as (s & E & T).
  assert (sub decimal_scan "100000000.00001" "100000000" = Ret "1.000000339e-05"%string) as E' by (vm_compute; reflexivity). rewrite E' in E. injection E as <-.
  change (signed_text 1 5 "1.000000339e-05") in T. pose proof (signed_unique 1 5 _ _ ltac:(lia) small_text T) as C. discriminate C.
Qed.
Close Scope Z_scope.
