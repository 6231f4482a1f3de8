(** A decimal fraction has one text. *)
From Coq Require Import Ascii.
From Verif Require Import Base ModelMath SpecMath SpecRound ProofMath ProofRound SpecDecimal ProofFloat ProofDecimal.
Local Open Scope list_scope.
Open Scope Z_scope.

Lemma last_digit w f : digit_list (w ++ f) -> f <> [] -> last f 1 <> 0 -> number_of (w ++ f) mod 10 <> 0.
Proof.
  intros F Hne Hl. destruct (exists_last Hne) as (f' & x & ->). rewrite last_last in Hl. rewrite app_assoc in F |- *. apply Forall_app in F as [_ F2]. inversion F2; subst.
  rewrite number_app. cbn [length]. change (10 ^ Z.of_nat 1) with 10. change (number_of [x]) with x. rewrite Z.add_comm, Z.mod_add by lia. rewrite Z.mod_small by lia. exact Hl.
Qed.
Lemma fraction_length w f w' f' : digit_list (w ++ f) -> digit_list (w' ++ f') -> last f 1 <> 0 -> last f' 1 <> 0 ->
  number_of (w ++ f) * 10 ^ Z.of_nat (length f') = number_of (w' ++ f') * 10 ^ Z.of_nat (length f) -> length f = length f' /\ number_of (w ++ f) = number_of (w' ++ f').
Proof.
  enough (forall w f w' f', digit_list (w ++ f) -> digit_list (w' ++ f') -> last f' 1 <> 0 ->
    number_of (w ++ f) * 10 ^ Z.of_nat (length f') = number_of (w' ++ f') * 10 ^ Z.of_nat (length f) -> (length f' <= length f)%nat) as H.
  { intros F F' L L' E. assert (length f = length f') as EL by (pose proof (H w f w' f' F F' L' E); pose proof (H w' f' w f F' F L (eq_sym E)); lia).
    split; [exact EL|]. rewrite EL in E. pose proof (pow_pos 10 (Z.of_nat (length f')) ltac:(lia) ltac:(lia)). nia. }
  clear. intros w f w' f' F F' L' E. destruct (Nat.le_gt_cases (length f') (length f)) as [|G]; [assumption|exfalso].
  assert (f' <> []) as Hne by (intros ->; cbn in G; lia). apply (last_digit w' f' F' Hne L').
  set (N := number_of (w ++ f)) in *. set (N' := number_of (w' ++ f')) in *.
  replace (Z.of_nat (length f')) with (Z.of_nat (length f) + Z.succ (Z.of_nat (length f' - length f - 1))) in E by lia.
  rewrite Z.pow_add_r, Z.pow_succ_r in E by lia. pose proof (pow_pos 10 (Z.of_nat (length f)) ltac:(lia) ltac:(lia)).
  assert (N' = (N * 10 ^ Z.of_nat (length f' - length f - 1)) * 10) as -> by nia. apply Z.mod_mul. lia.
Qed.
Lemma whole_length w f w' f' : digit_list (w ++ f) -> digit_list (w' ++ f') -> w <> [] -> w' <> [] -> (hd 0 w = 0 -> w = [0]) -> (hd 0 w' = 0 -> w' = [0]) ->
  length f = length f' -> number_of (w ++ f) = number_of (w' ++ f') -> length w = length w'.
Proof.
  enough (forall w f w' f', digit_list (w ++ f) -> digit_list (w' ++ f') -> w <> [] -> w' <> [] -> (hd 0 w' = 0 -> w' = [0]) ->
    length f = length f' -> number_of (w ++ f) = number_of (w' ++ f') -> (length w' <= length w)%nat) as H.
  { intros F F' N N' Z1 Z2 L E. pose proof (H w f w' f' F F' N N' Z2 L E). pose proof (H w' f' w f F' F N' N Z1 (eq_sym L) (eq_sym E)). lia. }
  clear. intros w f w' f' F F' N N' Z2 L E. destruct w' as [|c w']; [congruence|]. destruct (Z.eq_dec c 0) as [->|Nc].
  - specialize (Z2 eq_refl). injection Z2 as ->. destruct w; [congruence|cbn [length]; lia].
  - assert (hd 0 ((c :: w') ++ f') <> 0) as Hh by exact Nc. pose proof (number_lead _ F' Hh) as B1. pose proof (number_bounds _ F) as B2.
    rewrite E in B2. rewrite !app_length in *. destruct (Nat.le_gt_cases (length (c :: w')) (length w)) as [|G]; [assumption|exfalso].
    assert (10 * 10 ^ Z.of_nat (length w + length f) <= 10 ^ Z.of_nat (length (c :: w') + length f')) by (rewrite <- Z.pow_succ_r by lia; apply Z.pow_le_mono_r; lia). lia.
Qed.
Lemma fraction_unique v j s s' : 0 <= j -> fraction v j s -> fraction v j s' -> s = s'.
Proof.
  intros Hj (w & f & F & Hne & Hz & Hl & V & ->) (w' & f' & F' & Hne' & Hz' & Hl' & V' & ->). pose proof (pow_pos 10 j ltac:(lia) Hj) as P.
  destruct (fraction_length w f w' f' F F' Hl Hl') as [L E].
  { apply (f_equal (fun z => z * 10 ^ Z.of_nat (length f'))) in V. apply (f_equal (fun z => z * 10 ^ Z.of_nat (length f))) in V'. nia. }
  pose proof (whole_length w f w' f' F F' Hne Hne' Hz Hz' L E) as Lw.
  assert (w ++ f = w' ++ f') as EA by (apply number_unique; [exact F|exact F'|rewrite !app_length; lia|exact E]).
  assert (w = w' /\ f = f') as [-> ->]; [|reflexivity].
  apply (f_equal (firstn (length w))) in EA as E1. rewrite firstn_app, Nat.sub_diag, firstn_all, app_nil_r in E1. rewrite Lw in E1. rewrite firstn_app, Nat.sub_diag, firstn_all, app_nil_r in E1.
  split; [exact E1|]. rewrite E1 in EA. apply app_inv_head in EA. exact EA.
Qed.
Lemma exponential_unique v j s s' : exponential v j s -> exponential v j s' -> s = s'.
Proof.
  intros (d & ds & x & e & Hd & F & Hl & Hx & V & He & ->) (d' & ds' & x' & e' & Hd' & F' & Hl' & Hx' & V' & He' & ->).
  assert (digit_list (d :: ds)) as G by (constructor; [lia|exact F]). assert (digit_list (d' :: ds')) as G' by (constructor; [lia|exact F']).
  assert (forall d ds x, 1 <= d <= 9 -> digit_list (d :: ds) -> 0 <= x + j -> v * 10 ^ Z.of_nat (length ds) = number_of (d :: ds) * 10 ^ (x + j) -> 10 ^ (x + j) <= v < 10 ^ (x + j + 1)) as B.
  { clear. intros d ds x Hd G Hx V. assert (hd 0 (d :: ds) <> 0) as Hh by (cbn; lia). pose proof (number_lead _ G Hh) as B1. pose proof (number_bounds _ G) as B2.
    cbn [length] in B1, B2. rewrite Nat2Z.inj_succ, Z.pow_succ_r in B1, B2 by lia. rewrite (Z.pow_add_r 10 (x + j) 1) by lia. change (10 ^ 1) with 10.
    pose proof (pow_pos 10 (Z.of_nat (length ds)) ltac:(lia) ltac:(lia)). pose proof (pow_pos 10 (x + j) ltac:(lia) ltac:(lia)). split; nia. }
  pose proof (B d ds x Hd G Hx V) as B1. pose proof (B d' ds' x' Hd' G' Hx' V') as B2. clear B.
  assert (x = x') as <-.
  { destruct (Z.lt_trichotomy x x') as [L|[L|L]]; [exfalso|exact L|exfalso].
    - assert (10 ^ (x + j + 1) <= 10 ^ (x' + j)) by (apply Z.pow_le_mono_r; lia). lia.
    - assert (10 ^ (x' + j + 1) <= 10 ^ (x + j)) by (apply Z.pow_le_mono_r; lia). lia. }
  rewrite (numeral_unique _ _ _ He He'). pose proof (pow_pos 10 (x + j) ltac:(lia) Hx) as P.
  destruct (fraction_length [d] ds [d'] ds' G G' Hl Hl') as [L E].
  { cbn [app]. apply (f_equal (fun z => z * 10 ^ Z.of_nat (length ds'))) in V. apply (f_equal (fun z => z * 10 ^ Z.of_nat (length ds))) in V'. nia. }
  assert (d :: ds = d' :: ds') as EA by (apply number_unique; [exact G|exact G'|cbn; lia|exact E]). injection EA as -> ->. reflexivity.
Qed.
Lemma signed_unique c j s s' : 0 <= j -> signed_text c j s -> signed_text c j s' -> s = s'.
Proof.
  intros Hj [[-> ->]|(N & t & H & ->)] [[E' ->]|(N' & t' & H' & ->)]; try lia; [reflexivity|]. f_equal.
  destruct H as [(H1 & H2 & H)|[H1 H]], H' as [(H1' & H2' & H')|[H1' H']]; try lia.
  - exact (fraction_unique _ _ _ _ Hj H H').
  - exact (exponential_unique _ _ _ _ H H').
Qed.
Close Scope Z_scope.
