(** Numbers of the grammar notation. *)
From Coq Require Import Lia.
From Verif Require Import Base ModelTypes ModelText ModelEarley ModelReader SpecNotation SpecConstruct ProofUtf8 ExamplesGrammar.
Local Open Scope Z_scope.

Lemma int64_range z : - 2 ^ 63 <= int64 z < 2 ^ 63.
Proof. unfold int64. pose proof (Z.mod_pos_bound (z + 2 ^ 63) (2 ^ 64) ltac:(lia)). lia. Qed.
Lemma int64_small z : - 2 ^ 63 <= z < 2 ^ 63 -> int64 z = z.
Proof. intros H. unfold int64. rewrite Z.mod_small; lia. Qed.
Lemma int64_step a b : int64 (int64 a * 10 + b) = int64 (a * 10 + b).
Proof.
  unfold int64. f_equal.
  pose proof (Z.div_mod (a + 2 ^ 63) (2 ^ 64) ltac:(lia)) as E.
  set (q := (a + 2 ^ 63) / 2 ^ 64) in *. set (r := (a + 2 ^ 63) mod 2 ^ 64) in *.
  replace (a * 10 + b + 2 ^ 63) with (((r - 2 ^ 63) * 10 + b + 2 ^ 63) + (q * 10) * 2 ^ 64) by lia.
  rewrite Z.mod_add by lia. reflexivity.
Qed.
Lemma decimal_value_snoc ds d : decimal_value (ds ++ [d]) = decimal_value ds * 10 + (d - 48).
Proof. unfold decimal_value. rewrite fold_left_app. reflexivity. Qed.
Lemma machine_value_snoc ds d :
  machine_value (ds ++ [d]) = if Z.eqb (machine_value ds) (-1) then d - 48 else int64 (machine_value ds * 10 + (d - 48)).
Proof. unfold machine_value. rewrite fold_left_app. reflexivity. Qed.
Lemma decimal_nonneg ds : decimals ds -> 0 <= decimal_value ds.
Proof.
  induction ds as [|d ds IH] using rev_ind; intros H; [cbn; lia|]. apply Forall_app in H. destruct H as [H1 H2]. inversion H2; subst.
  rewrite decimal_value_snoc. specialize (IH H1). lia.
Qed.

(** wrap-around, unless the digits read so far happen to give -1 *)
Lemma machine_wraps ds : decimals ds -> ds <> [] ->
  (forall a b, ds = a ++ b -> a <> [] -> b <> [] -> int64 (decimal_value a) <> -1) ->
  machine_value ds = int64 (decimal_value ds).
Proof.
  induction ds as [|d ds IH] using rev_ind; intros H Hn Hp; [congruence|].
  apply Forall_app in H. destruct H as [H1 H2]. inversion H2; subst.
  rewrite machine_value_snoc, decimal_value_snoc.
  destruct ds as [|e ds0]; [cbn; rewrite int64_small; lia|]. set (ds := e :: ds0) in *.
  assert (E : machine_value ds = int64 (decimal_value ds)).
  { apply IH; [exact H1|discriminate|]. intros a b Eab Ha Hb. apply (Hp a (b ++ [d])); [rewrite Eab, app_assoc; reflexivity|exact Ha|].
    destruct b; discriminate. }
  rewrite E. rewrite (proj2 (Z.eqb_neq _ _)); [apply int64_step|]. apply (Hp ds [d]); [reflexivity|discriminate|discriminate].
Qed.
Lemma prefix_le a b : decimals (a ++ b) -> decimal_value a <= decimal_value (a ++ b).
Proof.
  induction b as [|d b IH] using rev_ind; intros H; [rewrite app_nil_r; lia|]. rewrite app_assoc in *. apply Forall_app in H. destruct H as [H1 H2].
  inversion H2; subst. rewrite decimal_value_snoc. specialize (IH H1). pose proof (decimal_nonneg _ H1). lia.
Qed.
Lemma machine_small ds : decimals ds -> ds <> [] -> decimal_value ds < 2 ^ 63 -> machine_value ds = decimal_value ds.
Proof.
  intros H Hn Hv. pose proof (decimal_nonneg ds H). rewrite machine_wraps; auto.
  - apply int64_small. lia.
  - intros a b E _ _. subst ds. pose proof (prefix_le a b H) as P. apply Forall_app in H. destruct H as [Ha _].
    pose proof (decimal_nonneg a Ha). rewrite int64_small by lia. lia.
Qed.
Lemma number_nonempty ds z : number ds z -> ds <> [].
Proof. intros (_ & E & H) ->. apply H. rewrite <- E. reflexivity. Qed.

Lemma number_exact ds : decimals ds -> ds <> [] -> decimal_value ds < 2 ^ 63 ->
  forall z, number ds z <-> z = decimal_value ds.
Proof.
  intros H Hn Hv z. unfold number. rewrite (machine_small ds H Hn Hv). pose proof (decimal_nonneg ds H).
  split; [intros (_ & E & _); symmetry; exact E|]. intros ->. split; [exact H|]. split; [reflexivity|]. lia.
Qed.
Lemma number_wraps ds : decimals ds -> ds <> [] ->
  (forall a b, ds = a ++ b -> a <> [] -> int64 (decimal_value a) <> -1) ->
  forall z, number ds z <-> z = int64 (decimal_value ds).
Proof.
  intros H Hn Hp z. unfold number. rewrite (machine_wraps ds H Hn); [|intros a b E Ha _; eapply Hp; eauto].
  split; [intros (_ & -> & _); reflexivity|]. intros ->. split; [exact H|]. split; [reflexivity|].
  apply (Hp ds []); [rewrite app_nil_r; reflexivity|exact Hn].
Qed.

(** integer arguments *)
Lemma int_decimal digit d ds z : decimals (d :: ds) -> d <> 48 \/ ds = [] ->
  (int_literal digit (d :: ds) z <-> z = decimal_value (d :: ds)).
Proof.
  intros H Hd. split.
  - intros K. inversion K as [? ? ? ? E|ds1 rest1 G1 G2 G3 G4 E]; subst; [reflexivity|]. destruct Hd as [Hd|Hd]; [congruence|]. exact (False_ind _ (G4 Hd)).
  - intros ->. constructor; assumption.
Qed.
Lemma int_octal digit ds rest z :
  Forall (fun d => 48 <= d <= 55) ds -> match rest with [] => True | c :: _ => 56 <= c <= 57 end ->
  Forall (fun c => digit c = true) rest -> ds ++ rest <> [] ->
  (int_literal digit (48 :: ds ++ rest) z <-> z = octal_value ds).
Proof.
  intros H1 H2 H3 H4. split.
  - intros K. inversion K as [d0 ds0 D0 N0 E0 | ds1 rest1 G1 G2 G3 G4 E0].
    + destruct N0 as [N0|N0]; [exact (False_ind _ (N0 eq_refl))|exact (False_ind _ (H4 N0))].
    + match goal with K1 : _ = z |- _ => clear K1 end. clear K H3 G3 H4 G4. f_equal. revert ds H1 E0. induction G1 as [|c ds1 Hc _ IH]; intros ds H1 E.
      * destruct H1 as [|c' ds' Hc' _]; [reflexivity|]. cbn [app] in E. subst rest1. cbn in G2. lia.
      * destruct H1 as [|c' ds' Hc' H1]; cbn [app] in E.
        -- subst rest. cbn in H2. lia.
        -- injection E as -> E. f_equal. apply IH; assumption.
  - intros ->. apply il_octal; assumption.
Qed.

(** *** arguments *)
Lemma index_arg letter digit scan ds z : w_arg letter digit scan (Arg "index" (VIdx z)) ([36] ++ ds) <-> number ds z.
Proof.
  split; [|intros H; constructor; exact H]. intros H.
  remember (Arg "index" (VIdx z)) as a eqn:Ea. remember ([36] ++ ds) as w eqn:Ew. destruct H; try discriminate.
  inversion Ea; subst. injection Ew as Ew. subst. assumption.
Qed.
Lemma index_exact e ds : decimals ds -> ds <> [] -> decimal_value ds < 2 ^ 63 ->
  forall z, e_arg e (Arg "index" (VIdx z)) ([36] ++ ds) <-> z = decimal_value ds.
Proof. intros H1 H2 H3 z. unfold e_arg. rewrite index_arg. apply number_exact; assumption. Qed.
Lemma index_wraps e ds : decimals ds -> ds <> [] ->
  (forall a b, ds = a ++ b -> a <> [] -> int64 (decimal_value a) <> -1) ->
  forall z, e_arg e (Arg "index" (VIdx z)) ([36] ++ ds) <-> z = int64 (decimal_value ds).
Proof. intros H1 H2 H3 z. unfold e_arg. rewrite index_arg. apply number_wraps; assumption. Qed.
Lemma int_arg letter digit scan d ds z : d <> 45 ->
  (w_arg letter digit scan (Arg "int" (VInt z)) (d :: ds) <-> int_literal digit (d :: ds) z).
Proof.
  intros Hd. split; [|intros H; constructor; exact H]. intros H.
  remember (Arg "int" (VInt z)) as a eqn:Ea. remember (d :: ds) as w eqn:Ew. destruct H; try discriminate.
  - inversion Ea; subst. assumption.
  - injection Ew as Ew _. congruence.
Qed.
Lemma int_argument e d ds z : decimals (d :: ds) -> d <> 48 \/ ds = [] ->
  (e_arg e (Arg "int" (VInt z)) (d :: ds) <-> z = decimal_value (d :: ds)).
Proof. intros H1 H2. unfold e_arg. rewrite int_arg; [apply int_decimal; assumption|]. inversion H1; subst. lia. Qed.
Lemma octal_rest e ds rest z : Forall (fun d => 48 <= d <= 55) ds ->
  match rest with [] => True | c :: _ => 56 <= c <= 57 end -> decimals rest -> ds ++ rest <> [] ->
  (e_arg e (Arg "int" (VInt z)) (48 :: ds ++ rest) <-> z = octal_value ds).
Proof.
  intros H1 H2 H3 H4. unfold e_arg. rewrite int_arg by discriminate. apply int_octal; auto.
  eapply Forall_impl; [|exact H3]. intros c Hc. cbv beta in Hc. unfold is_digit, ascii_digit.
  apply orb_true_iff. left. apply andb_true_iff. split; apply Z.leb_le; lia.
Qed.
Lemma octal_argument e ds z : Forall (fun d => 48 <= d <= 55) ds -> ds <> [] ->
  (e_arg e (Arg "int" (VInt z)) (48 :: ds) <-> z = octal_value ds).
Proof.
  intros H1 H2. pose proof (octal_rest e ds [] z H1 I (Forall_nil _)) as K. rewrite app_nil_r in K. apply K. exact H2.
Qed.
Lemma decimals_check ds : forallb (fun d => (48 <=? d) && (d <=? 57)) ds = true -> decimals ds.
Proof.
  intros H. apply Forall_forall. rewrite forallb_forall in H. intros d Hd. specialize (H d Hd). apply andb_true_iff in H. destruct H as [H1 H2].
  apply Z.leb_le in H1. apply Z.leb_le in H2. lia.
Qed.
Lemma wrap_witness :
  decimals (runes "18446744073709551615") /\ decimals (runes "184467440737095516155") /\
  (forall z, ~ number (runes "18446744073709551615") z) /\
  (exists z, number (runes "184467440737095516155") z /\ z <> int64 (decimal_value (runes "184467440737095516155"))).
Proof.
  split; [apply decimals_check; vm_compute; reflexivity|]. split; [apply decimals_check; vm_compute; reflexivity|]. split.
  - intros z (_ & E & H). apply H. rewrite <- E. vm_compute. reflexivity.
  - exists 5. split; [|vm_compute; discriminate]. split; [apply decimals_check; vm_compute; reflexivity|]. split; [vm_compute; reflexivity|discriminate].
Qed.
Lemma number_examples :
  decimals (runes "9223372036854775807") /\ decimal_value (runes "9223372036854775807") = 2 ^ 63 - 1
  /\ (forall e, e_arg e (Arg "index" (VIdx 12)) (runes "$12"))
  /\ (forall e, e_arg e (Arg "int" (VInt 8)) (runes "010")) /\ (forall e, e_arg e (Arg "int" (VInt 1)) (runes "018"))
  /\ (forall e, e_arg e (Arg "int" (VInt (-10))) (runes "-10")).
Proof.
  split; [apply decimals_check; vm_compute; reflexivity|]. split; [vm_compute; reflexivity|]. split; [|split; [|split]]; intros e.
  - apply (index_exact e (runes "12")); [apply decimals_check; vm_compute; reflexivity|discriminate|vm_compute; reflexivity|vm_compute; reflexivity].
  - apply (octal_argument e (runes "10")); [repeat constructor; discriminate|discriminate|vm_compute; reflexivity].
  - apply (octal_rest e (runes "1") (runes "8")); [repeat constructor; discriminate|split; discriminate|repeat constructor; discriminate|discriminate|vm_compute; reflexivity].
  - change (-10) with (- decimal_value (runes "10")). apply wa_negative. apply il_decimal; [repeat constructor; discriminate|left; discriminate].
Qed.
