(** The Latin-1 parts of the character classes. *)
From Verif Require Import Base ModelTypes ModelText ModelEarley ModelReader ModelQuote SpecNotation SpecChars ProofUtf8 ProofReaderBack.

Fixpoint runes_upto (n : nat) (s : string) : list rune :=
  match n, s with
  | S n', String _ _ => let '(r, w) := decode_rune s in r :: runes_upto n' (drop w s)
  | _, _ => []
  end.
Definition runes_in (s : string) : list rune := runes_upto (String.length s) s.
Definition good_b (r : rune) : bool := valid_rune r && negb (Z.eqb r RuneError).
Lemma good_b_ok l : forallb good_b l = true -> Forall good l.
Proof.
  rewrite forallb_forall, Forall_forall. intros H r Hr. apply H in Hr. apply andb_prop in Hr as [H1 H2]. split; [exact H1|].
  intros E. rewrite E in H2. discriminate.
Qed.
Lemma one_of_dec s r : encode (runes_in s) = s -> forallb good_b (runes_in s) = true ->
  one_of s r <-> existsb (Z.eqb r) (runes_in s) = true.
Proof.
  intros E G. apply good_b_ok in G. rewrite existsb_exists. split.
  - intros (l & El & Gl & Hr). exists r. split; [|apply Z.eqb_refl]. rewrite (encode_inj (runes_in s) l G Gl) by congruence. exact Hr.
  - intros (x & Hx & Ex). apply Z.eqb_eq in Ex. subst x. exists (runes_in s). auto.
Qed.

Definition latin : list rune := map Z.of_nat (seq 0 256).
Lemma in_latin r : (0 <= r <= 255)%Z -> In r latin.
Proof. intros H. apply in_map_iff. exists (Z.to_nat r). split; [lia|]. apply in_seq. lia. Qed.

Lemma latin_class (f g : rune -> bool) : forallb (fun r => Bool.eqb (f r) (g r)) latin = true ->
  forall r, (0 <= r <= 255)%Z -> f r = g r.
Proof. rewrite forallb_forall. intros H r Hr. apply Bool.eqb_prop, H, in_latin, Hr. Qed.

Lemma letters_listed hi r : (0 <= r <= 255)%Z -> is_letter hi r = true <-> one_of latin_letters r.
Proof.
  intros Hr. rewrite one_of_dec by (vm_compute; reflexivity).
  assert (is_letter hi r = is_letter (fun _ => false) r) as -> by (unfold is_letter; replace (255 <? r)%Z with false by (symmetry; apply Z.ltb_ge; lia); reflexivity).
  rewrite (latin_class (is_letter (fun _ => false)) (fun r => existsb (Z.eqb r) (runes_in latin_letters))) by (vm_compute; reflexivity || exact Hr).
  reflexivity.
Qed.
Lemma digits_listed hi r : (0 <= r <= 255)%Z -> is_digit hi r = true <-> one_of "0123456789" r.
Proof.
  intros Hr. rewrite one_of_dec by (vm_compute; reflexivity).
  assert (is_digit hi r = is_digit (fun _ => false) r) as -> by (unfold is_digit; replace (255 <? r)%Z with false by (symmetry; apply Z.ltb_ge; lia); reflexivity).
  rewrite (latin_class (is_digit (fun _ => false)) (fun r => existsb (Z.eqb r) (runes_in "0123456789"))) by (vm_compute; reflexivity || exact Hr).
  reflexivity.
Qed.
Lemma printable_listed hi r : (0 <= r <= 255)%Z -> is_print hi r = true <-> one_of latin_printable r.
Proof.
  intros Hr. rewrite one_of_dec by (vm_compute; reflexivity).
  assert (is_print hi r = is_print (fun _ => false) r) as -> by (unfold is_print; replace (r <=? 255)%Z with true by (symmetry; apply Z.leb_le; lia); reflexivity).
  rewrite (latin_class (is_print (fun _ => false)) (fun r => existsb (Z.eqb r) (runes_in latin_printable))) by (vm_compute; reflexivity || exact Hr).
  reflexivity.
Qed.
Lemma reader_classes letter_hi digit_hi r : (0 <= r <= 255)%Z ->
  (is_letter letter_hi r = true <-> one_of latin_letters r) /\ (is_digit digit_hi r = true <-> one_of "0123456789" r).
Proof. intros H. split; [apply letters_listed|apply digits_listed]; exact H. Qed.
