(** strings.TrimSpace removes exactly the white space around a text. *)
From Coq Require Import Ascii.
From Verif Require Import Base ModelText SpecText ProofUtf8.

Lemma white_space r : is_space r = true <-> white r.
Proof.
  unfold white. cbn [In]. unfold is_space. split.
  - repeat rewrite orb_true_iff. rewrite andb_true_iff, !Z.eqb_eq, !Z.leb_le. lia.
  - intros H. repeat (destruct H as [<-|H]; [reflexivity|]). destruct H.
Qed.

Lemma white_valid r : white r -> valid_rune r = true /\ r <> RuneError.
Proof. intros H. repeat (destruct H as [<-|H]; [split; [reflexivity|discriminate]|]). destruct H. Qed.

Lemma sappend_assoc a b c : ((a ++ b) ++ c = a ++ b ++ c)%string.
Proof. induction a; simpl; congruence. Qed.
Lemma sappend_nil a : (a ++ "" = a)%string.
Proof. induction a; simpl; congruence. Qed.
Lemma drop_zero s : drop 0 s = s.
Proof. destruct s; reflexivity. Qed.
Lemma substring_zero a : forall b, substring 0 (String.length a) (a ++ b) = a.
Proof. induction a as [|c a IH]; intros b; [destruct b; reflexivity|]. simpl. f_equal. apply IH. Qed.
Lemma take_drop k : forall s, k <= String.length s -> s = (substring 0 k s ++ drop k s)%string.
Proof.
  induction k as [|k IH]; intros s Hk; [destruct s; reflexivity|]. destruct s; simpl in *; [lia|]. f_equal. apply IH. lia.
Qed.

(** ** The last rune *)
Lemma encode_rune_shape r : valid_rune r = true -> exists c u, encode_rune r = String c u /\ rune_start c = true
  /\ forall d, In d (list_ascii_of_string u) -> rune_start d = false.
Proof.
  intros Hv. pose proof (valid_rune_range r Hv) as Hr. unfold encode_rune. rewrite Hv.
  assert (forall z, (0 <= z < 64)%Z -> rune_start (of_byte (128 + z)) = false) as Hc.
  { intros z Hz. unfold rune_start. rewrite byte_of_byte by lia. unfold cont.
    destruct (Z.leb_spec 128 (128 + z)); [|lia]. destruct (Z.leb_spec (128 + z) 191); [reflexivity|lia]. }
  assert (forall z, ((0 <= z < 128) \/ (192 <= z < 256))%Z -> rune_start (of_byte z) = true) as Hs.
  { intros z Hz. unfold rune_start. rewrite byte_of_byte by lia. unfold cont.
    destruct (Z.leb_spec 128 z); [|reflexivity]. destruct (Z.leb_spec z 191); [lia|reflexivity]. }
  pose proof (fun z => Z.mod_pos_bound z 64 ltac:(lia)) as Hm.
  destruct (Z.ltb_spec r 128); [|destruct (Z.ltb_spec r 2048); [|destruct (Z.ltb_spec r 65536)]]; cbn [bytes fold_right];
    eexists _, _; (split; [reflexivity|]); (split; [apply Hs|]).
  - lia.
  - intros d [].
  - right. assert (0 <= r / 64 < 32)%Z; [|lia]. split; [apply Z.div_pos; lia|apply Z.div_lt_upper_bound; lia].
  - cbn. intros d [<-|[]]. apply Hc, Hm.
  - right. assert (0 <= r / 4096 < 16)%Z; [|lia]. split; [apply Z.div_pos; lia|apply Z.div_lt_upper_bound; lia].
  - cbn. intros d [<-|[<-|[]]]; apply Hc, Hm.
  - right. assert (0 <= r / 262144 < 8)%Z; [|lia]. split; [apply Z.div_pos; lia|apply Z.div_lt_upper_bound; lia].
  - cbn. intros d [<-|[<-|[<-|[]]]]; apply Hc, Hm.
Qed.

Lemma drop_in k : forall s c u, drop k s = String c u -> In c (list_ascii_of_string s).
Proof.
  induction k as [|k IH]; intros s c u H; [rewrite drop_zero in H; subst; left; reflexivity|].
  destruct s as [|d s]; [discriminate|]. right. eapply IH. exact H.
Qed.
Lemma drop_tail a : forall k u, k <= String.length a -> drop k (a ++ u)%string = (drop k a ++ u)%string.
Proof.
  induction a as [|c a IH]; intros k u H; simpl in *; [replace k with 0 by lia; rewrite !drop_zero; reflexivity|].
  destruct k; [reflexivity|]. simpl. apply IH. lia.
Qed.
Lemma drop_all s : drop (String.length s) s = ""%string.
Proof. induction s; auto. Qed.

Lemma last_rune_valid a r : valid_rune r = true ->
  decode_last_rune (a ++ encode_rune r)%string = (r, String.length (encode_rune r)).
Proof.
  intros Hv. pose proof (encode_rune_length r) as Hlen. destruct (encode_rune_shape r Hv) as (c & u & E & Hc & Hu).
  set (s := (a ++ encode_rune r)%string).
  assert (String.length s = String.length a + String.length (encode_rune r)) as Hs by apply string_length_append.
  assert (forall lim k, 1 <= k -> k + lim = 5 -> k <= String.length (encode_rune r) ->
    find_start s k lim = (r, String.length (encode_rune r))) as H.
  { induction lim as [|lim IH]; intros k Hk Hkl Hke; [lia|]. cbn [find_start].
    destruct (Nat.leb_spec k (String.length s)); [|lia]. unfold last_rune_at.
    replace (String.length s - k) with (String.length a + (String.length (encode_rune r) - k)) by lia.
    unfold s. rewrite drop_plus, drop_append.
    destruct (Nat.eq_dec k (String.length (encode_rune r))) as [->|Hne].
    - rewrite Nat.sub_diag, drop_zero, E, Hc. rewrite <- E. rewrite <- (sappend_nil (encode_rune r)) at 1.
      rewrite decode_encode by exact Hv. rewrite Nat.eqb_refl. reflexivity.
    - destruct (drop (String.length (encode_rune r) - k) (encode_rune r)) as [|d w] eqn:Ed.
      { exfalso. apply (f_equal String.length) in Ed. rewrite drop_length in Ed. cbn in Ed. lia. }
      rewrite (Hu d).
      + apply IH; lia.
      + rewrite E in Ed. destruct (String.length (String c u) - k) eqn:En; [rewrite E in Hne, Hke; lia|].
        cbn [drop] in Ed. eapply drop_in. exact Ed. }
  unfold decode_last_rune. fold s. destruct s as [|c0 s0] eqn:Es; [exfalso; cbn in Hs; lia|]. apply H; lia.
Qed.

Lemma last_rune_white s r w : decode_last_rune s = (r, w) -> r <> RuneError ->
  exists a, s = (a ++ encode_rune r)%string /\ w = String.length (encode_rune r).
Proof.
  intros H Hr. unfold decode_last_rune in H. destruct s as [|c0 s0]; [injection H as <- <-; congruence|].
  set (s := String c0 s0) in *. clearbody s.
  assert (forall lim k, find_start s k lim = (r, w) -> exists a, s = (a ++ encode_rune r)%string /\ w = String.length (encode_rune r)) as G.
  { clear H. induction lim as [|lim IH]; intros k H; cbn [find_start] in H; [injection H as <- <-; congruence|].
    destruct (Nat.leb_spec k (String.length s)); [|injection H as <- <-; congruence].
    unfold last_rune_at in H. destruct (drop (String.length s - k) s) as [|c t] eqn:Ed; [eapply IH; exact H|].
    destruct (rune_start c); [|eapply IH; exact H].
    destruct (decode_rune (String c t)) as [r' w'] eqn:Edec. destruct (Nat.eqb_spec w' k); [|injection H as <- <-; congruence].
    injection H as -> ->. subst w. destruct (decode_valid _ _ _ Edec Hr) as (Hv & Hw & t' & Et).
    assert (t' = "")%string as ->.
    { assert (String.length (String c t) = k) as Hl by (rewrite <- Ed, drop_length; lia).
      rewrite Et, string_length_append in Hl. destruct t'; [reflexivity|cbn in Hl; lia]. }
    rewrite sappend_nil in Et. exists (substring 0 (String.length s - k) s). split; [|exact Hw].
    rewrite <- Et, <- Ed. apply take_drop. lia. }
  eapply G. exact H.
Qed.

(** ** Trimming on the left and on the right *)
Definition starts_white (s : string) : Prop := exists r u, white r /\ s = (encode_rune r ++ u)%string.
Definition ends_white (s : string) : Prop := exists r u, white r /\ s = (u ++ encode_rune r)%string.

Lemma decode_white s : is_space (fst (decode_rune s)) = true <-> starts_white s.
Proof.
  split.
  - destruct (decode_rune s) as [r w] eqn:E. cbn [fst]. intros H. apply white_space in H.
    destruct (decode_valid s r w E (proj2 (white_valid r H))) as (_ & _ & u & Hu). exists r, u. auto.
  - intros (r & u & Hr & ->). rewrite decode_encode by apply (white_valid r Hr). apply white_space. exact Hr.
Qed.
Lemma decode_last_white s : is_space (fst (decode_last_rune s)) = true <-> ends_white s.
Proof.
  split.
  - destruct (decode_last_rune s) as [r w] eqn:E. cbn [fst]. intros H. apply white_space in H.
    destruct (last_rune_white s r w E (proj2 (white_valid r H))) as (u & Hu & _). exists r, u. auto.
  - intros (r & u & Hr & ->). rewrite last_rune_valid by apply (white_valid r Hr). apply white_space. exact Hr.
Qed.

Lemma trim_left_stops n s : ~ starts_white s -> trim_left n s = s.
Proof.
  intros H. destruct n; [reflexivity|]. cbn [trim_left]. destruct s as [|c s]; [reflexivity|].
  pose proof (decode_white (String c s)) as D. destruct (decode_rune (String c s)) as [r w]. cbn [fst] in D.
  destruct (is_space r); [exfalso; tauto|reflexivity].
Qed.
Lemma trim_right_stops n s : ~ ends_white s -> trim_right n s = s.
Proof.
  intros H. destruct n; [reflexivity|]. cbn [trim_right]. destruct s as [|c s]; [reflexivity|].
  pose proof (decode_last_white (String c s)) as D. destruct (decode_last_rune (String c s)) as [r w]. cbn [fst] in D.
  destruct (is_space r); [exfalso; tauto|reflexivity].
Qed.

Lemma trim_left_step n r s : white r -> trim_left (S n) (encode_rune r ++ s)%string = trim_left n s.
Proof.
  intros H. pose proof (encode_rune_length r) as Hl. cbn [trim_left].
  destruct (encode_rune r ++ s)%string eqn:E.
  { exfalso. apply (f_equal String.length) in E. rewrite string_length_append in E. cbn in E. lia. }
  rewrite <- E, decode_encode by apply (white_valid r H). rewrite (proj2 (white_space r) H), drop_append. reflexivity.
Qed.
Lemma trim_right_step n r s : white r -> trim_right (S n) (s ++ encode_rune r)%string = trim_right n s.
Proof.
  intros H. pose proof (encode_rune_length r) as Hl. cbn [trim_right].
  destruct (s ++ encode_rune r)%string eqn:E.
  { exfalso. apply (f_equal String.length) in E. rewrite string_length_append in E. cbn in E. lia. }
  rewrite <- E, last_rune_valid by apply (white_valid r H). rewrite (proj2 (white_space r) H), string_length_append.
  replace (String.length s + String.length (encode_rune r) - String.length (encode_rune r)) with (String.length s) by lia.
  rewrite substring_zero. reflexivity.
Qed.

Lemma trim_left_blank s : ~ starts_white s -> forall l n, Forall white l -> length l <= n ->
  trim_left n (encode l ++ s)%string = s.
Proof.
  intros Hs. induction l as [|r l IH]; intros n F Hn; [apply trim_left_stops; exact Hs|].
  cbn [encode]. rewrite sappend_assoc. inversion F; subst. destruct n; cbn in Hn; [lia|].
  rewrite trim_left_step by assumption. apply IH; [assumption|lia].
Qed.
Lemma trim_right_blank s : ~ ends_white s -> forall l n, Forall white l -> length l <= n ->
  trim_right n (s ++ encode l)%string = s.
Proof.
  intros Hs l. induction l as [|r l IH] using rev_ind; intros n F Hn; [cbn [encode]; rewrite sappend_nil; apply trim_right_stops; exact Hs|].
  rewrite encode_app. cbn [encode]. rewrite sappend_nil, <- sappend_assoc. apply Forall_app in F. destruct F as [F1 F2].
  inversion F2; subst. rewrite app_length in Hn. cbn in Hn. destruct n; [lia|].
  rewrite trim_right_step by assumption. apply IH; [assumption|lia].
Qed.

Lemma split_left : forall n s, String.length s <= n -> exists l u, Forall white l /\ s = (encode l ++ u)%string /\ ~ starts_white u.
Proof.
  induction n as [|n IH]; intros s Hs; destruct (is_space (fst (decode_rune s))) eqn:E;
    try (exists [], s; repeat split; [constructor|]; intros C; apply decode_white in C; congruence).
  - destruct s; [discriminate E|cbn in Hs; lia].
  - apply decode_white in E. destruct E as (r & u & Hr & ->). pose proof (encode_rune_length r).
    rewrite string_length_append in Hs. destruct (IH u ltac:(lia)) as (l & v & F & -> & Hv).
    exists (r :: l), v. split; [constructor; auto|]. split; [cbn [encode]; rewrite sappend_assoc; reflexivity|exact Hv].
Qed.
Lemma split_right : forall n s, String.length s <= n -> exists l u, Forall white l /\ s = (u ++ encode l)%string /\ ~ ends_white u.
Proof.
  induction n as [|n IH]; intros s Hs; destruct (is_space (fst (decode_last_rune s))) eqn:E;
    try (exists [], s; cbn [encode]; rewrite sappend_nil; repeat split; [constructor|]; intros C; apply decode_last_white in C; congruence).
  - destruct s; [discriminate E|cbn in Hs; lia].
  - apply decode_last_white in E. destruct E as (r & u & Hr & ->). pose proof (encode_rune_length r).
    rewrite string_length_append in Hs. destruct (IH u ltac:(lia)) as (l & v & F & -> & Hv).
    exists (l ++ [r]), v. split; [apply Forall_app; split; auto|].
    split; [rewrite encode_app; cbn [encode]; rewrite sappend_nil, sappend_assoc; reflexivity|exact Hv].
Qed.

Lemma encode_nonempty_length l s : length l <= String.length (encode l ++ s)%string.
Proof. rewrite string_length_append. pose proof (encode_length l). lia. Qed.

Lemma trim_space_trimmed text : trimmed text (trim_space text).
Proof.
  destruct (split_left _ text (le_n _)) as (l & u & Fl & -> & Hu).
  destruct (split_right _ u (le_n _)) as (l' & v & Fl' & -> & Hv).
  unfold trim_space. rewrite trim_left_blank by (auto; apply encode_nonempty_length).
  rewrite trim_right_blank by (auto; rewrite string_length_append; pose proof (encode_length l'); lia).
  split.
  - exists (encode l), (encode l'). split; [exists l; auto|]. split; [exists l'; auto|reflexivity].
  - intros r w Hr. split; intros ->.
    + apply Hu. exists r, (w ++ encode l')%string. rewrite sappend_assoc. auto.
    + apply Hv. exists r, w. auto.
Qed.

(** What a text starts with is not changed by a text starting a new rune. *)
Lemma encode_start l c s : Forall white l -> encode l = String c s -> rune_start c = true.
Proof.
  intros F E. destruct l as [|r l]; [discriminate|]. inversion F; subst.
  destruct (encode_rune_shape r (proj1 (white_valid r H1))) as (c' & u & Er & Hc & _).
  cbn [encode] in E. rewrite Er in E. cbn in E. congruence.
Qed.
Lemma append_split : forall a b c d, (a ++ b = c ++ d)%string -> (exists e, c = (a ++ e)%string /\ b = (e ++ d)%string)
  \/ (exists e, e <> ""%string /\ a = (c ++ e)%string /\ d = (e ++ b)%string).
Proof.
  induction a as [|x a IH]; intros b c d H; [left; exists c; auto|]. destruct c as [|y c].
  - right. exists (String x a). repeat split; [discriminate|]. symmetry. exact H.
  - cbn in H. injection H as -> H. destruct (IH b c d H) as [(e & -> & ->)|(e & He & -> & ->)]; [left|right]; exists e; auto.
Qed.
Lemma starts_white_app t l : Forall white l -> t <> ""%string -> starts_white (t ++ encode l) -> starts_white t.
Proof.
  intros F Ht (r & u & Hr & E). apply append_split in E. destruct E as [(e & E1 & E2)|(e & _ & E1 & _)].
  - destruct e as [|c e]; [exists r, ""%string; split; [exact Hr|]; rewrite sappend_nil; rewrite sappend_nil in E1; congruence|]. exfalso. cbn in E2.
    pose proof (encode_start l c _ F E2) as Hc.
    destruct (encode_rune_shape r (proj1 (white_valid r Hr))) as (c' & w & Er & _ & Hw).
    rewrite Er in E1. destruct t as [|c0 t]; [congruence|]. cbn in E1. injection E1 as <- ->.
    rewrite (Hw c) in Hc; [discriminate|]. clear. induction t as [|d t IH]; [left; reflexivity|right; exact IH].
  - exists r, e. auto.
Qed.

Lemma trimmed_unique text t : trimmed text t -> trim_space text = t.
Proof.
  intros [(a & b & (l & Fl & ->) & (l' & Fl' & ->) & ->) H].
  assert (~ starts_white t) as Hs. { intros (r & u & Hr & E). apply (proj1 (H r u Hr) E). }
  assert (~ ends_white t) as He. { intros (r & u & Hr & E). apply (proj2 (H r u Hr) E). }
  unfold trim_space. destruct (string_dec t "") as [->|Hne].
  - cbn [append]. rewrite <- encode_app.
    pose proof (trim_left_blank "" Hs (l ++ l') (String.length (encode (l ++ l'))) (proj2 (Forall_app _ _ _) (conj Fl Fl')) (encode_length _)) as E.
    rewrite sappend_nil in E. rewrite E. reflexivity.
  - rewrite trim_left_blank; [| |assumption|apply encode_nonempty_length].
    + apply trim_right_blank; auto. rewrite string_length_append. pose proof (encode_length l'). lia.
    + intros C. apply Hs. eapply starts_white_app; eauto.
Qed.

Lemma trim_space_exact text t : trim_space text = t <-> trimmed text t.
Proof. split; [intros <-; apply trim_space_trimmed|apply trimmed_unique]. Qed.

Lemma blank_trim text : trim_space text = ""%string <-> blank text.
Proof.
  split.
  - intros H. pose proof (trim_space_trimmed text) as [(a & b & (l & Fl & ->) & (l' & Fl' & ->) & E) _]. rewrite H in E.
    exists (l ++ l'). split; [apply Forall_app; auto|]. rewrite encode_app. exact E.
  - intros (l & Fl & ->). apply trimmed_unique. split.
    + exists (encode l), ""%string. repeat split; [exists l; auto|exists []; auto|rewrite sappend_nil; reflexivity].
    + intros r u _. pose proof (encode_rune_length r). split; intros E; apply (f_equal String.length) in E;
        rewrite string_length_append in E; cbn in E; lia.
Qed.
