(** Terminal matching and the JSON form of term types. *)
From Coq Require Import Ascii.
From Verif Require Import Base ModelTypes ModelText ModelEarley ModelQuote ModelMatch ModelTermType SpecMatch ProofEqual.

Lemma contains_byte_iff c s : contains_byte c s = true <-> has_flag c s.
Proof.
  unfold has_flag. induction s as [|d s IH]; simpl.
  - split; [discriminate|]. intros ([|x a] & b & E); discriminate.
  - rewrite orb_true_iff, IH, Ascii.eqb_eq. split.
    + intros [->|(a & b & ->)]; [exists "", s; reflexivity|exists (String d a), b; reflexivity].
    + intros ([|x a] & b & E); simpl in E; injection E as -> E; [left; reflexivity|].
      right. exists a, b. exact E.
Qed.

Lemma contains_byte_false c s : ~ has_flag c s -> contains_byte c s = false.
Proof. rewrite <- contains_byte_iff. destruct (contains_byte c s); congruence. Qed.

Section M.
  Variables (gtokens : string -> option token) (to_lower : string -> string).
  Notation tm := (terminal_match gtokens to_lower).

  Lemma match_plain t tok : t_type t = TTerminal -> t_meta t = MNil ->
    (tm t (Some tok) = true <-> t_value t = tok_text tok).
  Proof. intros Ht Hm. unfold terminal_match. rewrite Ht, Hm. simpl. apply String.eqb_eq. Qed.

  Lemma match_unknown t tok : t_type t = TTerminal -> gtokens (t_value t) = None ->
    (tm t (Some tok) = true <-> t_value t = tok_text tok).
  Proof.
    intros Ht Hg. unfold terminal_match. rewrite Ht, Hg. simpl.
    destruct (t_meta t); apply String.eqb_eq.
  Qed.

  Lemma match_lemma t tok g flags : t_type t = TTerminal -> t_meta t = MStr flags ->
    gtokens (t_value t) = Some g -> has_flag "l" flags ->
    (tm t (Some tok) = true <-> tok_lemma g = tok_lemma tok).
  Proof.
    intros Ht Hm Hg Hf. unfold terminal_match. rewrite Ht, Hm, Hg. cbn [ttype_eqb negb].
    apply contains_byte_iff in Hf. rewrite Hf. apply String.eqb_eq.
  Qed.

  Lemma match_ignore_case t tok g flags : t_type t = TTerminal -> t_meta t = MStr flags ->
    gtokens (t_value t) = Some g -> ~ has_flag "l" flags -> has_flag "i" flags ->
    (tm t (Some tok) = true <-> to_lower (tok_norm g) = to_lower (tok_norm tok)).
  Proof.
    intros Ht Hm Hg Hl Hf. unfold terminal_match. rewrite Ht, Hm, Hg. cbn [ttype_eqb negb].
    rewrite (contains_byte_false _ _ Hl). apply contains_byte_iff in Hf. rewrite Hf. apply String.eqb_eq.
  Qed.

  Lemma match_other_flags t tok g flags : t_type t = TTerminal -> t_meta t = MStr flags ->
    gtokens (t_value t) = Some g -> ~ has_flag "l" flags -> ~ has_flag "i" flags ->
    tm t (Some tok) = false.
  Proof.
    intros Ht Hm Hg Hl Hi. unfold terminal_match. rewrite Ht, Hm, Hg. cbn [ttype_eqb negb].
    rewrite (contains_byte_false _ _ Hl), (contains_byte_false _ _ Hi). reflexivity.
  Qed.

  Lemma match_only_terminals t tok : tm t tok = true -> t_type t = TTerminal /\ tok <> None.
  Proof.
    unfold terminal_match. destruct tok as [k|]; [|discriminate]. intros H. split; [|discriminate].
    destruct (ttype_eqb (t_type t) TTerminal) eqn:E; [apply ttype_eqb_eq; auto|discriminate].
  Qed.
End M.

(** ** Term types *)
Definition bytes256 : list N := map N.of_nat (seq 0 256).
Lemma in_bytes i : (i < 256)%N -> In i bytes256.
Proof.
  intros H. unfold bytes256. rewrite <- (N2Nat.id i). apply in_map, in_seq. lia.
Qed.

Definition string_ok (i : N) : bool :=
  match tt_string i, tt_name_to_value with
  | Ret s, Ret tbl =>
      plain s && match lookup tbl s with
                 | Some v => N.ltb i 5 && N.eqb v i
                 | None => negb (N.ltb i 5)
                 end
  | _, _ => false
  end.
Lemma string_ok_all i : (i < 256)%N -> string_ok i = true.
Proof.
  intros H. apply in_bytes in H. revert i H. apply forallb_forall. vm_compute. reflexivity.
Qed.

Section J.
  Variables (jm ju : string -> res string).
  Hypothesis Hj : forall s, plain s = true -> exists d, jm s = Ret d /\ ju d = Ret s.

  Lemma tt_spec i : (i < 256)%N -> exists d, tt_marshal jm i = Ret d
    /\ tt_unmarshal ju d = (if N.ltb i 5 then Ret i else Err).
  Proof.
    intros Hi. pose proof (string_ok_all i Hi) as H. unfold string_ok in H.
    unfold tt_marshal, tt_unmarshal.
    destruct (tt_string i) as [s| | |]; try discriminate.
    destruct tt_name_to_value as [tbl| | |] eqn:Et; try discriminate.
    apply andb_true_iff in H as [Hp H]. destruct (Hj s Hp) as (d & H1 & H2).
    exists d. cbn [bind]. split; [exact H1|]. rewrite H2. cbn [bind].
    destruct (lookup tbl s) as [v|].
    - apply andb_true_iff in H as [Hl Hv]. rewrite Hl. apply N.eqb_eq in Hv. congruence.
    - destruct (N.ltb i 5); [discriminate|reflexivity].
  Qed.

  Lemma tt_round t : exists d, tt_marshal jm (tt_code t) = Ret d /\ tt_unmarshal ju d = Ret (tt_code t).
  Proof.
    destruct (tt_spec (tt_code t)) as (d & H1 & H2); [destruct t; reflexivity|].
    exists d. split; auto. rewrite H2. destruct t; reflexivity.
  Qed.

  Lemma tt_other i : (5 <= i < 256)%N -> exists d, tt_marshal jm i = Ret d /\ tt_unmarshal ju d = Err.
  Proof.
    intros [H5 H]. destruct (tt_spec i H) as (d & H1 & H2). exists d. split; auto. rewrite H2.
    destruct (N.ltb_spec i 5); [lia|reflexivity].
  Qed.
End J.
