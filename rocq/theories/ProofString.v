(** Printed semantic functions are texts of the notation. *)
From Coq Require Import Ascii Decimal DecimalString DecimalN DecimalFacts Lia.
From Verif Require Import Base ModelTypes ModelText ModelEarley ModelReader ModelQuote ModelString SpecNotation SpecString
  ProofUtf8 ProofReader ProofNumber.

(** decimal numbers *)
Fixpoint digits_of (d : uint) : list rune :=
  (match d with
   | Nil => []
   | D0 d => 48 :: digits_of d | D1 d => 49 :: digits_of d | D2 d => 50 :: digits_of d
   | D3 d => 51 :: digits_of d | D4 d => 52 :: digits_of d | D5 d => 53 :: digits_of d
   | D6 d => 54 :: digits_of d | D7 d => 55 :: digits_of d | D8 d => 56 :: digits_of d
   | D9 d => 57 :: digits_of d
   end)%Z.
Lemma digits_decimals d : decimals (digits_of d).
Proof. induction d; cbn; constructor; try exact IHd; lia. Qed.
Lemma digits_encode d : encode (digits_of d) = NilEmpty.string_of_uint d.
Proof.
  assert (K : forall z s, (48 <= z <= 57)%Z -> (encode_rune z ++ s)%string = String (of_byte z) s).
  { intros z s Hz. unfold encode_rune. replace (valid_rune z) with true.
    - replace (z <? 128)%Z with true by (symmetry; apply Z.ltb_lt; lia). reflexivity.
    - symmetry. unfold valid_rune. rewrite orb_true_iff, andb_true_iff, Z.leb_le, Z.ltb_lt. lia. }
  induction d; cbn [digits_of encode NilEmpty.string_of_uint]; [reflexivity|..]; rewrite K by lia; rewrite IHd; reflexivity.
Qed.
Lemma digits_acc d : forall p, fold_left (fun a d => a * 10 + (d - 48))%Z (digits_of d) (Zpos p) = Zpos (Pos.of_uint_acc d p).
Proof.
  induction d; intros p; cbn [digits_of fold_left Pos.of_uint_acc]; [reflexivity|..]; rewrite <- IHd; f_equal; lia.
Qed.
Lemma digits_value d : decimal_value (digits_of d) = Z.of_N (N.of_uint d).
Proof.
  unfold decimal_value, N.of_uint.
  induction d; cbn [digits_of fold_left Pos.of_uint]; [reflexivity|exact IHd|..];
    cbn [Z.of_N]; rewrite <- digits_acc; reflexivity.
Qed.
Lemma unorm_cases d : unorm d = D0 Nil \/ exists c ds, digits_of (unorm d) = c :: ds /\ c <> 48%Z.
Proof.
  unfold unorm. destruct (nzhead d) as [|u|u|u|u|u|u|u|u|u|u] eqn:E; [left; reflexivity|exfalso; exact (nzhead_nonzero d u E)|..];
    right; do 2 eexists; (split; [reflexivity|discriminate]).
Qed.
(** the digits of a number: no leading zero *)
Lemma dec_N_digits n : exists c ds, dec_N n = encode (c :: ds) /\ decimals (c :: ds)
  /\ decimal_value (c :: ds) = Z.of_N n /\ (c <> 48%Z \/ ds = []).
Proof.
  pose proof (Unsigned.to_of (N.to_uint n)) as E. rewrite Unsigned.of_to in E.
  assert (V : decimal_value (digits_of (N.to_uint n)) = Z.of_N n) by (rewrite digits_value, Unsigned.of_to; reflexivity).
  assert (S0 : dec_N n = encode (digits_of (N.to_uint n))).
  { unfold dec_N. rewrite digits_encode. destruct (N.to_uint n) eqn:E'; try reflexivity.
    exfalso. symmetry in E. exact (unorm_nonnil _ E). }
  pose proof (digits_decimals (N.to_uint n)) as D. destruct (unorm_cases (N.to_uint n)) as [K|(c & ds & K & Kc)]; rewrite <- E in K.
  - exists 48%Z, []. rewrite K in *. auto.
  - rewrite K in *. exists c, ds. auto.
Qed.
Lemma decimal_good ds : decimals ds -> Forall good ds.
Proof.
  apply Forall_impl. intros c Hc. split; [|unfold RuneError; lia].
  unfold valid_rune. rewrite orb_true_iff, andb_true_iff, Z.leb_le, Z.ltb_lt. left. lia.
Qed.
Lemma ascii_good c : (0 <= c < 128)%Z -> good c.
Proof.
  intros H. split; [|unfold RuneError; lia]. unfold valid_rune. rewrite orb_true_iff, andb_true_iff, Z.leb_le, Z.ltb_lt. lia.
Qed.

Scheme plain_arg_mind := Induction for plain_arg Sort Prop
  with plain_args_mind := Induction for plain_args Sort Prop
  with plain_fmr_mind := Induction for plain_fmr Sort Prop.
Combined Scheme plain_mutind from plain_arg_mind, plain_args_mind, plain_fmr_mind.

Section Print.
  Variables letter_hi digit_hi : rune -> bool.
  Hypothesis Htab : unicode_tables letter_hi digit_hi.
  Variable scan_float : string -> res bigf.
  Variable is_print_hi : rune -> bool.
  Variable float_string : bigf -> string.
  Local Notation letter := (is_letter letter_hi).
  Local Notation digit := (is_digit digit_hi).
  Local Notation printable := (is_print is_print_hi).

  (** quoted texts *)
  Lemma quote_step c t n : good c ->
    quote_body is_print_hi (S n) (encode_rune c ++ t) = (escape_rune is_print_hi c ++ quote_body is_print_hi n t)%string.
  Proof.
    intros Hg. pose proof (decode_encode c t (proj1 Hg)) as D. pose proof (drop_append (encode_rune c) t) as P.
    pose proof (encode_rune_length c) as L.
    destruct (encode_rune c ++ t)%string as [|c0 s0] eqn:E0.
    { exfalso. apply (f_equal String.length) in E0. rewrite string_length_append in E0. cbn in E0. lia. }
    cbn [quote_body]. rewrite D, P.
    replace (Z.eqb c RuneError) with false by (symmetry; apply Z.eqb_neq; apply Hg). rewrite andb_false_r. reflexivity.
  Qed.
  Lemma quote_spells cs : Forall (plain_char printable) cs -> forall n, String.length (encode cs) <= n ->
    exists w, spells cs w /\ Forall good w /\ quote_body is_print_hi n (encode cs) = encode w
      /\ match cs with
         | [] => w = []
         | c :: _ => match w with [] => False | x :: _ => x = 92%Z \/ x = c /\ printable c = true end
         end.
  Proof.
    induction 1 as [|c cs [Hg Hp] Hcs IH]; intros n Hn.
    - exists []. repeat split; try constructor. destruct n; reflexivity.
    - cbn [encode] in *. rewrite string_length_append in Hn. pose proof (encode_rune_length c) as L.
      destruct n as [|n]; [lia|]. destruct (IH n ltac:(lia)) as (w & S1 & G1 & E1 & _).
      rewrite quote_step by exact Hg. rewrite E1. unfold escape_rune.
      destruct (Z.eqb_spec c 34) as [->|N1]; [|destruct (Z.eqb_spec c 92) as [->|N2]]; cbn [orb].
      + exists (92 :: 34 :: w)%Z. split; [apply spells_escape; [constructor|exact S1]|].
        split; [repeat (constructor; [apply ascii_good; lia|]); exact G1|]. split; [reflexivity|]. auto.
      + exists (92 :: 92 :: w)%Z. split; [apply spells_escape; [constructor|exact S1]|].
        split; [repeat (constructor; [apply ascii_good; lia|]); exact G1|]. split; [reflexivity|]. auto.
      + destruct (printable c) eqn:Ep.
        * exists (c :: w). split; [apply spells_plain; assumption|]. split; [constructor; assumption|]. split; [reflexivity|]. auto.
        * destruct Hp as [Hp|[-> | ->]]; [congruence|..].
          -- exists (92 :: 110 :: w)%Z. split; [apply spells_escape; [constructor|exact S1]|].
             split; [repeat (constructor; [apply ascii_good; lia|]); exact G1|]. split; [reflexivity|]. auto.
          -- exists (92 :: 116 :: w)%Z. split; [apply spells_escape; [constructor|exact S1]|].
             split; [repeat (constructor; [apply ascii_good; lia|]); exact G1|]. split; [reflexivity|]. auto.
  Qed.
  Lemma quote_literal cs : plain_text printable cs ->
    exists w, w_literal letter digit "" (encode cs) w /\ Forall good w /\ quote is_print_hi (encode cs) = encode w.
  Proof.
    intros [H Hh]. destruct (quote_spells cs H (String.length (encode cs)) ltac:(lia)) as (w & S1 & G1 & E1 & F1).
    exists ([34]%Z ++ [] ++ w ++ [34]%Z). split; [|split].
    - apply lit_plain; [constructor|exact S1|]. destruct cs as [|c cs]; [subst w; exact I|].
      destruct w as [|x w]; [destruct F1|]. destruct F1 as [->|[-> Hp]]; [split; [reflexivity|discriminate]|].
      destruct Hh as [->|[->|Hh]]; [discriminate|discriminate|exact Hh].
    - cbn [app]. constructor; [apply ascii_good; lia|]. apply Forall_app. split; [exact G1|]. constructor; [apply ascii_good; lia|constructor].
    - unfold quote. rewrite E1. cbn [app encode]. rewrite encode_app. reflexivity.
  Qed.

  (** the three kinds of texts at once *)
  Local Notation w_arg' := (w_arg letter digit scan_float).
  Local Notation w_args' := (w_args letter digit scan_float).
  Local Notation w_fmr' := (w_fmr letter digit scan_float).
  Fixpoint arg_strings (l : list arg) : option (list string) :=
    match l with
    | [] => Some []
    | a :: l' =>
        match arg_string is_print_hi float_string a with
        | None => None
        | Some s => match arg_strings l' with None => None | Some ss => Some (s :: ss) end
        end
    end.
  Lemma fmr_string_eq fn l : fmr_string is_print_hi float_string (FMR fn l)
    = match arg_strings l with None => "invalid_fmr" | Some ss => (fn ++ "(" ++ join "," ss ++ ")") end%string.
  Proof. reflexivity. Qed.
  Lemma encode_minus ds : encode ([45]%Z ++ ds) = ("-" ++ encode ds)%string.
  Proof. reflexivity. Qed.
  Lemma digits_class ds : decimals ds -> Forall (fun c => digit c = true) ds.
  Proof. apply Forall_impl. intros c Hc. apply ascii_digit_digit. exact Hc. Qed.

  Lemma print_mutual :
    (forall a, plain_arg letter digit scan_float printable float_string a ->
       exists w, w_arg' a w /\ Forall good w /\ arg_string is_print_hi float_string a = Some (encode w)) /\
    (forall l, plain_args letter digit scan_float printable float_string l ->
       exists w ss, w_args' l w /\ Forall good w /\ arg_strings l = Some ss /\ join "," ss = encode w) /\
    (forall f, plain_fmr letter digit scan_float printable float_string f ->
       exists w, w_fmr' f w /\ Forall good w /\ fmr_string is_print_hi float_string f = encode w).
  Proof.
    apply plain_mutind.
    - intros cs H. destruct (quote_literal cs H) as (w & H1 & H2 & H3). exists w. cbn [arg_string String.eqb Ascii.eqb Bool.eqb]. rewrite H3.
      split; [econstructor; exact H1|auto].
    - intros z. cbn [arg_string String.eqb Ascii.eqb Bool.eqb]. destruct z as [|p|p]; cbn [dec_Z].
      + exists [48]%Z. split; [apply wa_int; apply (il_decimal digit 48%Z []); [repeat constructor; lia|auto]|].
        split; [constructor; [apply ascii_good; lia|constructor]|reflexivity].
      + destruct (dec_N_digits (Npos p)) as (c & ds & E & D & V & K). exists (c :: ds).
        split; [|split; [apply decimal_good; exact D|cbn [Z.to_N]; rewrite E; reflexivity]].
        replace (Zpos p) with (decimal_value (c :: ds)) by (rewrite V; reflexivity). apply wa_int. apply il_decimal; assumption.
      + destruct (dec_N_digits (Npos p)) as (c & ds & E & D & V & K). exists ([45]%Z ++ c :: ds).
        split; [|split; [constructor; [apply ascii_good; lia|apply decimal_good; exact D]|rewrite E; reflexivity]].
        replace (Zneg p) with (- decimal_value (c :: ds))%Z by (rewrite V; reflexivity). apply wa_negative. apply il_decimal; assumption.
    - intros x (ds & ds' & D1 & D2 & Hne & Hs & Hx). cbn [arg_string String.eqb Ascii.eqb Bool.eqb].
      assert (G : Forall good (ds ++ [46]%Z ++ ds')).
      { apply Forall_app. split; [apply decimal_good; exact D1|]. constructor; [apply ascii_good; lia|apply decimal_good; exact D2]. }
      destruct Hs as [Hs|Hs].
      + exists (ds ++ [46]%Z ++ ds'). split; [|split; [exact G|rewrite Hs; reflexivity]].
        destruct ds as [|d ds]; [congruence|]. cbn [app]. apply wa_float.
        * apply ascii_digit_digit. inversion D1; assumption.
        * apply (fl_intro digit scan_float (d :: ds) ds' "" x); [apply digits_class; exact D1|apply digits_class; exact D2|].
          rewrite <- Hx, Hs. reflexivity.
      + exists ([45]%Z ++ ds ++ [46]%Z ++ ds'). split; [|split].
        * apply wa_negative_float. apply (fl_intro digit scan_float ds ds' "-" x); [apply digits_class; exact D1|apply digits_class; exact D2|].
          rewrite <- Hx, Hs. reflexivity.
        * constructor; [apply ascii_good; lia|exact G].
        * rewrite Hs. reflexivity.
    - intros i Hi. cbn [arg_string String.eqb Ascii.eqb Bool.eqb].
      destruct (dec_N_digits (Z.to_N i)) as (c & ds & E & D & V & K). rewrite Z2N.id in V by lia.
      assert (Ed : dec_Z i = dec_N (Z.to_N i)) by (destruct i as [|p|p]; [reflexivity|reflexivity|lia]).
      exists ([36]%Z ++ c :: ds). split; [|split].
      + apply wa_index. apply number_exact; [exact D|discriminate|lia|lia].
      + constructor; [apply ascii_good; lia|apply decimal_good; exact D].
      + rewrite Ed, E. reflexivity.
    - intros f _ (w & H1 & H2 & H3). exists w. split; [constructor; exact H1|]. split; [exact H2|].
      change (Some (fmr_string is_print_hi float_string f) = Some (encode w)). rewrite H3. reflexivity.
    - intros a _ (w & H1 & H2 & H3). exists w, [encode w]. cbn [arg_strings]. rewrite H3.
      split; [|auto]. pose proof (was_last letter digit scan_float a [] w []) as W. rewrite app_nil_r in W. apply W; [constructor|exact H1|constructor].
    - intros a l _ (w & H1 & H2 & H3) Hl (w' & ss & H4 & H5 & H6 & H7).
      exists (w ++ [44]%Z ++ w'), (encode w :: ss). cbn [arg_strings]. rewrite H3, H6.
      split; [exact (was_more letter digit scan_float a [] w [] l w' ltac:(constructor) H1 ltac:(constructor) H4)|].
      split; [apply Forall_app; split; [exact H2|constructor; [apply ascii_good; lia|exact H5]]|]. split; [reflexivity|].
      rewrite encode_app. cbn [app encode]. rewrite <- H7.
      destruct ss as [|s ss]; [|reflexivity].
      exfalso. clear -H6 Hl. destruct Hl; cbn in H6; destruct (arg_string _ _ a); try discriminate; destruct (arg_strings l); discriminate.
    - intros fn l Hg Hf _ (w & ss & H1 & H2 & H3 & H4). exists (fn ++ [] ++ [40]%Z ++ w ++ [41]%Z).
      split; [apply wf_intro; [exact Hf|constructor|exact H1]|].
      split; [apply Forall_app; split; [exact Hg|constructor; [apply ascii_good; lia|apply Forall_app; split; [exact H2|constructor; [apply ascii_good; lia|constructor]]]]|].
      rewrite fmr_string_eq, H3, H4. cbn [app]. rewrite encode_app. cbn [encode]. rewrite encode_app. reflexivity.
  Qed.
  Lemma print_read f : plain_fmr letter digit scan_float printable float_string f ->
    exists w, w_fmr' f w /\ Forall good w /\ fmr_string is_print_hi float_string f = encode w.
  Proof. apply print_mutual. Qed.
End Print.
