(** Exactly which strings survive printing and reading; floats printed without a point. *)
From Coq Require Import Ascii Lia.
From Verif Require Import Base ModelTypes ModelText ModelEarley ModelReader ModelQuote ModelString
  SpecNotation SpecString ProofUtf8 ProofReader ProofRefine ProofGrammar ProofString ProofStringContext.

Lemma append_inj a : forall b c, (a ++ b = a ++ c)%string -> b = c.
Proof. induction a as [|x a IH]; intros b c H; [exact H|]. cbn in H. injection H as H. apply IH. exact H. Qed.
Lemma rune_inj c d t u : good c -> good d -> (encode_rune c ++ t = encode_rune d ++ u)%string -> c = d /\ t = u.
Proof.
  intros [Hc _] [Hd _] E. pose proof (decode_encode c t Hc) as D1. pose proof (decode_encode d u Hd) as D2. rewrite E, D2 in D1.
  injection D1 as D1 _. subst d. split; [reflexivity|]. apply append_inj in E. exact E.
Qed.
Lemma bslash_inj c t u : good c -> (encode_rune c ++ t = String "\" u)%string -> c = 92%Z /\ t = u.
Proof. intros Hc E. apply (rune_inj c 92%Z t u Hc); [apply ascii_good; lia|exact E]. Qed.

Section Exact.
  Variables letter_hi digit_hi : rune -> bool.
  Hypothesis Htab : unicode_tables letter_hi digit_hi.
  Variable scan_float : string -> res bigf.
  Variable is_print_hi : rune -> bool.
  Variable float_string : bigf -> string.
  Local Notation letter := (is_letter letter_hi).
  Local Notation digit := (is_digit digit_hi).
  Local Notation printable := (is_print is_print_hi).

  Fixpoint quoted_runes (cs : list rune) : string :=
    match cs with [] => "" | c :: cs' => escape_rune is_print_hi c ++ quoted_runes cs' end.
  Lemma quoted_runes_eq cs : Forall good cs -> forall n, String.length (encode cs) <= n ->
    quote_body is_print_hi n (encode cs) = quoted_runes cs.
  Proof.
    induction 1 as [|c cs Hc _ IH]; intros n Hn; [destruct n; reflexivity|]. cbn [encode quoted_runes] in *.
    rewrite string_length_append in Hn. pose proof (encode_rune_length c). destruct n as [|n]; [lia|].
    rewrite quote_step by exact Hc. rewrite IH by lia. reflexivity.
  Qed.

  (** an escaped rune is the rune or starts with a backslash *)
  Lemma escape_rune_cases d :
    (d <> 34 /\ d <> 92)%Z /\ printable d = true /\ escape_rune is_print_hi d = encode_rune d
    \/ (printable d = false \/ d = 34 \/ d = 92)%Z /\ exists x s, escape_rune is_print_hi d = String "\" (String x s) /\
       (x = "\"%char /\ d = 92%Z /\ s = "" \/ x = "034"%char /\ d = 34%Z /\ s = "" \/ x = "n"%char /\ d = 10%Z /\ s = ""
        \/ x = "t"%char /\ d = 9%Z /\ s = "" \/ In x ["a"; "b"; "f"; "r"; "v"; "x"; "u"; "U"]%char)%string.
  Proof.
    unfold escape_rune.
    destruct (Z.eqb_spec d 34) as [->|N1]; [right; split; [auto|]; do 2 eexists; split; [reflexivity|auto]|].
    destruct (Z.eqb_spec d 92) as [->|N2]; [right; split; [auto|]; do 2 eexists; split; [reflexivity|auto]|]. cbn [orb].
    destruct (printable d) eqn:P; [left; auto|right]. split; [auto|].
    destruct (_ =? 7)%Z; [do 2 eexists; split; [reflexivity|]; cbn; tauto|]. destruct (_ =? 8)%Z; [do 2 eexists; split; [reflexivity|]; cbn; tauto|].
    destruct (_ =? 12)%Z; [do 2 eexists; split; [reflexivity|]; cbn; tauto|].
    destruct (Z.eqb_spec d 10) as [->|_]; [do 2 eexists; split; [reflexivity|]; cbn; tauto|].
    destruct (_ =? 13)%Z; [do 2 eexists; split; [reflexivity|]; cbn; tauto|].
    destruct (Z.eqb_spec d 9) as [->|_]; [do 2 eexists; split; [reflexivity|]; cbn; tauto|].
    destruct (_ =? 11)%Z; [do 2 eexists; split; [reflexivity|]; cbn; tauto|].
    destruct (_ || _); [do 2 eexists; split; [reflexivity|]; cbn; tauto|].
    destruct (negb _); [do 2 eexists; split; [reflexivity|]; cbn; tauto|].
    destruct (_ <? _)%Z; do 2 eexists; (split; [reflexivity|]; cbn; tauto).
  Qed.

  Lemma spells_quoted cs v : spells cs v -> Forall good v -> forall ds, Forall good ds ->
    encode v = quoted_runes ds -> cs = ds /\ Forall (plain_char printable) ds.
  Proof.
    induction 1 as [|c cs v H1 H2 _ IH|x c cs v He _ IH]; intros Gv ds Gd E.
    - destruct ds as [|d ds]; [auto|]. exfalso. cbn [encode quoted_runes] in E.
      destruct (escape_rune_cases d) as [(_ & _ & K)|(_ & y & s & K & _)]; rewrite K in E; [|discriminate E].
      exact (encode_length_nonempty d [] (eq_trans (append_nil_r _) (match encode_rune d as e return ("" = e ++ quoted_runes ds)%string -> e = ""%string with
        | EmptyString => fun _ => eq_refl | String _ _ => fun K => False_ind _ (eq_ind ""%string (fun s => match s with EmptyString => True | _ => False end) I _ K) end E))).
    - inversion Gv as [|? ? Gc Gv']; subst. destruct ds as [|d ds].
      { exfalso. exact (encode_length_nonempty c v E). }
      inversion Gd as [|? ? Gd1 Gd2]; subst. cbn [encode quoted_runes] in E.
      destruct (escape_rune_cases d) as [(_ & P & K)|(_ & y & s & K & _)]; rewrite K in E.
      + apply rune_inj in E; [|assumption|assumption]. destruct E as [-> E]. destruct (IH Gv' ds Gd2 E) as [-> F].
        split; [reflexivity|]. constructor; [split; auto|exact F].
      + exfalso. cbn [append] in E. apply bslash_inj in E; [|exact Gc]. destruct E as [E _]. exact (H2 E).
    - inversion Gv as [|? ? _ Gv1]; subst. inversion Gv1 as [|? ? Gx Gv']; subst.
      cbn [encode] in E. destruct ds as [|d ds]; [discriminate E|]. inversion Gd as [|? ? Gd1 Gd2]; subst. cbn [quoted_runes] in E.
      change (encode_rune 92%Z ++ encode_rune x ++ encode v)%string with (String "\" (encode_rune x ++ encode v)) in E.
      destruct (escape_rune_cases d) as [([D1 D2] & P & K)|(Pr & y & s & K & Y)]; rewrite K in E.
      + exfalso. symmetry in E. apply bslash_inj in E; [|exact Gd1]. destruct E as [E _]. exact (D2 E).
      + cbn [append] in E. injection E as E.
        assert (Hd : forall t, c = d -> encode v = t -> t = quoted_runes ds -> c :: cs = d :: ds /\ Forall (plain_char printable) (d :: ds)).
        { intros t -> <- E2. destruct (IH Gv' ds Gd2 E2) as [-> F]. split; [reflexivity|]. constructor; [|exact F].
          split; [exact Gd1|]. destruct He; auto; left; reflexivity. }
        destruct He; cbn in E; injection E as Ex Es; subst y.
        all: destruct Y as [(Y & -> & ->)|[(Y & -> & ->)|[(Y & -> & ->)|[(Y & -> & ->)|Y]]]]; try discriminate Y;
          try (eapply Hd; [reflexivity|exact Es|reflexivity]).
        all: exfalso; cbn in Y; repeat (destruct Y as [Y|Y]; [discriminate Y|]); exact Y.
  Qed.

  (** unescaped runes in front *)
  Lemma plain_front a : Forall (fun c => good c /\ c <> 92%Z) a -> forall v ds, Forall good ds ->
    (encode a ++ encode v)%string = quoted_runes ds ->
    exists ds', ds = a ++ ds' /\ encode v = quoted_runes ds' /\ Forall (fun c => printable c = true) a.
  Proof.
    induction 1 as [|c a [Gc Hc] _ IH]; intros v ds Gd E; [exists ds; auto|]. cbn [encode] in E. rewrite string_app_assoc in E.
    destruct ds as [|d ds].
    { exfalso. cbn [quoted_runes] in E. pose proof (encode_rune_length c) as L. apply (f_equal String.length) in E.
      rewrite string_length_append in E. cbn [String.length] in E. lia. }
    inversion Gd as [|? ? Gd1 Gd2]; subst. cbn [quoted_runes] in E.
    destruct (escape_rune_cases d) as [(_ & P & K)|(_ & y & s & K & _)]; rewrite K in E.
    - apply rune_inj in E; [|assumption|assumption]. destruct E as [-> E]. destruct (IH v ds Gd2 E) as (ds' & -> & E' & P').
      exists ds'. split; [reflexivity|]. split; [exact E'|]. constructor; assumption.
    - exfalso. cbn [append] in E. apply bslash_inj in E; [|exact Gc]. destruct E as [E _]. exact (Hc E).
  Qed.

  Lemma spells_good cs v : spells cs v -> Forall good v -> Forall good cs.
  Proof.
    induction 1 as [|c cs v _ _ _ IH|x c cs v He _ IH]; intros H; [constructor|..].
    - inversion H; subst. constructor; [assumption|apply IH; assumption].
    - inversion H as [|? ? _ H1]; subst. inversion H1; subst. constructor; [|apply IH; assumption]. destruct He; apply ascii_good; lia.
  Qed.
  Lemma quote_strip s t : ("""" ++ s ++ """" = """" ++ t ++ """")%string -> s = t.
  Proof.
    intros H. cbn [append] in H. injection H as H. revert t H. induction s as [|c s IH]; intros t H; destruct t as [|d t]; cbn in H.
    - reflexivity.
    - injection H as _ H. destruct t; discriminate H.
    - injection H as _ H. destruct s; discriminate H.
    - injection H as -> H. f_equal. apply IH. exact H.
  Qed.

  Lemma literal_exact fl t w : Forall good w -> w_literal letter digit fl t w -> encode w = quote is_print_hi t ->
    exists cs, t = encode cs /\ plain_text printable cs.
  Proof.
    intros Gw Hl. revert Gw. destruct Hl as [sp cs v H1 H2 H3|sp1 sp2 sp3 f cs v H1 H2 H3 H4 H5]; intros Gw E.
    - exists cs. split; [reflexivity|].
      assert (Gsp : Forall good sp /\ Forall good v).
      { apply Forall_app in Gw. destruct Gw as [_ Gw]. apply Forall_app in Gw. destruct Gw as [G1 G2]. apply Forall_app in G2. tauto. }
      destruct Gsp as [Gsp Gv]. pose proof (spells_good cs v H2 Gv) as Gcs.
      unfold quote in E. rewrite !encode_app in E. change (encode [34%Z]) with """"%string in E.
      rewrite <- (string_app_assoc (encode sp)) in E. apply quote_strip in E. rewrite quoted_runes_eq in E by (auto; lia).
      destruct (plain_front sp) with (v := v) (ds := cs) as (ds' & Ecs & E' & P); [|exact Gcs|exact E|].
      { unfold spaces in H1. rewrite Forall_forall in *. intros c Hc. split; [apply Gsp; exact Hc|]. intros ->. specialize (H1 _ Hc). discriminate H1. }
      assert (Gds : Forall good ds') by (rewrite Ecs in Gcs; apply Forall_app in Gcs; tauto).
      destruct (spells_quoted cs v H2 Gv ds' Gds E') as [-> F].
      assert (sp = []) as ->. { destruct sp as [|c sp]; [reflexivity|]. apply (f_equal (@length rune)) in Ecs. rewrite app_length in Ecs. cbn in Ecs. lia. }
      split; [exact F|]. destruct H2 as [|c cs v C1 C2 _|x c cs v He _].
      + exact I.
      + right. right. exact H3.
      + destruct He; auto; right; right; split; try reflexivity; try discriminate.
    - exfalso.
      assert (G : Forall good sp1 /\ Forall good sp2 /\ Forall good sp3 /\ Forall good f /\ Forall good v).
      { repeat (apply Forall_app in Gw; let A := fresh in destruct Gw as [A Gw]; try (exact A)). tauto. }
      destruct G as (G1 & G2 & G3 & G4 & G5). pose proof (spells_good cs v H5 G5) as Gcs.
      set (a := sp1 ++ [40]%Z ++ sp2 ++ [63]%Z ++ sp3 ++ f ++ [41]%Z).
      assert (Ea : encode ([34]%Z ++ sp1 ++ [40]%Z ++ sp2 ++ [63]%Z ++ sp3 ++ f ++ [41]%Z ++ v ++ [34]%Z)
                   = ("""" ++ (encode a ++ encode v) ++ """")%string).
      { unfold a. rewrite !encode_app, !string_app_assoc. reflexivity. }
      rewrite Ea in E. unfold quote in E. apply quote_strip in E. rewrite quoted_runes_eq in E by (auto; lia).
      assert (S0 : forall sp, spaces sp -> Forall (fun c => c <> 92%Z) sp).
      { intros sp. apply Forall_impl. intros c Hc ->. discriminate Hc. }
      destruct (plain_front a) with (v := v) (ds := cs) as (ds' & Ecs & E' & P); [|exact Gcs|exact E|].
      { assert (Ga : Forall good a). { unfold a. repeat first [apply Forall_nil | apply Forall_cons; [apply ascii_good; lia|] | apply Forall_app; split | assumption]. }
        assert (Na : Forall (fun c => c <> 92%Z) a).
        { unfold a. repeat first [apply Forall_nil | apply Forall_cons; [discriminate|] | apply Forall_app; split | apply S0; assumption].
          destruct f as [|c f]; [destruct H4|]. destruct H4 as [K1 K2].
          assert (L : forall c, letter c = true -> c <> 92%Z) by (intros x Hx; pose proof (letter_cases letter_hi x Hx); unfold rune in *; lia).
          constructor; [destruct K1 as [K1| ->]; [apply L; exact K1|discriminate]|]. eapply Forall_impl; [|exact K2].
          intros x [Hx|[-> |Hx]]; [apply L; exact Hx|discriminate|]. pose proof (digit_cases digit_hi x Hx). unfold rune in *. lia. }
        rewrite Forall_forall in *. intros c Hc. split; [apply Ga|apply Na]; exact Hc. }
      assert (Gds : Forall good ds') by (rewrite Ecs in Gcs; apply Forall_app in Gcs; tauto).
      destruct (spells_quoted cs v H5 G5 ds' Gds E') as [-> _].
      apply (f_equal (@length rune)) in Ecs. unfold a in Ecs. rewrite !app_length in Ecs. cbn in Ecs. lia.
  Qed.

  Lemma func_paren fn : func_text letter digit fn -> Forall (fun c => c <> 40%Z) fn.
  Proof.
    intros [H _]. destruct fn as [|c fn]; [destruct H|]. destruct H as [K1 K2].
    assert (L : forall c, letter c = true -> c <> 40%Z) by (intros x Hx; pose proof (letter_cases letter_hi x Hx); unfold rune in *; lia).
    constructor; [destruct K1 as [K1| ->]; [apply L; exact K1|discriminate]|]. eapply Forall_impl; [|exact K2].
    intros x [[Hx|[-> |Hx]]| ->]; [apply L; exact Hx|discriminate| |discriminate]. pose proof (digit_cases digit_hi x Hx). unfold rune in *. lia.
  Qed.
  Lemma paren_split a : forall b t u, Forall good a -> Forall (fun c => c <> 40%Z) a -> Forall good b -> Forall (fun c => c <> 40%Z) b ->
    (encode a ++ "(" ++ t = encode b ++ "(" ++ u)%string -> a = b /\ t = u.
  Proof.
    assert (G40 : good 40%Z) by (apply ascii_good; lia).
    induction a as [|c a IH]; intros [|d b] t u Ga Na Gb Nb E; cbn [encode] in E; rewrite ?string_app_assoc in E.
    - split; [reflexivity|]. apply append_inj in E. apply (append_inj "(") in E. exact E.
    - exfalso. inversion Gb; inversion Nb; subst. apply (rune_inj 40%Z d _ _ G40) in E; [|assumption]. destruct E as [E _]. congruence.
    - exfalso. inversion Ga; inversion Na; subst. symmetry in E. apply (rune_inj 40%Z c _ _ G40) in E; [|assumption]. destruct E as [E _]. congruence.
    - inversion Ga; inversion Na; inversion Gb; inversion Nb; subst. apply rune_inj in E; [|assumption|assumption].
      destruct E as [-> E]. destruct (IH b t u) as [-> ->]; auto.
  Qed.
  Lemma paren_strip s t : (s ++ ")" = t ++ ")")%string -> s = t.
  Proof.
    revert t. induction s as [|c s IH]; intros t H; destruct t as [|d t]; cbn in H.
    - reflexivity.
    - injection H as _ H. destruct t; discriminate H.
    - injection H as _ H. destruct s; discriminate H.
    - injection H as -> H. f_equal. apply IH. exact H.
  Qed.
  Lemma last_of_app a b c d : (a ++ String b "" = c ++ d)%string -> d <> ""%string -> In b (list_ascii_of_string d).
  Proof.
    revert c. induction a as [|x a IH]; intros c H Hd.
    - destruct c as [|y c]; cbn in H; [subst d; left; reflexivity|]. injection H as _ H. destruct c; [exfalso; apply Hd; symmetry; exact H|discriminate H].
    - destruct c as [|y c]; cbn in H; [|injection H as _ H; exact (IH c H Hd)].
      subst d. clear. cbn. right. induction a as [|y a IH]; [left; reflexivity|right; exact IH].
  Qed.

  Lemma string_exact fn s : Forall good fn -> func_text letter digit fn ->
    let f := FMR (encode fn) [Arg "string" (VStr s)] in
    (exists w, Forall good w /\ w_fmr letter digit scan_float f w /\ encode w = fmr_string is_print_hi float_string f)
    <-> exists cs, s = encode cs /\ plain_text printable cs.
  Proof.
    intros Gf Hf f. split.
    - intros (w & Gw & W & E). unfold f in *. rewrite fmr_string_eq in E. cbn [arg_strings join] in E.
      change (arg_string is_print_hi float_string (Arg "string" (VStr s))) with (Some (quote is_print_hi s)) in E. cbn match in E. cbn [join] in E.
      inversion W as [fn' sp l v K1 K2 K3 E1 Ew]; subst.
      inversion K3 as [a sp1 u sp2 S1 A S2 E2 E3|]; [subst|match goal with H : w_args _ _ _ [] _ |- _ => inversion H end].
      inversion A as [| |fl t u' L E4 E5| | | | |]; subst.
      assert (Gp : Forall good fn' /\ Forall good sp /\ Forall good sp1 /\ Forall good u /\ Forall good sp2).
      { repeat match goal with H : Forall _ (_ ++ _) |- _ => apply Forall_app in H; destruct H end. tauto. }
      destruct Gp as (G1 & G2 & G3 & G4 & G5).
      assert (F : fn = fn' ++ sp /\ (quote is_print_hi s ++ ")" = encode (sp1 ++ u ++ sp2) ++ ")")%string).
      { apply (paren_split fn (fn' ++ sp)); [exact Gf|apply func_paren; exact Hf|apply Forall_app; auto| |].
        - apply Forall_app. split; [apply func_paren; exact K1|]. eapply Forall_impl; [|exact K2]. intros c Hc ->. discriminate Hc.
        - rewrite <- E. rewrite !encode_app, !string_app_assoc. reflexivity. }
      destruct F as [_ F]. apply paren_strip in F. rewrite !encode_app in F.
      destruct sp1 as [|c sp1].
      2:{ exfalso. inversion S1; subst. inversion G3; subst. cbn [encode] in F. rewrite string_app_assoc in F. unfold quote in F. cbn [append] in F.
          pose proof (rune_inj 34%Z c _ _ ltac:(apply ascii_good; lia) ltac:(eassumption) F) as [<- _]. discriminate. }
      destruct sp2 as [|c sp2].
      2:{ exfalso. assert (Q : Forall (fun x => is_space x = true) (c :: sp2)) by exact S2.
          assert (L0 : In "034"%char (list_ascii_of_string (encode (c :: sp2)))).
          { apply (last_of_app ("""" ++ quote_body is_print_hi (String.length s) s)%string "034"%char (encode u)); [|apply encode_length_nonempty].
            rewrite string_app_assoc. exact F. }
          revert L0. apply (no_byte (fun x => is_space x = true)); [cbn; lia|exact Q|discriminate]. }
      cbn [encode append] in F. rewrite append_nil_r in F. apply (literal_exact fl s u); auto.
    - intros (cs & -> & Hc). destruct (print_read letter_hi digit_hi scan_float is_print_hi float_string f) as (w & W & G & E).
      + unfold f. constructor; [exact Gf|exact Hf|]. constructor. constructor. exact Hc.
      + exists w. auto.
  Qed.

  (** a float that prints without a point comes back as an integer *)
  Lemma float_as_int fn x d ds : Forall good fn -> func_text letter digit fn ->
    float_string x = encode (d :: ds) -> decimals (d :: ds) -> d <> 48%Z \/ ds = [] ->
    exists w, Forall good w /\ encode w = fmr_string is_print_hi float_string (FMR (encode fn) [Arg "float" (VFloat x)]) /\
      w_fmr letter digit scan_float (FMR (encode fn) [Arg "int" (VInt (decimal_value (d :: ds)))]) w.
  Proof.
    intros Gf Hf Ex D Hd. exists (fn ++ [] ++ [40]%Z ++ (d :: ds) ++ [41]%Z). split; [|split].
    - apply Forall_app. split; [exact Gf|]. constructor; [apply ascii_good; lia|]. apply Forall_app.
      split; [apply decimal_good; exact D|constructor; [apply ascii_good; lia|constructor]].
    - rewrite fmr_string_eq. cbn [arg_strings]. change (arg_string is_print_hi float_string (Arg "float" (VFloat x))) with (Some (float_string x)).
      cbn match. cbn [join]. rewrite Ex. rewrite !encode_app. reflexivity.
    - apply wf_intro; [exact Hf|constructor|]. pose proof (was_last letter digit scan_float (Arg "int" (VInt (decimal_value (d :: ds)))) [] (d :: ds) []) as W.
      rewrite app_nil_r in W. apply W; [constructor| |constructor]. apply wa_int. apply il_decimal; assumption.
  Qed.
End Exact.
