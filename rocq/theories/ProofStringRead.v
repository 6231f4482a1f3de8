(** Reading a printed function back through the grammar reader; printed functions
    with context arguments. *)
From Coq Require Import Ascii Lia.
From Verif Require Import Base ModelTypes ModelText ModelEarley ModelReader ModelGrammar ModelQuote ModelString
  SpecGrammar SpecNotation SpecRefine SpecConstruct SpecString ProofUtf8 ProofTerm ProofRefine ProofReader ProofString ProofConstruct.

Lemma some_lookup_N {A} (m : list (N * A)) k a : lookup_N m k = Some a -> In (k, a) m.
Proof.
  induction m as [|[k' a'] m IH]; intros H; [discriminate H|]. cbn in H.
  destruct (N.eqb_spec k' k) as [->|_]; [injection H as ->; left; reflexivity|right; apply IH; exact H].
Qed.
Lemma one_body {A} (m : list (N * A)) k b : NoDup (map fst m) ->
  (forall h a, In (h, a) m -> h = k /\ a = b) -> In (k, b) m -> m = [(k, b)].
Proof.
  intros Hn Ha Hi. destruct m as [|[k1 a1] m]; [destruct Hi|]. destruct (Ha k1 a1 (or_introl eq_refl)) as [-> ->].
  destruct m as [|[k2 a2] m]; [reflexivity|]. destruct (Ha k2 a2 (or_intror (or_introl eq_refl))) as [-> ->].
  cbn in Hn. inversion Hn as [|? ? H1 _]; subst. exfalso. apply H1. left. reflexivity.
Qed.

Section ReadPrinted.
  Variable e : env.
  Hypothesis HE : env_ok e.
  Variable is_print_hi : rune -> bool.
  Variable float_string : bigf -> string.
  Local Notation letter := (is_letter (e_letter e)).
  Local Notation digit := (is_digit (e_digit e)).

  Lemma name_good_bracket x : Forall good x -> Forall good ([60]%Z ++ x ++ [62]%Z).
  Proof.
    intros H. constructor; [apply ascii_good; lia|]. apply Forall_app. split; [exact H|]. constructor; [apply ascii_good; lia|constructor].
  Qed.

  Lemma read_printed fuel depth x y f name gt :
    Forall good x -> name_text letter digit x -> Forall good y -> name_text letter digit y ->
    plain_fmr letter digit (e_scan e) (is_print is_print_hi) float_string f ->
    (forall v, exists tk, e_tokenize e v = Ret tk) ->
    let d := rule_text (encode x) (encode y) (fmr_string is_print_hi float_string f) in
    let b := mkRb [mkTerm (encode y) TNonterminal MNil] (Some f) in
    String.length d < fuel ->
    exists g w', from_string e fuel (S depth) d name gt = Ret (Some g, w') /\
      lookup (g_rules g) (encode x) = Some (mkRule (encode x) [(e_hash e b, b)]).
  Proof.
    intros Gx Nx Gy Ny Hf Htk d b Hlen.
    destruct (print_read (e_letter e) (e_digit e) (e_scan e) is_print_hi float_string f Hf) as (wf & W & Gf & Ef).
    set (w := [] ++ ([60]%Z ++ x ++ [62]%Z ++ [] ++ [61]%Z ++ []
              ++ ((([60]%Z ++ y ++ [62]%Z) ++ []) ++ [123]%Z ++ [] ++ wf ++ [] ++ [125]%Z ++ []) ++ [59]%Z) ++ []).
    assert (Ew : d = encode w).
    { unfold d, w, rule_text. rewrite Ef. cbn [app]. rewrite ?app_nil_r. repeat (rewrite ?encode_app; cbn [encode app]).
      rewrite !string_app_assoc. reflexivity. }
    assert (Gw : Forall good w).
    { unfold w. cbn [app]. rewrite ?app_nil_r.
      repeat first [apply Forall_nil | apply Forall_cons; [apply ascii_good; lia|] | apply Forall_app; split | assumption]. }
    assert (Iw : e_items e [mkItem false (encode x) [b]] [] w).
    { unfold e_items, w. apply (wis_item letter digit (e_scan e) (e_regexp_ok e) (e_md5 e) [] _ [] _ [] [] []); [constructor| |apply wis_end; constructor].
      apply wi_rule; [exact Nx|constructor|constructor|]. apply wbs_last. apply wb_func; [|constructor|exact W|constructor|constructor].
      apply (wts_last letter digit (e_regexp_ok e) (e_md5 e) _ [] _ []); [apply wt_nonterminal; exact Ny|constructor]. }
    destruct (env_read_back e HE fuel depth w name gt _ _ Gw Iw) as (g & w' & E & _ & _ & _ & _ & rules & T & D & R & _).
    - rewrite <- Ew. exact Hlen.
    - exact Htk.
    - intros it b0 t [<-|[]] [<-|[]] [<-|[]] K. discriminate K.
    - exists g, w'. split; [rewrite Ew; exact E|].
      destruct D as (_ & _ & D). specialize (D (encode x)).
      assert (Wx : written [mkItem false (encode x) [b]] false (encode x) = [b]).
      { unfold written. cbn [flat_map it_frame it_name it_bodies Bool.eqb andb]. rewrite String.eqb_refl. reflexivity. }
      rewrite Wx in D. destruct (D ltac:(discriminate)) as (r & L & Rn & Nd & B). cbn [rev app find] in B.
      destruct R as (_ & _ & [P1 P2] & _ & Ro & _).
      destruct (Ro _ _ L) as (r' & L' & Rn' & F1 & F2). rewrite L'. f_equal.
      assert (Hin : In (e_hash e b, b) (r_body r)).
      { apply some_lookup_N. rewrite B, N.eqb_refl. reflexivity. }
      assert (Hone : forall h a, In (h, a) (r_body r) -> h = e_hash e b /\ a = b).
      { intros h a Ha. apply lookup_N_in in Ha; [|exact Nd]. rewrite B in Ha.
        destruct (N.eqb_spec (e_hash e b) h) as [<-|]; [|discriminate Ha]. injection Ha as <-. auto. }
      assert (Hrep : forall b', replaced_body T b b' -> b' = b).
      { intros [ts' f'] [H1 H2]. cbn in H1, H2. inversion H2 as [|t t' l l' K1 K2]; subst. inversion K2; subst.
        destruct K1 as [[K1 _]|[_ ->]]; [discriminate K1|]. reflexivity. }
      assert (Hb : r_body r' = [(e_hash e b, b)]).
      { apply one_body.
        - apply (P2 (encode x)). apply lookup_in. exact L'.
        - intros h a Ha. destruct (F2 h a Ha) as (b0 & Hb0 & Hr). destruct (Hone _ _ Hb0) as [-> ->]. split; [reflexivity|]. apply Hrep. exact Hr.
        - destruct (F1 _ _ Hin) as (b' & Hb' & Hr). rewrite (Hrep b' Hr) in Hb'. exact Hb'. }
      destruct r' as [n0 bo]. cbn in *. congruence.
  Qed.
End ReadPrinted.
