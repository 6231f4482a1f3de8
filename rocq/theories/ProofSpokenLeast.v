(** Spoken amounts: a reading nested least on the right keeps a tens word and the unit after it together. *)
From Coq Require Import Permutation.
From Verif Require Import Base ModelTypes ModelText ModelEarley ModelTrees ModelApi ModelReader ModelLocal
     SpecTypes SpecGrammar SpecTree SpecNotation SpecRefine SpecLocal SpecFuncs SpecMath SpecMeaning
     SpecArith SpecWorth ProofWorth ProofReadings SpecEnglish SpecChinese SpecSpoken ProofSpoken ProofSpokenUsual ProofSpokenRules ProofSpokenCalls SpecLeast ProofLeastExists.
Local Open Scope list_scope.

Section Usual.
  Variable tokenize : string -> res (list token).
  Variable tmatch : term -> option token -> bool.
  Variable gs : list grammar_rules.
  Variable d : document.
  Variable ws : list string.
  Hypothesis Hws : in_words tokenize tmatch b_words d ws.
  Hypothesis HB : forall x b, has_body gs x b -> In b (b_alternatives x).
  Hypothesis HB' : forall x b, In b (b_alternatives x) -> has_body gs x b.
  Notation W := (worth tokenize tmatch gs (content d)).
  Notation Reach := (reach tokenize tmatch gs (content d)).
  Notation Reaches := (reaches tokenize tmatch gs (content d)).
  Notation Least := (least tokenize tmatch gs (content d)).
  Notation Leasts := (leasts tokenize tmatch gs (content d)).
  Notation At := (SpecWorth.text_at tokenize tmatch (content d)).
  Notation sl := (sl ws).
  Let HN := builtin_calculates tokenize tmatch gs d HB.

  Lemma reach_inv x i j n : Reach x i j n -> exists b m, In b (b_alternatives x) /\ Reaches (rb_terms b) i j m /\ n = S m.
  Proof using HB. intros H. inversion H as [? ? ? b m Hb Hr]; subst. exists b, m. auto. Qed.
  Lemma one_inv x i j n : Reaches [nonterm x] i j n -> Reach x i j n.
  Proof using.
    intros H. inversion H as [|? ? ? ? ? ? [C _]|? ? ? k ? m1 ? _ R1 H1]; subst; [discriminate C|]. inversion H1; subst. exact R1.
  Qed.
  Lemma two_inv' x y i j n : Reaches [nonterm x; nonterm y] i j n -> exists k m, Reach x i k m /\ Reach y k j n.
  Proof using.
    intros H. inversion H as [|? ? ? ? ? ? [C _]|? ? ? k ? m1 ? _ R1 H1]; subst; [discriminate C|]. exists k, m1. split; [exact R1|]. exact (one_inv _ _ _ _ H1).
  Qed.
  Lemma joined_inv' x w y i j n : Reaches [nonterm x; word w; nonterm y] i j n -> exists k k' m, Reach x i k m /\ At (word w) k k' /\ Reach y k' j n.
  Proof using.
    intros H. inversion H as [|? ? ? ? ? ? [C _]|? ? ? k ? m1 ? _ R1 H1]; subst; [discriminate C|].
    inversion H1 as [|? ? ? k' ? ? A H2|? ? ? ? ? ? ? C]; subst; [|discriminate C]. exists k, k', m1. split; [exact R1|]. split; [exact A|]. exact (one_inv _ _ _ _ H2).
  Qed.
  Lemma one_reach x i j n : Reach x i j n -> Reaches [nonterm x] i j n.
  Proof using. intros H. change n with (of_last (@nil term) n 0). eapply (rs_rule _ _ _ _ (nonterm x)); [reflexivity|exact H|constructor]. Qed.
  Lemma two_reach x y i k j m n : Reach x i k m -> Reach y k j n -> Reaches [nonterm x; nonterm y] i j n.
  Proof using. intros H H'. change n with (of_last [nonterm y] m n). eapply (rs_rule _ _ _ _ (nonterm x)); [reflexivity|exact H|]. apply one_reach. exact H'. Qed.
  Lemma joined_reach x w y i k k' j m n : Reach x i k m -> At (word w) k k' -> Reach y k' j n -> Reaches [nonterm x; word w; nonterm y] i j n.
  Proof using.
    intros H A H'. change n with (of_last [word w; nonterm y] m (of_last [nonterm y] 1 n)). eapply (rs_rule _ _ _ _ (nonterm x)); [reflexivity|exact H|].
    eapply rs_text; [exact A|]. apply one_reach. exact H'.
  Qed.
  Lemma amount_worth x i j n : existsb (String.eqb x) amount_names = true -> Reach x i j n -> exists v, W x i j v.
  Proof using HB.
    intros Hx H. apply existsb_exists in Hx as (x' & Hx & E). apply String.eqb_eq in E. subst x'. exact (proj1 (reach_worth _ _ _ _ _ HN) _ _ _ _ H Hx).
  Qed.
  Lemma hd_sl i j : i < j -> hd ""%string (sl i j) = nth i ws ""%string.
  Proof using.
    intros H. unfold ProofReadings.sl. destruct (j - i) as [|n] eqn:E; [lia|]. clear. revert i. generalize ws. intros l. induction l as [|w r IH]; intros [|i]; cbn [skipn firstn hd nth]; try reflexivity. apply IH.
  Qed.

  (** ** A tens word before a unit *)
  Section Extend.
    Variables (i k k' : nat) (m0 : nat).
    Hypothesis Htens : Reach "cardinal_tens" i k m0.
    Hypothesis Hlink : k = k' \/ At (word "and") k k'.
    Hypothesis Hunit : known b_units (nth k' ws ""%string) = true.
    Lemma not_here x l q v : reads tokenize tmatch gs d ws x (entry l) -> (forall w z, In (w, z) l -> known b_units w = false) -> W x k' q v -> False.
    Proof using Hunit.
      intros R K H. destruct (R _ _ _ H) as (L & (w & E & Hin) & _). rewrite <- (hd_sl k' q L), E in Hunit. cbn [hd] in Hunit. rewrite (K _ _ Hin) in Hunit. discriminate Hunit.
    Qed.
    Lemma no_tens q n : Reach "cardinal_tens" k' q n -> False.
    Proof using Hws HB Hunit.
      intros H. apply amount_worth in H as (v & H); [|reflexivity]. exact (not_here _ _ _ _ (tens_read _ _ _ _ _ Hws HB) (fun w z Hw => proj2 (proj2 (tens_kind w z Hw))) H).
    Qed.
    Lemma no_teen q n : Reach "cardinal_ten" k' q n -> False.
    Proof using Hws HB Hunit.
      intros H. apply amount_worth in H as (v & H); [|reflexivity]. exact (not_here _ _ _ _ (teens_read _ _ _ _ _ Hws HB) (fun w z Hw => proj2 (proj2 (teen_kind w z Hw))) H).
    Qed.
    Lemma count_extends q n : Reach "base_number" k' q n -> Reach "base_number" i q n.
    Proof using Hws HB HB' Htens Hlink Hunit.
      intros H. apply reach_inv in H as (b & m & Hb & H & ->).
      destruct Hb as [<-|[<-|[<-|[<-|[<-|[<-|[<-|[]]]]]]]]; cbn [rb_terms up b_two b_joined] in H.
      - apply one_inv in H. destruct Hlink as [E|A].
        + eapply re_body; [exact (HB' _ _ (b_nth "base_number" 3 _ eq_refl))|]. rewrite <- E in H. exact (two_reach _ _ _ _ _ _ _ Htens H).
        + eapply re_body; [exact (HB' _ _ (b_nth "base_number" 4 _ eq_refl))|]. exact (joined_reach _ _ _ _ _ _ _ _ _ Htens A H).
      - apply one_inv in H. destruct (no_teen _ _ H).
      - apply one_inv in H. destruct (no_tens _ _ H).
      - apply two_inv' in H as (q' & m' & H & _). destruct (no_tens _ _ H).
      - apply joined_inv' in H as (q' & q'' & m' & H & _). destruct (no_tens _ _ H).
      - apply joined_inv' in H as (q' & q'' & m' & H & _). destruct (no_tens _ _ H).
      - apply joined_inv' in H as (q' & q'' & m' & H & _). destruct (no_tens _ _ H).
    Qed.
    Lemma multiple_extends q : forall n, Reach "magnitude_number" k' q n -> Reach "magnitude_number" i q n.
    Proof using Hws HB HB' Htens Hlink Hunit.
      induction q as [q IH] using lt_wf_ind. intros n H. apply reach_inv in H as (b & m & Hb & H & ->).
      destruct Hb as [<-|[<-|[<-|[]]]]; cbn [rb_terms b_two b_joined] in H.
      - apply two_inv' in H as (q' & m' & H & H'). apply count_extends in H. eapply re_body; [exact (HB' _ _ (b_nth "magnitude_number" 0 _ eq_refl))|]. exact (two_reach _ _ _ _ _ _ _ H H').
      - apply joined_inv' in H as (q' & q'' & m' & H & A & H'). apply count_extends in H. eapply re_body; [exact (HB' _ _ (b_nth "magnitude_number" 1 _ eq_refl))|].
        exact (joined_reach _ _ _ _ _ _ _ _ _ H A H').
      - apply two_inv' in H as (q' & m' & H & H'). apply IH in H.
        + eapply re_body; [exact (HB' _ _ (b_nth "magnitude_number" 2 _ eq_refl))|]. exact (two_reach _ _ _ _ _ _ _ H H').
        + apply amount_worth in H' as (v & V); [|reflexivity]. destruct (magnitude_read _ _ _ _ _ Hws HB _ _ _ V) as (? & ? & _ & _ & -> & _). lia.
    Qed.
    Lemma section_extends q n : Reach "section" k' q n -> Reach "section" i q n.
    Proof using Hws HB HB' Htens Hlink Hunit.
      intros H. apply reach_inv in H as (b & m & Hb & H & ->). destruct Hb as [<-|[<-|[]]]; cbn [rb_terms up] in H; apply one_inv in H.
      - eapply re_body; [exact (HB' _ _ (b_nth "section" 0 _ eq_refl))|]. apply one_reach, multiple_extends. exact H.
      - eapply re_body; [exact (HB' _ _ (b_nth "section" 1 _ eq_refl))|]. apply one_reach, count_extends. exact H.
    Qed.
    Lemma number_extends q n : Reach "number" k' q n -> Reach "number" i q n.
    Proof using Hws HB HB' Htens Hlink Hunit.
      intros H. apply reach_inv in H as (b & m & Hb & H & ->). destruct Hb as [<-|[<-|[<-|[]]]]; cbn [rb_terms up b_two b_joined] in H.
      - apply one_inv, section_extends in H. eapply re_body; [exact (HB' _ _ (b_nth "number" 0 _ eq_refl))|]. apply one_reach. exact H.
      - apply two_inv' in H as (q' & m' & H & H'). apply section_extends in H. eapply re_body; [exact (HB' _ _ (b_nth "number" 1 _ eq_refl))|]. exact (two_reach _ _ _ _ _ _ _ H H').
      - apply joined_inv' in H as (q' & q'' & m' & H & A & H'). apply section_extends in H. eapply re_body; [exact (HB' _ _ (b_nth "number" 2 _ eq_refl))|].
        exact (joined_reach _ _ _ _ _ _ _ _ _ H A H').
    Qed.
  End Extend.

  (** ** The least nested reading *)
  Lemma ends_entry x l i q k v : reads tokenize tmatch gs d ws x (entry l) -> (forall w z, In (w, z) l -> known tens w = false) -> i <= q -> W x q k v ->
    In (last (sl i k) ""%string) (map fst tens) -> False.
  Proof using.
    intros R K Hi H Hl. destruct (R _ _ _ H) as (L & (w & E & Hin) & _). rewrite (ProofReadings.sl_app ws i q k) in Hl by lia. rewrite E, last_snoc in Hl.
    apply in_known in Hl. rewrite (K _ _ Hin) in Hl. discriminate Hl.
  Qed.
  Lemma no_unit_end i q k n : i <= q -> Reach "cardinal_unit" q k n -> In (last (sl i k) ""%string) (map fst tens) -> False.
  Proof using Hws HB.
    intros Hi H. apply amount_worth in H as (v & H); [|reflexivity].
    exact (ends_entry _ _ _ _ _ _ (units_read _ _ _ _ _ Hws HB) (fun w z Hw => proj1 (proj2 (unit_kind w z Hw))) Hi H).
  Qed.
  Lemma no_teen_end i q k n : i <= q -> Reach "cardinal_ten" q k n -> In (last (sl i k) ""%string) (map fst tens) -> False.
  Proof using Hws HB.
    intros Hi H. apply amount_worth in H as (v & H); [|reflexivity].
    exact (ends_entry _ _ _ _ _ _ (teens_read _ _ _ _ _ Hws HB) (fun w z Hw => proj1 (proj2 (teen_kind w z Hw))) Hi H).
  Qed.
  Lemma amount_le x i j n : existsb (String.eqb x) amount_names = true -> Reach x i j n -> i <= j.
  Proof using HB. intros Hx H. apply amount_worth in H as (v & H); [|exact Hx]. exact (proj1 (worth_le _ _ _ _) _ _ _ _ H). Qed.
  Lemma at_le w k k' : At (word w) k k' -> k <= k'.
  Proof using. intros (_ & ks & _ & -> & _). lia. Qed.
  Lemma tens_here i k n : Reach "section" i k n -> In (last (sl i k) ""%string) (map fst tens) -> exists m, Reach "cardinal_tens" i k m.
  Proof using Hws HB.
    intros H Hl. apply reach_inv in H as (b & m & Hb & H & _). destruct Hb as [<-|[<-|[]]]; cbn [rb_terms up] in H; apply one_inv in H.
    { exfalso. apply amount_worth in H as (v & H); [|reflexivity]. destruct (multiple_reads _ _ _ _ _ Hws HB _ _ _ H) as (_ & S & _).
      destruct (multiple_last _ _ S) as (w & z & Hin & E). rewrite E in Hl. apply in_known in Hl. rewrite (proj1 (magnitude_kind _ _ Hin)) in Hl. discriminate Hl. }
    apply reach_inv in H as (b & m2 & Hb & H & _). destruct Hb as [<-|[<-|[<-|[<-|[<-|[<-|[<-|[]]]]]]]]; cbn [rb_terms up b_two b_joined] in H.
    - apply one_inv in H. destruct (no_unit_end _ _ _ _ (le_n _) H Hl).
    - apply one_inv in H. destruct (no_teen_end _ _ _ _ (le_n _) H Hl).
    - apply one_inv in H. exists m2. exact H.
    - apply two_inv' in H as (q & m' & H & H'). apply amount_le in H; [|reflexivity]. destruct (no_unit_end _ _ _ _ H H' Hl).
    - apply joined_inv' in H as (q & q' & m' & H & A & H'). apply amount_le in H; [|reflexivity]. apply at_le in A. destruct (no_unit_end i q' _ _ ltac:(lia) H' Hl).
    - apply joined_inv' in H as (q & q' & m' & H & A & H'). apply amount_le in H; [|reflexivity]. apply at_le in A. destruct (no_unit_end i q' _ _ ltac:(lia) H' Hl).
    - apply joined_inv' in H as (q & q' & m' & H & A & H'). apply amount_le in H; [|reflexivity]. apply at_le in A. destruct (no_unit_end i q' _ _ ltac:(lia) H' Hl).
  Qed.
  Lemma kept i k k' j n m : Reach "section" i k m -> k = k' \/ At (word "and") k k' -> k' < j -> Reach "number" k' j n ->
    (forall n', Reach "number" i j n' -> S n <= n') -> In (last (sl i k) ""%string) (map fst tens) -> ~ In (hd ""%string (sl k' j)) (map fst b_units).
  Proof using Hws HB HB'.
    intros H Hl Hj H' Hmin A B. destruct (tens_here _ _ _ H A) as (m0 & H0). rewrite hd_sl in B by exact Hj. apply in_known in B.
    specialize (Hmin _ (number_extends _ _ _ _ H0 Hl B _ _ H')). lia.
  Qed.
  Lemma part_inv x ts i j vs n : Leasts (nonterm x :: ts) i j vs n -> exists k a m vs' n', Least x i k a m /\ Leasts ts k j vs' n' /\ vs = Some a :: vs' /\ n = of_last ts m n'.
  Proof using.
    intros H. inversion H as [|? ? ? ? ? ? ? [C _]|? ? ? k ? a m vs' n' _ L1 H1]; subst; [discriminate C|]. exists k, a, m, vs', n'. auto.
  Qed.
  Lemma word_inv' w ts i j vs n : Leasts (word w :: ts) i j vs n -> exists k vs' n', At (word w) i k /\ Leasts ts k j vs' n' /\ vs = None :: vs' /\ n = of_last ts 1 n'.
  Proof using.
    intros H. inversion H as [|? ? ? k ? vs' n' A H1|? ? ? ? ? ? ? ? ? C]; subst; [|discriminate C]. exists k, vs', n'. auto.
  Qed.
  Lemma end_inv i j vs n : Leasts [] i j vs n -> i = j /\ vs = [].
  Proof using. intros H. inversion H; auto. Qed.

  Lemma least_merged s : forall i j v n, j - i < s -> Least "number" i j v n -> (forall n', Reach "number" i j n' -> n <= n') -> merged (sl i j) (value v).
  Proof using Hws HB HB'.
    assert (HA : In "and"%string b_words) by (vm_compute; tauto).
    induction s as [|s IH]; intros i j v n Hs H Hmin; [lia|]. inversion H as [? ? ? b f vs ? m Hb Hf Hv Hw Hm]; subst. apply HB in Hb.
    destruct Hb as [<-|[<-|[<-|[]]]]; cbn [rb_terms up b_two b_joined] in *.
    - apply part_inv in Hv as (k & a & m1 & vs' & n' & V1 & V2 & -> & ->). apply end_inv in V2 as [-> ->].
      apply (f_call1 _ _ _ _ Hf), (a_part _ 0) in Hw. injection Hw as ->. apply (proj1 (least_worth _ _ _ _)) in V1.
      destruct (section_reads _ _ _ _ _ Hws HB _ _ _ V1) as (_ & S & _). apply me_one. exact S.
    - apply part_inv in Hv as (k & a & m1 & vs' & n' & V1 & V2 & -> & ->). apply part_inv in V2 as (k2 & a2 & m2 & vs2 & n2 & V2 & V3 & -> & ->). apply end_inv in V3 as [-> ->].
      cbn [of_last] in *. destruct (f_call2 _ _ _ _ _ _ Hf Hw) as (x1 & y1 & -> & A1 & A2). apply (a_part _ 0) in A1. apply (a_part _ 1) in A2. injection A1 as ->. injection A2 as ->.
      pose proof (proj1 (least_reach _ _ _ _) _ _ _ _ _ V1) as R1. pose proof (proj1 (least_reach _ _ _ _) _ _ _ _ _ V2) as R2.
      pose proof (section_reads _ _ _ _ _ Hws HB _ _ _ (proj1 (least_worth _ _ _ _) _ _ _ _ _ V1)) as (I1 & S1 & _).
      pose proof (spoken_reads _ _ _ _ _ Hws HB _ _ _ (proj1 (least_worth _ _ _ _) _ _ _ _ _ V2)) as (I2 & _).
      assert (G : merged (sl k j) (value y1)) by (apply (IH k j y1 m2 ltac:(lia) V2); intros n' H'; apply Hm; exact (two_reach _ _ _ _ _ _ _ R1 H')).
      rewrite (ProofReadings.sl_app ws i k j) by lia. change (sl k j) with ([] ++ sl k j) at 1. cbn [value].
      apply me_more; [exact S1|left; reflexivity|exact G|]. exact (kept i k k j m2 m1 R1 (or_introl eq_refl) I2 R2 Hmin).
    - apply part_inv in Hv as (k & a & m1 & vs' & n' & V1 & V2 & -> & ->). apply word_inv' in V2 as (k1 & vs1 & n1 & A & V2 & -> & ->).
      apply part_inv in V2 as (k2 & a2 & m2 & vs2 & n2 & V2 & V3 & -> & ->). apply end_inv in V3 as [-> ->].
      cbn [of_last] in *. destruct (f_call2 _ _ _ _ _ _ Hf Hw) as (x1 & y1 & -> & A1 & A2). apply (a_part _ 0) in A1. apply (a_part _ 2) in A2. injection A1 as ->. injection A2 as ->.
      pose proof (proj1 (least_reach _ _ _ _) _ _ _ _ _ V1) as R1. pose proof (proj1 (least_reach _ _ _ _) _ _ _ _ _ V2) as R2.
      pose proof (section_reads _ _ _ _ _ Hws HB _ _ _ (proj1 (least_worth _ _ _ _) _ _ _ _ _ V1)) as (I1 & S1 & _).
      pose proof (spoken_reads _ _ _ _ _ Hws HB _ _ _ (proj1 (least_worth _ _ _ _) _ _ _ _ _ V2)) as (I2 & _).
      assert (P : k1 = S k /\ sl k k1 = ["and"%string]).
      { pose proof (proj2 A) as P. change (phrase tokenize tmatch (content d) "and" k k1) in P. apply (ProofReadings.phrase_word tokenize tmatch d ws b_words Hws) in P as [-> P]; [|exact HA]. auto. }
      destruct P as [Ek El].
      assert (G : merged (sl k1 j) (value y1)) by (apply (IH k1 j y1 m2 ltac:(lia) V2); intros n' H'; apply Hm; exact (joined_reach _ _ _ _ _ _ _ _ _ R1 A H')).
      rewrite (ProofReadings.sl_app ws i k j), (ProofReadings.sl_app ws k k1 j), El by lia. cbn [value].
      apply me_more; [exact S1|right; reflexivity|exact G|]. exact (kept i k k1 j m2 m1 R1 (or_intror A) I2 R2 Hmin).
  Qed.
End Usual.
