(** For grammars without empty constituents the contents of the finished chart
    do not depend on the iteration order. *)
From Coq Require Import Permutation.
From Verif Require Import Base ModelTypes ModelEarley SpecTypes SpecGrammar SpecTree ProofEqual ProofChart ProofSound ProofComplete.

Section Order.
  Variable tmatch : term -> option token -> bool.
  Variable gs : list grammar_rules.
  Variable toks : list token.
  Variable starts : list string.

  (** The states the chart must contain, without reference to rows. *)
  Inductive fact : nat -> tstate -> Prop :=
  | F_begin S : In S starts -> fact 0 (begin_state S)
  | F_rule c p t g ru h b :
      fact c p -> nxt p = Some t -> t_type t = TNonterminal ->
      In g gs -> lookup g (t_value t) = Some ru -> In (h, b) (r_body ru) ->
      fact c (mkSt (mkTerm (r_name ru) TNonterminal MNil) (Some b) c c 0)
  | F_special c p t :
      fact c p -> nxt p = Some t -> t_type (s_term p) = TNonterminal ->
      t_type t = TAny \/ t_type t = TList ->
      fact c (mkSt t None c c 0)
  | F_scan c p t tok :
      fact c p -> nxt p = Some t -> t_type (s_term p) <> TAny -> t_type t = TTerminal ->
      nth_error toks c = Some tok -> tmatch t (Some tok) = true ->
      fact (S c) (mkSt (s_term p) (s_rb p) (s_start p) (S c) (s_dot p + 1))
  | F_any c p t :
      fact c p -> S c <= length toks -> nxt p = Some t -> t_type (s_term p) = TAny ->
      fact (S c) (mkSt (mkTerm "any" TAny (t_meta t)) (s_rb p) (s_start p) (S c) (S c - s_start p))
  | F_comp c d p t :
      fact c d -> completed d = true -> fact (s_start d) p -> nxt p = Some t -> advances t d = true ->
      fact c (norm c (adv p t)).

  Lemma justified_fact cols : all_justified tmatch gs toks starts cols ->
    forall c r s, st_at cols c r = Some s -> fact c s.
  Proof.
    intros HJ. pose proof (justified_shape _ _ _ _ _ HJ) as Hsh.
    induction c as [c IHc] using (well_founded_induction lt_wf).
    induction r as [r IHr] using (well_founded_induction lt_wf).
    intros s Hs.
    assert (forall rd d r0 p, rd < r -> st_at cols c rd = Some d -> st_at cols (s_start d) r0 = Some p ->
              (s_start d = c -> r0 < r) -> fact (s_start d) p) as Hback.
    { intros rd d r0 p Hrd Hd Hp Hlt. destruct (st_at_shape _ _ _ _ Hsh Hd) as (_ & Hle & _).
      destruct (Nat.eq_dec (s_start d) c) as [Heq|Hne].
      - specialize (Hlt Heq). rewrite Heq in *. eapply IHr; eauto.
      - eapply (IHc (s_start d)); eauto. lia. }
    destruct (HJ _ _ _ Hs).
    - subst. apply F_begin; auto.
    - subst. eapply F_rule with (p := p); eauto.
    - subst. eapply F_special with (p := p); eauto.
    - subst. eapply F_scan with (t := t); eauto.
    - subst. eapply F_any; eauto.
    - assert (s = norm c (adv p t)) as ->.
      { rewrite norm_not_any by exact H6. exact H7. }
      eapply F_comp with (d := d); eauto.
    - assert (s = norm c (adv p t)) as ->.
      { rewrite norm_any by exact H6. exact H7. }
      eapply F_comp with (d := d); eauto.
  Qed.

  Hypothesis Hne : no_empty gs.

  Lemma origin_completed_dot c s : origin gs starts c s -> completed s = true -> 0 < s_dot s.
  Proof.
    unfold origin. intros Ho Hc. destruct (t_type (s_term s)) eqn:Et; try contradiction.
    - destruct Ho as (b & Hb & Hbo & _). rewrite (completed_rule s b Et Hb) in Hc.
      assert (rb_terms b <> []) as Hb0.
      { destruct Hbo as [(S & _ & _ & _ & ->)|(g & x & ru & h & Hg & Hl & Hin & _)].
        - discriminate.
        - apply (proj1 Hne x b). exists g, ru, h. auto. }
      destruct (rb_terms b); simpl in *; [congruence|lia].
    - destruct Ho as (_ & _ & t & Ht & Hty & Hm & _).
      apply completed_special in Hc; auto. destruct (s_dot s); [|lia].
      exfalso. apply (proj2 Hne t Ht); auto. rewrite <- Hm. exact Hc.
    - destruct Ho as (_ & Ht). apply completed_special in Hc; auto. destruct (s_dot s); [|lia].
      exfalso. apply (proj2 Hne _ Ht); auto.
  Qed.

  Lemma justified_progress cols : all_justified tmatch gs toks starts cols ->
    forall c r s, st_at cols c r = Some s -> 0 < s_dot s -> s_start s < c.
  Proof.
    intros HJ. pose proof (justified_shape _ _ _ _ _ HJ) as Hsh.
    pose proof (justified_origin _ _ _ _ _ HJ) as Hor.
    induction c as [c IHc] using (well_founded_induction lt_wf).
    induction r as [r IHr] using (well_founded_induction lt_wf).
    intros s Hs Hdot.
    destruct (HJ _ _ _ Hs).
    - subst. simpl in Hdot. lia.
    - subst. simpl in Hdot. lia.
    - subst. simpl in Hdot. lia.
    - destruct (st_at_shape _ _ _ _ Hsh H0) as (_ & Hle & _). subst. simpl. lia.
    - subst. cbn [s_dot s_start] in *. lia.
    - assert (s_start d < c) as Hd.
      { eapply IHr; eauto. eapply origin_completed_dot; eauto. }
      destruct (st_at_shape _ _ _ _ Hsh H2) as (_ & Hle & _). subst. simpl. lia.
    - subst. cbn [s_dot s_start] in *. lia.
  Qed.

  Lemma completed_progress cols c d : all_justified tmatch gs toks starts cols ->
    In d (states_of cols c) -> completed d = true -> s_start d < c.
  Proof.
    intros HJ Hd Hc. apply In_nth_error in Hd as [r Hr].
    eapply justified_progress; eauto. eapply origin_completed_dot; eauto.
    eapply justified_origin; eauto.
  Qed.

  Variable ord : nat -> nat -> nat -> list rulebody -> list rulebody.
  Hypothesis Hord : is_order ord.

  Lemma sim_norm_adv c p q t : sim p q -> sim (norm c (adv p t)) (norm c (adv q t)).
  Proof.
    intros (S1 & S2 & S3 & S4 & S5). unfold norm, adv; simpl. rewrite S1.
    destruct (t_type (s_term q)); repeat split; simpl; congruence.
  Qed.

  Lemma fact_in cols : finished tmatch ord gs toks starts cols ->
    forall c s, fact c s -> exists q, In q (states_of cols c) /\ sim q s.
  Proof.
    intros Hf c s H. pose proof Hf as ((_ & HJ & _) & _).
    induction H.
    - exists (begin_state S). split; [eapply finished_begin; eauto|apply sim_refl].
    - destruct IHfact as (p' & Hp' & Hs). rewrite <- (sim_nxt _ _ Hs) in H0.
      eapply close_predict; eauto. apply (in_map snd) in H4. exact H4.
    - destruct IHfact as (p' & Hp' & Hs). rewrite <- (sim_nxt _ _ Hs) in H0.
      eapply close_special; eauto. destruct Hs as (-> & _). congruence.
    - destruct IHfact as (p' & Hp' & Hs). rewrite <- (sim_nxt _ _ Hs) in H0.
      destruct (close_scan _ _ _ _ _ _ Hf c p' t tok) as (q & Hq & Hq'); auto.
      { destruct Hs as (-> & _). auto. }
      exists q. split; auto. eapply sim_trans; [exact Hq'|].
      destruct Hs as (S1 & S2 & S3 & S4 & S5). repeat split; simpl; congruence.
    - destruct IHfact as (p' & Hp' & Hs). rewrite <- (sim_nxt _ _ Hs) in H1.
      destruct (close_any _ _ _ _ _ _ Hf c p' t) as (q & Hq & Hq'); auto.
      { destruct Hs as (-> & _). auto. }
      exists q. split; auto. eapply sim_trans; [exact Hq'|].
      pose proof (proj1 Hs) as E. rewrite <- E in H2. apply nxt_any in H1; auto. subst t.
      destruct Hs as (S1 & S2 & S3 & S4 & S5). repeat split; cbn [s_term s_rb s_start s_end s_dot]; congruence.
    - destruct IHfact1 as (d' & Hd' & Hsd). destruct IHfact2 as (p' & Hp' & Hsp).
      rewrite <- (sim_nxt _ _ Hsp) in H2. rewrite <- (sim_completed _ _ Hsd) in H0.
      destruct (close_complete _ _ _ _ _ _ Hf c d' p' t) as (q & Hq & Hq'); auto.
      + eapply completed_progress; eauto.
      + destruct Hsd as (_ & -> & _). exact Hp'.
      + apply advances_spec in H3. apply advances_spec. destruct Hsd as (-> & _). exact H3.
      + exists q. split; auto. eapply sim_trans; [exact Hq'|]. apply sim_norm_adv; auto.
  Qed.
End Order.

(** Two finished charts over the same input hold the same states. *)
Lemma charts_agree tmatch gs toks starts ord1 ord2 cols1 cols2 :
  no_empty gs -> is_order ord1 -> is_order ord2 ->
  finished tmatch ord1 gs toks starts cols1 -> finished tmatch ord2 gs toks starts cols2 ->
  forall c s, In s (states_of cols1 c) -> exists s', In s' (states_of cols2 c) /\ sim s' s.
Proof.
  intros Hne H1 H2 F1 F2 c s Hs. eapply fact_in; eauto.
  apply In_nth_error in Hs as [r Hr]. eapply justified_fact; eauto.
  destruct F1 as ((_ & HJ & _) & _). exact HJ.
Qed.
