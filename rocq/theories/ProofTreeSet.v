(** The list of trees of a completed state is not empty and has no duplicates. *)
From Verif Require Import Base ModelTypes ModelEarley ModelTrees SpecTypes SpecGrammar SpecTree
  ProofEqual ProofChart ProofSound ProofTerm ProofTree ProofTreeOk.

Lemma over_subtrees_ret k subs outs : over_subtrees k subs = Ret outs ->
  forall s, In s subs -> exists o, k s = Ret o /\ incl o outs.
Proof.
  revert outs; induction subs as [|x subs IH]; intros outs H s Hs; [destruct Hs|].
  simpl in H. destruct (k x) as [o| | |] eqn:Ek; try discriminate. simpl in H.
  destruct (over_subtrees k subs) as [o'| | |] eqn:Eo; try discriminate. simpl in H. injection H as <-.
  destruct Hs as [<-|Hs].
  - exists o. split; auto. apply incl_appl, incl_refl.
  - destruct (IH o' eq_refl s Hs) as (o'' & H1 & H2). exists o''. split; auto. apply incl_appr; auto.
Qed.

(** Every visited matching state contributes its outputs. *)
Lemma over_states_ret body ref t start e sts : forall r outs,
  (forall s, In s sts -> is_completed s = Ret (completed s)) ->
  over_states body ref t start e r sts = Ret outs ->
  forall k d, nth_error sts k = Some d -> before ref e (r + k) ->
    completed d = true -> t_value (s_term d) = t_value t -> t_type (s_term d) = t_type t ->
    (forall n, start = Some n -> s_start d = n) ->
    exists o, body (r + k) d = Ret o /\ incl o outs.
Proof.
  induction sts as [|s sts IH]; intros r outs Hc H k d Hk Hb Hcd Hv Hty Hst; [destruct k; discriminate|].
  simpl in H.
  destruct (Nat.eqb e (fst ref) && Nat.eqb r (snd ref)) eqn:E.
  { exfalso. apply andb_true_iff in E as [E1 E2]. apply Nat.eqb_eq in E1, E2. specialize (Hb E1). lia. }
  rewrite Hc in H by (left; reflexivity). simpl in H.
  destruct k as [|k].
  - simpl in Hk. injection Hk as ->. rewrite Hcd, Hv, Hty, String.eqb_refl, ttype_eqb_refl in H. simpl in H.
    assert ((match start with Some n => negb (Nat.eqb (s_start d) n) | None => false end) = false) as E2.
    { destruct start as [n|]; auto. rewrite (Hst n eq_refl), Nat.eqb_refl. reflexivity. }
    rewrite E2 in H. rewrite Nat.add_0_r.
    destruct (body r d) as [o| | |]; try discriminate. simpl in H.
    destruct (over_states body ref t start e (S r) sts) as [o'| | |]; try discriminate. simpl in H.
    injection H as <-. exists o. split; auto. apply incl_appl, incl_refl.
  - replace (r + S k) with (S r + k) in * by lia.
    assert (forall o, over_states body ref t start e (S r) sts = Ret o ->
              exists o', body (S r + k) d = Ret o' /\ incl o' o) as Hrest.
    { intros o Ho. eapply IH; eauto. intros; apply Hc; right; auto. }
    destruct (negb (completed s) || _ || _); [apply Hrest; exact H|].
    destruct (match start with Some n => negb (Nat.eqb (s_start s) n) | None => false end);
      [apply Hrest; exact H|].
    destruct (body r s) as [o| | |]; try discriminate. simpl in H.
    destruct (over_states body ref t start e (S r) sts) as [o'| | |] eqn:Eo; try discriminate. simpl in H.
    injection H as <-. destruct (Hrest o' eq_refl) as (o'' & H1 & H2). exists o''. split; auto.
    apply incl_appr; auto.
Qed.

Section Nonempty.
  Variable tmatch : term -> option token -> bool.
  Variable gs : list grammar_rules.
  Variable toks : list token.
  Variable starts : list string.
  Hypothesis Hsep : separated gs.
  Hypothesis Hany : any_named gs.
  Variable cols : list column.
  Hypothesis HJ : all_justified tmatch gs toks starts cols.

  Let Hsh : all_shaped cols := justified_shape _ _ _ _ _ HJ.
  Let Hor := justified_origin _ _ _ _ _ HJ.

  Lemma zero_dot c r s : st_at cols c r = Some s -> t_type (s_term s) <> TAny -> s_dot s = 0 -> s_start s = c.
  Proof.
    intros Hs Hty Hd. destruct (HJ _ _ _ Hs); subst; simpl in *; auto; try lia; congruence.
  Qed.

  (** [p] is [st] after k terms. *)
  Definition stage (st : tstate) (terms : list term) (k : nat) (p : tstate) : Prop :=
    s_start p = s_start st /\ s_dot p = k /\
    ((t_type (s_term p) = TNonterminal /\ exists b, s_rb p = Some b /\ rb_terms b = terms)
     \/ (t_type (s_term p) = TList /\ exists n, terms = repeat (nonterm (t_value (s_term p))) n)).

  Lemma any_value e d t : origin gs starts e d -> t_type (s_term d) = TAny ->
    occurs gs t -> t_type t = TAny -> t_value (s_term d) = t_value t.
  Proof.
    intros Ho Hty Ht Htt. unfold origin in Ho. rewrite Hty in Ho.
    destruct Ho as (_ & _ & t' & Ht' & Hty' & _ & Hv). rewrite (Hany t Ht Htt).
    destruct Hv as [-> | ->]; auto.
  Qed.

  Lemma nonempty fuel :
    (forall c r s outs, st_at cols c r = Some s -> completed s = true ->
       build_trees cols fuel (c, r) = Ret outs -> outs <> [])
    /\ (forall children ref st terms k c' r' p outs,
       k <= length terms -> (forall t, In t terms -> t_type t <> TTerminal) ->
       st_at cols c' r' = Some p -> stage st terms k p ->
       c' <= fst ref -> (c' = fst ref -> r' <= snd ref) ->
       build_helper cols fuel children ref st terms k (Z.of_nat c') = Ret outs -> outs <> []).
  Proof.
    induction fuel as [|fuel [IHt IHh]]; [split; intros; discriminate|]. split.
    - intros c r s outs Hs Hc H. simpl in H. unfold idx in H. pose proof Hs as Hs'.
      unfold st_at, states_of in Hs.
      destruct (nth_error cols c) as [col|] eqn:Ec; [|destruct r; discriminate]. simpl in H. rewrite Hs in H.
      simpl in H. pose proof (Hor _ _ _ Hs') as Ho.
      pose proof (st_at_shape _ _ _ _ Hsh Hs') as (He & Hle & _).
      unfold with_list_rb in H. unfold origin in Ho.
      destruct (t_type (s_term s)) eqn:Et; try contradiction.
      + destruct Ho as (b & Hb & Hbo & Hdot & _). rewrite Hb, He in H.
        rewrite (completed_rule s b Et Hb) in Hc.
        destruct (body_cases gs starts Hsep s b Hbo) as [Hterm|Hterm].
        * clear IHt IHh. assert (forall f children k end_ o, build_helper cols f children (c, r) s (rb_terms b) k end_ = Ret o -> k <= length (rb_terms b) -> o <> []) as Hx.
          { induction f as [|f IH]; intros children k end_ o Ho Hk; [discriminate|].
            simpl in Ho. destruct k as [|k]; [injection Ho as <-; discriminate|].
            unfold idx in Ho. destruct (nth_error (rb_terms b) k) as [t|] eqn:En; [|discriminate].
            simpl in Ho. rewrite (Hterm t (nth_error_In _ _ En)) in Ho. eapply IH; eauto. lia. }
          eapply Hx; eauto.
        * eapply (IHh [] (c, r) s (rb_terms b) (length (rb_terms b)) c r s); eauto.
          -- intros t Ht. apply Hterm; auto.
          -- split; auto. split; [lia|]. left. split; auto. exists b. auto.
      + injection H as <-. discriminate.
      + destruct Ho as (Hrb & Hocc). cbn [s_rb list_rb rb_terms s_end s_start] in H. rewrite repeat_length, He in H.
        eapply IHh with (c' := c) (r' := r) (p := s); [| |exact Hs'| | | |exact H].
        * rewrite repeat_length. lia.
        * intros t Ht. apply repeat_spec in Ht. subst t. discriminate.
        * split; [reflexivity|]. split; auto. right. split; auto. exists (s_dot s). reflexivity.
        * simpl. lia.
        * simpl. lia.
    - intros children ref st terms k c' r' p outs Hk Hnt Hp (P1 & P2 & P3) Hcr Hle H.
      simpl in H. destruct k as [|k]; [injection H as <-; discriminate|].
      unfold idx at 1 in H. destruct (nth_error terms k) as [t|] eqn:En.
      2:{ apply nth_error_None in En. lia. }
      simpl in H.
      assert (t_type t <> TTerminal) as Htt by (apply Hnt; eapply nth_error_In; eauto).
      assert (exists rd d r0 p0, rd < r' /\ st_at cols c' rd = Some d /\ completed d = true
                /\ st_at cols (s_start d) r0 = Some p0 /\ (s_start d = c' -> r0 < r')
                /\ t_value (s_term d) = t_value t /\ t_type (s_term d) = t_type t
                /\ stage st terms k p0) as (rd & d & r0 & p0 & Hrd & Hd & Hcd & Hp0 & Hlt & Hv & Hty & Hst).
      { assert (t_type (s_term p) <> TAny) as Hpa by (destruct P3 as [[E _]|[E _]]; rewrite E; discriminate).
        destruct (HJ _ _ _ Hp) as [S ? ? Es|? ? ? ? ? ? ? ? ? ? ? ? ? ? Es|? ? ? ? ? ? ? ? Es|
                                   cc rr q tq tok Ec Hq Hnq Hqa Htq Htok Hm Es|
                                   cc rr q tq Ec Hcl Hq Hnq Hqa Es|
                                   rd d r0 q tq Hrd Hd Hcd Hq Hlt Hnq Ha Hqa Es|
                                   rd d r0 q tq Hrd Hd Hcd Hq Hlt Hnq Ha Hqa Es].
        - subst p. simpl in P2. lia.
        - subst p. simpl in P2. lia.
        - subst p. simpl in P2. lia.
        - exfalso. pose proof (Hor _ _ _ Hq) as Hoq.
          destruct (nxt_origin _ _ _ _ _ Hoq Hnq) as [(Eq & b & Hb & Hbo & Hnth)|[(Eq & _)|(Eq & ->)]]; try congruence.
          + subst p. simpl in *. destruct P3 as [[_ (b' & Hb' & Ht')]|[E _]]; [|congruence].
            rewrite Hb in Hb'. injection Hb' as <-. subst terms.
            replace (s_dot q) with k in Hnth by lia. congruence.
          + simpl in Htq. discriminate.
        - subst p. simpl in *. congruence.
        - exists rd, d, r0, q. pose proof (Hor _ _ _ Hq) as Hoq. pose proof (Hor _ _ _ Hd) as Hod.
          destruct (nxt_origin _ _ _ _ _ Hoq Hnq) as [(Eq & b & Hb & Hbo & Hnth)|[(Eq & _)|(Eq & Etq)]]; try congruence.
          + subst p. simpl in *. destruct P3 as [[_ (b' & Hb' & Ht')]|[E _]]; [|congruence].
            rewrite Hb in Hb'. injection Hb' as <-. subst terms.
            assert (s_dot q = k) as Edot by lia. rewrite Edot in Hnth.
            assert (tq = t) by congruence. subst tq.
            assert (t_value (s_term d) = t_value t /\ t_type (s_term d) = t_type t) as [Hv Hty].
            { apply advances_spec in Ha as [[Ha1 Ha2]|[Ha1 Ha2]]; [|split; congruence].
              split; [|congruence]. eapply any_value; eauto.
              destruct (body_origin_occurs _ _ _ _ _ Hbo (nth_error_In _ _ Hnth)) as [Ho|(S & _ & ->)]; auto.
              discriminate. }
            repeat split; auto. left. split; auto. exists b. auto.
          + subst p tq. simpl in *. destruct P3 as [[E _]|[_ (n & Hn)]]; [congruence|].
            assert (t = nonterm (t_value (s_term q))) as ->.
            { apply nth_error_In in En. rewrite Hn in En. apply repeat_spec in En. exact En. }
            apply advances_spec in Ha as [[Ha1 Ha2]|[Ha1 Ha2]]; [discriminate|]. simpl in *.
            repeat split; auto. lia. right. split; auto. exists n. exact Hn.
        - subst p. simpl in *. congruence. }
      match type of H with match t_type t with TEOF => ?X | _ => _ end = _ => assert (X = Ret outs) as H' end.
      { destruct (t_type t); auto. congruence. }
      clear H. replace (Z.of_nat c' <? 0)%Z with false in H' by (symmetry; apply Z.ltb_ge; lia).
      rewrite Nat2Z.id in H'. unfold idx in H'.
      destruct (nth_error cols c') as [col|] eqn:Ec; [|discriminate]. simpl in H'.
      assert (states_of cols c' = c_states col) as Hcs by (unfold states_of; rewrite Ec; auto).
      unfold st_at in Hd. rewrite Hcs in Hd.
      assert (forall s, In s (c_states col) -> is_completed s = Ret (completed s)) as Hcomp.
      { intros s Hs. apply (is_completed_ret c'). apply Hsh. rewrite Hcs. exact Hs. }
      destruct (over_states_ret _ _ _ _ _ _ _ _ Hcomp H' rd d Hd) as (o & Ho & Hincl); auto.
      + intros E. specialize (Hle E). simpl. lia.
      + intros n Hn0. destruct (Nat.eqb k 0) eqn:Ek; [|discriminate]. injection Hn0 as <-.
        apply Nat.eqb_eq in Ek. subst k. destruct Hst as (S1 & S2 & S3). rewrite <- S1. symmetry.
        eapply zero_dot; eauto. destruct S3 as [[E _]|[E _]]; rewrite E; discriminate.
      + simpl in Ho. destruct (build_trees cols fuel (c', rd)) as [subs| | |] eqn:Eb; try discriminate.
        simpl in Ho. assert (subs <> []) as Hsubs.
        { eapply IHt; [|exact Hcd|exact Eb]. unfold st_at. rewrite Hcs. exact Hd. }
        destruct subs as [|sub subs]; [congruence|].
        destruct (over_subtrees_ret _ _ _ Ho sub (or_introl eq_refl)) as (o' & Ho' & Hincl').
        assert (o' <> []) as Hne.
        { assert (s_start d <= c') as Hsd.
          { assert (st_at cols c' rd = Some d) as Hd' by (unfold st_at; rewrite Hcs; exact Hd).
            destruct (st_at_shape _ _ _ _ Hsh Hd') as (_ & Hsd & _). exact Hsd. }
          eapply IHh; [| | | | | |exact Ho']; eauto; [lia|lia|].
          intros E. assert (c' = fst ref) as Ecr by lia.
          specialize (Hle Ecr). assert (s_start d = c') as Edc by lia. specialize (Hlt Edc). lia. }
        destruct o' as [|x o']; [congruence|]. intros ->. apply (Hincl x). apply Hincl'. left; reflexivity.
  Qed.
End Nonempty.
