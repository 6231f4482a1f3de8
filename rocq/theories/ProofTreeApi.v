(** The trees of the final states of a parse. *)
From Verif Require Import Base ModelTypes ModelEarley ModelTrees ModelApi SpecTypes SpecGrammar SpecTree SpecApi
  ProofEqual ProofChart ProofSound ProofComplete ProofTerm ProofTree ProofTreeOk ProofTreeSet ProofTreeDup ProofApi ProofApiLoops.

Section FinalTrees.
  Variable tmatch : term -> option token -> bool.
  Variable gs : list grammar_rules.
  Variable text : string.
  Variable ord : order.
  Hypothesis Hord : is_order ord.
  Variable starts : list string.
  Hypothesis Hwf : well_formed gs starts.
  Hypothesis Hsep : separated gs.
  Variable toks : list token.
  Variable mf : bool.
  Variable p : parse_t.
  Hypothesis Hp : parse_result tmatch ord gs text toks starts mf p.

  Lemma trees_terminate ref : In ref (p_finals p) -> terminates (fun m => get_trees (p_columns p) m ref).
  Proof.
    intros Hr. destruct (final_sound _ _ _ _ _ _ _ _ _ Hp Hr) as (s & Hs & Hg & Hc).
    destruct ref as [c r]. simpl in *. pose proof Hp as (_ & Hfin & _).
    pose proof Hfin as ((Hst & HJ & _) & _).
    destruct (trees_conv (p_columns p) (justified_shape _ _ _ _ _ HJ) c r s Hs) as (x & Hx & n & Hn).
    destruct Hwf as [Hnamed Hres].
    assert (forall t t' n, occurs gs t -> occurs gs t' -> t_type t = t_type t' ->
      t_type t = TAny \/ (t_type t = TList /\ t_value t = t_value t') ->
      range_allows (t_meta t') n -> some_range gs t n) as Hcount.
    { intros t t' n' H1 H2 H3 H4 H5. exists t'. split; [exact H2|]. split; [congruence|]. split; auto.
      intros Et. destruct H4 as [E|[_ E]]; congruence. }
    destruct (all_trees_good tmatch gs toks starts (some_range gs) Hnamed Hres Hcount Hsep _ HJ (proj1 Hst) n c r s Hs Hc)
      as [E|(outs & E & _)].
    - rewrite Hn in E by lia. congruence.
    - exists outs, n. intros m Hm. unfold get_trees. rewrite <- E. rewrite !Hn by lia. reflexivity.
  Qed.

  Section Count.
    Variable count_ok : term -> nat -> Prop.
    Hypothesis Hcount : forall t t' n, occurs gs t -> occurs gs t' -> t_type t = t_type t' ->
      t_type t = TAny \/ (t_type t = TList /\ t_value t = t_value t') ->
      range_allows (t_meta t') n -> count_ok t n.

    Lemma trees_valid ref fuel outs : In ref (p_finals p) -> get_trees (p_columns p) fuel ref = Ret outs ->
      exists s S, p_state p ref = Ret s /\ tag s = Ret S /\
      Forall (fun n => exists kid, erase n = PRule GammaRule (gamma_body S) 0 (s_end s) [kid]
                /\ tree_of gs (accepts_by tmatch) toks count_ok (nonterm S) 0 (s_end s) kid) outs.
    Proof.
      intros Hr H. destruct (final_sound _ _ _ _ _ _ _ _ _ Hp Hr) as (s & Hs & Hg & Hc).
      destruct ref as [c r]. simpl in *. pose proof Hp as (_ & Hfin & _).
      destruct (final_facts tmatch ord gs toks starts Hwf _ Hfin c r s Hs Hg Hc)
        as (S & H1 & H2 & H3 & H4 & H5 & H6 & H7 & _).
      exists s, S. split; [apply p_state_at; exact Hs|]. split; [exact H2|].
      pose proof Hfin as ((Hst & HJ & _) & _). pose proof Hwf as [Hnamed Hres].
      destruct (all_trees_good tmatch gs toks starts count_ok Hnamed Hres Hcount Hsep _ HJ (proj1 Hst) fuel c r s Hs Hc)
        as [E|(outs' & E & F)]; unfold get_trees in H; rewrite H in E; [discriminate|].
      injection E as <-. eapply Forall_impl; [|exact F]. intros n Hn. unfold good in Hn. rewrite H7 in Hn.
      destruct Hn as (b & kids & Hb & He & Ht). rewrite H6 in Hb. injection Hb as <-. simpl in Ht.
      inversion Ht as [|t0 ts i j k q qs Hq Hqs]; subst. inversion Hqs; subst.
      exists q. rewrite Hg, H3 in *. auto.
    Qed.
  End Count.

  Lemma trees_roots ref fuel outs : typed_args gs -> In ref (p_finals p) -> get_trees (p_columns p) fuel ref = Ret outs ->
    exists s, p_state p ref = Ret s /\ NoDup outs /\ Forall (fun n => n_value n = s) outs.
  Proof.
    intros Hty Hr H. destruct (final_sound _ _ _ _ _ _ _ _ _ Hp Hr) as (s & Hs & Hg & Hc).
    destruct ref as [c r]. simpl in *. pose proof Hp as (_ & Hfin & _).
    exists s. split; [apply p_state_at; exact Hs|]. split.
    - eapply nodup_nodes; eauto.
    - destruct (final_facts tmatch ord gs toks starts Hwf _ Hfin c r s Hs Hg Hc)
        as (S & _ & _ & _ & _ & _ & _ & H7 & _).
      pose proof Hfin as ((Hst & HJ & _) & _).
      assert (NoDup outs /\ Forall (fun n => exists kids, n = Node (root_value s) kids) outs) as [_ F].
      { split; [eapply nodup_nodes; eauto|].
        assert (forall c r1 r2 s1 s2 (a b : list node),
          st_at (p_columns p) c r1 = Some s1 -> st_at (p_columns p) c r2 = Some s2 ->
          completed s1 = true -> completed s2 = true ->
          t_value (s_term s1) = t_value (s_term s2) -> t_type (s_term s1) = t_type (s_term s2) ->
          length a = root_arity s1 -> length b = root_arity s2 ->
          (fun n : node => n) (Node (root_value s1) a) = (fun n => n) (Node (root_value s2) b) -> r1 = r2) as Hroot.
        { intros c' r1 r2 s1 s2 a b H1 H2 C1 C2 V T _ _ E. injection E as E _.
          assert (s1 = s2) as ->; [|eapply same_row; eauto].
          pose proof (justified_origin _ _ _ _ _ HJ _ _ _ H1) as O1.
          pose proof (justified_origin _ _ _ _ _ HJ _ _ _ H2) as O2.
          unfold origin in *. unfold root_value, with_list_rb in E. rewrite <- T in *.
          destruct (t_type (s_term s1)) eqn:Et; auto; try contradiction.
          + injection E as E1 E2 E3. destruct O1 as (R1 & D1 & _), O2 as (R2 & D2 & _).
            destruct s1, s2; simpl in *; congruence.
          + injection E as E1 E2 E3 E4. destruct O1 as (R1 & _), O2 as (R2 & _).
            destruct s1, s2; simpl in *; congruence. }
        destruct (proj1 (nodup_trees (fun n => n) (p_columns p) (justified_shape _ _ _ _ _ HJ)
                    ltac:(intros st a b _ E; injection E as ->; reflexivity) Hroot fuel) c r s outs Hs H) as [_ F].
        eapply Forall_impl; [|exact F]. intros n (kids & -> & _). eauto. }
      eapply Forall_impl; [|exact F]. intros n (kids & ->). simpl. unfold root_value, with_list_rb.
      rewrite H7. reflexivity.
  Qed.

  Lemma trees_nonempty ref fuel outs : any_named gs -> In ref (p_finals p) ->
    get_trees (p_columns p) fuel ref = Ret outs -> outs <> [].
  Proof.
    intros Hany Hr H. destruct (final_sound _ _ _ _ _ _ _ _ _ Hp Hr) as (s & Hs & Hg & Hc).
    destruct ref as [c r]. simpl in *. pose proof Hp as (_ & Hfin & _). pose proof Hfin as ((Hst & HJ & _) & _).
    eapply (proj1 (nonempty tmatch gs toks starts Hsep Hany _ HJ fuel)); eauto.
  Qed.

  Lemma trees_distinct ref fuel outs : typed_args gs -> uniform_ranges gs -> In ref (p_finals p) ->
    get_trees (p_columns p) fuel ref = Ret outs -> NoDup (map erase outs).
  Proof.
    intros Hty Hu Hr H. destruct (final_sound _ _ _ _ _ _ _ _ _ Hp Hr) as (s & Hs & Hg & Hc).
    destruct ref as [c r]. simpl in *. pose proof Hp as (_ & Hfin & _). eapply nodup_erased; eauto.
  Qed.

  Lemma uniform_count : uniform_ranges gs -> forall t t' n, occurs gs t -> occurs gs t' -> t_type t = t_type t' ->
      t_type t = TAny \/ (t_type t = TList /\ t_value t = t_value t') ->
      range_allows (t_meta t') n -> own_range t n.
  Proof. intros Hu t t' n H1 H2 H3 H4 H5. unfold own_range. rewrite (Hu t t'); auto. Qed.

  Lemma trees_unique ref fuel outs q : typed_args gs -> uniform_ranges gs -> any_named gs ->
    In ref (p_finals p) -> get_trees (p_columns p) fuel ref = Ret outs ->
    (forall s S q', p_state p ref = Ret s -> tag s = Ret S ->
       tree_of gs (accepts_by tmatch) toks own_range (nonterm S) 0 (s_end s) q' -> q' = q) ->
    exists n s S, outs = [n] /\ p_state p ref = Ret s /\ tag s = Ret S /\ erase n = PRule GammaRule (gamma_body S) 0 (s_end s) [q].
  Proof.
    intros Hty Hu Hany Hr H Huniq.
    pose proof (trees_nonempty _ _ _ Hany Hr H) as Hne.
    pose proof (trees_distinct _ _ _ Hty Hu Hr H) as Hnd.
    destruct (trees_valid own_range (uniform_count Hu) _ _ _ Hr H) as (s & S & Hs & Ht & F).
    assert (Forall (fun n => erase n = PRule GammaRule (gamma_body S) 0 (s_end s) [q]) outs) as F'.
    { eapply Forall_impl; [|exact F]. intros n (kid & -> & Hk). rewrite (Huniq s S kid Hs Ht Hk). reflexivity. }
    destruct outs as [|n outs]; [congruence|]. inversion F' as [|? ? E1 F1]; subst.
    destruct outs as [|n' outs].
    - exists n, s, S. auto.
    - exfalso. inversion F1 as [|? ? E2 F2]; subst. simpl in Hnd. inversion Hnd as [|? ? Hni _]. subst.
      apply Hni. left. congruence.
  Qed.
End FinalTrees.
