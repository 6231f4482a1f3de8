(** Every node of a parse tree without empty nodes stands in the chart. *)
From Coq Require Import Permutation.
From Verif Require Import Base ModelTypes ModelEarley ModelTrees ModelApi SpecTypes SpecGrammar SpecTree SpecApi SpecTreeOrder
  ProofEqual ProofChart ProofSound ProofComplete ProofTerm ProofTree ProofTreeOk ProofTreeSet ProofTreeDup ProofApi ProofApiLoops ProofTreeApi ProofMain
  ProofTreeOrder.

Section Exact.
  Variable tmatch : term -> option token -> bool.
  Variable ord : nat -> nat -> nat -> list rulebody -> list rulebody.
  Variable gs : list grammar_rules.
  Variable toks : list token.
  Variable starts : list string.
  Hypothesis Hord : is_order ord.
  Hypothesis Htyped : typed_args gs.
  Hypothesis Hnamed : named_rules gs.
  Variable cols : list column.
  Hypothesis Hfin : finished tmatch ord gs toks starts cols.

  Let HJ : all_justified tmatch gs toks starts cols := proj1 (proj2 (proj1 Hfin)).
  Let Hsh : all_shaped cols := justified_shape _ _ _ _ _ HJ.
  Let Hor := justified_origin _ _ _ _ _ HJ.

  Lemma state_wt c s : In s (states_of cols c) -> wt_orb (s_rb s).
  Proof. intros Hs. apply In_nth_error in Hs as [r Hr]. eapply origin_wt; eauto. Qed.
  Lemma sat_exact c' s' : sat cols (c', s') -> wt_orb (s_rb s') -> In (norm c' s') (states_of cols c').
  Proof.
    intros (s & Hin & H) Hwt. cbn [fst snd] in *. destruct H as [<-|H]; [exact Hin|].
    apply state_equal_iff in H; [subst; exact Hin|eapply state_wt; eauto|]. unfold norm. destruct (t_type (s_term s')); exact Hwt.
  Qed.
  Lemma next_exact c p : In p (states_of cols c) -> forall j c' s',
    st_at cols c j = Some p -> In (c', s') (next_ops tmatch ord gs toks c j p) -> wt_orb (s_rb s') ->
    In (norm c' s') (states_of cols c').
  Proof.
    intros Hp j c' s' Hj Hin Hwt. apply sat_exact; [|exact Hwt].
    eapply finished_due; eauto. unfold due_ops. apply in_or_app. right. exact Hin.
  Qed.

  Lemma predict_exact c p t g ru b :
    In p (states_of cols c) -> nxt p = Some t -> t_type t = TNonterminal ->
    In g gs -> lookup g (t_value t) = Some ru -> In b (map snd (r_body ru)) ->
    In (mkSt (mkTerm (r_name ru) TNonterminal MNil) (Some b) c c 0) (states_of cols c).
  Proof.
    intros Hp Hn Ht Hg Hl Hb. destruct (In_nth_error _ _ Hp) as [j Hj].
    apply (next_exact c p Hp j c (mkSt (mkTerm (r_name ru) TNonterminal MNil) (Some b) c 0 0) Hj).
    - unfold next_ops. rewrite Hn. pose proof (Hsh _ _ Hp) as (_ & _ & Hty).
      destruct Hty as [[Hty _]|[Hty|Hty]].
      + rewrite Hty, Ht. apply in_map. unfold pred_list. rewrite Ht. eapply pred_gs_list_in; eauto.
      + apply nxt_any in Hn; auto. congruence.
      + rewrite Hty, Ht. apply in_map. unfold pred_list. rewrite Ht. eapply pred_gs_list_in; eauto.
    - cbn. intros b' [= <-]. apply in_map_iff in Hb as ((h & b') & E & Hin). cbn in E. subst b'. eapply Htyped. exists g, ru, h. eauto.
  Qed.
  Lemma special_exact c p t :
    In p (states_of cols c) -> nxt p = Some t -> t_type (s_term p) <> TAny ->
    t_type t = TAny \/ t_type t = TList -> In (mkSt t None c c 0) (states_of cols c).
  Proof.
    intros Hp Hn Hna Ht. destruct (In_nth_error _ _ Hp) as [j Hj].
    assert (norm c (mkSt t None c 0 0) = mkSt t None c c 0) as E.
    { unfold norm; simpl. destruct Ht as [E|E]; rewrite E; auto. rewrite Nat.sub_diag. reflexivity. }
    rewrite <- E. apply (next_exact c p Hp j c (mkSt t None c 0 0) Hj); [|cbn; discriminate].
    unfold next_ops. rewrite Hn. pose proof (Hsh _ _ Hp) as (_ & _ & Hty).
    destruct Hty as [[Hty _]|[Hty|Hty]]; rewrite Hty; [|congruence|].
    - destruct Ht as [E'|E']; rewrite E'; apply in_map; unfold pred_list; rewrite E'; left; auto.
    - apply nxt_list in Hn; auto. subst t. simpl in Ht. destruct Ht; discriminate.
  Qed.
  Lemma scan_exact c p t tok :
    In p (states_of cols c) -> nxt p = Some t -> t_type (s_term p) <> TAny ->
    t_type t = TTerminal -> nth_error toks c = Some tok -> tmatch t (Some tok) = true ->
    In (mkSt (s_term p) (s_rb p) (s_start p) (S c) (s_dot p + 1)) (states_of cols (S c)).
  Proof.
    intros Hp Hn Hna Ht Htok Hm. destruct (In_nth_error _ _ Hp) as [j Hj].
    assert (c < length toks) as Hc by (apply nth_error_Some; congruence).
    pose (x := mkSt (s_term p) (s_rb p) (s_start p) 0 (s_dot p + 1)).
    assert (norm (S c) x = mkSt (s_term p) (s_rb p) (s_start p) (S c) (s_dot p + 1)) as E by (apply norm_not_any; exact Hna).
    rewrite <- E. apply (next_exact c p Hp j (S c) x Hj); [|exact (state_wt c p Hp)].
    unfold next_ops. rewrite Hn. replace (c + 1) with (S c) by lia.
    replace (Nat.ltb (S c) (S (length toks))) with true by (symmetry; apply Nat.ltb_lt; lia).
    assert (In (S c, x) (map (pair (S c)) (scan_list tmatch (col_tok toks (S c)) p t))) as H.
    { apply in_map. unfold scan_list. rewrite Ht. simpl. rewrite Htok, Hm. left; reflexivity. }
    rewrite Ht. destruct (t_type (s_term p)); auto.
  Qed.
  Lemma complete_exact c d p t :
    In d (states_of cols c) -> completed d = true -> s_start d < c ->
    In p (states_of cols (s_start d)) -> nxt p = Some t -> advances t d = true -> t_type (s_term p) <> TAny ->
    exists q, In q (states_of cols c) /\ moved 1 p q /\ s_rb q = s_rb p.
  Proof.
    intros Hd Hc Hlt Hp Hn Ha Hna. destruct (In_nth_error _ _ Hd) as [j Hj].
    assert (In (norm c (adv p t)) (states_of cols c)) as Hin.
    { apply sat_exact; [|exact (state_wt _ p Hp)].
      eapply finished_due; eauto. unfold due_ops. apply in_or_app. left.
      replace (Nat.ltb (s_start d) c) with true by (symmetry; apply Nat.ltb_lt; auto).
      unfold comp_ops. rewrite Hc. apply in_map. eapply comp_list_in; eauto. }
    exists (norm c (adv p t)). split; [exact Hin|]. split; [eapply adv_moved; eauto; apply sim_refl|].
    rewrite norm_not_any by exact Hna. reflexivity.
  Qed.

  Notation T := (tree_of gs (accepts_by tmatch) toks own_range).
  Notation TS := (trees_of gs (accepts_by tmatch) toks own_range).

  Definition charted (q : ptree) : Prop := forall q', subtree q q' -> p_inner q' = true -> exists r, stands cols r q'.
  Lemma charted_node q : p_inner q = true -> (exists r, stands cols r q) -> Forall charted (p_kids q) -> charted q.
  Proof.
    intros Hi Hr F q' Hs Hi'. inversion Hs as [|? k ? Hk Hk']; subst; [exact Hr|].
    rewrite Forall_forall in F. exact (F k Hk q' Hk' Hi').
  Qed.
  Lemma empty_kids q : nowhere_empty q -> Forall nowhere_empty (p_kids q).
  Proof. intros H. apply Forall_forall. intros k Hk q' Hs. apply H. econstructor; eauto. Qed.

  Lemma trees_charted :
    (forall t i j q, T t i j q -> nowhere_empty q ->
       forall p t', In p (states_of cols i) -> t_type (s_term p) <> TAny -> nxt p = Some t' -> same_for t t' ->
       charted q /\ exists p', In p' (states_of cols j) /\ moved 1 p p' /\ s_rb p' = s_rb p)
    /\ (forall ts i j qs, TS ts i j qs -> Forall nowhere_empty qs ->
       forall p, In p (states_of cols i) -> awaits p ts ->
       Forall charted qs /\ exists p', In p' (states_of cols j) /\ moved (length ts) p p' /\ s_rb p' = s_rb p).
  Proof.
    apply tree_of_mutind.
    - (* terminal *)
      intros t i tok Ht Htok Hacc _ p t' Hp Hna Hn [->|(H & _)]; [|congruence].
      pose proof (scan_exact i p t tok Hp Hn Hna Ht Htok Hacc) as Hin. split.
      { intros q' Hs Hi. inversion Hs as [|? k ? Hk]; subst; [discriminate|destruct Hk]. }
      eexists. split; [exact Hin|]. split; [|reflexivity]. unfold moved. cbn. repeat split; auto.
    - (* any *)
      intros t i j Ht Hij Hr He p t' Hp Hna Hn [->|(H & _)]; [|congruence].
      pose proof (special_exact i p t Hp Hn Hna (or_introl Ht)) as Hq0.
      pose proof (He _ (sub_self _)) as Hlt. cbn in Hlt.
      destruct (any_run' tmatch ord gs toks starts cols Hfin i (t_meta t) _ (j - i) Hq0) as (q1 & Hq1 & A1 & A2 & A3 & A4); auto.
      + lia.
      + exists (j - i). auto.
      + replace (i + (j - i)) with j in Hq1 by lia.
        assert (completed q1 = true) as Hc by (apply completed_special; auto; rewrite A2, A4; exact Hr).
        split.
        * apply charted_node; [reflexivity| |constructor]. destruct (In_nth_error _ _ Hq1) as [r1 Hr1]. exists r1.
          apply stands_at; [exact Hsh|]. exists q1. cbn. auto.
        * apply (complete_exact j q1 p t); auto; [lia|rewrite A3; exact Hp|]. apply advances_spec. left. auto.
    - (* rule *)
      intros t i j b kids Ht (g & ru & h & Hg & Hl & Hb) _ IH He p t' Hp Hna Hn Hsf.
      assert (t_type t' = TNonterminal /\ t_value t' = t_value t) as [Ht' Hv'].
      { destruct Hsf as [->|(_ & H1 & H2)]; auto. }
      pose proof (He _ (sub_self _)) as Hlt. cbn in Hlt.
      assert (r_name ru = t_value t) as Hname by (eapply Hnamed; eauto). rewrite <- Hv' in Hl.
      pose proof (predict_exact i p t' g ru b Hp Hn Ht' Hg Hl ltac:(apply (in_map snd) in Hb; exact Hb)) as Hq0.
      destruct (IH (empty_kids _ He) _ Hq0) as (Fk & q1 & Hq1 & (M1 & M2 & M3 & M4 & M5 & M6) & Erb).
      { left. cbn. split; auto. exists b, []. rewrite app_nil_r. auto. }
      cbn in *.
      assert (completed q1 = true) as Hc by (rewrite (completed_rule q1 b M1 Erb), M4; lia).
      split.
      + apply charted_node; [reflexivity| |exact Fk]. destruct (In_nth_error _ _ Hq1) as [r1 Hr1]. exists r1.
        apply stands_at; [exact Hsh|]. exists q1. cbn. rewrite M2. auto 10.
      + apply (complete_exact j q1 p t'); auto; [lia|rewrite M3; exact Hp|].
        apply advances_spec. right. rewrite Ht', M1, M2. split; congruence.
    - (* list *)
      intros t i j n kids Ht Hr Hk IH He p t' Hp Hna Hn [->|(H & _)]; [|congruence].
      pose proof (special_exact i p t Hp Hn Hna (or_intror Ht)) as Hq0.
      pose proof (He _ (sub_self _)) as Hlt. cbn in Hlt.
      destruct (IH (empty_kids _ He) _ Hq0) as (Fk & q1 & Hq1 & (M1 & M2 & M3 & M4 & M5 & M6) & Erb).
      { right. cbn. split; auto. rewrite repeat_length. split; auto. }
      rewrite repeat_length in M4. cbn in *.
      assert (completed q1 = true) as Hc.
      { apply completed_special; [rewrite M1; auto|]. rewrite M6, M4 by auto. exact Hr. }
      pose proof (trees_length tmatch gs toks own_range _ _ _ _ Hk) as L. rewrite repeat_length in L.
      split.
      + apply charted_node; [reflexivity| |exact Fk]. destruct (In_nth_error _ _ Hq1) as [r1 Hr1]. exists r1.
        apply stands_at; [exact Hsh|]. exists q1. cbn. rewrite M1, M4, L. auto 10.
      + apply (complete_exact j q1 p t); auto; [lia|rewrite M3; exact Hp|].
        apply advances_spec. right. rewrite M1, M2. auto.
    - (* nil *)
      intros i _ p Hp _. split; [constructor|]. exists p. split; auto. split; auto. apply moved_refl.
    - (* cons *)
      intros t ts i j k q qs _ IHt _ IHts He p Hp Ha. inversion He as [|? ? He1 He2]; subst.
      destruct (awaits_nxt _ _ _ Ha) as (Hna & t' & Hn & Hsf).
      destruct (IHt He1 p t' Hp Hna Hn Hsf) as (C1 & p1 & Hp1 & M1 & E1).
      destruct (IHts He2 p1 Hp1 (awaits_moved _ _ _ _ Ha M1)) as (C2 & p2 & Hp2 & M2 & E2).
      split; [constructor; assumption|]. exists p2. split; auto. split; [|congruence].
      apply (moved_trans 1 (length ts) p p1 p2); auto.
  Qed.

  (** One row per node. *)
  Lemma stands_row r1 r2 q : uniform_ranges gs -> any_named gs -> stands cols r1 q -> stands cols r2 q -> r1 = r2.
  Proof.
    intros Hu Hany H1 H2. apply stands_at in H1; [|exact Hsh]. apply stands_at in H2; [|exact Hsh].
    destruct H1 as (s1 & H1 & C1 & St1 & K1), H2 as (s2 & H2 & C2 & St2 & K2).
    assert (s1 = s2) as ->; [|eapply same_row; eauto].
    pose proof (Hor _ _ _ H1) as O1. pose proof (Hor _ _ _ H2) as O2.
    destruct (st_at_shape _ _ _ _ Hsh H1) as (E1 & _), (st_at_shape _ _ _ _ Hsh H2) as (E2 & _).
    destruct q as [t i|i j|x b i j kids|x i j kids]; [destruct K1| | |]; cbn [p_end p_start] in *; unfold origin in *.
    - rewrite K1 in O1. rewrite K2 in O2.
      destruct O1 as (R1 & D1 & t1 & Q1 & T1 & M1 & V1), O2 as (R2 & D2 & t2 & Q2 & T2 & M2 & V2).
      assert (t_value t1 = "any" /\ t_value t2 = "any") as [N1 N2] by (split; apply Hany; assumption).
      assert (t_meta t1 = t_meta t2) as Em by (apply Hu; auto; congruence).
      assert (t_value (s_term s1) = t_value (s_term s2)) as Ev by (destruct V1, V2; congruence).
      destruct s1 as [[] ? ? ? ?], s2 as [[] ? ? ? ?]; simpl in *; congruence.
    - destruct K1 as (T1 & V1 & R1), K2 as (T2 & V2 & R2).
      pose proof (state_meta tmatch ord gs toks starts cols Hfin _ _ _ _ H1 T1 R1) as M1.
      pose proof (state_meta tmatch ord gs toks starts cols Hfin _ _ _ _ H2 T2 R2) as M2.
      rewrite T1 in O1. rewrite T2 in O2.
      destruct O1 as (b1 & B1 & _ & D1 & _), O2 as (b2 & B2 & _ & D2 & _).
      rewrite R1 in B1. injection B1 as <-. rewrite R2 in B2. injection B2 as <-.
      rewrite (completed_rule s1 b T1 R1) in C1. rewrite (completed_rule s2 b T2 R2) in C2.
      assert (s_dot s1 = s_dot s2) as Ed by lia. rewrite Ed, <- M2 in M1.
      destruct s1 as [[] ? ? ? ?], s2 as [[] ? ? ? ?]; simpl in *; congruence.
    - destruct K1 as (T1 & V1 & L1), K2 as (T2 & V2 & L2). rewrite T1 in O1. rewrite T2 in O2.
      destruct O1 as (R1 & Q1), O2 as (R2 & Q2).
      assert (t_meta (s_term s1) = t_meta (s_term s2)) as Em
        by (apply Hu; [exact Q1|exact Q2|congruence|right; split; congruence]).
      destruct s1 as [[] ? ? ? ?], s2 as [[] ? ? ? ?]; simpl in *; congruence.
  Qed.

  (** ** In order, or a late child *)
  Hypothesis Hu : uniform_ranges gs.
  Hypothesis Hany : any_named gs.

  Lemma sub_trans a b c : subtree a b -> subtree b c -> subtree a c.
  Proof. induction 1; auto. intros. econstructor; eauto. Qed.
  Lemma in_order_sub r q n : in_order cols r q -> subtree q n -> p_inner n = true -> exists r', in_order cols r' n.
  Proof.
    intros Ho Hs. revert r Ho. induction Hs as [q|q k n Hk Hs IH]; intros r Ho Hi; [eauto|].
    destruct (p_inner k) eqn:Ek.
    - apply in_order_eq in Ho as [_ F]. rewrite Forall_forall in F. specialize (F k Hk).
      rewrite (placed_inner _ _ _ _ Ek) in F. destruct F as (r' & H & _). eauto.
    - destruct k; try discriminate. inversion Hs as [|? ? ? Hk']; subst; [discriminate|destruct Hk'].
  Qed.
  Lemma in_order_not_late r q n k : in_order cols r q -> subtree q n -> late cols n k -> False.
  Proof.
    intros Ho Hs (Hk & Hi & He & r1 & r2 & S1 & S2 & Hle).
    destruct (in_order_sub _ _ _ Ho Hs (stands_inner _ _ _ S1)) as [r' Ho'].
    apply in_order_eq in Ho' as [S1' F]. rewrite Forall_forall in F. specialize (F k Hk).
    rewrite (placed_inner _ _ _ _ Hi) in F. destruct F as (r3 & Ho3 & Hlt). apply in_order_eq in Ho3 as [S3 _].
    rewrite (stands_row _ _ _ Hu Hany S1 S1'), (stands_row _ _ _ Hu Hany S2 S3) in Hle. specialize (Hlt He). lia.
  Qed.

  Fixpoint p_size (q : ptree) : nat :=
    match q with
    | PRule _ _ _ _ kids => S (list_sum (map p_size kids))
    | PList _ _ _ kids => S (list_sum (map p_size kids))
    | _ => 1
    end.
  Lemma p_size_kid q k : In k (p_kids q) -> p_size k < p_size q.
  Proof.
    assert (forall l, In k l -> p_size k <= list_sum (map p_size l)) as H.
    { induction l as [|a l IH]; [intros []|]. intros [->|H]; cbn [map]; change (list_sum (p_size ?x :: ?l)) with (p_size x + list_sum l); [lia|]. specialize (IH H). lia. }
    destruct q; cbn [p_kids]; intros Hk; [destruct Hk..| |]; specialize (H _ Hk); cbn [p_size]; lia.
  Qed.
  Lemma order_or_late : forall m q, p_size q < m -> p_inner q = true -> charted q ->
    (exists r, in_order cols r q) \/ (exists n k, subtree q n /\ late cols n k).
  Proof.
    induction m as [|m IH]; [lia|]. intros q Hm Hi Hc. destruct (Hc q (sub_self q) Hi) as [r Hr].
    assert (forall l, incl l (p_kids q) -> Forall (placed cols (p_end q) r) l \/ (exists n k, subtree q n /\ late cols n k)) as H.
    { induction l as [|k l IHl]; intros Hl; [left; constructor|].
      destruct IHl as [F|L]; [intros x Hx; apply Hl; right; exact Hx| |right; exact L].
      assert (In k (p_kids q)) as Hk by (apply Hl; left; reflexivity). pose proof (p_size_kid _ _ Hk) as Hlt.
      destruct (p_inner k) eqn:Ek; [|left; constructor; [destruct k; [exact I|discriminate..]|exact F]].
      destruct (IH k ltac:(lia) Ek) as [[r' Hr']|(n & k' & H1 & H2)].
      - intros q' Hs. apply Hc. econstructor; eauto.
      - destruct (Nat.eq_dec (p_end k) (p_end q)) as [Ee|Ne]; [destruct (lt_dec r' r) as [L|L]|].
        + left. constructor; [|exact F]. rewrite (placed_inner _ _ _ _ Ek). eauto.
        + right. exists q, k. split; [constructor|]. split; [exact Hk|]. split; [exact Ek|]. split; [exact Ee|].
          exists r, r'. apply in_order_eq in Hr' as [Hr' _]. split; [exact Hr|]. split; [exact Hr'|lia].
        + left. constructor; [|exact F]. rewrite (placed_inner _ _ _ _ Ek). exists r'. split; [exact Hr'|congruence].
      - right. exists n, k'. split; [econstructor; eauto|exact H2]. }
    destruct (H (p_kids q) (incl_refl _)) as [F|L]; [left|right; exact L]. exists r. apply in_order_eq. auto.
  Qed.
End Exact.

(** * Trees of a final state *)
Section Final.
  Variable tmatch : term -> option token -> bool.
  Variable ords : nat -> order.
  Variable gs : list grammar_rules.
  Variable text : string.
  Variables (fuel n : nat) (mf : bool) (toks : list token) (starts : list string) (p : parse_t).
  Hypothesis Ho : is_order (ords n).
  Hypothesis Hparse : earley_parse_n tmatch ords gs text fuel n mf toks starts = Ret p.
  Hypothesis Hwf : well_formed gs starts.
  Hypothesis Hsep : separated gs.
  Hypothesis Hu : uniform_ranges gs.
  Hypothesis Hany : any_named gs.
  Notation T := (tree_of gs (accepts_by tmatch) toks own_range).

  Variables (ref : nat * nat) (s : tstate) (St : string).
  Hypothesis Hr : In ref (p_finals p).
  Hypothesis Hs : p_state p ref = Ret s.
  Hypothesis Ht : tag s = Ret St.

  Let Hres : parse_result tmatch (ords n) gs text toks starts mf p :=
    proj2 (proj2 (earley_parse_result _ _ _ _ _ _ _ _ _ _ Ho Hparse)).
  Let Hfin : finished tmatch (ords n) gs toks starts (p_columns p) := proj1 (proj2 Hres).
  Let HJ : all_justified tmatch gs toks starts (p_columns p) := proj1 (proj2 (proj1 Hfin)).
  Let Hsh : all_shaped (p_columns p) := justified_shape _ _ _ _ _ HJ.

  Lemma final_root : st_at (p_columns p) (fst ref) (snd ref) = Some s /\ completed s = true /\ t_value (s_term s) = GammaRule
    /\ s_start s = 0 /\ s_end s = fst ref /\ s_rb s = Some (gamma_body St) /\ t_type (s_term s) = TNonterminal.
  Proof using Ho Hparse Hwf Hr Hs Ht.
    destruct (final_sound _ _ _ _ _ _ _ _ _ Hres Hr) as (s' & Hs' & Hg & Hc).
    destruct ref as [c r]. apply p_state_at in Hs. cbn [fst snd] in *. rewrite Hs' in Hs. injection Hs as ->.
    destruct (final_facts tmatch (ords n) gs toks starts Hwf _ Hfin c r s Hs' Hg Hc)
      as (S' & H1 & H2 & H3 & H4 & H5 & H6 & H7 & _).
    rewrite Ht in H2. injection H2 as <-. auto 10.
  Qed.

  Definition gamma_tree (q : ptree) : ptree := PRule GammaRule (gamma_body St) 0 (s_end s) [q].

  Lemma gamma_stands q : stands (p_columns p) (snd ref) (gamma_tree q).
  Proof using Ho Hparse Hwf Hr Hs Ht.
    destruct final_root as (H1 & H2 & H3 & H4 & H5 & H6 & H7). apply stands_at; [exact Hsh|]. exists s. cbn. rewrite H5. auto 10.
  Qed.

  Lemma exact_trees fuel' outs : get_trees (p_columns p) fuel' ref = Ret outs ->
    forall q, (exists t, In t outs /\ erase t = gamma_tree q)
      <-> T (nonterm St) 0 (s_end s) q /\ in_order (p_columns p) (snd ref) (gamma_tree q).
  Proof using Ho Hparse Hwf Hsep Hu Hany Hr Hs Ht.
    intros Hg q. destruct final_root as (H1 & H2 & H3 & H4 & H5 & H6 & H7). split.
    - intros (t & Hin & He). split.
      + destruct (trees_are_parse_trees _ _ _ _ _ _ _ _ _ _ Ho Hparse Hwf Hsep ref fuel' outs Hu Hr Hg) as (s' & S' & E1 & E2 & F).
        rewrite Hs in E1. injection E1 as <-. rewrite Ht in E2. injection E2 as <-.
        rewrite Forall_forall in F. destruct (F t Hin) as (kid & Ek & Hk). rewrite He in Ek. injection Ek as <-. exact Hk.
      + rewrite <- He. destruct ref as [c r]. cbn [fst snd] in *.
        exact (proj1 (proj1 (listed_in_order tmatch gs toks starts _ HJ fuel') c r s outs t H1 H2 Hg Hin)).
    - intros [HT Hio]. destruct ref as [c r]. cbn [fst snd] in *.
      refine (proj1 (in_order_listed tmatch gs toks starts Hsep Hany _ HJ own_range fuel') r (gamma_tree q) outs Hio _ _).
      + cbn. econstructor; [exact HT|constructor].
      + cbn [gamma_tree p_end]. rewrite H5. exact Hg.
  Qed.

  Section NoEmptyNode.
  Hypothesis Hty : typed_args gs.

  Lemma gamma_charted q : T (nonterm St) 0 (s_end s) q -> nowhere_empty q -> charted (p_columns p) (gamma_tree q).
  Proof using Ho Hparse Hwf Hr Hs Ht Hty.
    intros HT Hne. destruct final_root as (H1 & H2 & H3 & H4 & H5 & H6 & H7).
    assert (In St starts) as HS.
    { destruct (final_facts tmatch (ords n) gs toks starts Hwf _ Hfin _ _ s H1 H3 H2) as (S' & HS & E & _).
      rewrite Ht in E. injection E as <-. exact HS. }
    apply charted_node; [reflexivity|exists (snd ref); apply gamma_stands|]. constructor; [|constructor].
    apply In_nth_error in HS as [i Hi]. pose proof (proj2 (proj2 Hfin) i St Hi) as H0.
    refine (proj1 (proj1 (trees_charted tmatch (ords n) gs toks starts Ho Hty (proj1 Hwf) _ Hfin) _ _ _ _ HT Hne _ _ (nth_error_In _ _ H0) _ _ _)).
    - cbn. discriminate.
    - reflexivity.
    - left. reflexivity.
  Qed.

  Lemma nodes_stand_once q : T (nonterm St) 0 (s_end s) q -> nowhere_empty q ->
    forall m, subtree (gamma_tree q) m -> p_inner m = true -> exists! r, stands (p_columns p) r m.
  Proof using Ho Hparse Hwf Hr Hs Ht Hty Hu Hany.
    intros HT Hne m Hm Hi. destruct (gamma_charted q HT Hne m Hm Hi) as [r H]. exists r. split; [exact H|].
    intros r' H'. eapply (stands_row tmatch (ords n) gs toks starts Hty _ Hfin); eauto.
  Qed.

  Lemma missing_trees fuel' outs : get_trees (p_columns p) fuel' ref = Ret outs ->
    forall q, T (nonterm St) 0 (s_end s) q -> nowhere_empty q ->
    (~ In (gamma_tree q) (map erase outs))
    <-> exists m k, subtree (gamma_tree q) m /\ late (p_columns p) m k.
  Proof using Ho Hparse Hwf Hsep Hu Hany Hr Hs Ht Hty.
    intros Hg q HT Hne.
    destruct (order_or_late _ (S (p_size (gamma_tree q))) (gamma_tree q) ltac:(lia) eq_refl (gamma_charted q HT Hne)) as [[r Hio]|HL].
    - pose proof (proj1 (proj1 (in_order_eq _ _ _) Hio)) as Hst.
      rewrite (stands_row tmatch (ords n) gs toks starts Hty _ Hfin _ _ _ Hu Hany Hst (gamma_stands q)) in Hio.
      split.
      + intros Hno. exfalso. apply Hno. apply in_map_iff.
        destruct (proj2 (exact_trees _ _ Hg q) (conj HT Hio)) as (t & Hin & He). eauto.
      + intros (m & k & Hm & HL) _.
        exact (in_order_not_late tmatch (ords n) gs toks starts Hty _ Hfin Hu Hany _ _ _ _ Hio Hm HL).
    - split; [intros _; exact HL|]. destruct HL as (m & k & Hm & HL). intros _ Hin.
      apply in_map_iff in Hin as (t & He & Hin).
      destruct (proj1 (exact_trees _ _ Hg q) (ex_intro _ t (conj Hin He))) as [_ Hio].
      exact (in_order_not_late tmatch (ords n) gs toks starts Hty _ Hfin Hu Hany _ _ _ _ Hio Hm HL).
  Qed.

  Notation W := (well_made gs (accepts_by tmatch) toks own_range).
  Notation TS := (trees_of gs (accepts_by tmatch) toks own_range).

  Lemma tree_span t i j q : T t i j q -> p_start q = i /\ p_end q = j.
  Proof using. inversion 1; subst; cbn; auto. Qed.
  Lemma trees_le ts i j qs : TS ts i j qs -> Forall nowhere_empty qs -> i <= j.
  Proof using.
    induction 1 as [|t ts i j k q qs H1 H2 IH]; intros F; [lia|]. inversion F as [|? ? F1 F2]; subst.
    destruct (tree_span _ _ _ _ H1) as [<- <-]. pose proof (F1 q (sub_self q)). specialize (IH F2). lia.
  Qed.
  Lemma trees_last ts i j qs k : TS ts i j qs -> Forall nowhere_empty qs -> In k qs -> p_end k = j -> exists l, qs = l ++ [k].
  Proof using.
    induction 1 as [|t ts i j m q qs H1 H2 IH]; intros F Hin Hk; [destruct Hin|]. inversion F as [|? ? F1 F2]; subst.
    destruct Hin as [->|Hin]; [|destruct (IH F2 Hin eq_refl) as [l ->]; exists (q :: l); reflexivity].
    destruct (tree_span _ _ _ _ H1) as [_ E]. inversion H2 as [|t' ts' ? j' ? q' qs' H3 H4]; subst; [exists []; reflexivity|].
    exfalso. inversion F2 as [|? ? F3 F4]; subst. pose proof (trees_le _ _ _ _ H4 F4). destruct (tree_span _ _ _ _ H3) as [E3 <-].
    pose proof (F3 q' (sub_self q')). lia.
  Qed.
  Lemma sub_made : (forall t i j q, T t i j q -> forall m, subtree q m -> p_inner m = true -> W m)
    /\ (forall ts i j qs, TS ts i j qs -> forall q m, In q qs -> subtree q m -> p_inner m = true -> W m).
  Proof using.
    apply tree_of_mutind.
    - intros t i tok _ _ _ m Hm Hi. inversion Hm as [|? k ? Hk]; subst; [discriminate|destruct Hk].
    - intros t i j _ _ _ m Hm _. inversion Hm as [|? k ? Hk]; subst; [exact I|destruct Hk].
    - intros t i j b kids _ _ HT IH m Hm Hi. inversion Hm as [|? k ? Hk Hm']; subst; [exact HT|]. eapply IH; eauto.
    - intros t i j n0 kids _ _ HT IH m Hm Hi. inversion Hm as [|? k ? Hk Hm']; subst; [|eapply IH; eauto].
      cbn. pose proof (trees_length tmatch gs toks own_range _ _ _ _ HT) as L. rewrite repeat_length in L. rewrite L. exact HT.
    - intros i q m [].
    - intros t ts i j k q qs _ IH1 _ IH2 q' m [<-|Hin] Hm Hi; [eapply IH1; eauto|eapply IH2; eauto].
  Qed.

  Lemma snoc_of {A} (l : list A) : l <> [] -> exists l' x, l = l' ++ [x].
  Proof using. intros H. destruct (exists_last H) as (l' & x & E). eauto. Qed.

  Lemma forced_tree fuel' outs : get_trees (p_columns p) fuel' ref = Ret outs ->
    forall q, T (nonterm St) 0 (s_end s) q -> nowhere_empty q ->
    (forall m, subtree (gamma_tree q) m -> forced gs (accepts_by tmatch) toks own_range m) ->
    In (gamma_tree q) (map erase outs).
  Proof using Ho Hparse Hwf Hsep Hu Hany Hr Hs Ht Hty.
    intros Hg q HT Hne HF.
    destruct (order_or_late _ (S (p_size (gamma_tree q))) (gamma_tree q) ltac:(lia) eq_refl (gamma_charted q HT Hne)) as [[r Hio]|HL].
    { pose proof (proj1 (proj1 (in_order_eq _ _ _) Hio)) as Hst.
      rewrite (stands_row tmatch (ords n) gs toks starts Hty _ Hfin _ _ _ Hu Hany Hst (gamma_stands q)) in Hio.
      apply in_map_iff. destruct (proj2 (exact_trees _ _ Hg q) (conj HT Hio)) as (t & Hin & He). eauto. }
    exfalso. destruct HL as (m & k & Hm & Hk & Hki & Hke & r & r' & S1 & S2 & Hle).
    pose proof (stands_inner _ _ _ S1) as Hmi.
    assert (TS [nonterm St] 0 (s_end s) [q]) as HTS by (econstructor; [exact HT|constructor]).
    assert (W m /\ Forall nowhere_empty (p_kids m)) as [Hw Hme].
    { inversion Hm as [|? k0 ? Hk0 Hm']; subst; [split; [exact HTS|constructor; [exact Hne|constructor]]|].
      destruct Hk0 as [<-|[]]. split; [exact (proj1 sub_made _ _ _ _ HT m Hm' Hmi)|].
      apply empty_kids. intros q' Hq'. apply Hne. eapply sub_trans; eauto. }
    assert (exists l, p_kids m = l ++ [k]) as [l Hl].
    { destruct m; [discriminate|destruct Hk|..]; cbn in *; eapply trees_last; eauto. }
    apply stands_at in S1; [|exact Hsh]. destruct S1 as (s1 & St1 & C1 & Sm1 & M1).
    assert (is_completed s1 = Ret true) as C1'.
    { pose proof (st_at_shape _ _ _ _ Hsh St1) as Hshp. rewrite (is_completed_ret _ _ Hshp). f_equal. exact C1. }
    destruct (state_trees_terminate _ _ _ _ _ _ _ _ _ _ Ho Hparse Hwf Hsep (p_end m, r) s1) as (os & f0 & Hf0); auto.
    { apply p_state_at. exact St1. }
    specialize (Hf0 f0 (le_n _)). pose proof Hfin as ((Hstr & _) & _).
    pose proof (proj1 (nonempty tmatch gs toks starts Hsep Hany _ HJ f0) _ _ _ _ St1 C1 Hf0) as Hnn.
    destruct (all_trees_good tmatch gs toks starts own_range (proj1 Hwf) (proj2 Hwf) (uniform_count gs Hu) Hsep _ HJ (proj1 Hstr) f0 _ _ _ St1 C1)
      as [E|(os' & E & FG)]; unfold get_trees in Hf0; rewrite Hf0 in E; [discriminate|]. injection E as <-.
    destruct os as [|n0 os]; [congruence|]. inversion FG as [|? ? G0 _]; subst.
    destruct (proj1 (listed_in_order tmatch gs toks starts _ HJ f0) _ _ _ _ n0 St1 C1 Hf0 (or_introl eq_refl)) as (Hio & Hend & _).
    assert (same_root m (erase n0) /\ W (erase n0) /\ length (p_kids (erase n0)) = length (p_kids m)) as (Hsr & Hw0 & Hlen).
    { unfold good in G0. destruct m as [tm im|im jm|xm bm im jm km|xm im jm km]; [discriminate| | |]; cbn [p_end p_start p_kids] in *.
      - destruct Hk.
      - destruct M1 as (M1 & M2 & M3). rewrite M1 in G0. destruct G0 as (b0 & kids0 & Eb & -> & G0).
        rewrite M3 in Eb. injection Eb as <-. rewrite M2, Sm1 in *. cbn.
        split; [auto|]. split; [exact G0|].
        rewrite (trees_length tmatch gs toks own_range _ _ _ _ G0). symmetry. exact (trees_length tmatch gs toks own_range _ _ _ _ Hw).
      - destruct M1 as (M1 & M2 & M3). rewrite M1 in G0. destruct G0 as (kids0 & -> & G0).
        rewrite M2, Sm1 in *. pose proof (trees_length tmatch gs toks own_range _ _ _ _ G0) as L. rewrite repeat_length in L.
        cbn. rewrite L. split; [auto|]. split; [exact G0|auto]. }
    assert (p_kids (erase n0) <> []) as Hnil.
    { intros E. rewrite E in Hlen. rewrite Hl in Hlen. rewrite app_length in Hlen. cbn in Hlen. lia. }
    destruct (snoc_of _ Hnil) as (l' & k' & Hl').
    pose proof (HF m Hm _ _ _ _ _ Hsr Hw0 Hl Hl') as Hkk.
    apply in_order_eq in Hio as [_ F]. rewrite Forall_forall in F. specialize (F k' ltac:(rewrite Hl'; apply in_elt)).
    assert (p_inner k' = true /\ p_end k' = p_end k) as [Hki' Hke'].
    { destruct k; try discriminate; destruct k'; try contradiction; cbn in *; intuition congruence. }
    rewrite (placed_inner _ _ _ _ Hki') in F. destruct F as (r0 & Hio0 & Hlt). specialize (Hlt ltac:(congruence)).
    apply in_order_eq in Hio0 as [S0 _].
    assert (stands (p_columns p) r0 k) as S0'.
    { apply stands_at; [exact Hsh|]. apply stands_at in S0; [|exact Hsh]. destruct S0 as (s0 & A1 & A2 & A3 & A4). exists s0.
      destruct k; try discriminate; destruct k'; try contradiction; cbn in *; intuition congruence. }
    rewrite (stands_row tmatch (ords n) gs toks starts Hty _ Hfin _ _ _ Hu Hany S2 S0') in Hle. lia.
  Qed.
  End NoEmptyNode.
End Final.
