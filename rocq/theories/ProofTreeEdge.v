(** Trees with shortest right edges are returned. *)
From Coq Require Import Permutation.
From Verif Require Import Base ModelTypes ModelEarley ModelTrees ModelApi SpecTypes SpecGrammar SpecTree SpecApi SpecTreeOrder SpecTreeEdge
  ProofEqual ProofChart ProofSound ProofComplete ProofTerm ProofTree ProofTreeOk ProofTreeSet ProofTreeDup ProofApi ProofApiLoops ProofTreeApi ProofMain
  ProofTreeOrder ProofTreeMissing ProofDepth.

Fixpoint last_edge (l : list ptree) : nat :=
  match l with [] => 0 | k :: l' => match l' with [] => edge k | _ => last_edge l' end end.
Lemma edge_eq q : edge q = match q with PTok _ _ => 0 | _ => S (last_edge (p_kids q)) end.
Proof. destruct q; reflexivity. Qed.
Lemma last_edge_snoc l k : last_edge (l ++ [k]) = edge k.
Proof.
  induction l as [|a l IH]; [reflexivity|]. cbn [app last_edge]. destruct (l ++ [k]) eqn:E; [destruct l; discriminate|]. exact IH.
Qed.

Section Edges.
  Variable tmatch : term -> option token -> bool.
  Variable ord : nat -> nat -> nat -> list rulebody -> list rulebody.
  Variable gs : list grammar_rules.
  Variable toks : list token.
  Variable starts : list string.
  Hypothesis Hord : is_order ord.
  Hypothesis Htyped : typed_args gs.
  Hypothesis Hnamed : named_rules gs.
  Hypothesis Hres : no_reserved gs starts.
  Hypothesis Hu : uniform_ranges gs.
  Variable cols : list column.
  Hypothesis Hfin : finished tmatch ord gs toks starts cols.
  Variable D : nat -> nat -> nat.
  Hypothesis HD : levels tmatch ord gs toks cols D (S (length toks)) 0.

  Let HJ : all_justified tmatch gs toks starts cols := proj1 (proj2 (proj1 Hfin)).
  Let Hlen : length cols = S (length toks) := proj1 (proj1 (proj1 Hfin)).
  Let Hsh : all_shaped cols := justified_shape _ _ _ _ _ HJ.
  Let Hor := justified_origin _ _ _ _ _ HJ.
  Let Hca : forall c r s, st_at cols c r = Some s -> caused tmatch toks cols D c r s := proj1 (proj2 HD).
  Notation T := (tree_of gs (accepts_by tmatch) toks own_range).
  Notation TS := (trees_of gs (accepts_by tmatch) toks own_range).

  Lemma trees_app ts1 i j qs1 : TS ts1 i j qs1 -> forall ts2 k qs2, TS ts2 j k qs2 -> TS (ts1 ++ ts2) i k (qs1 ++ qs2).
  Proof. induction 1; cbn; auto. intros. econstructor; eauto. Qed.

  (** ** Every row has a tree whose right edge is no longer than its depth *)
  Definition grown (c r : nat) (s : tstate) : Prop :=
    match t_type (s_term s) with
    | TNonterminal => exists b kids, s_rb s = Some b /\ TS (firstn (s_dot s) (rb_terms b)) (s_start s) c kids /\ last_edge kids <= D c r
    | TList => exists kids, TS (repeat (nonterm (t_value (s_term s))) (s_dot s)) (s_start s) c kids /\ last_edge kids <= D c r
    | _ => True
    end.

  Lemma grown_tree c r d t : st_at cols c r = Some d -> grown c r d -> completed d = true -> advances t d = true ->
    (occurs gs t \/ exists x, t = mkTerm x TNonterminal (t_meta t) /\ x <> GammaRule) ->
    (t_type t = TNonterminal -> t_value t <> GammaRule) ->
    exists q, T t (s_start d) c q /\ edge q <= S (D c r).
  Proof.
    intros Hd Hg Hc Ha Hocc Hng. pose proof (st_at_col _ _ _ _ Hd) as Hcl. rewrite Hlen in Hcl.
    pose proof (Hor _ _ _ Hd) as Ho. destruct (st_at_shape _ _ _ _ Hsh Hd) as (_ & Hle & _).
    apply advances_spec in Ha. unfold grown in Hg. unfold origin in Ho.
    destruct (t_type (s_term d)) eqn:Et; try contradiction.
    - destruct Ha as [[_ Ha]|[Hty Hv]]; [congruence|]. specialize (Hng Hty).
      destruct Hg as (b & kids & Hb & Hts & Hle'). destruct Ho as (b' & Hb' & Hbo & Hdot & _). rewrite Hb in Hb'. injection Hb' as <-.
      rewrite (completed_rule d b Et Hb) in Hc. rewrite firstn_all2 in Hts by lia.
      exists (PRule (t_value t) b (s_start d) c kids). split.
      + apply to_rule; auto. destruct Hbo as [(S & _ & Hg & _)|(g & x & ru & h & Hg & Hl & Hin & Hn & _)]; [congruence|].
        exists g, ru, h. split; auto. split; auto. rewrite Hv, Hn, (Hnamed g x ru); auto.
      + rewrite edge_eq. cbn. lia.
    - assert (t_type t = TAny) as Ht by (destruct Ha as [[Ha _]|[Ha _]]; congruence).
      exists (PAny (s_start d) c). split; [|rewrite edge_eq; cbn; lia].
      destruct Hocc as [Hocc|(x & E & _)]; [|rewrite E in Ht; discriminate].
      destruct Ho as (_ & Hdot & t' & Ht' & Hty' & Hm & _). apply completed_special in Hc; auto.
      apply to_any; [exact Ht|lia|]. apply (uniform_count gs Hu t t'); auto; [congruence|]. rewrite <- Hm, <- Hdot. exact Hc.
    - destruct Ha as [[_ Ha]|[Hty Hv]]; [congruence|]. destruct Hg as (kids & Hts & Hle'). destruct Ho as (_ & Ho).
      destruct Hocc as [Hocc|(x & E & _)]; [|rewrite E in Hty; discriminate].
      apply completed_special in Hc; auto. exists (PList (t_value t) (s_start d) c kids). split.
      + apply to_list with (n := s_dot d); [exact Hty| |rewrite Hv; exact Hts].
        apply (uniform_count gs Hu t (s_term d)); auto; congruence.
      + rewrite edge_eq. cbn. lia.
  Qed.

  Lemma all_grown : forall c r s, st_at cols c r = Some s -> grown c r s.
  Proof.
    induction c as [c IHc] using (well_founded_induction lt_wf).
    induction r as [r IHr] using (well_founded_induction lt_wf).
    intros s Hs. pose proof (Hor _ _ _ Hs) as Hos.
    destruct (Hca _ _ _ Hs) as [H1 H2|H1|c' r' p t tok H1 H2 H3 H4 H5 H6 H7 H8|rd d r0 p t H1 H2 H3 H4 H5 H6 H7 H8 H9 H10].
    - unfold grown, origin in *. rewrite H1, H2 in *. cbn. destruct (t_type (s_term s)); auto.
      + destruct Hos as (b & Hb & _). exists b, []. split; [exact Hb|]. split; [constructor|cbn; lia].
      + exists []. split; [constructor|cbn; lia].
    - unfold grown. rewrite H1. exact I.
    - assert (grown c' r' p) as Hp by (eapply IHc; eauto; lia).
      pose proof (Hor _ _ _ H2) as Ho.
      destruct (nxt_origin _ _ _ _ _ Ho H3) as [(Ep & b & Hb & Hbo & Hnth)|[(Ep & _)|(Ep & ->)]]; [|congruence|discriminate].
      subst s c. unfold grown in *. cbn [s_term s_rb s_start s_dot]. rewrite Ep in *.
      destruct Hp as (b' & kids & Hb' & Hts & _). rewrite Hb in Hb'. injection Hb' as <-.
      exists b, (kids ++ [PTok t c']). split; [exact Hb|]. split.
      + rewrite (firstn_S_nth _ _ _ Hnth). eapply trees_app; [exact Hts|]. econstructor; [|constructor]. econstructor; eauto.
      + rewrite last_edge_snoc. cbn. lia.
    - assert (grown c rd d) as Hd by (eapply IHr; eauto).
      destruct (st_at_shape _ _ _ _ Hsh H3) as (_ & Hle & _).
      pose proof (Hor _ _ _ H5) as Hop.
      assert (grown (s_start d) r0 p) as Hp.
      { destruct (Nat.eq_dec (s_start d) c) as [Heq|Hne].
        - specialize (H6 Heq). rewrite Heq in *. eapply IHr; eauto.
        - eapply (IHc (s_start d)); eauto. lia. }
      assert (exists q, T t (s_start d) c q /\ edge q <= S (D c rd)) as (q & Hq & Hqe).
      { eapply grown_tree; eauto.
        - destruct (nxt_origin _ _ _ _ _ Hop H7) as [(Ep & b & Hb & Hbo & Hnth)|[(Ep & _)|(Ep & ->)]]; [|congruence|].
          + apply nth_error_In in Hnth. destruct (body_origin_occurs _ _ _ _ _ Hbo Hnth) as [Hocc|(S & HS & ->)]; [left; exact Hocc|].
            right. exists S. split; [reflexivity|]. eapply referenced_not_gamma; [exact Hres|]. left; exact HS.
          + right. eexists. split; [reflexivity|]. unfold origin in Hop. rewrite Ep in Hop. destruct Hop as [_ Hocc].
            eapply referenced_not_gamma; [exact Hres|]. right. exists (s_term p). auto.
        - intros Ht. eapply referenced_not_gamma; [exact Hres|]. eapply nxt_referenced; eauto. }
      subst s. unfold grown in *. cbn [s_term s_rb s_start s_dot t_type t_value t_meta].
      destruct (nxt_origin _ _ _ _ _ Hop H7) as [(Ep & b & Hb & Hbo & Hnth)|[(Ep & _)|(Ep & Et)]]; [|congruence|]; rewrite Ep in *.
      + destruct Hp as (b' & kids & Hb' & Hts & _). rewrite Hb in Hb'. injection Hb' as <-.
        exists b, (kids ++ [q]). split; [exact Hb|]. split; [|rewrite last_edge_snoc; lia].
        rewrite (firstn_S_nth _ _ _ Hnth). eapply trees_app; [exact Hts|]. econstructor; [exact Hq|constructor].
      + destruct Hp as (kids & Hts & _). exists (kids ++ [q]). split; [|rewrite last_edge_snoc; lia].
        rewrite repeat_snoc. eapply trees_app; [exact Hts|]. econstructor; [|constructor].
        rewrite Et in Hq. inversion Hq; subst; try discriminate. cbn [t_value] in *.
        apply (to_rule _ _ _ _ (nonterm (t_value (s_term p)))); auto.
  Qed.

  (** ** No tree without empty nodes has a shorter right edge than the depth of its root *)
  Lemma found_exact n c' s' : found cols D n (c', s') -> wt_orb (s_rb s') ->
    exists r, st_at cols c' r = Some (norm c' s') /\ D c' r <= n.
  Proof.
    intros (r & s & H1 & H2 & H3) Hwt. cbn [fst snd] in *. exists r. split; [|exact H2].
    destruct H3 as [<-|H3]; [exact H1|].
    apply state_equal_iff in H3; [subst; exact H1|eapply (state_wt tmatch ord gs toks starts Htyped cols Hfin); eapply nth_error_In; exact H1|].
    unfold norm. destruct (t_type (s_term s')); exact Hwt.
  Qed.

  Lemma Hfound_next : forall c r st op, st_at cols c r = Some st -> In op (next_ops tmatch ord gs toks c r st) -> fst op = S c -> found cols D 0 op.
  Proof.
    intros c r st op Hst Hop Hf. pose proof HD as (_ & _ & _ & _ & _ & H & _). eapply H; eauto. left.
    apply st_at_col in Hst. rewrite Hlen in Hst. exact Hst.
  Qed.
  Lemma Hfound_comp : forall c r st op, st_at cols c r = Some st -> s_start st < c -> In op (comp_ops cols c st) -> found cols D (D c r + 1) op.
  Proof.
    intros c r st op Hst Hlt Hop. pose proof HD as (_ & _ & _ & _ & _ & _ & H). eapply H; eauto. left.
    apply st_at_col in Hst. rewrite Hlen in Hst. exact Hst.
  Qed.

  Lemma scan_depth c p t tok :
    In p (states_of cols c) -> nxt p = Some t -> t_type (s_term p) <> TAny ->
    t_type t = TTerminal -> nth_error toks c = Some tok -> tmatch t (Some tok) = true ->
    exists r, st_at cols (S c) r = Some (mkSt (s_term p) (s_rb p) (s_start p) (S c) (s_dot p + 1)) /\ D (S c) r = 0.
  Proof.
    intros Hp Hn Hna Ht Htok Hm. destruct (In_nth_error _ _ Hp) as [j Hj].
    assert (c < length toks) as Hc by (apply nth_error_Some; congruence).
    pose (x := mkSt (s_term p) (s_rb p) (s_start p) 0 (s_dot p + 1)).
    assert (norm (S c) x = mkSt (s_term p) (s_rb p) (s_start p) (S c) (s_dot p + 1)) as E by (apply norm_not_any; exact Hna).
    destruct (found_exact 0 (S c) x) as (r & H1 & H2).
    - eapply Hfound_next; [exact Hj| |reflexivity].
      unfold next_ops. rewrite Hn. replace (c + 1) with (S c) by lia.
      replace (Nat.ltb (S c) (S (length toks))) with true by (symmetry; apply Nat.ltb_lt; lia).
      assert (In (S c, x) (map (pair (S c)) (scan_list tmatch (col_tok toks (S c)) p t))) as H.
      { apply in_map. unfold scan_list. rewrite Ht. simpl. rewrite Htok, Hm. left; reflexivity. }
      rewrite Ht. destruct (t_type (s_term p)); auto.
    - exact (state_wt tmatch ord gs toks starts Htyped cols Hfin c p Hp).
    - exists r. rewrite <- E. split; [exact H1|lia].
  Qed.
  Lemma any_depth c m q0 n : In q0 (states_of cols c) ->
    t_type (s_term q0) = TAny -> t_meta (s_term q0) = m -> s_start q0 = c -> s_dot q0 = 0 ->
    c + S n <= length toks -> range_allows m (S n) ->
    exists r q, st_at cols (c + S n) r = Some q /\ t_type (s_term q) = TAny /\ t_meta (s_term q) = m
      /\ s_start q = c /\ s_dot q = S n /\ D (c + S n) r = 0.
  Proof.
    intros H0 Ht Hm Hs Hd Hl Hr.
    destruct (any_run' tmatch ord gs toks starts cols Hfin c m q0 n H0 Ht Hm Hs Hd) as (q & Hq & A1 & A2 & A3 & A4); [lia|exists (S n); auto|].
    destruct (In_nth_error _ _ Hq) as [j Hj].
    assert (nxt q = Some (s_term q)) as Hn.
    { unfold nxt, get_next_term. rewrite A1. rewrite (at_max_range q (S n)); [reflexivity| |lia]. rewrite A2. exact Hr. }
    pose (x := mkSt (mkTerm "any" TAny (t_meta (s_term q))) (s_rb q) (s_start q) 0 (s_dot q + 1)).
    destruct (found_exact 0 (S (c + n)) x) as (r & H1 & H2).
    - eapply Hfound_next; [exact Hj| |reflexivity].
      unfold next_ops. rewrite Hn, A1. replace (c + n + 1) with (S (c + n)) by lia.
      replace (Nat.ltb (S (c + n)) (S (length toks))) with true by (symmetry; apply Nat.ltb_lt; lia).
      apply in_map. unfold scan_list. rewrite A1. left; reflexivity.
    - exact (state_wt tmatch ord gs toks starts Htyped cols Hfin _ _ Hq).
    - replace (c + S n) with (S (c + n)) by lia. exists r, (norm (S (c + n)) x). split; [exact H1|].
      unfold norm, x. cbn [s_term s_start s_dot t_type t_meta].
      split; [reflexivity|]. split; [exact A2|]. split; [exact A3|]. split; [rewrite A3; lia|lia].
  Qed.
  Lemma complete_depth c rd d p t :
    st_at cols c rd = Some d -> completed d = true -> s_start d < c ->
    In p (states_of cols (s_start d)) -> nxt p = Some t -> advances t d = true -> t_type (s_term p) <> TAny ->
    exists r q, st_at cols c r = Some q /\ moved 1 p q /\ s_rb q = s_rb p /\ D c r <= S (D c rd).
  Proof.
    intros Hd Hc Hlt Hp Hn Ha Hna.
    destruct (found_exact (D c rd + 1) c (adv p t)) as (r & H1 & H2).
    - eapply Hfound_comp; eauto. unfold comp_ops. rewrite Hc. apply in_map. eapply comp_list_in; eauto.
    - exact (state_wt tmatch ord gs toks starts Htyped cols Hfin _ _ Hp).
    - exists r, (norm c (adv p t)). split; [exact H1|]. split; [eapply adv_moved; eauto; apply sim_refl|].
      split; [rewrite norm_not_any by exact Hna; reflexivity|lia].
  Qed.

  Definition deep (q : ptree) : Prop := forall q', subtree q q' -> p_inner q' = true -> exists r, stands cols r q' /\ S (D (p_end q') r) <= edge q'.
  Lemma deep_node q : p_inner q = true -> (exists r, stands cols r q /\ S (D (p_end q) r) <= edge q) -> Forall deep (p_kids q) -> deep q.
  Proof.
    intros Hi Hr F q' Hs Hi'. inversion Hs as [|? k ? Hk Hk']; subst; [exact Hr|].
    rewrite Forall_forall in F. exact (F k Hk q' Hk' Hi').
  Qed.

  Lemma kids_nonempty ts i j qs : TS ts i j qs -> i < j -> qs <> [].
  Proof. inversion 1; subst; [lia|discriminate]. Qed.

  Lemma trees_deep :
    (forall t i j q, T t i j q -> nowhere_empty q ->
       forall p t', In p (states_of cols i) -> t_type (s_term p) <> TAny -> nxt p = Some t' -> same_for t t' ->
       deep q /\ exists r p', st_at cols j r = Some p' /\ moved 1 p p' /\ s_rb p' = s_rb p /\ D j r <= edge q)
    /\ (forall ts i j qs, TS ts i j qs -> Forall nowhere_empty qs ->
       forall p, In p (states_of cols i) -> awaits p ts ->
       Forall deep qs /\ exists r p', st_at cols j r = Some p' /\ moved (length ts) p p' /\ s_rb p' = s_rb p
         /\ (qs <> [] -> D j r <= last_edge qs)).
  Proof.
    apply tree_of_mutind.
    - (* terminal *)
      intros t i tok Ht Htok Hacc _ p t' Hp Hna Hn [->|(H & _)]; [|congruence].
      destruct (scan_depth i p t tok Hp Hn Hna Ht Htok Hacc) as (r & Hr & H0). split.
      { intros q' Hs Hi. inversion Hs as [|? k ? Hk]; subst; [discriminate|destruct Hk]. }
      eexists r, _. split; [exact Hr|]. split; [|split; [reflexivity|cbn; lia]]. unfold moved. cbn. repeat split; auto.
    - (* any *)
      intros t i j Ht Hij Hr He p t' Hp Hna Hn [->|(H & _)]; [|congruence].
      pose proof (special_exact tmatch ord gs toks starts Htyped cols Hfin i p t Hp Hn Hna (or_introl Ht)) as Hq0.
      pose proof (He _ (sub_self _)) as Hlt. cbn in Hlt. unfold own_range in Hr.
      destruct (j - i) as [|n] eqn:En; [lia|]. replace j with (i + S n) in * by lia.
      destruct (any_depth i (t_meta t) _ n Hq0) as (r1 & q1 & Hq1 & A1 & A2 & A3 & A4 & A5); auto; [lia|].
      assert (completed q1 = true) as Hc by (apply completed_special; auto; rewrite A2, A4; exact Hr).
      split.
      + apply deep_node; [reflexivity| |constructor]. exists r1. split; [|cbn [p_end]; rewrite A5; cbn; lia].
        apply stands_at; [exact Hsh|]. exists q1. cbn. auto.
      + destruct (complete_depth (i + S n) r1 q1 p t) as (r & p' & B1 & B2 & B3 & B4); auto; [lia|rewrite A3; exact Hp| |].
        { apply advances_spec. left. auto. }
        exists r, p'. split; [exact B1|]. split; [exact B2|]. split; [exact B3|]. cbn. lia.
    - (* rule *)
      intros t i j b kids Ht (g & ru & h & Hg & Hl & Hb) Hk IH He p t' Hp Hna Hn Hsf.
      assert (t_type t' = TNonterminal /\ t_value t' = t_value t) as [Ht' Hv'].
      { destruct Hsf as [->|(_ & H1 & H2)]; auto. }
      pose proof (He _ (sub_self _)) as Hlt. cbn in Hlt.
      assert (r_name ru = t_value t) as Hname by (eapply Hnamed; eauto). rewrite <- Hv' in Hl.
      pose proof (predict_exact tmatch ord gs toks starts Hord Htyped cols Hfin i p t' g ru b Hp Hn Ht' Hg Hl
        ltac:(apply (in_map snd) in Hb; exact Hb)) as Hq0.
      destruct (IH (empty_kids _ He) _ Hq0) as (Fk & r1 & q1 & Hr1 & (M1 & M2 & M3 & M4 & M5 & M6) & Erb & Hle).
      { left. cbn. split; auto. exists b, []. rewrite app_nil_r. auto. }
      specialize (Hle (kids_nonempty _ _ _ _ Hk Hlt)). cbn in M1, M2, M3, M4, M5, Erb.
      assert (completed q1 = true) as Hc by (rewrite (completed_rule q1 b M1 Erb), M4; lia).
      split.
      + apply deep_node; [reflexivity| |exact Fk]. exists r1. split; [|rewrite edge_eq; cbn; lia].
        apply stands_at; [exact Hsh|]. exists q1. cbn. rewrite M2. auto 10.
      + destruct (complete_depth j r1 q1 p t') as (r & p' & B1 & B2 & B3 & B4); auto; [lia|rewrite M3; exact Hp| |].
        { apply advances_spec. right. rewrite Ht', M1, M2. split; congruence. }
        exists r, p'. split; [exact B1|]. split; [exact B2|]. split; [exact B3|]. rewrite edge_eq. cbn. lia.
    - (* list *)
      intros t i j n kids Ht Hr Hk IH He p t' Hp Hna Hn [->|(H & _)]; [|congruence].
      pose proof (special_exact tmatch ord gs toks starts Htyped cols Hfin i p t Hp Hn Hna (or_intror Ht)) as Hq0.
      pose proof (He _ (sub_self _)) as Hlt. cbn in Hlt.
      destruct (IH (empty_kids _ He) _ Hq0) as (Fk & r1 & q1 & Hr1 & (M1 & M2 & M3 & M4 & M5 & M6) & Erb & Hle).
      { right. cbn. split; auto. rewrite repeat_length. split; auto. }
      specialize (Hle (kids_nonempty _ _ _ _ Hk Hlt)).
      rewrite repeat_length in M4. cbn in M1, M2, M3, M4, M5, M6, Erb. rewrite Ht in M1.
      assert (completed q1 = true) as Hc.
      { apply completed_special; [rewrite M1; auto|]. rewrite M6, M4 by auto. exact Hr. }
      pose proof (trees_length tmatch gs toks own_range _ _ _ _ Hk) as L. rewrite repeat_length in L.
      split.
      + apply deep_node; [reflexivity| |exact Fk]. exists r1. split; [|rewrite edge_eq; cbn; lia].
        apply stands_at; [exact Hsh|]. exists q1. cbn. rewrite M1, M4, L. auto 10.
      + destruct (complete_depth j r1 q1 p t) as (r & p' & B1 & B2 & B3 & B4); auto; [lia|rewrite M3; exact Hp| |].
        { apply advances_spec. right. rewrite M1, M2. auto. }
        exists r, p'. split; [exact B1|]. split; [exact B2|]. split; [exact B3|]. rewrite edge_eq. cbn. lia.
    - (* nil *)
      intros i _ p Hp _. split; [constructor|]. destruct (In_nth_error _ _ Hp) as [r Hr]. exists r, p.
      split; [exact Hr|]. split; [apply moved_refl|]. split; [reflexivity|congruence].
    - (* cons *)
      intros t ts i j k q qs _ IHt HT2 IHts He p Hp Ha. inversion He as [|? ? He1 He2]; subst.
      destruct (awaits_nxt _ _ _ Ha) as (Hna & t' & Hn & Hsf).
      destruct (IHt He1 p t' Hp Hna Hn Hsf) as (C1 & r1 & p1 & Hp1 & M1 & E1 & Hd1).
      destruct qs as [|q2 qs].
      { inversion HT2; subst. split; [constructor; [exact C1|constructor]|]. exists r1, p1. split; [exact Hp1|].
        split; [exact M1|]. split; [exact E1|]. intros _. exact Hd1. }
      assert (In p1 (states_of cols j)) as Hin1 by (eapply nth_error_In; exact Hp1).
      destruct (IHts He2 p1 Hin1 (awaits_moved _ _ _ _ Ha M1)) as (C2 & r2 & p2 & Hp2 & M2 & E2 & Hd2).
      split; [constructor; assumption|]. exists r2, p2. split; [exact Hp2|]. split; [|split; [congruence|]].
      + apply (moved_trans 1 (length ts) p p1 p2); auto.
      + intros _. apply Hd2. discriminate.
  Qed.
End Edges.

Section Shortest.
  Variable tmatch : term -> option token -> bool.
  Variable ords : nat -> order.
  Variable gs : list grammar_rules.
  Variable text : string.
  Variables (fuel n : nat) (mf : bool) (toks : list token) (starts : list string) (p : parse_t).
  Hypothesis Ho : is_order (ords n).
  Hypothesis Hparse : earley_parse_n tmatch ords gs text fuel n mf toks starts = Ret p.
  Hypothesis Hwf : well_formed gs starts.
  Hypothesis Hsep : separated gs.
  Hypothesis Hu : uniform_ranges gs.
  Hypothesis Hany : any_named gs.
  Notation T := (tree_of gs (accepts_by tmatch) toks own_range).
  Notation TS := (trees_of gs (accepts_by tmatch) toks own_range).
  Notation W := (well_made gs (accepts_by tmatch) toks own_range).

  Variables (ref : nat * nat) (s : tstate) (St : string).
  Hypothesis Hr : In ref (p_finals p).
  Hypothesis Hs : p_state p ref = Ret s.
  Hypothesis Ht : tag s = Ret St.
  Hypothesis Hty : typed_args gs.

  Let Hres : parse_result tmatch (ords n) gs text toks starts mf p :=
    proj2 (proj2 (earley_parse_result _ _ _ _ _ _ _ _ _ _ Ho Hparse)).
  Let Hfin : finished tmatch (ords n) gs toks starts (p_columns p) := proj1 (proj2 Hres).
  Let HJ : all_justified tmatch gs toks starts (p_columns p) := proj1 (proj2 (proj1 Hfin)).
  Let Hsh : all_shaped (p_columns p) := justified_shape _ _ _ _ _ HJ.

  Lemma gamma_deep D q : levels tmatch (ords n) gs toks (p_columns p) D (S (length toks)) 0 ->
    T (nonterm St) 0 (s_end s) q -> nowhere_empty q -> deep (p_columns p) D q.
  Proof using Ho Hparse Hwf Hr Hs Ht Hty.
    intros HD HT Hne.
    destruct (final_root tmatch ords gs text fuel n mf toks starts p Ho Hparse Hwf ref s St Hr Hs Ht) as (H1 & H2 & H3 & H4 & H5 & H6 & H7).
    assert (In St starts) as HS.
    { destruct (final_facts tmatch (ords n) gs toks starts Hwf _ Hfin _ _ s H1 H3 H2) as (S' & HS & E & _).
      rewrite Ht in E. injection E as <-. exact HS. }
    apply In_nth_error in HS as [i Hi]. pose proof (proj2 (proj2 Hfin) i St Hi) as H0.
    refine (proj1 (proj1 (trees_deep tmatch (ords n) gs toks starts Ho Hty (proj1 Hwf) _ Hfin D HD) _ _ _ _ HT Hne _ _ (nth_error_In _ _ H0) _ _ _)).
    - cbn. discriminate.
    - reflexivity.
    - left. reflexivity.
  Qed.

  Lemma shortest_tree fuel' outs : get_trees (p_columns p) fuel' ref = Ret outs ->
    forall q, T (nonterm St) 0 (s_end s) q -> nowhere_empty q ->
    (forall m, subtree (PRule GammaRule (gamma_body St) 0 (s_end s) [q]) m -> p_inner m = true ->
       shortest gs (accepts_by tmatch) toks own_range m) ->
    In (PRule GammaRule (gamma_body St) 0 (s_end s) [q]) (map erase outs).
  Proof using Ho Hparse Hwf Hsep Hu Hany Hr Hs Ht Hty.
    intros Hg q HT Hne HF. fold (gamma_tree s St q) in *.
    destruct (order_or_late _ (S (p_size (gamma_tree s St q))) (gamma_tree s St q) ltac:(lia) eq_refl
      (gamma_charted tmatch ords gs text fuel n mf toks starts p Ho Hparse Hwf ref s St Hr Hs Ht Hty q HT Hne)) as [[r Hio]|HL].
    { pose proof (proj1 (proj1 (in_order_eq _ _ _) Hio)) as Hst.
      rewrite (stands_row tmatch (ords n) gs toks starts Hty _ Hfin _ _ _ Hu Hany Hst
        (gamma_stands tmatch ords gs text fuel n mf toks starts p Ho Hparse Hwf ref s St Hr Hs Ht q)) in Hio.
      apply in_map_iff.
      destruct (proj2 (exact_trees tmatch ords gs text fuel n mf toks starts p Ho Hparse Hwf Hsep Hu Hany ref s St Hr Hs Ht _ _ Hg q) (conj HT Hio))
        as (t & Hin & He). eauto. }
    exfalso. destruct HL as (m & k & Hm & Hk & Hki & Hke & r & r' & S1 & S2 & Hle).
    destruct (earley_levels _ _ _ _ _ _ _ _ _ _ Ho Hparse) as [D HD].
    pose proof (stands_inner _ _ _ S1) as Hmi.
    assert (TS [nonterm St] 0 (s_end s) [q]) as HTS by (econstructor; [exact HT|constructor]).
    assert (W m /\ Forall nowhere_empty (p_kids m)) as [Hw Hme].
    { inversion Hm as [|? k0 ? Hk0 Hm']; subst; [split; [exact HTS|constructor; [exact Hne|constructor]]|].
      destruct Hk0 as [<-|[]]. split; [exact (proj1 (sub_made tmatch gs toks) _ _ _ _ HT m Hm' Hmi)|].
      apply empty_kids. intros q' Hq'. apply Hne. eapply sub_trans; eauto. }
    assert (subtree q k) as Hqk.
    { inversion Hm as [|? k0 ? Hk0 Hm']; subst; [destruct Hk as [<-|[]]; constructor|].
      destruct Hk0 as [<-|[]]. eapply sub_trans; [exact Hm'|]. econstructor; [exact Hk|constructor]. }
    assert (exists l, p_kids m = l ++ [k]) as [l Hl].
    { destruct m; [discriminate|destruct Hk|..]; cbn in *; eapply trees_last; eauto. }
    assert (edge m = S (edge k)) as Em.
    { rewrite edge_eq, Hl, last_edge_snoc. destruct m; [discriminate|reflexivity..]. }
    destruct (gamma_deep D q HD HT Hne k Hqk Hki) as (r2 & S3 & Hdk).
    rewrite <- (stands_row tmatch (ords n) gs toks starts Hty _ Hfin _ _ _ Hu Hany S2 S3) in Hdk.
    assert (exists n', same_root m n' /\ W n' /\ edge n' <= S (D (p_end m) r)) as (n' & Hsr & Hwn & Hen).
    { apply stands_at in S1; [|exact Hsh]. destruct S1 as (s1 & St1 & C1 & Sm1 & M1).
      pose proof (all_grown tmatch (ords n) gs toks starts (proj1 Hwf) (proj2 Hwf) Hu _ Hfin D HD _ _ _ St1) as Hgr.
      destruct m as [tm im|im jm|xm bm im jm km|xm im jm km]; [discriminate|destruct Hk| |]; cbn [p_end p_start] in *; unfold grown in Hgr.
      - destruct M1 as (M1 & M2 & M3). rewrite M1 in Hgr. destruct Hgr as (b0 & kids0 & Eb & G0 & Ge).
        rewrite M3 in Eb. injection Eb as <-. rewrite Sm1 in G0. rewrite (completed_rule s1 bm M1 M3) in C1. rewrite firstn_all2 in G0 by exact C1.
        exists (PRule xm bm im jm kids0). split; [cbn; auto|]. split; [exact G0|]. rewrite edge_eq. cbn. lia.
      - destruct M1 as (M1 & M2 & M3). rewrite M1 in Hgr. destruct Hgr as (kids0 & G0 & Ge). rewrite M2, Sm1, M3 in G0.
        pose proof (trees_length tmatch gs toks own_range _ _ _ _ G0) as L. rewrite repeat_length in L.
        exists (PList xm im jm kids0). split; [cbn; auto|]. split; [cbn; rewrite L; exact G0|]. rewrite edge_eq. cbn. lia. }
    pose proof (HF m Hm Hmi n' Hsr Hwn) as Hsm.
    assert (r' < length (states_of (p_columns p) (p_end m))) as Hlt.
    { apply stands_at in S2; [|exact Hsh]. destruct S2 as (s2 & St2 & _). rewrite <- Hke. eapply st_at_len; exact St2. }
    pose proof (proj1 HD (p_end m) r r' Hle Hlt) as Hmono. rewrite Hke in Hdk. lia.
  Qed.
End Shortest.
