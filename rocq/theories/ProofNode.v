(** What the methods of tree nodes show. *)
From Verif Require Import Base ModelTypes ModelText ModelEarley ModelTrees ModelApi ModelQuote ModelSem
     SpecTypes SpecGrammar SpecTree SpecApi SpecSem SpecNode
     ProofEqual ProofChart ProofSound ProofComplete ProofTerm ProofTree ProofTreeOk ProofTreeSet ProofTreeDup ProofApi ProofApiLoops
     ProofTreeApi ProofMain ProofSem ProofNodes ProofSemMain.

(** ** The terms of (any) nodes are those of chart states *)
Inductive any_terms (P : term -> Prop) : node -> Prop :=
| at_node v ch : (t_type (s_term v) = TAny -> P (s_term v)) -> Forall (any_terms P) ch -> any_terms P (Node v ch).

Section AnyTerms.
  Variable cols : list column.
  Variable P : term -> Prop.
  Hypothesis Hany : forall c col s, nth_error cols c = Some col -> In s (c_states col) ->
    t_type (s_term s) = TAny -> P (s_term s).

  Lemma any_helper fuel : (forall f, f <= fuel -> forall ref outs, build_trees cols f ref = Ret outs -> Forall (any_terms P) outs) ->
    forall f children ref st terms k e outs, f <= fuel ->
    (t_type (s_term st) = TAny -> P (s_term st)) ->
    Forall (any_terms P) children ->
    build_helper cols f children ref st terms k e = Ret outs -> Forall (any_terms P) outs.
  Proof.
    intros Hb. induction f as [|f IH]; intros children ref st terms k e outs Hf Hst Hch H; [discriminate|].
    simpl in H. destruct k as [|k].
    - injection H as <-. constructor; [|constructor]. constructor; auto.
    - destruct (idx terms k) as [t| | |] eqn:Et; try discriminate. cbn [bind] in H.
      assert (forall x, (if Z.ltb e 0 then Panic else x) = Ret outs -> x = Ret outs) as Hz.
      { intros x. destruct (Z.ltb e 0); [discriminate|auto]. }
      assert (forall o, In o outs -> (col <- idx cols (Z.to_nat e) ;;
                over_states
                  (fun r sub_st =>
                     subs <- build_trees cols f (Z.to_nat e, r) ;;
                     over_subtrees
                       (fun sub => build_helper cols f (sub :: children) ref st terms k
                                                (Z.of_nat (s_start sub_st))) subs)
                  ref t (if Nat.eqb k 0 then Some (s_start st) else None) (Z.to_nat e) 0 (c_states col)) = Ret outs ->
                any_terms P o) as Hgen.
      { intros o Hin Ho. destruct (idx cols (Z.to_nat e)) as [col| | |]; try discriminate. cbn [bind] in Ho.
        destruct (over_states_inv _ _ _ _ _ _ _ _ _ Ho Hin) as (r & d & os & Hos & Ho').
        destruct (build_trees cols f (Z.to_nat e, r)) as [subs| | |] eqn:Es; try discriminate. cbn [bind] in Hos.
        destruct (over_subtrees_inv _ _ _ _ Hos Ho') as (sub & os' & H1 & H2 & H3).
        assert (Forall (any_terms P) os') as F.
        { eapply IH; [| |constructor; [|exact Hch]|exact H2]; auto; [lia|].
          specialize (Hb f ltac:(lia) _ _ Es). rewrite Forall_forall in Hb. auto. }
        rewrite Forall_forall in F. auto. }
      destruct (t_type t) eqn:Ety; try (apply Forall_forall; intros o Hin; apply Hgen; auto; fail).
      eapply IH; [| |constructor; [|exact Hch]|exact H]; auto; [lia|].
      constructor; [|constructor]. cbn [s_term]. congruence.
  Qed.

  Lemma all_any_terms fuel : forall ref outs, build_trees cols fuel ref = Ret outs -> Forall (any_terms P) outs.
  Proof.
    induction fuel as [fuel IH] using (well_founded_induction lt_wf). intros ref outs H.
    destruct fuel as [|fuel]; [discriminate|]. simpl in H. unfold idx in H at 1.
    destruct (nth_error cols (fst ref)) as [col|] eqn:Ec; [|discriminate]. cbn [bind] in H. unfold idx in H.
    destruct (nth_error (c_states col) (snd ref)) as [s|] eqn:Es; [|discriminate]. cbn [bind] in H.
    pose proof (Hany _ _ _ Ec (nth_error_In _ _ Es)) as Hk.
    assert (s_term (with_list_rb s) = s_term s) as Hw.
    { unfold with_list_rb. destruct (t_type (s_term s)); reflexivity. }
    assert (t_type (s_term s) = TAny -> Forall (any_terms P) outs) as Ha.
    { intros E. rewrite E in H. injection H as <-. repeat constructor. cbn [s_term]. auto. }
    assert (forall x, match s_rb (with_list_rb s) with None => Panic
              | Some rb => build_helper cols fuel [] ref (with_list_rb s) (rb_terms rb) (length (rb_terms rb))
                             (Z.of_nat (s_end (with_list_rb s))) end = Ret x -> Forall (any_terms P) x) as Hx.
    { intros x Hx. destruct (s_rb (with_list_rb s)) as [rb|]; [|discriminate].
      eapply (any_helper fuel) with (f := fuel) (children := []); [| | |constructor|exact Hx]; auto.
      - intros f Hf. apply IH. lia.
      - rewrite Hw. exact Hk. }
    destruct (t_type (s_term s)) eqn:Et; auto.
  Qed.
End AnyTerms.

(** ** Terms of the parts *)
Section Terms.
  Variable gs : list grammar_rules.
  Variable accepts : term -> token -> Prop.
  Variable toks : list token.
  Variable count_ok : term -> nat -> Prop.
  Notation T := (tree_of gs accepts toks count_ok).
  Notation TS := (trees_of gs accepts toks count_ok).

  Variable Q : string -> Prop.
  Hypothesis HQ : forall t, occurs gs t -> Q (t_value t).

  Lemma trees_kids_terms ts i j qs : TS ts i j qs -> forall q, In q qs ->
    exists t i' j', T t i' j' q /\ In t ts.
  Proof.
    induction 1 as [|t ts i j k q qs Hq Hqs IH]; intros q' Hin; [destruct Hin|].
    destruct Hin as [<-|Hin]; [exists t, i, j; simpl; auto|].
    destruct (IH _ Hin) as (t' & i' & j' & H1 & H2). exists t', i', j'. simpl; auto.
  Qed.

  Lemma tiled_kids ts i j qs : TS ts i j qs -> forall ch, qs = map erase ch -> Forall built ch ->
    (forall c, In c ch -> forall t i j, T t i j (erase c) -> s_start (n_value c) = i /\ s_end (n_value c) = j) ->
    exists l, Forall2 (fun c ij => ij = (s_start (n_value c), s_end (n_value c))) ch l
      /\ (Forall (fun ij => fst ij < snd ij) l -> tiles i j l).
  Proof.
    induction 1 as [i|t ts i j k q qs Hq Hqs IH]; intros ch E Hb Hr; destruct ch as [|c ch]; try discriminate.
    - exists []. split; [constructor|]. intros _. constructor.
    - injection E as -> E. inversion Hb; subst. destruct (IH ch) as (l & Hl & Ht); auto.
      { intros c' Hc'. apply Hr. right; auto. }
      destruct (Hr c (or_introl eq_refl) _ _ _ Hq) as [H5 H6].
      exists ((i, j) :: l). split; [constructor; auto; congruence|].
      intros F. inversion F; subst. constructor; auto.
  Qed.

  Lemma node_terms n : forall t i j, built n -> Q (t_value t) -> T t i j (erase n) ->
    forall m, part_of n m ->
      exists t', Q (t_value t') /\ T t' (s_start (n_value m)) (s_end (n_value m)) (erase m)
        /\ t_type (s_term (n_value m)) = t_type t'
        /\ (t_type t' <> TAny -> t_value (s_term (n_value m)) = t_value t')
        /\ (n_children m <> [] -> exists ts, TS ts (s_start (n_value m)) (s_end (n_value m)) (map erase (n_children m)))
        /\ built m.
  Proof.
    induction n as [v ch IH] using node_ind'. intros t i j Hb Hq Ht m Hm.
    rewrite Forall_forall in IH.
    assert (i = s_start v /\ j = s_end v /\ t_type (s_term v) = t_type t
            /\ (t_type t <> TAny -> t_value (s_term v) = t_value t)
            /\ (ch <> [] -> exists ts, TS ts i j (map erase ch) /\ forall t', In t' ts -> Q (t_value t'))
            /\ Forall built ch) as (Hi & Hj & Hty & Hval & Hkids & Hbs).
    { inversion Hb; subst; simpl in Ht; cbn [n_value n_children s_rb s_start s_end s_term].
      - match goal with E : t_type _ = _ |- _ => rewrite E in Ht end. inversion Ht; subst.
        split; [auto|]. split; [lia|]. split; [auto|]. split; [auto|]. split; [congruence|auto].
      - match goal with E : t_type _ = _ |- _ => rewrite E in Ht end. inversion Ht; subst.
        split; [auto|]. split; [auto|]. split; [congruence|]. split; [congruence|]. split; [congruence|auto].
      - match goal with E : t_type _ = _ |- _ => rewrite E in Ht end.
        match goal with E : s_rb v = _ |- _ => rewrite E in *; clear E end. inversion Ht; subst.
        split; [auto|]. split; [auto|]. split; [congruence|]. split; [congruence|].
        split; [|auto]. intros _. eexists. split; [eassumption|]. intros t' Hin. apply HQ.
        eexists _, _. split; [eassumption|exact Hin].
      - match goal with E : t_type _ = _ |- _ => rewrite E in Ht end. inversion Ht; subst.
        split; [auto|]. split; [auto|]. split; [congruence|]. split; [congruence|].
        split; [|auto]. intros _. eexists. split; [eassumption|]. intros t' Hin. apply repeat_spec in Hin. subst t'.
        simpl. congruence. }
    subst i j. inversion Hm as [|v' ch' c m' Hin Hpart]; subst.
    - cbn [n_value n_children]. exists t. split; [exact Hq|]. split; [exact Ht|]. split; [exact Hty|].
      split; [exact Hval|]. split; [|exact Hb]. intros Hne. destruct (Hkids Hne) as (ts & Hts & _). eauto.
    - destruct Hkids as (ts & Hts & Hts'); [intros ->; contradiction|].
      destruct (trees_kids_terms _ _ _ _ Hts (erase c)) as (t' & i' & j' & Hx & Hy); [apply in_map; auto|].
      rewrite Forall_forall in Hbs.
      exact (IH c Hin t' i' j' (Hbs _ Hin) (Hts' _ Hy) Hx m Hpart).
  Qed.

  Lemma tree_ends n t i j : built n -> T t i j (erase n) -> s_start (n_value n) = i /\ s_end (n_value n) = j.
  Proof.
    intros Hb Ht. inversion Hb; subst; simpl in Ht; cbn [n_value s_start s_end];
      match goal with E : t_type _ = _ |- _ => rewrite E in Ht end; inversion Ht; subst; auto; lia.
  Qed.
End Terms.

(** ** Nodes of the trees of a parse *)
Section One.
  Variable tmatch : term -> option token -> bool.
  Variable ords : nat -> order.
  Variable gs : list grammar_rules.
  Variable text : string.
  Variables (fuel n : nat) (mf : bool) (toks : list token) (starts : list string) (p : parse_t).
  Hypothesis Ho : is_order (ords n).
  Hypothesis Hp : earley_parse_n tmatch ords gs text fuel n mf toks starts = Ret p.
  Hypothesis Hwf : well_formed gs starts.
  Hypothesis Hsep : separated gs.

  Lemma root_node t : tree_of_parse p t ->
    exists v c S, t = Node v [c] /\ In S starts /\ t_value (s_term v) = GammaRule /\ t_type (s_term v) = TNonterminal
      /\ s_rb v = Some (gamma_body S) /\ s_start v = 0
      /\ t_value (s_term (n_value c)) = S /\ t_type (s_term (n_value c)) = TNonterminal
      /\ built c /\ tree_of gs (accepts_by tmatch) toks (some_range gs) (nonterm S) 0 (s_end v) (erase c)
      /\ any_terms (fun t => exists t0, occurs gs t0 /\ t_type t0 = TAny /\ (t_value t = t_value t0 \/ t_value t = "any")) c.
  Proof.
    intros (ref & fuel' & outs & Hr & Hg & Ht). destruct (parse_facts _ _ _ _ _ _ _ _ _ _ Ho Hp) as (_ & _ & _ & _ & R).
    destruct (trees_valid tmatch gs text (ords n) starts Hwf Hsep toks mf p R (some_range gs) (lax_count gs) ref fuel' outs Hr Hg)
      as (s & S & Hs & Htag & F).
    rewrite Forall_forall in F. destruct (F t Ht) as (kid & He & Hkid).
    pose proof R as (_ & ((_ & HJ & _) & _) & _).
    assert (forall c col s', nth_error (p_columns p) c = Some col -> In s' (c_states col) ->
              origin gs starts c s') as Hor.
    { intros c col s' Hc Hin. apply In_nth_error in Hin as [r Hin].
      eapply (justified_origin _ _ _ _ _ HJ c r). unfold st_at, states_of. rewrite Hc. exact Hin. }
    assert (built t) as Hb.
    { assert (Forall built outs) as Fb.
      { eapply all_built; [|exact Hg]. intros c col s' Hc Hin. specialize (Hor _ _ _ Hc Hin). unfold origin in Hor.
        destruct (t_type (s_term s')); auto; contradiction. }
      rewrite Forall_forall in Fb. auto. }
    assert (any_terms (fun t => exists t0, occurs gs t0 /\ t_type t0 = TAny /\ (t_value t = t_value t0 \/ t_value t = "any")) t) as Ha.
    { refine (proj1 (Forall_forall _ _) (all_any_terms (p_columns p) _ _ fuel' ref outs Hg) t Ht).
      intros c col s' Hc Hin E. specialize (Hor _ _ _ Hc Hin). unfold origin in Hor. rewrite E in Hor.
      destruct Hor as (_ & _ & t0 & H1 & H2 & _ & H3). eauto. }
    destruct (final_range _ _ _ _ _ _ _ _ _ _ Ho Hp Hwf ref s Hr Hs) as [Hs0 _].
    assert (In S starts) as HS.
    { destruct ref as [c r]. apply p_state_at in Hs.
      destruct (final_sound _ _ _ _ _ _ _ _ _ R Hr) as (s' & Hs' & Hgm & Hc). cbn [fst snd] in Hs'.
      rewrite Hs in Hs'. injection Hs' as <-. pose proof R as (_ & Hfin & _).
      destruct (final_facts tmatch (ords n) gs toks starts Hwf _ Hfin c r s Hs Hgm Hc)
        as (S' & H1 & H2 & _). rewrite H2 in Htag. injection Htag as <-. exact H1. }
    destruct t as [v ch]. inversion Hb as [? ? Ety|? ? ? ? Ety|? rb ? Ety Erb Elen Ekids|? ? Ety Erb Elen Ekids]; subst;
      simpl in He; rewrite Ety in He; try discriminate.
    injection He as Hv Hrb H1 H2 Hch. rewrite Erb in Hrb. subst rb.
    destruct ch as [|c [|? ?]]; try discriminate. injection Hch as Hch. subst kid.
    inversion Ekids; subst. inversion Ha as [? ? _ Hac]; subst. inversion Hac; subst.
    exists v, c, S. split; [reflexivity|]. split; [exact HS|]. split; [exact Hv|]. split; [exact Ety|].
    split; [exact Erb|]. split; [exact H1|].
    assert (t_value (s_term (n_value c)) = S /\ t_type (s_term (n_value c)) = TNonterminal) as [Hcv Hct].
    { destruct c as [vc chc]. simpl in Hkid. cbn [n_value].
      match goal with X : built (Node vc chc) |- _ => inversion X; subst end; cbn [s_term] in *;
        match goal with E : t_type _ = _ |- _ => rewrite E in Hkid end; inversion Hkid; subst; auto; discriminate. }
    split; [exact Hcv|]. split; [exact Hct|]. split; [assumption|]. rewrite H2. split; assumption.
  Qed.

  Lemma below_part t m : below t m -> part_of t m.
  Proof. destruct t as [v ch]. intros (c & Hc & Hm). eapply po_kid; eauto. Qed.

  Lemma any_terms_part P a m : any_terms P a -> part_of a m -> t_type (s_term (n_value m)) = TAny -> P (s_term (n_value m)).
  Proof.
    intros Ha Hm. revert Ha. induction Hm as [[v ch]|v ch c m Hin Hm IH]; intros Ha; inversion Ha; subst; auto.
    apply IH. eapply Forall_forall; eauto.
  Qed.

  Lemma below_facts t m : no_gamma gs -> tree_of_parse p t -> below t m ->
    label m <> GammaRule
    /\ (n_children m <> [] -> exists ts, trees_of gs (accepts_by tmatch) toks (some_range gs) ts
          (s_start (n_value m)) (s_end (n_value m)) (map erase (n_children m)))
    /\ built m.
  Proof.
    intros Hng Ht (c & Hc & Hm).
    destruct (root_node t Ht) as (v & c' & S & -> & HS & _ & _ & _ & _ & _ & _ & Hb & Htr & Ha).
    destruct Hc as [<-|[]].
    assert (S <> GammaRule) as HSg.
    { intros ->. destruct Hwf as [_ [_ Hn]]. auto. }
    destruct (node_terms gs (accepts_by tmatch) toks (some_range gs) (fun x => x <> GammaRule) Hng
                c' (nonterm S) 0 (s_end v) Hb HSg Htr m Hm) as (t' & H1 & H2 & H3 & H4 & H5 & H6).
    split; [|split; assumption]. unfold label.
    destruct (t_type t') eqn:Ety; try (rewrite H4 by congruence; exact H1).
    destruct (any_terms_part _ _ _ Ha Hm H3) as (t0 & O1 & _ & [E|E]); rewrite E; [apply Hng; exact O1|].
    vm_compute. discriminate.
  Qed.

  (** ** Term and F *)
  Lemma root_term t : tree_of_parse p t -> exists c S, n_children t = [c] /\ In S starts
    /\ node_term t = Ret (nonterm S) /\ node_term c = Ret (s_term (n_value c)) /\ label c = S
    /\ node_f t = Ret (function_of c).
  Proof.
    intros Ht. destruct (root_node t Ht) as (v & c & S & -> & HS & H1 & H2 & H3 & H4 & H5 & H6 & H7 & _).
    exists c, S. split; [reflexivity|]. split; [exact HS|].
    assert (S <> GammaRule) as HSg by (intros ->; destruct Hwf as [_ [_ Hn]]; auto).
    unfold node_term, node_f. cbn [n_value n_children]. rewrite H1, H3.
    split; [reflexivity|]. rewrite H5. split; [rewrite (proj2 (String.eqb_neq _ _) HSg); reflexivity|]. split; [exact H5|].
    change (rb_terms (gamma_body S)) with [nonterm S]. cbn [idx nth_error bind].
    rewrite String.eqb_refl. unfold function_of.
    inversion H7; subst; cbn [n_value s_term s_rb] in *; try congruence.
    match goal with E : s_rb _ = Some _ |- _ => rewrite E end. reflexivity.
  Qed.

  Lemma below_term t m : no_gamma gs -> tree_of_parse p t -> below t m ->
    node_term m = Ret (s_term (n_value m))
    /\ node_f m = Ret (if Nat.eqb (length (n_children m)) 0 then None else function_of m).
  Proof.
    intros Hng Ht Hm. destruct (below_facts t m Hng Ht Hm) as (H1 & _ & H3). unfold label in H1.
    apply String.eqb_neq in H1. unfold node_term, node_f, function_of. rewrite H1. split; [reflexivity|].
    inversion H3; subst; cbn [n_value n_children s_rb]; try reflexivity.
    - match goal with E : s_rb _ = Some _ |- _ => rewrite E end.
      destruct (rb_terms rb); cbn [length] in *;
        match goal with E : length _ = _ |- _ => rewrite E end; reflexivity.
    - match goal with E : s_rb _ = Some _ |- _ => rewrite E end. cbn [list_rb rb_terms rb_f].
      destruct (s_dot s); cbn [repeat];
        match goal with E : length _ = _ |- _ => rewrite E end; reflexivity.
  Qed.

  (** ** Tree and Bracketed *)
  Hypothesis Hio : in_order toks.
  Hypothesis Hin : inside text toks.
  Hypothesis Hng : no_gamma gs.
  Variable is_print_hi : rune -> bool.

  Lemma node_views t m : tree_of_parse p t -> part_of t m -> s_start (n_value m) < s_end (n_value m) ->
    node_pos p m = Ret (bytes_of toks (s_start (n_value m)) (s_end (n_value m)))
    /\ original_text p m = Ret (text_of toks text (s_start (n_value m)) (s_end (n_value m))).
  Proof.
    intros Ht Hm Hne.
    destruct (node_text_given _ _ _ _ _ _ _ _ _ _ Ho Hp Hwf Hsep t m Ht Hm Hio Hin Hne) as (a & b & Ha & Hb & Ho').
    destruct (node_position _ _ _ _ _ _ _ _ _ _ Ho Hp Hwf Hsep t m Ht Hm Hio) as [_ Hpos].
    destruct (Hpos Hne) as (a' & b' & Ha' & Hb' & Hp'). unfold text_of, bytes_of. rewrite Ha', Hb'.
    rewrite Ha in Ha'. rewrite Hb in Hb'. injection Ha' as <-. injection Hb' as <-. auto.
  Qed.

  Lemma all_terminal_iff ch : all_terminal ch = true <-> Forall word ch.
  Proof.
    unfold all_terminal. rewrite forallb_forall, Forall_forall.
    split; intros H c Hc; specialize (H c Hc); unfold word, label, has_prefix in *.
    - rewrite !orb_true_iff in H. destruct H as [[H|H]|H]; auto. left.
      destruct (t_type (s_term (n_value c))); try discriminate; reflexivity.
    - rewrite !orb_true_iff. destruct H as [H|[H|H]]; auto. rewrite H. auto.
  Qed.

  Lemma tiles_app i j k l l' : tiles i j l -> tiles j k l' -> tiles i k (l ++ l').
  Proof. induction 1; simpl; auto. intros H'. constructor; auto. Qed.

  Lemma tiles_flat i j l : tiles i j l -> forall shs, Forall2 (fun ij s => tiles (fst ij) (snd ij) (fringe s)) l shs ->
    tiles i j (flat_map fringe shs).
  Proof.
    induction 1 as [|i j k l Hij Ht IH]; intros shs F; inversion F; subst; simpl; [constructor|].
    eapply tiles_app; eauto.
  Qed.

  Lemma Forall2_sequence {A B} (f : A -> res B) l : (forall x, In x l -> exists y, f x = Ret y) ->
    exists ys, sequence (map f l) = Ret ys /\ Forall2 (fun x y => f x = Ret y) l ys.
  Proof.
    induction l as [|x l IH]; intros H; [exists []; split; [reflexivity|constructor]|].
    destruct (H x (or_introl eq_refl)) as [y Hy]. destruct IH as (ys & H1 & H2); [intros; apply H; right; auto|].
    exists (y :: ys). cbn [map sequence]. rewrite Hy, H1. split; [reflexivity|constructor; auto].
  Qed.

  (** Tiling of the children, from the tiling of their shapes. *)
  Lemma kids_tile t m shs : tree_of_parse p t -> below t m -> nonempty_parts m -> n_children m <> [] ->
    Forall2 (fun c s => tiles (s_start (n_value c)) (s_end (n_value c)) (fringe s)) (n_children m) shs ->
    tiles (s_start (n_value m)) (s_end (n_value m)) (flat_map fringe shs).
  Proof.
    intros Ht Hm Hne Hk F. destruct (below_facts t m Hng Ht Hm) as (_ & Hkids & Hb).
    destruct (Hkids Hk) as [ts Hts].
    assert (Forall built (n_children m)) as Hbk by (inversion Hb; subst; cbn [n_children]; auto).
    destruct (tiled_kids gs (accepts_by tmatch) toks (some_range gs) _ _ _ _ Hts (n_children m) eq_refl Hbk) as (l & Hl & Htl).
    { intros c Hc t' i j. apply tree_ends. eapply Forall_forall; eauto. }
    eapply tiles_flat.
    - apply Htl. clear -Hl Hne. destruct m as [v ch]. cbn [n_children] in *.
      assert (forall c, In c ch -> s_start (n_value c) < s_end (n_value c)) as H.
      { intros c Hc. apply Hne. eapply po_kid; [exact Hc|constructor]. }
      clear Hne. induction Hl as [|c ij ch l -> Hl IH]; constructor; simpl; auto.
      + apply H. left; auto.
      + apply IH. intros; apply H; right; auto.
    - clear -Hl F. revert shs F. induction Hl as [|c ij ch l -> Hl IH]; intros shs F; inversion F; subst; constructor; auto.
  Qed.

  Lemma shape_exists stop (Hdec : forall m, stop m \/ ~ stop m) (Hstop : forall m, n_children m = [] -> stop m) t :
    tree_of_parse p t -> forall m, below t m -> nonempty_parts m ->
    exists s, outline_of stop m s /\ tiles (s_start (n_value m)) (s_end (n_value m)) (fringe s).
  Proof.
    intros Ht m. induction m as [v ch IH] using node_ind'. intros Hm Hne.
    destruct (Hdec (Node v ch)) as [Hs|Hs].
    - eexists. split; [apply so_leaf; exact Hs|]. cbn [fringe]. constructor; [|constructor].
      apply Hne. constructor.
    - assert (exists l, Forall2 (outline_of stop) ch l
        /\ Forall2 (fun c s => tiles (s_start (n_value c)) (s_end (n_value c)) (fringe s)) ch l) as (l & Hl & Hl').
      { assert (forall c, In c ch -> exists s, outline_of stop c s /\ tiles (s_start (n_value c)) (s_end (n_value c)) (fringe s)) as H.
        { intros c Hc. rewrite Forall_forall in IH. apply IH; auto.
          - destruct Hm as (r & Hr & Hrm). exists r. split; [exact Hr|].
            eapply part_trans; [exact Hrm|]. eapply po_kid; [exact Hc|constructor].
          - intros x Hx. apply Hne. eapply po_kid; eauto. }
        clear -H. induction ch as [|c ch IHc]; [exists []; auto|].
        destruct (H c (or_introl eq_refl)) as (s & H1 & H2). destruct IHc as (l & H3 & H4); [intros; apply H; right; auto|].
        exists (s :: l). auto. }
      exists (Inner (label (Node v ch)) (s_start v) (s_end v) l). split; [apply so_inner; auto|].
      cbn [fringe]. apply (kids_tile t (Node v ch)); auto.
  Qed.

  Lemma shape_unique stop : forall m s s', outline_of stop m s -> outline_of stop m s' -> s = s'.
  Proof.
    induction m as [v ch IH] using node_ind'. intros s s' H H'. inversion H; subst; inversion H'; subst; try contradiction; auto.
    f_equal. match goal with A : Forall2 _ _ l, B : Forall2 _ _ ?k |- _ => rename A into F1; rename B into F2 end.
    cbn [n_children] in *. clear -IH F1 F2. revert l0 F2. induction F1 as [|c s ch l Hc F1 IH1]; intros l' F2; inversion F2; subst; auto.
    inversion IH; subst. f_equal; auto.
  Qed.

  Lemma tree_stop_dec m : tree_stop m \/ ~ tree_stop m.
  Proof.
    unfold tree_stop. rewrite <- all_terminal_iff. destruct (function_of m), (all_terminal (n_children m)); intuition congruence.
  Qed.
  Lemma bracket_stop_dec m : bracket_stop m \/ ~ bracket_stop m.
  Proof. unfold bracket_stop. rewrite <- all_terminal_iff. destruct (all_terminal (n_children m)); intuition congruence. Qed.

  Lemma sequence_shapes {B} (f : node -> res B) (view : outline -> B) stop ch : forall l,
    Forall2 (outline_of stop) ch l ->
    (forall c s, In c ch -> outline_of stop c s -> f c = Ret (view s)) -> sequence (map f ch) = Ret (map view l).
  Proof.
    induction ch as [|c ch IH]; intros l F H; inversion F; subst; [reflexivity|]. cbn [map sequence].
    erewrite H by (try (left; reflexivity); eassumption). rewrite (IH l'); auto. intros; apply H; auto. right; auto.
  Qed.

  Lemma tree_value_view t : tree_of_parse p t -> forall m s, below t m -> nonempty_parts m -> outline_of tree_stop m s ->
    tree_value p m = Ret (tree_view toks text s).
  Proof.
    intros Ht m. induction m as [v ch IH] using node_ind'. intros s Hm Hne Hs.
    destruct (node_views t _ Ht (below_part _ _ Hm) (Hne _ (po_self _))) as [Hpos Htxt].
    destruct (below_term t _ Hng Ht Hm) as [Htm _].
    destruct (below_facts t _ Hng Ht Hm) as (Hl & _). unfold label in Hl. cbn [n_value] in *.
    cbn [tree_value]. rewrite (proj2 (String.eqb_neq _ _) Hl), Htm. cbn [bind]. rewrite Htxt. cbn [bind].
    rewrite Hpos. cbn [bind].
    destruct (bytes_of toks (s_start v) (s_end v)) as [a b] eqn:Eb.
    assert (forall x, entry toks text x (s_start v) (s_end v)
            = [("type", DStr x); ("text", DStr (text_of toks text (s_start v) (s_end v))); ("pos", DPos a b)]) as He.
    { intros x. unfold entry. rewrite Eb. reflexivity. }
    inversion Hs as [? Hst|? l Hst Hk]; subst; cbn [n_value n_children] in *; cbn [tree_view]; rewrite He.
    - unfold tree_stop, function_of in Hst. cbn [n_value n_children] in Hst.
      destruct (s_rb v) as [rb|]; [|reflexivity]. destruct (rb_f rb); [|reflexivity].
      destruct Hst as [Hst|Hst]; [discriminate|]. rewrite (proj2 (all_terminal_iff _) Hst). reflexivity.
    - unfold tree_stop, function_of in Hst. cbn [n_value n_children] in Hst.
      destruct (s_rb v) as [rb|]; [|tauto]. destruct (rb_f rb); [|tauto].
      destruct (all_terminal ch) eqn:Ea; [apply all_terminal_iff in Ea; tauto|].
      rewrite (sequence_shapes _ (tree_view toks text) tree_stop ch l Hk); [reflexivity|].
      intros c s Hc Hsc. rewrite Forall_forall in IH. apply IH; auto.
      + destruct Hm as (r & Hr & Hrm). exists r. split; [exact Hr|].
        eapply part_trans; [exact Hrm|]. eapply po_kid; [exact Hc|constructor].
      + intros x Hx. apply Hne. eapply po_kid; eauto.
  Qed.

  Lemma bracketed_view t : tree_of_parse p t -> forall m s, below t m -> nonempty_parts m -> outline_of bracket_stop m s ->
    bracketed p is_print_hi m = Ret (brackets toks text is_print_hi s).
  Proof.
    intros Ht m. induction m as [v ch IH] using node_ind'. intros s Hm Hne Hs.
    destruct (node_views t _ Ht (below_part _ _ Hm) (Hne _ (po_self _))) as [Hpos Htxt].
    destruct (below_term t _ Hng Ht Hm) as [Htm _].
    destruct (below_facts t _ Hng Ht Hm) as (Hl & _). unfold label in Hl. cbn [n_value] in *.
    cbn [bracketed]. rewrite (proj2 (String.eqb_neq _ _) Hl), Htm. cbn [bind].
    inversion Hs as [? Hst|? l Hst Hk]; subst; cbn [n_value n_children] in *; cbn [brackets];
      unfold bracket_stop in Hst; cbn [n_children] in Hst.
    - rewrite (proj2 (all_terminal_iff _) Hst), Htxt. reflexivity.
    - destruct (all_terminal ch) eqn:Ea; [apply all_terminal_iff in Ea; tauto|].
      rewrite (sequence_shapes _ (brackets toks text is_print_hi) bracket_stop ch l Hk); [reflexivity|].
      intros c s Hc Hsc. rewrite Forall_forall in IH. apply IH; auto.
      + destruct Hm as (r & Hr & Hrm). exists r. split; [exact Hr|].
        eapply part_trans; [exact Hrm|]. eapply po_kid; [exact Hc|constructor].
      + intros x Hx. apply Hne. eapply po_kid; eauto.
  Qed.

  Lemma node_tree t m : tree_of_parse p t -> below t m -> nonempty_parts m ->
    exists s, outline_of tree_stop m s /\ (forall s', outline_of tree_stop m s' -> s' = s)
      /\ tree_value p m = Ret (tree_view toks text s)
      /\ tiles (s_start (n_value m)) (s_end (n_value m)) (fringe s).
  Proof.
    intros Ht Hm Hne.
    destruct (shape_exists tree_stop tree_stop_dec) with (t := t) (m := m) as (s & Hs & Hti); auto.
    { intros x E. right. rewrite E. constructor. }
    exists s. split; [exact Hs|]. split; [intros s' Hs'; eapply shape_unique; eauto|]. split; [|exact Hti].
    eapply tree_value_view; eauto.
  Qed.

  Lemma node_bracketed t m : tree_of_parse p t -> below t m -> nonempty_parts m ->
    exists s, outline_of bracket_stop m s /\ (forall s', outline_of bracket_stop m s' -> s' = s)
      /\ bracketed p is_print_hi m = Ret (brackets toks text is_print_hi s)
      /\ tiles (s_start (n_value m)) (s_end (n_value m)) (fringe s).
  Proof.
    intros Ht Hm Hne.
    destruct (shape_exists bracket_stop bracket_stop_dec) with (t := t) (m := m) as (s & Hs & Hti); auto.
    { intros x E. unfold bracket_stop. rewrite E. constructor. }
    exists s. split; [exact Hs|]. split; [intros s' Hs'; eapply shape_unique; eauto|]. split; [|exact Hti].
    eapply bracketed_view; eauto.
  Qed.

  Lemma root_views t : tree_of_parse p t -> exists c, n_children t = [c]
    /\ tree_value p t = tree_value p c /\ bracketed p is_print_hi t = bracketed p is_print_hi c.
  Proof.
    intros Ht. destruct (root_node t Ht) as (v & c & S & -> & HS & H1 & _). exists c.
    cbn [n_children tree_value bracketed]. rewrite H1, String.eqb_refl. auto.
  Qed.

  (** ** Meaning with @ *)
  Section Meaning.
    Variable join_words : list string -> string.
    Variable float_string : bigf -> string.
    Variable json : dval -> string.
    Variable call : string -> list dval -> res dval.
    Hypothesis Hcall : call_returns call.
    Notation semantic := (semantic p join_words float_string json is_print_hi call).
    Notation eval := (eval p join_words float_string call).
    Notation Ev := (Ev p join_words float_string call).
    Notation EvBad := (EvBad p join_words float_string call).

    Lemma below_trans t m x : below t m -> part_of m x -> below t x.
    Proof. intros (c & Hc & Hm) Hx. exists c. split; [exact Hc|]. eapply part_trans; eauto. Qed.

    Lemma below_labelled t m : tree_of_parse p t -> below t m -> labelled m.
    Proof. intros Ht Hm x Hx. exact (proj1 (below_facts t x Hng Ht (below_trans _ _ _ Hm Hx))). Qed.

    Lemma below_decides t m : tree_of_parse p t -> below t m -> nonempty_parts m ->
      readable p join_words m /\ sliceable p m /\ labelled m.
    Proof.
      intros Ht Hm Hne. split; [|split].
      - eapply (tree_readable _ _ _ _ _ _ _ _ _ _ Ho Hp Hwf Hsep); eauto. apply below_part; auto.
      - eapply (tree_sliceable _ _ _ _ _ _ _ _ _ _ Ho Hp Hwf Hsep); eauto. apply below_part; auto.
      - eapply below_labelled; eauto.
    Qed.

    Lemma node_eval t m : tree_of_parse p t -> below t m -> nonempty_parts m ->
      (eval m = Err <-> EvBad m) /\ eval m <> Panic /\ eval m <> Fuel.
    Proof.
      intros Ht Hm Hne. destruct (below_decides t m Ht Hm Hne) as (H1 & H2 & H3).
      split; [apply eval_fails_at; auto|].
      destruct (eval_decides_at p join_words float_string call m H1 H2 H3 Hcall) as [[s E]|[E _]]; rewrite E; split; discriminate.
    Qed.

    Lemma node_semantic t m : tree_of_parse p t -> below t m -> nonempty_parts m ->
      (semantic m = Err <-> SemBad m) /\ semantic m <> Panic /\ semantic m <> Fuel.
    Proof.
      intros Ht Hm Hne. destruct (below_decides t m Ht Hm Hne) as (H1 & H2 & H3).
      split; [apply semantic_fails_at; auto|].
      destruct (semantic_decides_at p join_words float_string json is_print_hi call m H1 H2 H3 Hcall) as [[s E]|[E _]];
        rewrite E; split; discriminate.
    Qed.

    Lemma root_meaning t : tree_of_parse p t -> exists c, n_children t = [c]
      /\ eval t = eval c /\ semantic t = semantic c.
    Proof.
      intros Ht. destruct (root_node t Ht) as (v & c & S & E & HS & H1 & H2 & H3 & _). exists c.
      pose proof (tree_readable _ _ _ _ _ _ _ _ _ _ Ho Hp Hwf Hsep join_words t t Ht (po_self _) t (po_self _)) as [x Hx].
      subst t. split; [reflexivity|]. rewrite eval_eq, semantic_eq, Hx. unfold function_of. cbn [n_value]. rewrite H3.
      split; reflexivity.
    Qed.

    Lemma context_entries t m : tree_of_parse p t -> below t m -> nonempty_parts m -> forall l,
      context_nodes p (n_children m) (map eval (n_children m)) = Ret l <->
      Forall2 (child_entry toks text p join_words float_string call) (n_children m) l.
    Proof.
      intros Ht Hm Hne.
      assert (forall c, In c (n_children m) -> below t c /\ nonempty_parts c) as Hk.
      { intros c Hc. destruct m as [v ch]. split.
        - eapply below_trans; [exact Hm|]. eapply po_kid; [exact Hc|constructor].
        - intros x Hx. apply Hne. eapply po_kid; eauto. }
      clear Hm Hne. induction (n_children m) as [|c ch IH]; intros l.
      - cbn [map context_nodes]. split; [intros [= <-]; constructor|intros F; inversion F; reflexivity].
      - destruct (Hk c (or_introl eq_refl)) as [Hb Hnc].
        specialize (IH (fun x Hx => Hk x (or_intror Hx))).
        destruct (node_eval t c Ht Hb Hnc) as (He & He1 & He2).
        destruct (node_views t c Ht (below_part _ _ Hb) (Hnc _ (po_self _))) as [_ Htxt].
        destruct (below_term t c Hng Ht Hb) as [Htm _].
        cbn [map context_nodes]. rewrite Htm, Htxt. cbn [bind].
        assert (exists w, (forall v, w = v <-> child_entry toks text p join_words float_string call c (DMap [(label c, v)]))
          /\ match eval c with
             | Err => Ret (DStr (text_of toks text (s_start (n_value c)) (s_end (n_value c))))
             | _ => eval c end = Ret w) as (w & Hw & Ew).
        { destruct (eval c) as [u| | |] eqn:Eu; try congruence.
          - exists u. split; [|reflexivity]. intros v. split.
            + intros <-. apply ce_value. apply eval_iff. exact Eu.
            + intros H. inversion H; subst; [|exfalso; rewrite <- He in *; congruence].
              match goal with X : Ev c v |- _ => apply eval_iff in X; congruence end.
          - eexists. split; [|reflexivity]. intros v. split.
            + intros <-. apply ce_text. apply He. reflexivity.
            + intros H. inversion H; subst; [|reflexivity].
              match goal with X : Ev c v |- _ => apply eval_iff in X; congruence end. }
        rewrite Ew. cbn [bind].
        assert (forall e, child_entry toks text p join_words float_string call c e -> exists v, e = DMap [(label c, v)]) as Hform.
        { intros e H. inversion H; subst; eauto. }
        split.
        + destruct (context_nodes p ch (map eval ch)) as [rest| | |] eqn:Er; try discriminate. cbn [bind].
          intros E. injection E as <-. constructor; [apply Hw; reflexivity|apply IH; reflexivity].
        + intros F. inversion F as [|? e ? l' He' Hl']; subst. destruct (Hform _ He') as [u ->].
          apply Hw in He'. subst u. apply IH in Hl'. rewrite Hl'. reflexivity.
    Qed.

    Lemma node_context t m : tree_of_parse p t -> below t m -> nonempty_parts m ->
      (exists v, context_view toks text p join_words float_string call m v)
      /\ forall v, context_value p m (n_children m) (map eval (n_children m)) = Ret v
           <-> context_view toks text p join_words float_string call m v.
    Proof.
      intros Ht Hm Hne.
      pose proof (context_entries t m Ht Hm Hne) as Hl.
      destruct (node_views t m Ht (below_part _ _ Hm) (Hne _ (po_self _))) as [Hpos Htxt].
      destruct (below_term t m Hng Ht Hm) as [Htm _].
      assert (forall v, context_value p m (n_children m) (map eval (n_children m)) = Ret v
           <-> context_view toks text p join_words float_string call m v) as Hiff.
      { intros v. unfold context_value. rewrite Htxt, Hpos, Htm.
        destruct (context_nodes p (n_children m) (map eval (n_children m))) as [l| | |] eqn:El; cbn [bind].
        - destruct (bytes_of toks (s_start (n_value m)) (s_end (n_value m))) as [a b] eqn:Eb.
          assert (a = fst (bytes_of toks (s_start (n_value m)) (s_end (n_value m)))
                  /\ b = snd (bytes_of toks (s_start (n_value m)) (s_end (n_value m)))) as [Ea Eb'] by (rewrite Eb; auto).
          split.
          + intros E. injection E as <-. rewrite Ea, Eb'.
            assert (Forall2 (child_entry toks text p join_words float_string call) (n_children m) l) as F by (apply Hl; reflexivity).
            destruct (t_type (s_term (n_value m))) eqn:Ety; first [apply cv_word; auto; fail | apply cv_rule; [congruence|exact F]].
          + intros H. inversion H as [? vs Ety F|? vs Ety F]; subst; apply Hl in F; injection F as ->;
              rewrite Eb; cbn [fst snd]; unfold range_text.
            * rewrite Ety. reflexivity.
            * destruct (t_type (s_term (n_value m))); try contradiction; try reflexivity.
        - split; [discriminate|]. intros H; inversion H as [? vs Ety F|? vs Ety F]; subst; apply Hl in F; discriminate.
        - split; [discriminate|]. intros H; inversion H as [? vs Ety F|? vs Ety F]; subst; apply Hl in F; discriminate.
        - split; [discriminate|]. intros H; inversion H as [? vs Ety F|? vs Ety F]; subst; apply Hl in F; discriminate. }
      split; [|exact Hiff].
      destruct (below_decides t m Ht Hm Hne) as (H1 & H2 & H3).
      destruct (context_returns p join_words float_string call m H2 H3) as [v Hv].
      - intros c Hc. assert (below t c /\ nonempty_parts c) as [Hb Hnc].
        { destruct m as [w ch]. split.
          - eapply below_trans; [exact Hm|]. eapply po_kid; [exact Hc|constructor].
          - intros x Hx. apply Hne. eapply po_kid; eauto. }
        destruct (node_eval t c Ht Hb Hnc) as (_ & E1 & E2). destruct (eval c); eauto; congruence.
      - exists v. apply Hiff. exact Hv.
    Qed.
  End Meaning.
End One.
