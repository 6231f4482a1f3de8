(** Trees returned by the tree builder are parse trees, and there is at least one. *)
From Verif Require Import Base ModelTypes ModelEarley ModelTrees SpecTypes SpecGrammar SpecTree
  ProofEqual ProofChart ProofSound ProofTree.

Lemma over_subtrees_spec (P : node -> Prop) k subs :
  (forall s, In s subs -> k s = Fuel \/ exists outs, k s = Ret outs /\ Forall P outs) ->
  over_subtrees k subs = Fuel \/ exists outs, over_subtrees k subs = Ret outs /\ Forall P outs.
Proof.
  induction subs as [|s subs IH]; intros H; simpl; [right; eauto|].
  destruct (H s (or_introl eq_refl)) as [->|(o & -> & Ho)]; [left; reflexivity|]. simpl.
  destruct IH as [->|(o' & -> & Ho')]; [intros; apply H; right; auto|left; reflexivity|].
  simpl. right. eexists. split; [reflexivity|]. apply Forall_app. auto.
Qed.

Lemma over_states_spec (P : node -> Prop) body ref t start e sts : forall r,
  (e = fst ref -> r <= snd ref) ->
  (forall s, In s sts -> is_completed s = Ret (completed s)) ->
  (forall k s, nth_error sts k = Some s -> before ref e (r + k) -> completed s = true ->
     t_value (s_term s) = t_value t -> t_type (s_term s) = t_type t ->
     (forall n, start = Some n -> s_start s = n) ->
     body (r + k) s = Fuel \/ exists outs, body (r + k) s = Ret outs /\ Forall P outs) ->
  over_states body ref t start e r sts = Fuel
  \/ exists outs, over_states body ref t start e r sts = Ret outs /\ Forall P outs.
Proof.
  induction sts as [|s sts IH]; intros r Hr Hc H; simpl; [right; eauto|].
  destruct (Nat.eqb e (fst ref) && Nat.eqb r (snd ref)) eqn:E; [right; eauto|].
  assert (before ref e r) as Hb.
  { intros He. specialize (Hr He). apply andb_false_iff in E as [E|E]; apply Nat.eqb_neq in E; lia. }
  assert (over_states body ref t start e (S r) sts = Fuel
          \/ exists outs, over_states body ref t start e (S r) sts = Ret outs /\ Forall P outs) as Hrest.
  { apply IH.
    - intros He. specialize (Hb He). lia.
    - intros; apply Hc; right; auto.
    - intros k s' Hk Hbk Hcs Hv Hty Hst. replace (S r + k) with (r + S k) in * by lia. apply H; auto. }
  rewrite Hc by (left; reflexivity). simpl.
  destruct (negb (completed s) || negb (String.eqb (t_value (s_term s)) (t_value t))
             || negb (ttype_eqb (t_type (s_term s)) (t_type t))) eqn:E1; [exact Hrest|].
  destruct (match start with Some n => negb (Nat.eqb (s_start s) n) | None => false end) eqn:E2; [exact Hrest|].
  apply orb_false_iff in E1 as [E1 Ety]. apply orb_false_iff in E1 as [E1 Ev].
  apply negb_false_iff in E1, Ety, Ev. apply String.eqb_eq in Ev. apply ttype_eqb_eq in Ety.
  assert (forall n, start = Some n -> s_start s = n) as Hst.
  { intros n ->. apply negb_false_iff in E2. apply Nat.eqb_eq in E2. exact E2. }
  specialize (H 0 s eq_refl). rewrite Nat.add_0_r in H.
  destruct (H Hb E1 Ev Ety Hst) as [->|(o & -> & Ho)]; [left; reflexivity|]. simpl.
  destruct Hrest as [->|(o' & -> & Ho')]; [left; reflexivity|].
  simpl. right. eexists. split; [reflexivity|]. apply Forall_app. auto.
Qed.

Section Ok.
  Variable tmatch : term -> option token -> bool.
  Variable gs : list grammar_rules.
  Variable toks : list token.
  Variable starts : list string.
  Variable count_ok : term -> nat -> Prop.
  Hypothesis Hnamed : named_rules gs.
  Hypothesis Hres : no_reserved gs starts.
  Hypothesis Hcount : forall t t' n, occurs gs t -> occurs gs t' -> t_type t = t_type t' ->
    (t_type t = TAny \/ (t_type t = TList /\ t_value t = t_value t')) ->
    range_allows (t_meta t') n -> count_ok t n.
  Hypothesis Hsep : separated gs.
  Variable cols : list column.
  Hypothesis HJ : all_justified tmatch gs toks starts cols.
  Hypothesis Hlen : length cols = S (length toks).

  Notation T := (tree_of gs (accepts_by tmatch) toks count_ok).
  Notation TS := (trees_of gs (accepts_by tmatch) toks count_ok).
  Notation DS := (derives_seq (has_alt gs) (accepts_by tmatch) toks count_ok (fun _ _ => True)).

  Let Hsh : all_shaped cols := justified_shape _ _ _ _ _ HJ.
  Let Hor := justified_origin _ _ _ _ _ HJ.
  Let Hso := justified_sound tmatch gs toks starts count_ok Hnamed Hres Hcount cols HJ Hlen.

  (** A returned node stands for chart state [d]. *)
  Definition good (c : nat) (d : tstate) (n : node) : Prop :=
    match t_type (s_term d) with
    | TNonterminal => exists b kids, s_rb d = Some b
        /\ erase n = PRule (t_value (s_term d)) b (s_start d) c kids
        /\ TS (rb_terms b) (s_start d) c kids
    | TAny => erase n = PAny (s_start d) c
    | TList => exists kids, erase n = PList (t_value (s_term d)) (s_start d) c kids
        /\ TS (repeat (nonterm (t_value (s_term d))) (s_dot d)) (s_start d) c kids
    | _ => False
    end.

  Definition term_ok (t : term) : Prop :=
    occurs gs t \/ (t_type t = TNonterminal /\ referenced gs starts (t_value t)).

  Lemma good_tree c d n t :
    origin gs starts c d -> shape c d -> c <= length toks -> completed d = true -> good c d n -> term_ok t ->
    t_value (s_term d) = t_value t -> t_type (s_term d) = t_type t ->
    T t (s_start d) c (erase n).
  Proof.
    intros Ho (_ & Hle & _) Hc Hd Hg Ht Hv Hty. unfold good in Hg.
    unfold origin in Ho. destruct (t_type (s_term d)) eqn:Et; try contradiction.
    - destruct Hg as (b & kids & Hb & -> & Hts). rewrite Hv.
      apply to_rule; auto. destruct Ho as (b' & Hb' & Hbo & _). rewrite Hb in Hb'. injection Hb' as <-.
      destruct Hbo as [(S & _ & Hg & _)|(g & x & ru & h & Hg & Hl & Hin & Hn & _)].
      + exfalso. assert (referenced gs starts (t_value t)) as Hr.
        { destruct Ht as [Ht|[_ Ht]]; auto. right. exists t. auto. }
        apply referenced_not_gamma with (1 := Hres) in Hr. congruence.
      + exists g, ru, h. split; auto. split; auto.
        rewrite <- Hv, Hn, (Hnamed g x ru); auto.
    - rewrite Hg. destruct Ht as [Ht|[Ht _]]; [|congruence].
      destruct Ho as (_ & Hdot & t' & Ht' & Hty' & Hm & _).
      apply completed_special in Hd; auto.
      apply to_any; auto. eapply Hcount with (t' := t'); auto; [congruence|].
      rewrite <- Hm, <- Hdot. exact Hd.
    - destruct Hg as (kids & -> & Hts). destruct Ht as [Ht|[Ht _]]; [|congruence].
      destruct Ho as (_ & Ho). apply completed_special in Hd; auto. rewrite Hv in *.
      apply to_list with (n := s_dot d); auto.
      eapply Hcount with (t' := s_term d); auto; congruence.
  Qed.

  Lemma skipn_nth {A} (l : list A) n a : nth_error l n = Some a -> skipn n l = a :: skipn (S n) l.
  Proof.
    revert n; induction l as [|x l IH]; intros [|n] H; simpl in *; try discriminate.
    - injection H as ->. reflexivity.
    - rewrite (IH _ H). reflexivity.
  Qed.

  (** Terminals of a recognised sequence sit at consecutive tokens. *)
  Lemma terminals_at ts : forall i j, (forall t, In t ts -> t_type t = TTerminal) -> DS ts i j ->
    j = i + length ts /\
    forall k t, nth_error ts k = Some t ->
      exists tok, nth_error toks (i + k) = Some tok /\ accepts_by tmatch t tok.
  Proof.
    induction ts as [|t ts IH]; intros i j Ht H; inversion H; subst.
    - split; [simpl; lia|]. intros [|k] t Hk; discriminate.
    - assert (j0 = S i /\ exists tok, nth_error toks i = Some tok /\ accepts_by tmatch t tok) as [-> Htok].
      { assert (t_type t = TTerminal) as E by (apply Ht; left; auto).
        match goal with D : derives _ _ _ _ _ t i j0 |- _ => inversion D; subst; try congruence end.
        split; eauto. }
      match goal with D : derives_seq _ _ _ _ _ ts (S i) j |- _ =>
        apply IH in D as [-> Hrest]; [|intros; apply Ht; right; auto] end.
      split; [simpl; lia|]. intros [|k] t' Hk; simpl in Hk.
      + injection Hk as <-. rewrite Nat.add_0_r. exact Htok.
      + replace (i + S k) with (S i + k) by lia. auto.
  Qed.

  Lemma helper_terminals fuel : forall children ref st terms c k end_,
    (forall t, In t terms -> t_type t = TTerminal) ->
    DS terms (s_start st) c -> k <= length terms ->
    TS (skipn k terms) (s_start st + k) c (map erase children) ->
    build_helper cols fuel children ref st terms k end_ = Fuel
    \/ exists ch, build_helper cols fuel children ref st terms k end_ = Ret [Node st ch]
                  /\ TS terms (s_start st) c (map erase ch).
  Proof.
    induction fuel as [|fuel IH]; intros children ref st terms c k end_ Hterm HD Hk HT; [left; reflexivity|].
    simpl. destruct k as [|k].
    - right. exists children. simpl in HT. rewrite Nat.add_0_r in HT. auto.
    - destruct (nth_error terms k) as [t|] eqn:En.
      2:{ apply nth_error_None in En. lia. }
      assert (idx terms k = Ret t) as -> by (unfold idx; rewrite En; reflexivity).
      simpl. assert (t_type t = TTerminal) as Et by (apply Hterm; eapply nth_error_In; eauto).
      rewrite Et. apply IH; auto; [lia|].
      rewrite (skipn_nth _ _ _ En). simpl. rewrite Et.
      destruct (terminals_at _ _ _ Hterm HD) as [_ Hat]. destruct (Hat _ _ En) as (tok & Htok & Hacc).
      econstructor; [eapply to_tok; eauto|].
      replace (S (s_start st + k)) with (s_start st + S k) by lia. exact HT.
  Qed.

  Definition trees_good (fuel : nat) : Prop :=
    forall c r s, st_at cols c r = Some s -> completed s = true ->
      build_trees cols fuel (c, r) = Fuel
      \/ exists outs, build_trees cols fuel (c, r) = Ret outs /\ Forall (good c s) outs.

  Lemma helper_inner (fuel : nat) : (forall f, f <= fuel -> trees_good f) ->
    forall f children ref st terms c k e,
    f <= fuel -> (forall t, In t terms -> term_ok t /\ t_type t <> TTerminal) ->
    k <= length terms -> e <= length toks ->
    (k = 0 -> e = s_start st) ->
    TS (skipn k terms) e c (map erase children) ->
    build_helper cols f children ref st terms k (Z.of_nat e) = Fuel
    \/ exists outs, build_helper cols f children ref st terms k (Z.of_nat e) = Ret outs
         /\ Forall (fun n => exists ch, n = Node st ch /\ TS terms (s_start st) c (map erase ch)) outs.
  Proof.
    intros Hgood. induction f as [|f IH]; intros children ref st terms c k e Hf Hterm Hk He Hz HT; [left; reflexivity|].
    simpl. destruct k as [|k].
    - right. exists [Node st children]. split; auto. constructor; auto.
      exists children. split; auto. rewrite Hz in HT by reflexivity. exact HT.
    - destruct (nth_error terms k) as [t|] eqn:En.
      2:{ apply nth_error_None in En. lia. }
      assert (idx terms k = Ret t) as -> by (unfold idx; rewrite En; reflexivity).
      simpl. destruct (Hterm t (nth_error_In _ _ En)) as [Hok Hnt].
      match goal with |- match t_type t with TEOF => ?X | _ => _ end = _ \/ _ =>
        assert (X = Fuel \/ exists outs, X = Ret outs
           /\ Forall (fun n => exists ch, n = Node st ch /\ TS terms (s_start st) c (map erase ch)) outs) as Hgen end.
      { replace (Z.of_nat e <? 0)%Z with false by (symmetry; apply Z.ltb_ge; lia).
        rewrite Nat2Z.id. unfold idx.
        destruct (nth_error cols e) as [col|] eqn:Ec; [|apply nth_error_None in Ec; lia]. simpl.
        assert (states_of cols e = c_states col) as Hcs by (unfold states_of; rewrite Ec; auto).
        apply over_states_spec.
        - intros _. lia.
        - intros s Hs. apply (is_completed_ret e). apply Hsh. rewrite Hcs. exact Hs.
        - intros r d Hd Hb Hcd Hv Hty Hst. simpl.
          assert (st_at cols e r = Some d) as Hat by (unfold st_at; rewrite Hcs; exact Hd).
          destruct (Hgood f ltac:(lia) e r d Hat Hcd) as [->|(subs & -> & Hsubs)]; [left; reflexivity|].
          simpl. apply over_subtrees_spec. intros sub Hsub.
          pose proof (st_at_shape _ _ _ _ Hsh Hat) as Hdsh.
          apply IH; auto; try lia.
          + destruct Hdsh as (_ & Hle & _). lia.
          + intros ->. simpl in Hst. rewrite (Hst _ eq_refl). reflexivity.
          + rewrite (skipn_nth _ _ _ En). simpl. econstructor; [|exact HT].
            eapply good_tree; eauto. rewrite Forall_forall in Hsubs. apply Hsubs; auto. }
      destruct (t_type t); auto. congruence.
  Qed.

  Lemma body_cases s b : body_origin gs starts s b ->
    (forall t, In t (rb_terms b) -> t_type t = TTerminal)
    \/ (forall t, In t (rb_terms b) -> term_ok t /\ t_type t <> TTerminal).
  Proof.
    intros [(S & HS & _ & _ & ->)|(g & x & ru & h & Hg & Hl & Hin & _)].
    - right. intros t [<-|[]]. simpl. split; [|discriminate]. right. split; auto. left; auto.
    - assert (has_body gs x b) as Hb by (exists g, ru, h; auto).
      destruct (Hsep x b Hb) as [Ht|Ht]; [left; auto|right].
      intros t Hin'. split.
      + left. exists x, b. auto.
      + destruct (Ht t Hin') as [E|[E|E]]; rewrite E; discriminate.
  Qed.

  Lemma all_trees_good fuel : trees_good fuel.
  Proof.
    induction fuel as [fuel IH] using (well_founded_induction lt_wf).
    intros c r s Hs Hc. destruct fuel as [|fuel]; [left; reflexivity|].
    simpl. unfold idx. pose proof Hs as Hs'. unfold st_at, states_of in Hs.
    destruct (nth_error cols c) as [col|] eqn:Ec; [|destruct r; discriminate]. simpl. rewrite Hs. simpl.
    pose proof (st_at_shape _ _ _ _ Hsh Hs') as (He & Hle & _).
    pose proof (Hor _ _ _ Hs') as Ho. destruct (Hso _ _ _ Hs') as [Hcl Hsound].
    unfold good, with_list_rb. unfold origin in Ho.
    destruct (t_type (s_term s)) eqn:Et; try contradiction.
    - destruct Ho as (b & Hb & Hbo & Hdot & _). rewrite Hb in *. rewrite He.
      rewrite (completed_rule s b Et Hb) in Hc. rewrite firstn_all2 in Hsound by lia.
      assert (forall ch, erase (Node s ch) = PRule (t_value (s_term s)) b (s_start s) c (map erase ch)) as Her.
      { intros ch. simpl. rewrite Et, Hb, He. reflexivity. }
      destruct (body_cases s b Hbo) as [Hterm|Hterm].
      + destruct (helper_terminals fuel [] (c, r) s (rb_terms b) c (length (rb_terms b)) (Z.of_nat c)) as [->|(ch & -> & HT)]; auto.
        * rewrite skipn_all. destruct (terminals_at _ _ _ Hterm Hsound) as [-> _]. constructor.
        * right. eexists. split; [reflexivity|]. constructor; [|constructor].
          exists b, (map erase ch). auto.
      + destruct (helper_inner fuel) with (f := fuel) (children := @nil node) (ref := (c, r)) (st := s)
          (terms := rb_terms b) (c := c) (k := length (rb_terms b)) (e := c) as [->|(outs & -> & Ho)]; auto.
        * intros f Hf. apply IH. lia.
        * intros H0. destruct (rb_terms b); [|discriminate]. inversion Hsound; auto.
        * rewrite skipn_all. constructor.
        * right. exists outs. split; auto. eapply Forall_impl; [|exact Ho].
          intros n (ch & -> & HT). exists b, (map erase ch). auto.
    - right. eexists. split; [reflexivity|]. constructor; [|constructor]. simpl. rewrite Et, He. reflexivity.
    - destruct Ho as (Hrb & Hocc). cbn [s_rb list_rb rb_terms s_end s_start]. rewrite repeat_length, He.
      set (st' := mkSt (s_term s) (Some (list_rb s)) (s_start s) c (s_dot s)).
      assert (forall ch, erase (Node st' ch) = PList (t_value (s_term s)) (s_start s) c (map erase ch)) as Her.
      { intros ch. simpl. rewrite Et. reflexivity. }
      destruct (helper_inner fuel) with (f := fuel) (children := @nil node) (ref := (c, r)) (st := st')
          (terms := repeat (nonterm (t_value (s_term s))) (s_dot s)) (c := c) (k := s_dot s) (e := c)
          as [H|(outs & H & Ho)]; auto.
      + intros f Hf. apply IH. lia.
      + intros t Ht. apply repeat_spec in Ht. subst t. split; [|discriminate]. right. split; auto.
        right. exists (s_term s). auto.
      + rewrite repeat_length. lia.
      + intros H0. simpl. rewrite H0 in Hsound. inversion Hsound; auto.
      + rewrite skipn_all2 by (rewrite repeat_length; lia). constructor.
      + right. exists outs. split; [exact H|]. eapply Forall_impl; [|exact Ho].
        intros n (ch & -> & HT). exists (map erase ch). auto.
  Qed.
End Ok.
