(** Where chart states come from, and soundness of the chart. *)
From Verif Require Import Base ModelTypes ModelEarley SpecTypes SpecGrammar SpecTree ProofEqual ProofChart.

Lemma advances_spec t d : advances t d = true <->
  (t_type t = TAny /\ t_type (s_term d) = TAny)
  \/ (t_type t = t_type (s_term d) /\ t_value t = t_value (s_term d)).
Proof.
  unfold advances. rewrite orb_true_iff, !andb_true_iff, !ttype_eqb_eq, String.eqb_eq. reflexivity.
Qed.

Section Sound.
  Variable tmatch : term -> option token -> bool.
  Variable gs : list grammar_rules.
  Variable toks : list token.
  Variable starts : list string.

  Notation just := (justified tmatch gs toks starts).
  Notation alljust := (all_justified tmatch gs toks starts).

  (** [x] is a rule name something in the grammar refers to. *)
  Definition referenced (x : string) : Prop :=
    In x starts \/
    exists t, occurs gs t /\ (t_type t = TNonterminal \/ t_type t = TList) /\ t_value t = x.

  (** Where the body of a rule state comes from. *)
  Definition body_origin (s : tstate) (b : rulebody) : Prop :=
    (exists S, In S starts /\ t_value (s_term s) = GammaRule /\ s_start s = 0 /\ b = gamma_body S)
    \/ (exists g x ru h, In g gs /\ lookup g x = Some ru /\ In (h, b) (r_body ru)
                         /\ t_value (s_term s) = r_name ru /\ referenced x).

  Definition origin (c : nat) (s : tstate) : Prop :=
    match t_type (s_term s) with
    | TNonterminal =>
        exists b, s_rb s = Some b /\ body_origin s b /\ s_dot s <= length (rb_terms b)
          /\ (t_meta (s_term s) = MNil \/ exists t, In t (rb_terms b) /\ t_meta (s_term s) = t_meta t)
    | TAny =>
        s_rb s = None /\ s_dot s = c - s_start s
        /\ exists t, occurs gs t /\ t_type t = TAny /\ t_meta (s_term s) = t_meta t
                     /\ (t_value (s_term s) = t_value t \/ t_value (s_term s) = "any")
    | TList => s_rb s = None /\ occurs gs (s_term s)
    | _ => False
    end.

  Lemma body_origin_occurs s b t : body_origin s b -> In t (rb_terms b) ->
    occurs gs t \/ exists S, In S starts /\ t = nonterm S.
  Proof.
    intros [(S & HS & _ & _ & ->)|(g & x & ru & h & Hg & Hl & Hb & _)] Ht.
    - destruct Ht as [<-|[]]. right. eauto.
    - left. exists x, b. split; auto. exists g, ru, h. auto.
  Qed.

  (** The next term of a state comes from the grammar or is a start. *)
  Lemma nxt_origin c p t : origin c p -> nxt p = Some t ->
    (t_type (s_term p) = TNonterminal /\ exists b, s_rb p = Some b /\ body_origin p b
        /\ nth_error (rb_terms b) (s_dot p) = Some t)
    \/ (t_type (s_term p) = TAny /\ t = s_term p)
    \/ (t_type (s_term p) = TList /\ t = mkTerm (t_value (s_term p)) TNonterminal (t_meta (s_term p))).
  Proof.
    unfold origin. intros Ho Hn. destruct (t_type (s_term p)) eqn:Et; try contradiction.
    - destruct Ho as (b & Hb & Hbo & _). left. split; auto. exists b. split; [auto|split; auto].
      rewrite <- (nxt_rule p b); auto.
    - right. left. split; auto. apply nxt_any; auto.
    - right. right. split; auto. apply nxt_list; auto.
  Qed.

  Lemma nxt_referenced c p t : origin c p -> nxt p = Some t -> t_type t = TNonterminal ->
    referenced (t_value t).
  Proof.
    intros Ho Hn Ht. destruct (nxt_origin c p t Ho Hn) as [(_ & b & Hb & Hbo & Hnth)|[(Ep & ->)|(Ep & ->)]].
    - apply nth_error_In in Hnth. destruct (body_origin_occurs _ _ _ Hbo Hnth) as [Hocc|(S & HS & ->)].
      + right. exists t. auto.
      + left. exact HS.
    - congruence.
    - unfold origin in Ho. rewrite Ep in Ho. destruct Ho as [_ Ho]. right. exists (s_term p). simpl. auto.
  Qed.

  Lemma justified_origin cols : alljust cols -> forall c r s, st_at cols c r = Some s -> origin c s.
  Proof.
    intros HJ. pose proof (justified_shape _ _ _ _ _ HJ) as Hsh.
    induction c as [c IHc] using (well_founded_induction lt_wf).
    induction r as [r IHr] using (well_founded_induction lt_wf).
    intros s Hs.
    assert (forall rd d r0 p, rd < r -> st_at cols c rd = Some d -> st_at cols (s_start d) r0 = Some p ->
              (s_start d = c -> r0 < r) -> origin (s_start d) p) as Hback.
    { intros rd d r0 p Hrd Hd Hp Hlt. destruct (st_at_shape _ _ _ _ Hsh Hd) as (_ & Hle & _).
      destruct (Nat.eq_dec (s_start d) c) as [Heq|Hne].
      - specialize (Hlt Heq). rewrite Heq in *. eapply IHr; eauto.
      - eapply (IHc (s_start d)); eauto. lia. }
    destruct (HJ _ _ _ Hs).
    - subst. unfold origin, begin_state; simpl. eexists. split; [reflexivity|]. split.
      + left. exists S. simpl. auto.
      + simpl. split; [lia|auto].
    - subst. unfold origin; simpl. exists b. split; [auto|]. split; [|split; [lia|auto]].
      right. exists g, (t_value t), ru, h. simpl. split; [auto|split; [auto|split; [auto|split; auto]]].
      eapply nxt_referenced; eauto.
    - assert (origin c p) as Hp by (eapply IHr; eauto).
      destruct (nxt_origin _ _ _ Hp H1) as [(_ & b & Hb & Hbo & Hnth)|[(Ep & _)|(Ep & _)]]; try congruence.
      apply nth_error_In in Hnth.
      destruct (body_origin_occurs _ _ _ Hbo Hnth) as [Hocc|(S & HS & ->)].
      2:{ simpl in H3. destruct H3; discriminate. }
      subst. unfold origin; simpl. destruct H3 as [E|E]; rewrite E.
      + split; auto. split; [lia|]. exists t. auto.
      + auto.
    - assert (origin c' p) as Hp by (eapply IHc; eauto; lia).
      destruct (nxt_origin _ _ _ Hp H1) as [(Ep & b & Hb & Hbo & Hnth)|[(Ep & _)|(Ep & ->)]]; try congruence.
      + assert (s_dot p < length (rb_terms b)) by (apply nth_error_Some; congruence).
        subst s. unfold origin in *; simpl. rewrite Ep in *. destruct Hp as (b' & Hb' & _ & _ & Hm).
        rewrite Hb in Hb'. injection Hb' as <-. exists b. split; auto. split; [|split; [lia|auto]].
        exact Hbo.
      + simpl in H3. discriminate.
    - assert (origin c' p) as Hp by (eapply IHc; eauto; lia).
      apply nxt_any in H2; auto. subst. unfold origin in *; simpl in *. rewrite H3 in Hp.
      destruct Hp as (Hrb & _ & t' & Ht' & Ht'' & Hm & _). split; auto. split; auto.
      exists t'. auto.
    - pose proof (Hback _ _ _ _ H H0 H2 H3) as Hp.
      destruct (nxt_origin _ _ _ Hp H4) as [(Ep & b & Hb & Hbo & Hnth)|[(Ep & _)|(Ep & ->)]]; try congruence.
      + assert (s_dot p < length (rb_terms b)) by (apply nth_error_Some; congruence).
        subst s. unfold origin; simpl. rewrite Ep. exists b. split; auto. split; [|split; [lia|]].
        * exact Hbo.
        * right. exists t. split; auto. eapply nth_error_In; eauto.
      + subst s. unfold origin in *; simpl. rewrite Ep in *. destruct Hp as [Hrb Hocc]. split; auto.
        destruct (s_term p); simpl in *; congruence.
    - pose proof (Hback _ _ _ _ H H0 H2 H3) as Hp.
      apply nxt_any in H4; auto. subst. unfold origin in *; simpl in *. rewrite H6 in *.
      destruct Hp as (Hrb & _ & Hx). split; auto.
  Qed.

  (** ** Soundness *)
  Variable count_ok : term -> nat -> Prop.
  Hypothesis Hnamed : named_rules gs.
  Hypothesis Hres : no_reserved gs starts.
  Hypothesis Hcount : forall t t' n, occurs gs t -> occurs gs t' -> t_type t = t_type t' ->
    (t_type t = TAny \/ (t_type t = TList /\ t_value t = t_value t')) ->
    range_allows (t_meta t') n -> count_ok t n.

  Notation D := (derives (has_alt gs) (accepts_by tmatch) toks count_ok (fun _ _ => True)).
  Notation DS := (derives_seq (has_alt gs) (accepts_by tmatch) toks count_ok (fun _ _ => True)).

  Lemma derives_seq_app l1 : forall l2 i j k, DS l1 i j -> DS l2 j k -> DS (l1 ++ l2) i k.
  Proof.
    induction l1 as [|t l1 IH]; intros l2 i j k H1 H2; inversion H1; subst; simpl; auto.
    econstructor; eauto.
  Qed.

  Definition sound (c : nat) (s : tstate) : Prop :=
    c <= length toks /\
    match t_type (s_term s) with
    | TNonterminal =>
        match s_rb s with
        | Some b => DS (firstn (s_dot s) (rb_terms b)) (s_start s) c
        | None => False
        end
    | TList => DS (repeat (nonterm (t_value (s_term s))) (s_dot s)) (s_start s) c
    | _ => True
    end.

  Lemma referenced_not_gamma x : referenced x -> x <> GammaRule.
  Proof.
    destruct Hres as [H1 H2]. intros [Hx|(t & Ht & Hty & <-)].
    - congruence.
    - apply H1; auto. destruct Hty as [E|E]; rewrite E; discriminate.
  Qed.

  (** A completed state stands for a derivation of the term that waits for it. *)
  Lemma completed_derives c d t :
    origin c d -> shape c d -> sound c d -> completed d = true -> advances t d = true ->
    (occurs gs t \/ (t_type t = TNonterminal /\ t_value t <> GammaRule)) ->
    t_type t = TNonterminal -> t_value t <> GammaRule ->
    D t (s_start d) c.
  Proof.
    intros Ho (_ & Hle & _) [Hc Hs] Hd Ha _ Ht Hng.
    apply advances_spec in Ha as [[Ha _]|[Hty Hv]]; [congruence|]. rewrite Ht in Hty.
    unfold origin in Ho. rewrite <- Hty in *. destruct Ho as (b & Hb & Hbo & Hdot & _).
    rewrite Hb in Hs.
    rewrite (completed_rule d b (eq_sym Hty) Hb) in Hd.
    rewrite firstn_all2 in Hs by lia.
    destruct Hbo as [(S & _ & Hg & _)|(g & x & ru & h & Hg & Hl & Hin & Hn & _)]; [congruence|].
    eapply d_rule with (ts := rb_terms b); auto.
    exists b. split; auto. exists g, ru, h. split; auto. split; auto.
    rewrite Hv, Hn, (Hnamed g x ru); auto.
  Qed.

  Lemma completed_derives_special c d t :
    origin c d -> shape c d -> sound c d -> completed d = true -> advances t d = true ->
    occurs gs t -> t_type t = TAny \/ t_type t = TList -> D t (s_start d) c.
  Proof.
    intros Ho (_ & Hle & _) [Hc Hs] Hd Ha Hocc [Ht|Ht]; apply advances_spec in Ha.
    - assert (t_type (s_term d) = TAny) as Hty.
      { destruct Ha as [[_ Ha]|[Ha _]]; congruence. }
      apply completed_special in Hd; [|auto].
      unfold origin in Ho. rewrite Hty in Ho. destruct Ho as (_ & Hdot & t' & Ht' & Hty' & Hm & _).
      apply d_any; auto. eapply Hcount with (t' := t'); auto; [congruence|].
      rewrite <- Hm, <- Hdot. exact Hd.
    - destruct Ha as [[Ha _]|[Hty Hv]]; [congruence|]. rewrite Ht in Hty.
      apply completed_special in Hd; [|auto].
      unfold origin in Ho. rewrite <- Hty in *. destruct Ho as [_ Ho].
      eapply d_list with (n := s_dot d); auto.
      + eapply Hcount with (t' := s_term d); auto; congruence.
      + rewrite Hv. exact Hs.
  Qed.

  Lemma firstn_S_nth {A} (l : list A) n a :
    nth_error l n = Some a -> firstn (n + 1) l = firstn n l ++ [a].
  Proof.
    revert n; induction l as [|x l IH]; intros [|n] H; simpl in *; try discriminate.
    - injection H as <-. reflexivity.
    - f_equal. apply IH; auto.
  Qed.

  Lemma repeat_snoc {A} (a : A) n : repeat a (n + 1) = repeat a n ++ [a].
  Proof. induction n; simpl; auto. f_equal. auto. Qed.

  Lemma justified_sound cols : alljust cols -> length cols = S (length toks) ->
    forall c r s, st_at cols c r = Some s -> sound c s.
  Proof.
    intros HJ Hlen. pose proof (justified_shape _ _ _ _ _ HJ) as Hsh.
    pose proof (justified_origin _ HJ) as Hor.
    induction c as [c IHc] using (well_founded_induction lt_wf).
    induction r as [r IHr] using (well_founded_induction lt_wf).
    intros s Hs. assert (c <= length toks) as Hcl.
    { apply st_at_col in Hs. lia. }
    split; [exact Hcl|].
    destruct (HJ _ _ _ Hs).
    - subst. simpl. constructor.
    - subst. simpl. constructor.
    - subst. simpl. destruct H3 as [E|E]; rewrite E; [exact I|constructor].
    - assert (sound c' p) as [_ Hp] by (eapply IHc; eauto; lia).
      pose proof (Hor _ _ _ H0) as Ho.
      destruct (nxt_origin _ _ _ Ho H1) as [(Ep & b & Hb & Hbo & Hnth)|[(Ep & _)|(Ep & ->)]]; try congruence.
      2:{ simpl in H3. discriminate. }
      subst s c. simpl. rewrite Ep, Hb in *. rewrite (firstn_S_nth _ _ _ Hnth).
      eapply derives_seq_app; eauto. econstructor; [|constructor].
      eapply d_terminal; eauto.
    - subst. simpl. exact I.
    - assert (sound c d) as Hd by (eapply IHr; eauto).
      pose proof (Hor _ _ _ H0) as Hod. pose proof (st_at_shape _ _ _ _ Hsh H0) as Hds.
      pose proof (Hor _ _ _ H2) as Hop.
      assert (sound (s_start d) p) as [_ Hp].
      { destruct (Nat.eq_dec (s_start d) c) as [Heq|Hne].
        - specialize (H3 Heq). rewrite Heq in *. eapply IHr; eauto.
        - eapply (IHc (s_start d)); eauto. destruct Hds; lia. }
      subst s. simpl.
      destruct (nxt_origin _ _ _ Hop H4) as [(Ep & b & Hb & Hbo & Hnth)|[(Ep & _)|(Ep & ->)]]; try congruence.
      + rewrite Ep, Hb in *. rewrite (firstn_S_nth _ _ _ Hnth).
        eapply derives_seq_app; eauto. econstructor; [|constructor].
        apply nth_error_In in Hnth as Hin.
        destruct (body_origin_occurs _ _ _ Hbo Hin) as [Hocc|(S & HS & ->)].
        * destruct (t_type t) eqn:Et.
          -- exfalso. apply advances_spec in H5 as [[H5 _]|[H5 _]]; [congruence|]. rewrite Et in H5.
             unfold origin in Hod. rewrite <- H5 in Hod. exact Hod.
          -- eapply completed_derives; eauto.
             apply referenced_not_gamma. right. exists t. auto.
          -- exfalso. apply advances_spec in H5 as [[H5 _]|[H5 _]]; [congruence|]. rewrite Et in H5.
             unfold origin in Hod. rewrite <- H5 in Hod. exact Hod.
          -- eapply completed_derives_special; eauto.
          -- eapply completed_derives_special; eauto.
        * assert (S <> GammaRule) by (apply referenced_not_gamma; left; auto).
          eapply completed_derives; eauto.
      + rewrite Ep in *. rewrite repeat_snoc. eapply derives_seq_app; eauto.
        econstructor; [|constructor].
        unfold origin in Hop. rewrite Ep in Hop. destruct Hop as [_ Hocc].
        assert (t_value (s_term p) <> GammaRule) as Hng.
        { apply referenced_not_gamma. right. exists (s_term p). auto. }
        eapply completed_derives; eauto.
    - subst s. simpl. rewrite H6. exact I.
  Qed.
End Sound.
