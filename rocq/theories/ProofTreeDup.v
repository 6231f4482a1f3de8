(** No tree is returned twice. *)
From Verif Require Import Base ModelTypes ModelEarley ModelTrees SpecTypes SpecGrammar SpecTree
  ProofEqual ProofChart ProofSound ProofTerm ProofTree ProofTreeOk.

Lemma nodup_app {A} (l1 l2 : list A) : NoDup l1 -> NoDup l2 ->
  (forall x, In x l1 -> In x l2 -> False) -> NoDup (l1 ++ l2).
Proof.
  induction l1 as [|a l1 IH]; intros H1 H2 Hd; simpl; auto.
  inversion H1; subst. constructor.
  - rewrite in_app_iff. intros [H|H]; [contradiction|]. eapply Hd; [left; reflexivity|exact H].
  - apply IH; auto. intros x Hx. apply Hd. right; auto.
Qed.

Section Key.
  Context {K : Type}.
  Variable f : node -> K.

  Lemma over_subtrees_nodup (Q : node -> node -> Prop) k subs : forall outs,
    over_subtrees k subs = Ret outs ->
    (forall s o, In s subs -> k s = Ret o -> NoDup (map f o) /\ Forall (Q s) o) ->
    (forall s s' x x', In s subs -> In s' subs -> Q s x -> Q s' x' -> f x = f x' -> f s = f s') ->
    NoDup (map f subs) ->
    NoDup (map f outs) /\ Forall (fun x => exists s, In s subs /\ Q s x) outs.
  Proof.
    induction subs as [|s subs IH]; intros outs H Hk Hq Hnd; simpl in H.
    - injection H as <-. split; constructor.
    - destruct (k s) as [o| | |] eqn:Ek; try discriminate. simpl in H.
      destruct (over_subtrees k subs) as [o'| | |] eqn:Eo; try discriminate. simpl in H. injection H as <-.
      destruct (Hk s o (or_introl eq_refl) Ek) as [N1 Q1]. inversion Hnd as [|? ? Hni Hnd']; subst.
      destruct (IH o' eq_refl) as [N2 Q2]; auto.
      { intros; apply Hk; auto; right; auto. }
      { intros s1 s2 x x' H1 H2; apply Hq; right; auto. }
      rewrite Forall_forall in Q1, Q2. split.
      + rewrite map_app. apply nodup_app; auto. intros y Hy Hy'.
        apply in_map_iff in Hy as (x & <- & Hx). apply in_map_iff in Hy' as (x' & Exx & Hx').
        destruct (Q2 x' Hx') as (s' & Hs' & HQ'). apply Hni.
        rewrite (Hq s s' x x' (or_introl eq_refl) (or_intror Hs') (Q1 x Hx) HQ' (eq_sym Exx)).
        apply in_map; auto.
      + rewrite Forall_forall. intros x Hx. apply in_app_iff in Hx as [Hx|Hx].
        * exists s. split; [left; auto|auto].
        * destruct (Q2 x Hx) as (s' & Hs' & HQ'). exists s'. split; [right; auto|auto].
  Qed.

  Lemma over_states_nodup (Q : nat -> node -> Prop) body ref t start e sts : forall r outs,
    (forall s, In s sts -> is_completed s = Ret (completed s)) ->
    over_states body ref t start e r sts = Ret outs ->
    (forall k s o, nth_error sts k = Some s -> completed s = true -> t_value (s_term s) = t_value t ->
       t_type (s_term s) = t_type t -> body (r + k) s = Ret o ->
       NoDup (map f o) /\ Forall (Q (r + k)) o) ->
    (forall r1 r2 x1 x2, Q r1 x1 -> Q r2 x2 -> f x1 = f x2 -> r1 = r2) ->
    NoDup (map f outs) /\ Forall (fun x => exists k, Q (r + k) x) outs.
  Proof.
    induction sts as [|s sts IH]; intros r outs Hc H Hk Hq; simpl in H.
    { injection H as <-. split; constructor. }
    destruct (Nat.eqb e (fst ref) && Nat.eqb r (snd ref)).
    { injection H as <-. split; constructor. }
    rewrite Hc in H by (left; reflexivity). simpl in H.
    assert (forall o, over_states body ref t start e (S r) sts = Ret o ->
              NoDup (map f o) /\ Forall (fun x => exists k, Q (S r + k) x) o) as Hrest.
    { intros o Ho. eapply IH; eauto.
      - intros; apply Hc; right; auto.
      - intros k s' o' Hn. replace (S r + k) with (r + S k) by lia. apply Hk. exact Hn. }
    assert (forall o, Forall (fun x => exists k, Q (S r + k) x) o -> Forall (fun x => exists k, Q (r + k) x) o) as Hsh.
    { intros o Ho. eapply Forall_impl; [|exact Ho]. intros x (k & Hx). exists (S k).
      replace (r + S k) with (S r + k) by lia. exact Hx. }
    destruct (negb (completed s) || negb (String.eqb (t_value (s_term s)) (t_value t))
             || negb (ttype_eqb (t_type (s_term s)) (t_type t))) eqn:E1.
    { destruct (Hrest _ H) as [N1 Q1]. auto. }
    destruct (match start with Some n => negb (Nat.eqb (s_start s) n) | None => false end).
    { destruct (Hrest _ H) as [N1 Q1]. auto. }
    apply orb_false_iff in E1 as [E1 Ety]. apply orb_false_iff in E1 as [E1 Ev].
    apply negb_false_iff in E1, Ety, Ev. apply String.eqb_eq in Ev. apply ttype_eqb_eq in Ety.
    destruct (body r s) as [o| | |] eqn:Eb; try discriminate. simpl in H.
    destruct (over_states body ref t start e (S r) sts) as [o'| | |] eqn:Eo; try discriminate. simpl in H.
    injection H as <-. destruct (Hrest o' eq_refl) as [N2 Q2].
    specialize (Hk 0 s o eq_refl E1 Ev Ety). rewrite Nat.add_0_r in Hk. destruct (Hk Eb) as [N1 Q1].
    split.
    - rewrite map_app. apply nodup_app; auto. intros y Hy Hy'.
      apply in_map_iff in Hy as (x & <- & Hx). apply in_map_iff in Hy' as (x' & Exx & Hx').
      rewrite Forall_forall in Q1, Q2. destruct (Q2 x' Hx') as (k & HQ).
      pose proof (Hq _ _ _ _ (Q1 x Hx) HQ (eq_sym Exx)). lia.
    - apply Forall_app. split; auto. eapply Forall_impl; [|exact Q1].
      intros x Hx. exists 0. rewrite Nat.add_0_r. exact Hx.
  Qed.

  Variable cols : list column.
  Hypothesis Hsh : all_shaped cols.

  (** The value of the root of every tree of a state. *)
  Definition root_value (s : tstate) : tstate :=
    match t_type (s_term s) with
    | TAny => mkSt (s_term s) None (s_start s) (s_end s) (s_end s)
    | _ => with_list_rb s
    end.

  Definition root_arity (s : tstate) : nat :=
    match t_type (s_term s) with
    | TAny => 0
    | TList => s_dot s
    | _ => match s_rb s with Some b => length (rb_terms b) | None => 0 end
    end.

  (** the key of a node determines the keys of its children *)
  Hypothesis Hkids : forall st a b, t_type (s_term st) = TNonterminal \/ t_type (s_term st) = TList ->
    f (Node st a) = f (Node st b) -> map f a = map f b.
  (** the key of the root determines the state among the completed states of a column *)
  Hypothesis Hroot : forall c r1 r2 s1 s2 a b,
    st_at cols c r1 = Some s1 -> st_at cols c r2 = Some s2 ->
    completed s1 = true -> completed s2 = true ->
    t_value (s_term s1) = t_value (s_term s2) -> t_type (s_term s1) = t_type (s_term s2) ->
    length a = root_arity s1 -> length b = root_arity s2 ->
    f (Node (root_value s1) a) = f (Node (root_value s2) b) -> r1 = r2.

  Lemma map_app_inv_length (a a' : list node) c c' : length a = length a' ->
    map f (a ++ c) = map f (a' ++ c') -> map f c = map f c'.
  Proof.
    revert a'. induction a as [|x a IH]; intros [|x' a'] Hl H; simpl in *; try discriminate; auto.
    injection H as _ H. apply (IH a'); auto.
  Qed.

  Lemma nodup_trees fuel :
    (forall c r s outs, st_at cols c r = Some s -> build_trees cols fuel (c, r) = Ret outs ->
       NoDup (map f outs)
       /\ Forall (fun n => exists kids, n = Node (root_value s) kids /\ length kids = root_arity s) outs)
    /\ (forall children ref st terms k end_ outs,
       t_type (s_term st) = TNonterminal \/ t_type (s_term st) = TList ->
       build_helper cols fuel children ref st terms k end_ = Ret outs ->
       NoDup (map f outs)
       /\ Forall (fun n => exists pre, n = Node st (pre ++ children) /\ length pre = k) outs).
  Proof.
    induction fuel as [|fuel [IHt IHh]]; [split; intros; discriminate|]. split.
    - intros c r s outs Hs H. simpl in H. unfold idx in H. pose proof Hs as Hs'.
      unfold st_at, states_of in Hs. simpl in H.
      destruct (nth_error cols c) as [col|] eqn:Ec; [|destruct r; discriminate]. simpl in H. rewrite Hs in H.
      simpl in H. destruct (st_at_shape _ _ _ _ Hsh Hs') as (_ & _ & Hty).
      unfold root_value, root_arity, with_list_rb in *.
      destruct (t_type (s_term s)) eqn:Et;
        try (exfalso; destruct Hty as [[? _]|[?|?]]; discriminate).
      + destruct (s_rb s) as [b|]; [|discriminate].
        apply IHh in H; [|left; exact Et]. destruct H as [N1 Q1]. split; auto.
        eapply Forall_impl; [|exact Q1]. intros n (pre & -> & Hl). exists pre. rewrite app_nil_r. auto.
      + injection H as <-. split; [repeat constructor; simpl; tauto|]. constructor; [|constructor].
        exists []. auto.
      + cbn [s_rb list_rb rb_terms] in H. rewrite repeat_length in H.
        apply IHh in H; [|right; exact Et]. destruct H as [N1 Q1]. split; auto.
        eapply Forall_impl; [|exact Q1]. intros n (pre & -> & Hl). exists pre. rewrite app_nil_r. auto.
    - intros children ref st terms k end_ outs Hst H. simpl in H. destruct k as [|k].
      { injection H as <-. split; [repeat constructor; simpl; tauto|]. constructor; [|constructor].
        exists []. auto. }
      destruct (idx terms k) as [t| | |]; try discriminate. simpl in H.
      assert (forall (X : res (list node)),
        (if (end_ <? 0)%Z then Panic
         else col <- idx cols (Z.to_nat end_);;
           over_states
             (fun (r : nat) (sub_st : tstate) =>
              ' subs <- build_trees cols fuel (Z.to_nat end_, r);;
              over_subtrees
                (fun sub : node =>
                 build_helper cols fuel (sub :: children) ref st terms k
                   (Z.of_nat (s_start sub_st))) subs) ref t
             (if Nat.eqb k 0 then Some (s_start st) else None) (Z.to_nat end_) 0 (c_states col)) = Ret outs ->
        NoDup (map f outs)
        /\ Forall (fun n => exists pre, n = Node st (pre ++ children) /\ length pre = S k) outs) as Hinner.
      2:{ destruct (t_type t); try (apply Hinner; [exact (Ret [])|exact H]).
          apply IHh in H; auto. destruct H as [N1 Q1]. split; auto.
          eapply Forall_impl; [|exact Q1]. intros n (pre & -> & Hl).
          eexists (pre ++ [_]). rewrite <- app_assoc. simpl. split; [reflexivity|].
          rewrite app_length; simpl; lia. }
      clear H. intros _ H. destruct (end_ <? 0)%Z; [discriminate|].
      set (e := Z.to_nat end_) in *. unfold idx in H.
      destruct (nth_error cols e) as [col|] eqn:Ec; [|discriminate]. simpl in H.
      assert (states_of cols e = c_states col) as Hcs by (unfold states_of; rewrite Ec; auto).
      set (Q := fun (r : nat) (x : node) => exists pre sub kids d, x = Node st (pre ++ sub :: children)
                 /\ length pre = k /\ st_at cols e r = Some d /\ completed d = true
                 /\ t_value (s_term d) = t_value t /\ t_type (s_term d) = t_type t
                 /\ sub = Node (root_value d) kids /\ length kids = root_arity d).
      destruct (over_states_nodup Q _ _ _ _ _ _ _ _ ltac:(
        intros s Hs; apply (is_completed_ret e); apply Hsh; rewrite Hcs; exact Hs) H) as [N1 Q1].
      + intros j d o Hd Hcd Hv Hty Ho. simpl in Ho.
        assert (st_at cols e j = Some d) as Hd' by (unfold st_at; rewrite Hcs; exact Hd).
        simpl. destruct (build_trees cols fuel (e, j)) as [subs| | |] eqn:Eb; try discriminate. simpl in Ho.
        destruct (IHt _ _ _ _ Hd' Eb) as [N2 Q2].
        rewrite Forall_forall in Q2.
        destruct (over_subtrees_nodup
          (fun sub x => exists pre, x = Node st (pre ++ sub :: children) /\ length pre = k) _ _ _ Ho) as [N3 Q3]; auto.
        * intros s o' Hs Ho'. apply IHh in Ho'; auto.
        * intros s s' x x' Hs Hs' (p1 & -> & L1) (p2 & -> & L2) E.
          apply Hkids in E; auto. apply map_app_inv_length in E; [|lia]. simpl in E. congruence.
        * split; auto. eapply Forall_impl; [|exact Q3]. intros x (sub & Hsub & pre & -> & L).
          destruct (Q2 sub Hsub) as (kids & -> & Lk). exists pre, (Node (root_value d) kids), kids, d. auto 10.
      + intros r1 r2 x1 x2 (p1 & s1 & k1 & d1 & -> & L1 & D1 & C1 & V1 & T1 & -> & A1)
          (p2 & s2 & k2 & d2 & -> & L2 & D2 & C2 & V2 & T2 & -> & A2) E.
        apply Hkids in E; auto. apply map_app_inv_length in E; [|lia]. simpl in E. injection E as E.
        eapply (Hroot e r1 r2 d1 d2); eauto; congruence.
      + split; auto. eapply Forall_impl; [|exact Q1].
        intros x (j & pre & sub & kids & d & -> & L & _). exists (pre ++ [sub]).
        rewrite <- app_assoc. simpl. split; auto. rewrite app_length; simpl; lia.
  Qed.
End Key.

(** The annotation a rule state carries: that of the last term it passed that
    is not a terminal. *)
Definition passed_meta (ts : list term) (dot : nat) : meta :=
  fold_left (fun m t => match t_type t with TTerminal => m | _ => t_meta t end) (firstn dot ts) MNil.

Lemma passed_meta_S ts d t : nth_error ts d = Some t ->
  passed_meta ts (d + 1) = match t_type t with TTerminal => passed_meta ts d | _ => t_meta t end.
Proof.
  intros H. unfold passed_meta. replace (d + 1) with (S d) by lia.
  assert (firstn (S d) ts = firstn d ts ++ [t]) as ->.
  { revert d H. induction ts as [|a ts IH]; intros [|d] H; simpl in *; try discriminate.
    - injection H as ->. reflexivity.
    - f_equal. apply IH. exact H. }
  rewrite fold_left_app. simpl. reflexivity.
Qed.

Section Dup.
  Variable tmatch : term -> option token -> bool.
  Variable ord : nat -> nat -> nat -> list rulebody -> list rulebody.
  Variable gs : list grammar_rules.
  Variable toks : list token.
  Variable starts : list string.
  Hypothesis Htyped : typed_args gs.
  Variable cols : list column.
  Hypothesis Hfin : finished tmatch ord gs toks starts cols.

  Let HJ : all_justified tmatch gs toks starts cols := proj1 (proj2 (proj1 Hfin)).
  Let Hsh : all_shaped cols := justified_shape _ _ _ _ _ HJ.

  Lemma state_meta : forall c r s b, st_at cols c r = Some s -> t_type (s_term s) = TNonterminal ->
    s_rb s = Some b -> t_meta (s_term s) = passed_meta (rb_terms b) (s_dot s).
  Proof.
    induction c as [c IHc] using (well_founded_induction lt_wf).
    induction r as [r IHr] using (well_founded_induction lt_wf).
    intros s b Hs Hty Hb.
    destruct (HJ _ _ _ Hs) as [S ? ? Es|? ? ? ? ? ? ? ? ? ? ? ? ? ? Es|? ? ? ? ? ? ? ? Es|
                                   cc rr q tq tok Ec Hq Hnq Hqa Htq Htok Hm Es|
                                   cc rr q tq Ec Hcl Hq Hnq Hqa Es|
                                   rd d r0 q tq Hrd Hd Hcd Hq Hlt Hnq Ha Hqa Es|
                                   rd d r0 q tq Hrd Hd Hcd Hq Hlt Hnq Ha Hqa Es]; subst s; simpl in *.
    - injection Hb as <-. reflexivity.
    - reflexivity.
    - discriminate.
    - rewrite (nxt_rule q b) in Hnq; auto. rewrite (passed_meta_S _ _ _ Hnq), Htq. eapply IHc; eauto. lia.
    - discriminate.
    - rewrite (nxt_rule q b) in Hnq; auto. rewrite (passed_meta_S _ _ _ Hnq).
      destruct (t_type tq) eqn:E; auto. exfalso.
      pose proof (justified_origin _ _ _ _ _ HJ _ _ _ Hd) as Ho. unfold origin in Ho.
      apply advances_spec in Ha as [[Ha1 Ha2]|[Ha1 Ha2]]; [congruence|]. rewrite E in Ha1. rewrite <- Ha1 in Ho. exact Ho.
    - congruence.
  Qed.

  Lemma same_row c r1 r2 s : st_at cols c r1 = Some s -> st_at cols c r2 = Some s -> completed s = true -> r1 = r2.
  Proof.
    assert (forall c r1 r2 s, st_at cols c r1 = Some s -> st_at cols c r2 = Some s -> completed s = true ->
              r1 < r2 -> False) as H.
    { clear c r1 r2 s. intros c r1 r2 s H1 H2 Hc Hlt. pose proof Hfin as ((_ & _ & Hd) & _ & Hbeg).
      assert (wt_orb (s_rb s)) as Hwt.
      { pose proof (justified_origin _ _ _ _ _ HJ _ _ _ H1) as Ho. unfold origin in Ho.
        intros b Hb. destruct (t_type (s_term s)); try contradiction; try (destruct Ho; congruence).
        destruct Ho as (b' & Hb' & Hbo & _). rewrite Hb in Hb'. injection Hb' as <-.
        destruct Hbo as [(S & _ & _ & _ & ->)|(g & x & ru & h & Hg & Hl & Hin & _)].
        - intros g Hg. injection Hg as <-. simpl. repeat constructor.
        - eapply Htyped. exists g, ru, h. eauto. }
      destruct (Hd c r1 r2 s s Hlt H1 H2) as [-> Hr].
      { apply state_equal_iff; auto. }
      destruct (nth_error starts r2) as [S|] eqn:E; [|apply nth_error_None in E; lia].
      specialize (Hbeg r2 S E). rewrite Hbeg in H2. injection H2 as <-. discriminate. }
    intros H1 H2 Hc. destruct (Nat.lt_trichotomy r1 r2) as [L|[L|L]]; auto; exfalso; eauto.
  Qed.

  (** structurally, as Go values *)
  Lemma nodup_nodes fuel c r s outs : st_at cols c r = Some s ->
    build_trees cols fuel (c, r) = Ret outs -> NoDup outs.
  Proof.
    intros Hs H. rewrite <- (map_id outs).
    eapply (proj1 (nodup_trees (fun n => n) cols Hsh _ _ fuel)); eauto.
    Unshelve.
    - intros st a b _ E. injection E as ->. reflexivity.
    - clear c r s outs Hs H. intros c r1 r2 s1 s2 a b H1 H2 C1 C2 V T _ _ E. injection E as E _.
      assert (s1 = s2) as ->; [|eapply same_row; eauto].
      pose proof (justified_origin _ _ _ _ _ HJ _ _ _ H1) as O1.
      pose proof (justified_origin _ _ _ _ _ HJ _ _ _ H2) as O2.
      unfold origin in *. unfold root_value, with_list_rb in E. rewrite <- T in *.
      destruct (t_type (s_term s1)) eqn:Et; auto; try contradiction.
      + injection E as E1 E2 E3. destruct O1 as (R1 & D1 & _), O2 as (R2 & D2 & _).
        destruct s1, s2; simpl in *; congruence.
      + injection E as E1 E2 E3 E4. destruct O1 as (R1 & _), O2 as (R2 & _).
        destruct s1, s2; simpl in *; congruence.
  Qed.

  (** as parse trees, when ranges are uniform *)
  Lemma nodup_erased fuel c r s outs : uniform_ranges gs -> st_at cols c r = Some s ->
    build_trees cols fuel (c, r) = Ret outs -> NoDup (map erase outs).
  Proof.
    intros Hu Hs H.
    eapply (proj1 (nodup_trees erase cols Hsh _ _ fuel)); eauto.
    Unshelve.
    - intros st a b [E|E] H0; simpl in H0; rewrite E in H0; injection H0 as H0; exact H0.
    - clear c r s outs Hs H. intros c r1 r2 s1 s2 a b H1 H2 C1 C2 V T La Lb E.
      assert (s1 = s2) as ->; [|eapply same_row; eauto].
      pose proof (justified_origin _ _ _ _ _ HJ _ _ _ H1) as O1.
      pose proof (justified_origin _ _ _ _ _ HJ _ _ _ H2) as O2.
      pose proof (fun b0 => state_meta _ _ _ b0 H1) as M1. pose proof (fun b0 => state_meta _ _ _ b0 H2) as M2.
      unfold origin in *. unfold root_value, root_arity, with_list_rb in *. simpl in E. rewrite <- T in *.
      destruct (t_type (s_term s1)) eqn:Et; auto; try contradiction; simpl in E; rewrite ?Et, <- ?T in E.
      + destruct O1 as (b1 & R1 & _ & D1 & _), O2 as (b2 & R2 & _ & D2 & _).
        rewrite R1, R2 in E. injection E as _ -> E1 E2 _.
        rewrite (completed_rule s1 b2) in C1; auto. rewrite (completed_rule s2 b2) in C2; auto.
        specialize (M1 _ eq_refl R1). specialize (M2 _ eq_refl R2).
        assert (s_dot s1 = s_dot s2) as Ed by lia. rewrite Ed, <- M2 in M1.
        destruct s1 as [[] ? ? ? ?], s2 as [[] ? ? ? ?]; simpl in *; congruence.
      + injection E as E1 E2. destruct O1 as (R1 & D1 & t1 & Q1 & T1 & M1' & _), O2 as (R2 & D2 & t2 & Q2 & T2 & M2' & _).
        assert (t_meta t1 = t_meta t2) as Em.
        { apply Hu; auto. congruence. }
        destruct s1 as [[] ? ? ? ?], s2 as [[] ? ? ? ?]; simpl in *; congruence.
      + injection E as _ E1 E2 E3. destruct O1 as (R1 & Q1), O2 as (R2 & Q2).
        assert (t_meta (s_term s1) = t_meta (s_term s2)) as Em.
        { apply Hu; auto. congruence. }
        assert (s_dot s1 = s_dot s2) as Ed.
        { rewrite <- La, <- Lb. rewrite <- (map_length erase a), E3, map_length. reflexivity. }
        destruct s1 as [[] ? ? ? ?], s2 as [[] ? ? ? ?]; simpl in *; congruence.
  Qed.
End Dup.
