(** The trees of a completed state are exactly the parse trees in chart order. *)
From Verif Require Import Base ModelTypes ModelEarley ModelTrees ModelApi SpecTypes SpecGrammar SpecTree SpecApi SpecTreeOrder
  ProofEqual ProofChart ProofSound ProofComplete ProofTerm ProofTree ProofTreeOk ProofTreeSet ProofTreeDup ProofApi ProofApiLoops ProofTreeApi ProofMain.

Definition placed (cols : list column) (c r : nat) (k : ptree) : Prop :=
  match k with PTok _ _ => True | _ => exists r', in_order cols r' k /\ (p_end k = c -> r' < r) end.

Lemma placed_inner cols c r k : p_inner k = true -> placed cols c r k = exists r', in_order cols r' k /\ (p_end k = c -> r' < r).
Proof. destruct k; try discriminate; reflexivity. Qed.
Lemma in_order_eq cols r q : in_order cols r q <-> stands cols r q /\ Forall (placed cols (p_end q) r) (p_kids q).
Proof.
  assert (forall c kids, (fix all (l : list ptree) : Prop :=
      match l with
      | [] => True
      | k :: l' => match k with
                   | PTok _ _ => True
                   | _ => exists r', in_order cols r' k /\ (p_end k = c -> r' < r)
                   end /\ all l'
      end) kids <-> Forall (placed cols c r) kids) as H.
  { intros c. induction kids as [|k kids IH]; [split; constructor|]. split.
    - intros [H1 H2]. constructor; [|apply IH; exact H2]. exact H1.
    - inversion 1; subst. split; [assumption|apply IH; assumption]. }
  destruct q as [t i|i j|x b i j kids|x i j kids].
  - cbn. split; intros [A _]; split; auto.
  - cbn. split; intros [A _]; split; auto.
  - split; intros [A B]; split; try exact A; apply (H j kids); exact B.
  - split; intros [A B]; split; try exact A; apply (H j kids); exact B.
Qed.
Lemma stands_inner cols r q : stands cols r q -> p_inner q = true.
Proof. intros (col & s & _ & _ & _ & _ & H). destruct q; [destruct H|reflexivity..]. Qed.
Lemma in_order_inner cols r q : in_order cols r q -> p_inner q = true.
Proof. intros H. apply in_order_eq in H as [H _]. eapply stands_inner; eauto. Qed.

Lemma stands_at cols : all_shaped cols -> forall r q, stands cols r q <->
  exists s, st_at cols (p_end q) r = Some s /\ completed s = true /\ s_start s = p_start q /\
      match q with
      | PTok _ _ => False
      | PAny _ _ => t_type (s_term s) = TAny
      | PRule x b _ _ _ => t_type (s_term s) = TNonterminal /\ t_value (s_term s) = x /\ s_rb s = Some b
      | PList x _ _ kids => t_type (s_term s) = TList /\ t_value (s_term s) = x /\ s_dot s = length kids
      end.
Proof.
  intros Hsh r q. unfold stands, st_at, states_of. split.
  - intros (col & s & H1 & H2 & H3 & H4). exists s. rewrite H1. split; [exact H2|]. split; [|exact H4].
    unfold completed. rewrite H3. reflexivity.
  - intros (s & H1 & H2 & H3). destruct (nth_error cols (p_end q)) as [col|] eqn:E; [|destruct r; discriminate].
    exists col, s. split; [reflexivity|]. split; [exact H1|]. split; [|exact H3].
    rewrite (is_completed_ret (p_end q)); [congruence|]. eapply st_at_shape; eauto. unfold st_at, states_of. rewrite E. exact H1.
Qed.

Lemma over_states_visit body ref t start e sts : forall r outs o,
  (forall s, In s sts -> is_completed s = Ret (completed s)) ->
  (e = fst ref -> r <= snd ref) ->
  over_states body ref t start e r sts = Ret outs -> In o outs ->
  exists k d os, nth_error sts k = Some d /\ before ref e (r + k) /\ completed d = true
    /\ t_value (s_term d) = t_value t /\ t_type (s_term d) = t_type t
    /\ (forall n, start = Some n -> s_start d = n)
    /\ body (r + k) d = Ret os /\ In o os.
Proof.
  induction sts as [|s sts IH]; intros r outs o Hc Hr H Hin; simpl in H.
  { injection H as <-. destruct Hin. }
  destruct (Nat.eqb e (fst ref) && Nat.eqb r (snd ref)) eqn:E; [injection H as <-; destruct Hin|].
  assert (before ref e r) as Hb.
  { intros He. specialize (Hr He). apply andb_false_iff in E as [E|E]; apply Nat.eqb_neq in E; lia. }
  assert (forall outs, over_states body ref t start e (S r) sts = Ret outs -> In o outs ->
    exists k d os, nth_error (s :: sts) k = Some d /\ before ref e (r + k) /\ completed d = true
    /\ t_value (s_term d) = t_value t /\ t_type (s_term d) = t_type t
    /\ (forall n, start = Some n -> s_start d = n)
    /\ body (r + k) d = Ret os /\ In o os) as Hrest.
  { intros outs' Ho Hi.
    destruct (IH (S r) outs' o ltac:(intros; apply Hc; right; auto) ltac:(intros He; specialize (Hb He); lia) Ho Hi)
      as (k & d & os & H1 & H2 & H3).
    - exists (S k), d, os. replace (r + S k) with (S r + k) by lia. auto. }
  rewrite Hc in H by (left; reflexivity). cbn [bind] in H.
  destruct (negb (completed s) || negb (String.eqb (t_value (s_term s)) (t_value t))
             || negb (ttype_eqb (t_type (s_term s)) (t_type t))) eqn:E1; [eauto|].
  destruct (match start with Some n => negb (Nat.eqb (s_start s) n) | None => false end) eqn:E2; [eauto|].
  apply orb_false_iff in E1 as [E1 Ety]. apply orb_false_iff in E1 as [E1 Ev].
  apply negb_false_iff in E1, Ety, Ev. apply String.eqb_eq in Ev. apply ttype_eqb_eq in Ety.
  destruct (body r s) as [os| | |] eqn:Eb; try discriminate. cbn [bind] in H.
  destruct (over_states body ref t start e (S r) sts) as [rest| | |] eqn:Eo; try discriminate. cbn [bind] in H.
  injection H as <-. apply in_app_or in Hin as [Hin|Hin]; [|eauto].
  exists 0, s, os. rewrite Nat.add_0_r. repeat split; auto.
  intros n ->. apply negb_false_iff in E2. apply Nat.eqb_eq in E2. exact E2.
Qed.

(** A subtree of a node and its place. *)
Section Order.
  Variable tmatch : term -> option token -> bool.
  Variable gs : list grammar_rules.
  Variable toks : list token.
  Variable starts : list string.
  Hypothesis Hsep : separated gs.
  Hypothesis Hany : any_named gs.
  Variable cols : list column.
  Hypothesis HJ : all_justified tmatch gs toks starts cols.
  Variable count_ok : term -> nat -> Prop.
  Notation T := (tree_of gs (accepts_by tmatch) toks count_ok).
  Notation TS := (trees_of gs (accepts_by tmatch) toks count_ok).

  Let Hsh : all_shaped cols := justified_shape _ _ _ _ _ HJ.
  Let Hor := justified_origin _ _ _ _ _ HJ.

  (** ** Every returned tree is in order *)
  Lemma listed_in_order fuel :
    (forall c r s outs n, st_at cols c r = Some s -> completed s = true -> build_trees cols fuel (c, r) = Ret outs -> In n outs ->
       in_order cols r (erase n) /\ p_end (erase n) = c /\ p_start (erase n) = s_start s)
    /\ (forall children ref st terms k end_ outs n,
       build_helper cols fuel children ref st terms k end_ = Ret outs -> In n outs ->
       exists pre, n = Node st (pre ++ children) /\ length pre = k
         /\ Forall (placed cols (fst ref) (snd ref)) (map erase pre)).
  Proof.
    induction fuel as [|fuel [IHt IHh]]; [split; intros; discriminate|]. split.
    - intros c r s outs n Hs Hc H Hn. simpl in H. unfold idx in H. pose proof Hs as Hs'.
      unfold st_at, states_of in Hs.
      destruct (nth_error cols c) as [col|] eqn:Ec; [|destruct r; discriminate]. simpl in H. rewrite Hs in H. simpl in H.
      destruct (st_at_shape _ _ _ _ Hsh Hs') as (He & Hle & Hty).
      unfold with_list_rb in H. destruct (t_type (s_term s)) eqn:Et; try (exfalso; destruct Hty as [[? _]|[?|?]]; discriminate).
      + destruct (s_rb s) as [b|] eqn:Eb; [|discriminate].
        destruct (IHh _ _ _ _ _ _ _ _ H Hn) as (pre & -> & Hl & F). rewrite app_nil_r. cbn [erase]. rewrite Et, Eb, He. cbn [p_end p_start].
        split; [|auto]. apply in_order_eq. split; [|exact F]. apply stands_at; [exact Hsh|]. exists s. cbn. auto 10.
      + injection H as <-. destruct Hn as [<-|[]]. cbn. rewrite Et. cbn. split; [|auto]. split; [|exact I].
        apply stands_at; [exact Hsh|]. exists s. cbn. rewrite He. auto 10.
      + cbn [s_rb list_rb rb_terms s_end] in H. rewrite repeat_length in H.
        destruct (IHh _ _ _ _ _ _ _ _ H Hn) as (pre & -> & Hl & F). rewrite app_nil_r. cbn [erase s_term s_start s_end]. rewrite Et, He.
        split; [|auto]. apply in_order_eq. split; [|exact F]. apply stands_at; [exact Hsh|]. exists s. cbn. rewrite map_length. auto 10.
    - intros children ref st terms k end_ outs n H Hn. simpl in H. destruct k as [|k].
      { injection H as <-. destruct Hn as [<-|[]]. exists []. repeat split. constructor. }
      destruct (idx terms k) as [t| | |]; try discriminate. cbn [bind] in H.
      assert (forall X : res (list node), X = Ret outs -> X =
        (if (end_ <? 0)%Z then Panic
         else col <- idx cols (Z.to_nat end_);;
           over_states
             (fun (r : nat) (sub_st : tstate) =>
              ' subs <- build_trees cols fuel (Z.to_nat end_, r);;
              over_subtrees
                (fun sub : node =>
                 build_helper cols fuel (sub :: children) ref st terms k
                   (Z.of_nat (s_start sub_st))) subs) ref t
             (if Nat.eqb k 0 then Some (s_start st) else None) (Z.to_nat end_) 0 (c_states col)) ->
        exists pre, n = Node st (pre ++ children) /\ length pre = S k
         /\ Forall (placed cols (fst ref) (snd ref)) (map erase pre)) as Hinner.
      2:{ destruct (t_type t) eqn:Ett; try (eapply Hinner; [exact H|reflexivity]).
          destruct (IHh _ _ _ _ _ _ _ _ H Hn) as (pre & -> & Hl & F).
          eexists (pre ++ [_]). rewrite <- app_assoc. split; [reflexivity|]. rewrite app_length, map_app. split; [cbn; lia|].
          apply Forall_app. split; [exact F|]. constructor; [|constructor]. cbn. rewrite Ett. exact I. }
      clear H. intros X HX EX. rewrite EX in HX. clear X EX. destruct (end_ <? 0)%Z; [discriminate|].
      set (e := Z.to_nat end_) in *. unfold idx in HX.
      destruct (nth_error cols e) as [col|] eqn:Ec; [|discriminate]. cbn [bind] in HX.
      assert (states_of cols e = c_states col) as Hcs by (unfold states_of; rewrite Ec; auto).
      destruct (over_states_visit _ _ _ _ _ _ _ _ _ ltac:(
        intros s Hs; apply (is_completed_ret e); apply Hsh; rewrite Hcs; exact Hs) ltac:(intros _; apply Nat.le_0_l) HX Hn)
        as (j & d & os & Hd & Hb & Hcd & Hv & Hty & Hst & Ho & Hin).
      rewrite Nat.add_0_l in *. assert (st_at cols e j = Some d) as Hd' by (unfold st_at; rewrite Hcs; exact Hd).
      destruct (build_trees cols fuel (e, j)) as [subs| | |] eqn:Eb; try discriminate. cbn [bind] in Ho.
      assert (exists sub os', In sub subs /\ build_helper cols fuel (sub :: children) ref st terms k (Z.of_nat (s_start d)) = Ret os' /\ In n os')
        as (sub & os' & Hsub & Ho' & Hn').
      { clear -Ho Hin. revert os Ho Hin. induction subs as [|s subs IH]; cbn; intros os Ho Hin.
        - injection Ho as <-. destruct Hin.
        - destruct (build_helper _ _ _ _ _ _ _ _) as [o1| | |] eqn:E1; try discriminate. cbn [bind] in Ho.
          destruct (over_subtrees _ subs) as [o2| | |] eqn:E2; try discriminate. cbn [bind] in Ho. injection Ho as <-.
          apply in_app_or in Hin as [Hin|Hin]; [eauto 6|].
          destruct (IH o2 eq_refl Hin) as (sub & os' & H1 & H2 & H3). eauto 6. }
      destruct (IHt _ _ _ _ _ Hd' Hcd Eb Hsub) as (Hi & Hend & _).
      destruct (IHh _ _ _ _ _ _ _ _ Ho' Hn') as (pre & -> & Hl & F).
      exists (pre ++ [sub]). rewrite <- app_assoc. split; [reflexivity|]. rewrite app_length, map_app. split; [cbn; lia|].
      apply Forall_app. split; [exact F|]. constructor; [|constructor].
      rewrite placed_inner by (eapply in_order_inner; eauto). exists j. split; [exact Hi|]. rewrite Hend. exact Hb.
  Qed.

  (** ** Every parse tree in order is returned *)
  Definition whole (q : ptree) : Prop :=
    match q with
    | PTok _ _ => False
    | PAny _ _ => True
    | PRule x b i j kids => TS (rb_terms b) i j kids
    | PList x i j kids => TS (repeat (nonterm x) (length kids)) i j kids
    end.
  Lemma trees_length ts i j qs : TS ts i j qs -> length qs = length ts.
  Proof. induction 1; cbn; auto. Qed.
  Lemma tree_whole t i j q : T t i j q -> t_type t <> TTerminal -> whole q.
  Proof.
    inversion 1; subst; cbn; auto. intros _. pose proof (trees_length _ _ _ _ H2) as L. rewrite repeat_length in L. rewrite L. exact H2.
  Qed.
  Lemma trees_snoc ts t i j qs : TS (ts ++ [t]) i j qs ->
    exists ps m p, qs = ps ++ [p] /\ TS ts i m ps /\ T t m j p.
  Proof.
    revert i qs. induction ts as [|t' ts IH]; cbn; intros i qs H.
    - inversion H as [|? ? ? m ? p ps H1 H2]; subst. inversion H2; subst. exists [], i, p. repeat split; auto. constructor.
    - inversion H as [|? ? ? m ? p ps H1 H2]; subst. destruct (IH _ _ H2) as (ps' & m' & p' & -> & H3 & H4).
      exists (p :: ps'), m', p'. split; [reflexivity|]. split; [|exact H4]. econstructor; eauto.
  Qed.
  Lemma tree_term t i j q : T t i j q -> (t_type t = TAny -> t_value t = "any") -> p_start q = i /\ p_end q = j /\
    match q with
    | PTok t' _ => t_type t = TTerminal /\ t' = t
    | PAny _ _ => t_type t = TAny /\ t_value t = "any"
    | PRule x _ _ _ _ => t_type t = TNonterminal /\ t_value t = x
    | PList x _ _ _ => t_type t = TList /\ t_value t = x
    end.
  Proof. inversion 1; subst; cbn; auto. Qed.

  Lemma any_state c r s : st_at cols c r = Some s -> t_type (s_term s) = TAny -> t_value (s_term s) = "any".
  Proof.
    intros Hs Hty. pose proof (Hor _ _ _ Hs) as Ho. unfold origin in Ho. rewrite Hty in Ho.
    destruct Ho as (_ & _ & t & Ht & Htt & _ & Hv). destruct Hv as [->| ->]; [apply Hany; assumption|reflexivity].
  Qed.

  Lemma in_order_listed fuel :
    (forall r q outs, in_order cols r q -> whole q -> build_trees cols fuel (p_end q, r) = Ret outs -> exists n, In n outs /\ erase n = q)
    /\ (forall children ref st terms k e ps outs,
       k <= length terms ->
       (forall t, In t terms -> t_type t = TTerminal) /\ e = s_start st + k
       \/ (forall t, In t terms -> t_type t <> TTerminal /\ (t_type t = TAny -> t_value t = "any")) ->
       TS (firstn k terms) (s_start st) e ps -> Forall (placed cols (fst ref) (snd ref)) ps ->
       build_helper cols fuel children ref st terms k (Z.of_nat e) = Ret outs ->
       exists pre, map erase pre = ps /\ In (Node st (pre ++ children)) outs).
  Proof.
    induction fuel as [|fuel [IHt IHh]]; [split; intros; discriminate|]. split.
    - intros r q outs Ho Hw H. apply in_order_eq in Ho as [Hs F]. apply stands_at in Hs; [|exact Hsh].
      destruct Hs as (s & Hs & Hc & Hst & Hm). simpl in H. unfold idx in H. pose proof Hs as Hs'.
      unfold st_at, states_of in Hs.
      destruct (nth_error cols (p_end q)) as [col|] eqn:Ec; [|destruct r; discriminate]. simpl in H. rewrite Hs in H. simpl in H.
      destruct (st_at_shape _ _ _ _ Hsh Hs') as (He & Hle & _). pose proof (Hor _ _ _ Hs') as Hos.
      unfold with_list_rb in H. destruct q as [t i|i j|x b i j kids|x i j kids]; [destruct Hm| | |]; cbn [p_end p_start p_kids whole] in *.
      + rewrite Hm in H. injection H as <-. eexists. split; [left; reflexivity|]. cbn. rewrite Hm. f_equal; congruence.
      + destruct Hm as (M1 & M2 & M3). rewrite M1, M3, He in H. unfold origin in Hos. rewrite M1 in Hos.
        destruct Hos as (b' & Eb & Hbo & _ & _). rewrite M3 in Eb. injection Eb as <-.
        destruct (IHh [] (j, r) s (rb_terms b) (length (rb_terms b)) j kids outs) as (pre & Hp & Hin); auto.
        * destruct (body_cases gs starts Hsep s b Hbo) as [Hb|Hb]; [left|right].
          -- split; [exact Hb|]. rewrite Hst. clear -Hw Hb. revert Hb. induction Hw as [|t ts i j k p ps H1 H2 IH]; [cbn; lia|].
             intros Hb. rewrite IH by (intros; apply Hb; right; auto). inversion H1; subst; try (rewrite (Hb t) in * by (left; auto); discriminate). cbn. lia.
          -- intros t Ht. destruct (Hb t Ht) as [[Hoc|[E _]] Hnt]; (split; [exact Hnt|]); intros Ea; [apply Hany; auto|congruence].
        * rewrite firstn_all, Hst. exact Hw.
        * exists (Node s pre). rewrite app_nil_r in Hin. split; [exact Hin|]. cbn. rewrite M1, M2, M3, Hst, He, Hp. reflexivity.
      + destruct Hm as (M1 & M2 & M3). rewrite M1 in H. cbn [s_rb list_rb rb_terms s_end] in H. rewrite repeat_length, He in H.
        eapply IHh with (ps := kids) in H; [| | | |exact F].
        * destruct H as (pre & Hp & Hin). rewrite app_nil_r in Hin. eexists. split; [exact Hin|]. cbn. rewrite M1, M2, Hst, Hp. reflexivity.
        * rewrite repeat_length. lia.
        * right. intros t Ht. apply repeat_spec in Ht. subst t. cbn. split; [discriminate|discriminate].
        * cbn [s_start]. rewrite firstn_all2 by (rewrite repeat_length; lia). rewrite Hst, M2, M3. exact Hw.
    - intros children ref st terms k e ps outs Hk Hcase HT F H. simpl in H. destruct k as [|k].
      { injection H as <-. cbn in HT. inversion HT; subst. exists []. split; [reflexivity|]. left. reflexivity. }
      destruct (nth_error terms k) as [t|] eqn:En; [|apply nth_error_None in En; lia].
      assert (idx terms k = Ret t) as Ei by (unfold idx; rewrite En; reflexivity). rewrite Ei in H. cbn [bind] in H.
      assert (firstn (S k) terms = firstn k terms ++ [t]) as Ef.
      { clear -En. revert k En. induction terms as [|a terms IH]; intros [|k] En; cbn in *; try discriminate.
        - injection En as ->. reflexivity.
        - f_equal. apply IH. exact En. }
      rewrite Ef in HT. destruct (trees_snoc _ _ _ _ _ HT) as (ps' & m & q & -> & HT' & Hq).
      apply Forall_app in F as [F1 F2]. inversion F2 as [|? ? Fq _]; subst.
      pose proof (nth_error_In _ _ En) as Hin.
      destruct Hcase as [[Hterm Ee]|Hinner].
      + rewrite (Hterm t Hin) in H. inversion Hq; subst; try (rewrite (Hterm t Hin) in *; discriminate).
        assert (m = s_start st + k) as -> by lia.
        replace (Z.of_nat (s_start st + S k) - 1)%Z with (Z.of_nat (s_start st + k)) in H by lia.
        eapply IHh with (ps := ps') in H; [|lia|left; split; [exact Hterm|lia]|exact HT'|exact F1].
        destruct H as (pre & <- & Hn). eexists (pre ++ [_]). rewrite <- app_assoc. split; [|exact Hn].
        rewrite map_app. cbn. rewrite (Hterm t Hin). reflexivity.
      + destruct (Hinner t Hin) as [Hnt Hta]. destruct (tree_term _ _ _ _ Hq Hta) as (Es & Ee & Hm).
        assert (p_inner q = true) as Hqi by (destruct q; auto; destruct Hm; congruence).
        rewrite (placed_inner _ _ _ _ Hqi) in Fq. destruct Fq as (r' & Ho & Hb).
        pose proof (proj1 (in_order_eq _ _ _) Ho) as [Hstd _]. apply stands_at in Hstd; [|exact Hsh].
        destruct Hstd as (d & Hd & Hcd & Hds & Hdm).
        match type of H with match t_type t with TEOF => ?X | _ => _ end = _ => assert (X = Ret outs) as H' end.
        { destruct (t_type t); auto. congruence. }
        clear H. replace (Z.of_nat e <? 0)%Z with false in H' by (symmetry; apply Z.ltb_ge; lia).
        rewrite Nat2Z.id in H'. unfold idx in H'. rewrite Ee in *.
        destruct (nth_error cols e) as [col|] eqn:Ec; [|discriminate]. cbn [bind] in H'.
        assert (states_of cols e = c_states col) as Hcs by (unfold states_of; rewrite Ec; auto).
        pose proof Hd as Hd'. unfold st_at in Hd. rewrite Hcs in Hd.
        assert (t_value (s_term d) = t_value t /\ t_type (s_term d) = t_type t) as [Hv Hty].
        { destruct q; [discriminate| | |]; cbn in *.
          - destruct Hm as [-> ->]. split; [|exact Hdm]. eapply any_state; eauto.
          - destruct Hm as [-> ->], Hdm as (-> & -> & _). auto.
          - destruct Hm as [-> ->], Hdm as (-> & -> & _). auto. }
        destruct (over_states_ret _ _ _ _ _ _ _ _ ltac:(
          intros s Hs; apply (is_completed_ret e); apply Hsh; rewrite Hcs; exact Hs) H' r' d Hd) as (o & Ho' & Hincl); auto.
        * intros n Hn0. destruct (Nat.eqb k 0) eqn:Ek; [|discriminate]. injection Hn0 as <-. apply Nat.eqb_eq in Ek. subst k.
          rewrite Hds, Es. cbn in HT'. inversion HT'; subst. reflexivity.
        * rewrite Nat.add_0_l in Ho'. cbn beta in Ho'. destruct (build_trees cols fuel (e, r')) as [subs| | |] eqn:Eb; try discriminate.
          cbn [bind] in Ho'. rewrite <- Ee in Eb. destruct (IHt r' q subs Ho (tree_whole _ _ _ _ Hq Hnt) Eb) as (sub & Hsub & Esub).
          destruct (over_subtrees_ret _ _ _ Ho' sub Hsub) as (o' & Ho'' & Hincl').
          rewrite Hds, Es in Ho''. eapply IHh with (ps := ps') in Ho''; [|lia|right; exact Hinner|exact HT'|exact F1].
          destruct Ho'' as (pre & <- & Hn). exists (pre ++ [sub]). rewrite <- app_assoc, map_app. cbn. split; [congruence|].
          apply Hincl, Hincl'. exact Hn.
  Qed.
End Order.
