(** The tree builder that writes to the chart gives the trees of the model that does not. *)
From Verif Require Import Base ModelTypes ModelEarley ModelTrees ModelMutate SpecMutate.

Lemma with_idem s : with_list_rb (with_list_rb s) = with_list_rb s.
Proof. unfold with_list_rb. destruct (t_type (s_term s)) eqn:E; cbn; rewrite ?E; reflexivity. Qed.
Lemma filled_refl s : filled s s. Proof. left. reflexivity. Qed.
Lemma with_term s : s_term (with_list_rb s) = s_term s.
Proof. unfold with_list_rb. destruct (t_type _); reflexivity. Qed.
Lemma filled_term s s' : filled s s' -> s_term s' = s_term s /\ s_start s' = s_start s /\ s_end s' = s_end s /\ s_dot s' = s_dot s.
Proof. intros [->|[E ->]]; [auto|]. unfold with_list_rb. rewrite E. auto. Qed.
Lemma filled_trans s s' s'' : filled s s' -> filled s' s'' -> filled s s''.
Proof.
  intros [->|[E ->]] H; [exact H|]. right. split; [exact E|]. destruct H as [->|[_ ->]]; [reflexivity|apply with_idem].
Qed.
Lemma filled_with s s' : filled s s' -> with_list_rb s' = with_list_rb s.
Proof. intros [->|[E ->]]; [reflexivity|apply with_idem]. Qed.
Lemma filled_full s s' : filled (with_list_rb s) s' -> s' = with_list_rb s.
Proof. intros [->|[_ ->]]; [reflexivity|apply with_idem]. Qed.
Lemma filled_completed s s' : filled s s' -> is_completed s' = is_completed s.
Proof.
  intros [->|[E ->]]; [reflexivity|]. unfold is_completed, meta_empty, with_list_rb. rewrite E. cbn [s_term s_dot]. rewrite E. reflexivity.
Qed.

Lemma f2_refl {A} (R : A -> A -> Prop) l : (forall a, R a a) -> Forall2 R l l.
Proof. intros H. induction l; constructor; auto. Qed.
Lemma f2_trans {A} (R : A -> A -> Prop) : (forall a b c, R a b -> R b c -> R a c) ->
  forall l1 l2 l3, Forall2 R l1 l2 -> Forall2 R l2 l3 -> Forall2 R l1 l3.
Proof.
  intros H l1 l2 l3 H1. revert l3. induction H1; intros l3 H3; inversion H3; subst; constructor; eauto.
Qed.
Lemma f2_nth {A B} (R : A -> B -> Prop) l l' i : Forall2 R l l' ->
  match nth_error l i, nth_error l' i with Some a, Some b => R a b | None, None => True | _, _ => False end.
Proof. intros H. revert i. induction H; intros [|i]; cbn; auto. apply IHForall2. Qed.

Lemma filled_in_refl m : filled_in m m.
Proof. apply f2_refl. intros c. split; [reflexivity|split; [reflexivity|apply f2_refl; apply filled_refl]]. Qed.
Lemma filled_in_trans m1 m2 m3 : filled_in m1 m2 -> filled_in m2 m3 -> filled_in m1 m3.
Proof.
  apply f2_trans. intros a b c (A1 & A2 & A3) (B1 & B2 & B3). split; [congruence|split; [congruence|]].
  eapply f2_trans; eauto. apply filled_trans.
Qed.

Definition lock (r r' : res tstate) : Prop :=
  match r, r' with Ret s, Ret s' => filled s s' | Panic, Panic => True | _, _ => False end.
Lemma filled_read m m' ref : filled_in m m' -> lock (read m ref) (read m' ref).
Proof.
  intros H. unfold read, idx. pose proof (f2_nth _ _ _ (fst ref) H) as Hc.
  destruct (nth_error m (fst ref)), (nth_error m' (fst ref)); cbn [bind]; try contradiction; [|exact I].
  destruct Hc as (_ & _ & Hs). pose proof (f2_nth _ _ _ (snd ref) Hs) as H1.
  destruct (nth_error _ _), (nth_error _ _); cbn; auto.
Qed.
Lemma filled_col m m' e : filled_in m m' ->
  match idx m e, idx m' e with
  | Ret c, Ret c' => Forall2 filled (c_states c) (c_states c') | Panic, Panic => True | _, _ => False end.
Proof.
  intros H. unfold idx. pose proof (f2_nth _ _ _ e H) as Hc. destruct (nth_error m e), (nth_error m' e); try contradiction; [|exact I]. apply Hc.
Qed.

Lemma upd_f2 {A} (R : A -> A -> Prop) (f : A -> A) : (forall a, R a a) ->
  forall l i, (forall a, nth_error l i = Some a -> R a (f a)) -> Forall2 R l (upd l i f).
Proof.
  intros Hr l. induction l as [|a l IH]; intros i H; [constructor|]. destruct i as [|i]; cbn [upd].
  - constructor; [apply H; reflexivity|apply f2_refl; exact Hr].
  - constructor; [apply Hr|apply IH; exact H].
Qed.
Lemma upd_nth {A} (f : A -> A) l i a : nth_error l i = Some a -> nth_error (upd l i f) i = Some (f a).
Proof. revert i. induction l as [|b l IH]; intros [|i]; cbn; intros H; try discriminate; [injection H as ->; reflexivity|auto]. Qed.
Lemma read_inv m ref s : read m ref = Ret s -> exists c, nth_error m (fst ref) = Some c /\ nth_error (c_states c) (snd ref) = Some s.
Proof.
  unfold read, idx. destruct (nth_error m (fst ref)) as [c|]; cbn [bind]; [|discriminate].
  destruct (nth_error (c_states c) (snd ref)) eqn:E; [|discriminate]. intros [= ->]. eauto.
Qed.

Lemma write_ok m ref s : read m ref = Ret s -> t_type (s_term s) = TList ->
  filled_in m (write_rb m ref (list_rb s)) /\ read (write_rb m ref (list_rb s)) ref = Ret (with_list_rb s).
Proof.
  intros Hr Ht. destruct (read_inv _ _ _ Hr) as (c & Hc & Hs).
  assert (set_rb (list_rb s) s = with_list_rb s) as Hset by (unfold set_rb, with_list_rb; rewrite Ht; reflexivity).
  split.
  - unfold write_rb. apply upd_f2.
    { intros a. split; [reflexivity|split; [reflexivity|apply f2_refl; apply filled_refl]]. }
    intros a Ha. rewrite Hc in Ha. injection Ha as <-. split; [reflexivity|split; [reflexivity|]]. cbn [c_states].
    apply upd_f2; [apply filled_refl|]. intros b Hb. rewrite Hs in Hb. injection Hb as <-. right. auto.
  - unfold read, write_rb, idx. rewrite (upd_nth _ _ _ _ Hc). cbn [bind c_states]. rewrite (upd_nth _ _ _ _ Hs), Hset. reflexivity.
Qed.

(** ** Nodes that no later write changes *)
Definition good (m : memory) (p : pnode) (t : node) : Prop := forall m', filled_in m m' -> shows m' p t.
Lemma good_later m m' p t : filled_in m m' -> good m p t -> good m' p t.
Proof. intros H G m'' H''. apply G. eapply filled_in_trans; eauto. Qed.
Lemma goods_later m m' ps ts : filled_in m m' -> Forall2 (good m) ps ts -> Forall2 (good m') ps ts.
Proof. intros H. induction 1; constructor; auto. eapply good_later; eauto. Qed.
Lemma goods_show m m' ps ts : filled_in m m' -> Forall2 (good m) ps ts -> Forall2 (shows m') ps ts.
Proof. intros H. induction 1 as [|? ? ? ? G]; constructor; auto. Qed.

(** [ref] holds [st], whatever List states are filled later *)
Definition held (m : memory) (ref : nat * nat) (st : tstate) : Prop := forall m', filled_in m m' -> read m' ref = Ret st.
Lemma held_later m m' ref st : filled_in m m' -> held m ref st -> held m' ref st.
Proof. intros H G m'' H''. apply G. eapply filled_in_trans; eauto. Qed.
Lemma full_held m ref s : read m ref = Ret (with_list_rb s) -> held m ref (with_list_rb s).
Proof.
  intros H m' Hm. pose proof (filled_read _ _ ref Hm) as L. rewrite H in L. unfold lock in L.
  destruct (read m' ref); try contradiction. apply filled_full in L. congruence.
Qed.
Lemma good_chart m ref st ps ts : held m ref st -> Forall2 (good m) ps ts -> good m (PNode (InChart ref) ps) (Node st ts).
Proof. intros H G m' Hm. constructor; [constructor; apply H; exact Hm|eapply goods_show; eauto]. Qed.
Lemma good_fresh m s : good m (PNode (Fresh s) []) (Node s []).
Proof. intros m' _. constructor; [constructor|constructor]. Qed.

Definition sim (m : memory) (o : outcome) (r : res (list node)) : Prop :=
  match o, r with
  | Ret (ps, m'), Ret ts => filled_in m m' /\ Forall2 (good m') ps ts
  | Err, Err | Panic, Panic | Fuel, Fuel => True
  | _, _ => False
  end.
Lemma sim_later m m1 o r : filled_in m m1 -> sim m1 o r -> sim m o r.
Proof.
  unfold sim. intros H. destruct o as [[ps m']| | |], r; auto. intros [A B]. split; [eapply filled_in_trans; eauto|exact B].
Qed.

Lemma sim_subs (k : node -> res (list node)) km : forall ps ts m,
  Forall2 (good m) ps ts ->
  (forall m1 p t, filled_in m m1 -> good m1 p t -> sim m1 (km p m1) (k t)) ->
  sim m (over_subtrees_m km ps m) (over_subtrees k ts).
Proof.
  induction ps as [|p ps IH]; intros ts m H Hk; inversion H as [|? t ? ts' G Gs]; subst; cbn [over_subtrees_m over_subtrees].
  - cbn. split; [apply filled_in_refl|constructor].
  - pose proof (Hk m p t (filled_in_refl _) G) as H1. unfold sim in H1.
    destruct (km p m) as [[os m1]| | |], (k t) as [ots| | |]; try contradiction; cbn [bind fst snd]; try exact I.
    destruct H1 as [F1 G1].
    assert (forall m2 p0 t0, filled_in m1 m2 -> good m2 p0 t0 -> sim m2 (km p0 m2) (k t0)) as Hk1.
    { intros m2 p0 t0 H2. apply Hk. eapply filled_in_trans; eauto. }
    specialize (IH ts' m1 (goods_later _ _ _ _ F1 Gs) Hk1). unfold sim in IH.
    destruct (over_subtrees_m km ps m1) as [[os2 m2]| | |], (over_subtrees k ts') as [ots2| | |]; try contradiction; cbn [bind fst snd]; try exact I.
    destruct IH as [F2 G2]. split; [eapply filled_in_trans; eauto|]. apply Forall2_app; [eapply goods_later; eauto|exact G2].
Qed.

Section Sim.
  Variable cols : list column.

  Lemma sim_states body bodym ref t start e : forall sts r m, filled_in cols m ->
    (forall i s, nth_error sts i = Some s -> read cols (e, r + i) = Ret s) ->
    (forall m1 r st st', filled_in m m1 -> filled st st' -> sim m1 (bodym r st' m1) (body r st)) ->
    sim m (over_states_m bodym ref t start e (seq r (length sts)) m) (over_states body ref t start e r sts).
  Proof.
    induction sts as [|st sts IH]; intros r m Hm Hrd Hb; cbn [length seq over_states_m over_states].
    - cbn. split; [apply filled_in_refl|constructor].
    - destruct (_ && _); [cbn; split; [apply filled_in_refl|constructor]|].
      pose proof (Hrd 0 st eq_refl) as H0. rewrite Nat.add_0_r in H0.
      pose proof (filled_read _ _ (e, r) Hm) as L. rewrite H0 in L. unfold lock in L.
      destruct (read m (e, r)) as [st'| | |]; try contradiction. cbn [bind].
      rewrite (filled_completed _ _ L). destruct (filled_term _ _ L) as (-> & -> & _ & _).
      assert (forall i s, nth_error sts i = Some s -> read cols (e, S r + i) = Ret s) as Hrd'.
      { intros i s Hi. specialize (Hrd (S i) s Hi). rewrite Nat.add_succ_r in Hrd. exact Hrd. }
      destruct (is_completed st) as [d| | |]; cbn [bind]; try exact I.
      destruct (_ || _); [apply IH; auto|]. destruct (match start with Some _ => _ | None => _ end); [apply IH; auto|].
      pose proof (Hb m r st st' (filled_in_refl _) L) as H1. unfold sim in H1.
      destruct (bodym r st' m) as [[os m1]| | |], (body r st) as [ots| | |]; try contradiction; cbn [bind fst snd]; try exact I.
      destruct H1 as [F1 G1].
      assert (sim m1 (over_states_m bodym ref t start e (seq (S r) (length sts)) m1) (over_states body ref t start e (S r) sts)) as H2.
      { apply IH; [eapply filled_in_trans; eauto|exact Hrd'|]. intros m2 r0 s0 s0' H2. apply Hb. eapply filled_in_trans; eauto. }
      unfold sim in H2.
      destruct (over_states_m _ _ _ _ _ _ m1) as [[os2 m2]| | |], (over_states _ _ _ _ _ _ sts) as [ots2| | |]; try contradiction; cbn [bind fst snd]; try exact I.
      destruct H2 as [F2 G2]. split; [eapply filled_in_trans; eauto|]. apply Forall2_app; [eapply goods_later; eauto|exact G2].
  Qed.

  Lemma sim_all : forall fuel,
    (forall ref m, filled_in cols m -> sim m (build_trees_m fuel ref m) (build_trees cols fuel ref))
    /\ (forall ps ts ref st rb k end_ m, filled_in cols m -> Forall2 (good m) ps ts -> held m ref st -> s_rb st = Some rb ->
        sim m (build_helper_m fuel ps ref k end_ m) (build_helper cols fuel ts ref st (rb_terms rb) k end_)).
  Proof.
    induction fuel as [|fuel [IHb IHh]]; [split; intros; exact I|]. split.
    - intros ref m Hm. cbn [build_trees_m build_trees]. pose proof (filled_read _ _ ref Hm) as L.
      change (col <- idx cols (fst ref);; st <- idx (c_states col) (snd ref);; ?k) with k.
      unfold read in L at 1.
      destruct (idx cols (fst ref)) as [col| | |] eqn:Ec; cbn [bind] in *; [|contradiction| |contradiction].
      2:{ unfold lock in L. destruct (read m ref); try contradiction. exact I. }
      destruct (idx (c_states col) (snd ref)) as [s| | |] eqn:Es; cbn [bind] in *; [|contradiction| |contradiction].
      2:{ unfold lock in L. destruct (read m ref); try contradiction. exact I. }
      unfold lock in L. destruct (read m ref) as [s'| | |] eqn:Er; try contradiction. cbn [bind].
      destruct (filled_term _ _ L) as (E1 & E2 & E3 & E4).
      assert (forall m', filled_in m m' -> read m' ref = Ret (with_list_rb s) ->
        sim m (st' <- read m' ref;; match s_rb st' with
                 | Some rb => build_helper_m fuel [] ref (length (rb_terms rb)) (Z.of_nat (s_end st')) m' | None => Panic end)
              (match s_rb (with_list_rb s) with
               | Some rb => build_helper cols fuel [] ref (with_list_rb s) (rb_terms rb) (length (rb_terms rb)) (Z.of_nat (s_end (with_list_rb s)))
               | None => Panic end)) as Main.
      { intros m' Hm' Hr. rewrite Hr. cbn [bind]. destruct (s_rb (with_list_rb s)) as [rb|] eqn:Erb; [|exact I].
        apply (sim_later m m' _ _ Hm'). apply IHh; [eapply filled_in_trans; eauto|constructor|apply full_held; exact Hr|exact Erb]. }
      assert (t_type (s_term s) <> TList -> s' = with_list_rb s) as Hnl.
      { intros Hn. destruct L as [->|[Ht _]]; [|congruence]. unfold with_list_rb. destruct (t_type (s_term s)); congruence. }
      assert (t_type (s_term s) <> TList -> t_type (s_term s) <> TAny ->
        sim m match s_rb s' with Some rb => build_helper_m fuel [] ref (length (rb_terms rb)) (Z.of_nat (s_end s')) m | None => Panic end
              (match s_rb (with_list_rb s) with
               | Some rb => build_helper cols fuel [] ref (with_list_rb s) (rb_terms rb) (length (rb_terms rb)) (Z.of_nat (s_end (with_list_rb s)))
               | None => Panic end)) as Same.
      { intros N1 _. specialize (Main m (filled_in_refl _)). rewrite Er in Main. apply Main. f_equal. exact (Hnl N1). }
      rewrite E1. destruct (t_type (s_term s)) eqn:Et; try (rewrite ?Er; cbn [bind]; apply Same; congruence).
      + cbn. rewrite ?E1, ?E2, ?E3. split; [apply filled_in_refl|]. constructor; [apply good_fresh|constructor].
      + assert (t_type (s_term s') = TList) as Et' by congruence. destruct (write_ok _ _ _ Er Et') as [W1 W2].
        apply Main; [exact W1|]. rewrite W2. f_equal. apply filled_with. exact L.
    - intros ps ts ref st rb k end_ m Hm Hps Hst Hrb. cbn [build_helper_m build_helper]. destruct k as [|ti].
      { cbn. split; [apply filled_in_refl|]. constructor; [apply good_chart; assumption|constructor]. }
      rewrite (Hst m (filled_in_refl _)). cbn [bind]. rewrite Hrb. cbn [bind].
      destruct (idx (rb_terms rb) ti) as [t| | |]; cbn [bind]; try exact I.
      assert (sim m
        (if (end_ <? 0)%Z then Panic else
         col <- idx m (Z.to_nat end_);;
         over_states_m (fun r sub_st m1 => ' subs <- build_trees_m fuel (Z.to_nat end_, r) m1 ;;
            over_subtrees_m (fun sub m2 => build_helper_m fuel (sub :: ps) ref ti (Z.of_nat (s_start sub_st)) m2) (fst subs) (snd subs))
           ref t (if Nat.eqb ti 0 then Some (s_start st) else None) (Z.to_nat end_) (seq 0 (length (c_states col))) m)
        (if (end_ <? 0)%Z then Panic else
         col <- idx cols (Z.to_nat end_);;
         over_states (fun r sub_st => subs <- build_trees cols fuel (Z.to_nat end_, r) ;;
            over_subtrees (fun sub => build_helper cols fuel (sub :: ts) ref st (rb_terms rb) ti (Z.of_nat (s_start sub_st))) subs)
           ref t (if Nat.eqb ti 0 then Some (s_start st) else None) (Z.to_nat end_) 0 (c_states col))) as Loop.
      { destruct (end_ <? 0)%Z; [exact I|]. pose proof (filled_col _ _ (Z.to_nat end_) Hm) as Hc.
        destruct (idx cols (Z.to_nat end_)) as [c| | |] eqn:Ec, (idx m (Z.to_nat end_)) as [c'| | |]; try contradiction; cbn [bind]; [|exact I].
        replace (length (c_states c')) with (length (c_states c)) by (clear - Hc; induction Hc; cbn; congruence).
        apply sim_states; [exact Hm| |].
        - intros i s Hi. unfold read. cbn [fst snd]. rewrite Ec. cbn [bind]. unfold idx. cbn [Nat.add]. rewrite Hi. reflexivity.
        - intros m1 r s s' H1 Hf. destruct (filled_term _ _ Hf) as (_ & -> & _ & _).
          assert (filled_in cols m1) as Hm1 by (eapply filled_in_trans; eauto).
          pose proof (IHb (Z.to_nat end_, r) m1 Hm1) as Hsub. unfold sim in Hsub.
          destruct (build_trees_m fuel _ m1) as [[subs m2]| | |], (build_trees cols fuel _) as [tsubs| | |]; try contradiction; cbn [bind fst snd]; try exact I.
          destruct Hsub as [F2 G2]. apply (sim_later m1 m2 _ _ F2). apply sim_subs; [exact G2|].
          intros m3 p t0 F3 G3. apply IHh; [eapply filled_in_trans; [exact Hm1|eapply filled_in_trans; eauto]| |eapply held_later; [|exact Hst]|exact Hrb].
          + constructor; [exact G3|]. eapply goods_later; [|exact Hps]. eapply filled_in_trans; [exact H1|eapply filled_in_trans; eauto].
          + eapply filled_in_trans; [exact H1|eapply filled_in_trans; eauto]. }
      destruct (t_type t); try exact Loop.
      apply IHh; [exact Hm| |exact Hst|exact Hrb]. constructor; [apply good_fresh|exact Hps].
  Qed.
End Sim.

(** ** The calls *)
Lemma trees_in_memory : forall cols m fuel ref, filled_in cols m ->
  match build_trees_m fuel ref m, get_trees cols fuel ref with
  | Ret (ps, m'), Ret ts => filled_in cols m' /\ forall m'', filled_in m' m'' -> Forall2 (shows m'') ps ts
  | Err, Err | Panic, Panic | Fuel, Fuel => True
  | _, _ => False
  end.
Proof.
  intros cols m fuel ref Hm. pose proof (proj1 (sim_all cols fuel) ref m Hm) as H. unfold sim in H. unfold get_trees.
  destruct (build_trees_m fuel ref m) as [[ps m']| | |], (build_trees cols fuel ref); auto. destruct H as [A B].
  split; [eapply filled_in_trans; eauto|]. intros m'' H''. eapply goods_show; eauto.
Qed.

Lemma all_calls : forall cols fuel refs outs m', get_all fuel refs cols = Ret (outs, m') ->
  filled_in cols m' /\
  Forall2 (fun ref ps => exists ts, get_trees cols fuel ref = Ret ts /\ Forall2 (shows m') ps ts) refs outs.
Proof.
  intros cols fuel refs outs m'.
  enough (forall m, filled_in cols m -> get_all fuel refs m = Ret (outs, m') -> filled_in cols m' /\ filled_in m m' /\
    Forall2 (fun ref ps => exists ts, get_trees cols fuel ref = Ret ts /\ Forall2 (shows m') ps ts) refs outs) as Hgen.
  { intros H. destruct (Hgen cols (filled_in_refl _) H) as (A & _ & B). split; assumption. }
  revert outs. induction refs as [|ref refs IH]; intros outs m Hm; cbn [get_all].
  - intros [= <- <-]. split; [exact Hm|]. split; [apply filled_in_refl|constructor].
  - pose proof (proj1 (sim_all cols fuel) ref m Hm) as H1. unfold sim in H1.
    destruct (build_trees_m fuel ref m) as [[ps m1]| | |]; try discriminate.
    destruct (build_trees cols fuel ref) as [ts| | |] eqn:Et; try contradiction. destruct H1 as [F1 G1]. cbn [bind fst snd].
    destruct (get_all fuel refs m1) as [[os m2]| | |] eqn:Eg; try discriminate. cbn [bind fst snd]. intros [= <- <-].
    destruct (IH _ m1 (filled_in_trans _ _ _ Hm F1) Eg) as (A & B & C).
    split; [exact A|]. split; [eapply filled_in_trans; eauto|]. constructor; [|exact C].
    exists ts. split; [exact Et|]. eapply goods_show; eauto.
Qed.

Lemma calls_return : forall cols fuel refs, (forall ref, In ref refs -> exists ts, get_trees cols fuel ref = Ret ts) ->
  exists outs m', get_all fuel refs cols = Ret (outs, m').
Proof.
  intros cols fuel refs. enough (forall m, filled_in cols m -> (forall ref, In ref refs -> exists ts, get_trees cols fuel ref = Ret ts) ->
    exists outs m', get_all fuel refs m = Ret (outs, m')) as Hgen by (apply Hgen; apply filled_in_refl).
  induction refs as [|ref refs IH]; intros m Hm H; cbn [get_all]; [eauto|].
  destruct (H ref (or_introl eq_refl)) as [ts Hts]. unfold get_trees in Hts.
  pose proof (proj1 (sim_all cols fuel) ref m Hm) as H1. unfold sim in H1. rewrite Hts in H1.
  destruct (build_trees_m fuel ref m) as [[ps m1]| | |]; try contradiction. destruct H1 as [F1 _]. cbn [bind fst snd].
  destruct (IH m1 (filled_in_trans _ _ _ Hm F1) (fun r Hr => H r (or_intror Hr))) as (os & m2 & ->). cbn [bind fst snd]. eauto.
Qed.
