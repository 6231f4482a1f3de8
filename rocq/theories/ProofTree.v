(** The tree builder on a finished chart. *)
From Verif Require Import Base ModelTypes ModelEarley ModelTrees SpecTypes SpecGrammar SpecTree
  ProofEqual ProofChart ProofSound.

(** ** Computations that settle for all large enough fuel *)
Definition settles {A} (f : nat -> res A) (x : res A) : Prop :=
  exists n, forall m, n <= m -> f m = x.
Definition conv {A} (f : nat -> res A) : Prop := exists x, x <> Fuel /\ settles f x.

Lemma settles_bind {A B} (f : nat -> res A) (g : nat -> A -> res B) a y :
  settles f (Ret a) -> settles (fun m => g m a) y -> settles (fun m => bind (f m) (g m)) y.
Proof.
  intros [n Hn] [n' Hn']. exists (n + n'). intros m Hm. rewrite Hn by lia. simpl. apply Hn'. lia.
Qed.

Lemma conv_bind {A B} (f : nat -> res A) (g : nat -> A -> res B) :
  conv f -> (forall a, settles f (Ret a) -> conv (fun m => g m a)) ->
  conv (fun m => bind (f m) (g m)).
Proof.
  intros (x & Hx & Hs) Hg. destruct x as [a| | |].
  - destruct (Hg a Hs) as (y & Hy & Hgs). exists y. split; auto. eapply settles_bind; eauto.
  - exists Err. split; [discriminate|]. destruct Hs as [n Hn]. exists n. intros m Hm. rewrite Hn; auto.
  - exists Panic. split; [discriminate|]. destruct Hs as [n Hn]. exists n. intros m Hm. rewrite Hn; auto.
  - congruence.
Qed.

Lemma conv_ret {A} (x : res A) : x <> Fuel -> conv (fun _ => x).
Proof. intros H. exists x. split; auto. exists 0. auto. Qed.

Lemma conv_ext {A} (f g : nat -> res A) : (forall m, f m = g m) -> conv f -> conv g.
Proof.
  intros H (x & Hx & n & Hn). exists x. split; auto. exists n. intros m Hm. rewrite <- H. auto.
Qed.

Lemma conv_S {A} (f : nat -> res A) : conv (fun m => f (S m)) -> conv f.
Proof.
  intros (x & Hx & n & Hn). exists x. split; auto. exists (S n). intros [|m] Hm; [lia|]. apply Hn. lia.
Qed.

Lemma settles_fun {A} (f : nat -> res A) x y : settles f x -> settles f y -> x = y.
Proof. intros [n Hn] [m Hm]. rewrite <- (Hn (n + m)) by lia. apply Hm. lia. Qed.

Lemma settles_S {A} (f : nat -> res A) x : settles f x -> settles (fun m => f (S m)) x.
Proof. intros [n Hn]. exists n. intros m Hm. apply Hn. lia. Qed.

Lemma over_subtrees_conv (k : nat -> node -> res (list node)) subs :
  (forall s, In s subs -> conv (fun m => k m s)) -> conv (fun m => over_subtrees (k m) subs).
Proof.
  induction subs as [|s subs IH]; intros H; simpl.
  - apply conv_ret. discriminate.
  - apply conv_bind; [apply H; left; reflexivity|]. intros a _.
    apply conv_bind; [apply IH; intros; apply H; right; auto|]. intros b _.
    apply conv_ret. discriminate.
Qed.

(** The row at which the search of column [e] stops. *)
Definition before (ref : nat * nat) (e r : nat) : Prop := e = fst ref -> r < snd ref.

Lemma over_states_conv (body : nat -> nat -> tstate -> res (list node)) ref t start e sts : forall r,
  (e = fst ref -> r <= snd ref) ->
  (forall s, In s sts -> is_completed s = Ret (completed s)) ->
  (forall k s, nth_error sts k = Some s -> before ref e (r + k) -> completed s = true ->
     conv (fun m => body m (r + k) s)) ->
  conv (fun m => over_states (body m) ref t start e r sts).
Proof.
  induction sts as [|s sts IH]; intros r Hr Hc H; simpl.
  - apply conv_ret; discriminate.
  - destruct (Nat.eqb e (fst ref) && Nat.eqb r (snd ref)) eqn:E; [apply conv_ret; discriminate|].
    assert (before ref e r) as Hb.
    { intros He. specialize (Hr He). apply andb_false_iff in E as [E|E]; apply Nat.eqb_neq in E; lia. }
    assert (conv (fun m => over_states (body m) ref t start e (S r) sts)) as Hrest.
    { apply IH.
      - intros He. specialize (Hb He). lia.
      - intros; apply Hc; right; auto.
      - intros k s' Hk Hbk Hcs. replace (S r + k) with (r + S k) in * by lia. apply H; auto. }
    rewrite Hc by (left; reflexivity). simpl.
    destruct (negb (completed s) || _ || _) eqn:E1; [exact Hrest|].
    destruct (match start with Some n => negb (Nat.eqb (s_start s) n) | None => false end); [exact Hrest|].
    apply orb_false_iff in E1 as [E1 _]. apply orb_false_iff in E1 as [E1 _]. apply negb_false_iff in E1.
    apply conv_bind.
    + specialize (H 0 s eq_refl). rewrite Nat.add_0_r in H. apply H; auto.
    + intros a _. apply conv_bind; [exact Hrest|]. intros b _. apply conv_ret; discriminate.
Qed.

Section Trees.
  Variable cols : list column.
  Hypothesis Hsh : all_shaped cols.

  (** ** Termination *)
  Lemma helper_conv ref st terms :
    (forall e r s, st_at cols e r = Some s -> e <= fst ref -> before ref e r -> completed s = true ->
       conv (fun m => build_trees cols m (e, r))) ->
    forall k children end_, (end_ <= Z.of_nat (fst ref))%Z ->
      conv (fun m => build_helper cols m children ref st terms k end_).
  Proof.
    intros IH k. induction k as [|k IHk]; intros children end_ He; apply conv_S; simpl.
    - apply conv_ret; discriminate.
    - unfold idx at 1. destruct (nth_error terms k) as [t|]; [|simpl; apply conv_ret; discriminate]. simpl.
      assert (conv (fun m : nat =>
        if (end_ <? 0)%Z then Panic else
        col <- idx cols (Z.to_nat end_) ;;
        over_states (fun (r : nat) (sub_st : tstate) =>
           subs <- build_trees cols m (Z.to_nat end_, r) ;;
           over_subtrees (fun sub => build_helper cols m (sub :: children) ref st terms k
                                          (Z.of_nat (s_start sub_st))) subs)
          ref t (if Nat.eqb k 0 then Some (s_start st) else None) (Z.to_nat end_) 0 (c_states col))) as Hgen.
      { destruct (end_ <? 0)%Z eqn:Ez; [apply conv_ret; discriminate|]. apply Z.ltb_ge in Ez.
        unfold idx. destruct (nth_error cols (Z.to_nat end_)) as [col|] eqn:Ec; [|simpl; apply conv_ret; discriminate].
        simpl. assert (states_of cols (Z.to_nat end_) = c_states col) as Hso by (unfold states_of; rewrite Ec; auto).
        apply (over_states_conv (fun m r sub_st =>
           subs <- build_trees cols m (Z.to_nat end_, r) ;;
           over_subtrees (fun sub => build_helper cols m (sub :: children) ref st terms k
                                          (Z.of_nat (s_start sub_st))) subs)).
        - intros _. lia.
        - intros s Hs. apply (is_completed_ret (Z.to_nat end_)). apply Hsh. rewrite Hso. exact Hs.
        - intros k' s Hk' Hb Hcs. simpl in *.
          assert (st_at cols (Z.to_nat end_) k' = Some s) as Hst by (unfold st_at; rewrite Hso; auto).
          apply conv_bind; [eapply IH; eauto; lia|]. intros subs _.
          apply over_subtrees_conv. intros sub _. apply IHk.
          destruct (st_at_shape _ _ _ _ Hsh Hst) as (_ & Hle & _). lia. }
      destruct (t_type t); auto. apply IHk. lia.
  Qed.

  Lemma trees_conv : forall c r s, st_at cols c r = Some s ->
    conv (fun m => build_trees cols m (c, r)).
  Proof.
    induction c as [c IHc] using (well_founded_induction lt_wf).
    induction r as [r IHr] using (well_founded_induction lt_wf).
    intros s Hs. apply conv_S. simpl.
    unfold st_at, states_of in Hs. unfold idx.
    destruct (nth_error cols c) as [col|] eqn:Ec; [|destruct r; discriminate]. simpl. rewrite Hs. simpl.
    assert (conv (fun m => match s_rb (with_list_rb s) with
       | Some rb => build_helper cols m [] (c, r) (with_list_rb s) (rb_terms rb)
                      (length (rb_terms rb)) (Z.of_nat (s_end (with_list_rb s)))
       | None => Panic end)) as H.
    { destruct (s_rb (with_list_rb s)) as [rb|]; [|simpl; apply conv_ret; discriminate].
      apply helper_conv.
      - intros e r' s' Hst He Hb _. simpl in He. destruct (Nat.eq_dec e c) as [->|Hne].
        + specialize (Hb eq_refl). simpl in Hb. eapply IHr; eauto.
        + eapply IHc; eauto. lia.
      - simpl. assert (s_end (with_list_rb s) = s_end s) as ->.
        { unfold with_list_rb. destruct (t_type (s_term s)); reflexivity. }
        assert (shape c s) as (-> & _).
        { apply Hsh. unfold states_of. rewrite Ec. eapply nth_error_In; eauto. }
        lia. }
    destruct (t_type (s_term s)); auto. apply conv_ret; discriminate.
  Qed.
End Trees.
