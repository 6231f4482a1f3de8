(** The Equal methods of types_util.go are equalities. *)
From Verif Require Import Base ModelTypes SpecTypes.

Lemma ttype_eqb_eq a b : ttype_eqb a b = true <-> a = b.
Proof. destruct a, b; simpl; split; intros H; try reflexivity; try discriminate. Qed.

Lemma ttype_eqb_refl a : ttype_eqb a a = true.
Proof. destruct a; reflexivity. Qed.

Lemma ttype_eqb_neq a b : ttype_eqb a b = false <-> a <> b.
Proof.
  split.
  - intros H E. subst b. rewrite ttype_eqb_refl in H. discriminate.
  - intros H. destruct (ttype_eqb a b) eqn:E; [|reflexivity].
    apply ttype_eqb_eq in E. contradiction.
Qed.

Lemma meta_equal_eq m1 m2 : meta_equal m1 m2 = true <-> m1 = m2.
Proof.
  split.
  - destruct m1 as [|s1|[l1|] [h1|]], m2 as [|s2|[l2|] [h2|]]; simpl; intros H;
      try discriminate; try reflexivity;
      try (apply String.eqb_eq in H; congruence);
      rewrite ?andb_true_iff, ?Z.eqb_eq in H;
      repeat match goal with H : _ /\ _ |- _ => destruct H end; try discriminate; congruence.
  - intros <-. destruct m1 as [|s1|[l1|] [h1|]]; simpl;
      rewrite ?String.eqb_refl, ?Z.eqb_refl; reflexivity.
Qed.

Lemma term_equal_eq t t1 : term_equal t t1 = true <-> t = t1.
Proof.
  unfold term_equal. destruct t as [v ty m], t1 as [v1 ty1 m1]; cbn [t_value t_type t_meta].
  split.
  - destruct (String.eqb v v1) eqn:Ev; cbn [negb orb]; [|discriminate].
    destruct (ttype_eqb ty ty1) eqn:Et; cbn [negb orb]; [|discriminate].
    intros H. apply String.eqb_eq in Ev. apply ttype_eqb_eq in Et.
    apply meta_equal_eq in H. congruence.
  - intros E. injection E as <- <- <-.
    rewrite String.eqb_refl, ttype_eqb_refl. cbn [negb orb]. apply meta_equal_eq. reflexivity.
Qed.

Lemma terms_equal_eq l1 l2 :
  length l1 = length l2 -> (terms_equal l1 l2 = true <-> l1 = l2).
Proof.
  revert l2; induction l1 as [|x l1 IH]; intros [|y l2] Hl; simpl in *;
    try discriminate; try (split; reflexivity).
  specialize (IH l2 ltac:(lia)).
  destruct (term_equal x y) eqn:E; cbn [negb].
  - apply term_equal_eq in E. subst y. rewrite IH. split; [intros ->|intros H; injection H]; auto.
  - split; [discriminate|]. intros H; injection H as -> _.
    assert (term_equal y y = true) as H1 by (apply term_equal_eq; reflexivity). congruence.
Qed.

Lemma bigf_cmp_eq_eq x y : bigf_cmp_eq x y = true <-> x = y.
Proof.
  destruct x as [m e], y as [m' e']; simpl. rewrite andb_true_iff, !Z.eqb_eq.
  split; [intros [-> ->]; reflexivity|intros H; injection H as -> ->; auto].
Qed.

(** Induction over nested functions. *)
Section FmrInd.
  Variable P : fmr -> Prop.
  Hypothesis H : forall fn args,
    Forall (fun a => match a_value a with VFunc f => P f | _ => True end) args ->
    P (FMR fn args).
  Lemma fmr_ind' : forall f : fmr, P f.
  Proof.
    fix IH 1. intros [fn args]. apply H.
    induction args as [|[ty v] args IHa]; constructor; [|exact IHa].
    cbn [a_value]. destruct v; try exact I. apply IH.
  Qed.
End FmrInd.

(** The argument-wise comparison, factored out of the two fixpoints. *)
Definition arg_equal (eqf : fmr -> fmr -> bool) (ty1 : string) (v1 v2 : argval) : bool :=
  if String.eqb ty1 "string" then
    match v1, v2 with VStr s1, VStr s2 => String.eqb s1 s2 | _, _ => false end
  else if String.eqb ty1 "int" then
    match v1, v2 with VInt a, VInt b => Z.eqb a b | _, _ => false end
  else if String.eqb ty1 "float" then
    match v1, v2 with VFloat a, VFloat b => bigf_cmp_eq a b | _, _ => false end
  else if String.eqb ty1 "index" then
    match v1, v2 with VIdx a, VIdx b => Z.eqb a b | _, _ => false end
  else if String.eqb ty1 "func" then
    match v1, v2 with VFunc a, VFunc b => eqf a b | _, _ => false end
  else true.

Fixpoint args_equal (eqf : fmr -> fmr -> bool) (l1 l2 : list arg) : bool :=
  match l1, l2 with
  | Arg ty1 v1 :: l1', Arg ty2 v2 :: l2' =>
      if negb (String.eqb ty1 ty2) then false
      else arg_equal eqf ty1 v1 v2 && args_equal eqf l1' l2'
  | _, _ => true
  end.

Lemma fmr_equal_unfold f g :
  fmr_equal f g =
  (if negb (String.eqb (f_fn f) (f_fn g)) then false else
   if negb (Nat.eqb (length (f_args f)) (length (f_args g))) then false else
   args_equal (fun a b => fmr_equal_rev b a) (f_args g) (f_args f)).
Proof.
  destruct f as [fn1 a1], g as [fn2 a2]. cbn [f_fn f_args].
  cbn [fmr_equal]. destruct (negb (String.eqb fn1 fn2)); [reflexivity|].
  destruct (Nat.eqb (length a1) (length a2)) eqn:El; cbn [negb]; [|reflexivity].
  apply Nat.eqb_eq in El. revert a2 El.
  induction a1 as [|[ty1 v1] a1 IH]; intros [|[ty2 v2] a2] El; simpl in El; try discriminate; [reflexivity|].
  cbn [args_equal]. destruct (negb (String.eqb ty2 ty1)); [reflexivity|].
  rewrite <- IH by lia. reflexivity.
Qed.

Lemma fmr_equal_rev_unfold f g :
  fmr_equal_rev f g =
  (if negb (String.eqb (f_fn g) (f_fn f)) then false else
   if negb (Nat.eqb (length (f_args g)) (length (f_args f))) then false else
   args_equal (fun a b => fmr_equal a b) (f_args f) (f_args g)).
Proof.
  destruct f as [fn1 a1], g as [fn2 a2]. cbn [f_fn f_args].
  cbn [fmr_equal_rev]. destruct (negb (String.eqb fn2 fn1)); [reflexivity|].
  destruct (Nat.eqb (length a2) (length a1)) eqn:El; cbn [negb]; [|reflexivity].
  apply Nat.eqb_eq in El. revert a2 El.
  induction a1 as [|[ty1 v1] a1 IH]; intros [|[ty2 v2] a2] El; simpl in El; try discriminate; [reflexivity|].
  cbn [args_equal]. destruct (negb (String.eqb ty1 ty2)); [reflexivity|].
  rewrite <- IH by lia. reflexivity.
Qed.

Lemma arg_equal_sound eqf ty v1 v2 :
  (forall f g, v1 = VFunc f -> v2 = VFunc g -> wt_fmr f -> wt_fmr g -> eqf f g = true -> f = g) ->
  wt_arg (Arg ty v1) -> wt_arg (Arg ty v2) -> arg_equal eqf ty v1 v2 = true -> v1 = v2.
Proof.
  intros Hf H1 H2 H.
  inversion H1; subst; inversion H2; subst; unfold arg_equal in H; simpl in H.
  - apply String.eqb_eq in H. congruence.
  - apply Z.eqb_eq in H. congruence.
  - apply bigf_cmp_eq_eq in H. congruence.
  - apply Z.eqb_eq in H. congruence.
  - f_equal. apply Hf; auto.
  - reflexivity.
Qed.

Lemma fmr_equal_sound f : forall g,
  wt_fmr f -> wt_fmr g ->
  (fmr_equal f g = true -> f = g) /\ (fmr_equal_rev f g = true -> f = g).
Proof.
  induction f as [fn args IH] using fmr_ind'; intros [fn2 args2] Hf Hg.
  inversion Hf as [? ? Ha]; inversion Hg as [? ? Hb]; subst.
  rewrite fmr_equal_unfold, fmr_equal_rev_unfold; cbn [f_fn f_args].
  split.
  - destruct (String.eqb fn fn2) eqn:E; cbn [negb]; [|discriminate].
    apply String.eqb_eq in E; subst fn2.
    destruct (Nat.eqb (length args) (length args2)) eqn:El; cbn [negb]; [|discriminate].
    apply Nat.eqb_eq in El. intros H. f_equal. clear Hf Hg.
    revert args2 Hb El H.
    induction args as [|[ty1 v1] args IHa]; intros [|[ty2 v2] args2] Hb El H; simpl in El; try discriminate; [reflexivity|].
    inversion IH as [|? ? IH1 IH2]; inversion Ha as [|? ? Ha1 Ha2]; inversion Hb as [|? ? Hb1 Hb2]; subst.
    cbn [args_equal] in H.
    destruct (String.eqb ty2 ty1) eqn:Et; cbn [negb] in H; [|discriminate].
    apply String.eqb_eq in Et; subst ty2. apply andb_true_iff in H as [H1 H2].
    f_equal; [|apply IHa; auto].
    f_equal. symmetry. apply (arg_equal_sound _ ty1 v2 v1) in H1; auto.
    intros f g Ef Eg Wf Wg Heq. subst v1 v2. cbn [a_value] in IH1.
    symmetry. apply (proj2 (IH1 f Wg Wf)). exact Heq.
  - destruct (String.eqb fn2 fn) eqn:E; cbn [negb]; [|discriminate].
    apply String.eqb_eq in E; subst fn2.
    destruct (Nat.eqb (length args2) (length args)) eqn:El; cbn [negb]; [|discriminate].
    apply Nat.eqb_eq in El. intros H. f_equal. clear Hf Hg.
    revert args2 Hb El H.
    induction args as [|[ty1 v1] args IHa]; intros [|[ty2 v2] args2] Hb El H; simpl in El; try discriminate; [reflexivity|].
    inversion IH as [|? ? IH1 IH2]; inversion Ha as [|? ? Ha1 Ha2]; inversion Hb as [|? ? Hb1 Hb2]; subst.
    cbn [args_equal] in H.
    destruct (String.eqb ty1 ty2) eqn:Et; cbn [negb] in H; [|discriminate].
    apply String.eqb_eq in Et; subst ty2. apply andb_true_iff in H as [H1 H2].
    f_equal; [|apply IHa; auto].
    f_equal. apply (arg_equal_sound _ ty1 v1 v2) in H1; auto.
    intros f g Ef Eg Wf Wg Heq. subst v1 v2. cbn [a_value] in IH1.
    apply (proj1 (IH1 g Wf Wg)). exact Heq.
Qed.

Lemma arg_equal_refl eqf ty v :
  (forall f, v = VFunc f -> wt_fmr f -> eqf f f = true) ->
  wt_arg (Arg ty v) -> arg_equal eqf ty v v = true.
Proof.
  intros Hf H. inversion H; subst; unfold arg_equal; simpl.
  - apply String.eqb_refl.
  - apply Z.eqb_refl.
  - apply bigf_cmp_eq_eq. reflexivity.
  - apply Z.eqb_refl.
  - apply Hf; auto.
  - reflexivity.
Qed.

Lemma fmr_equal_refl f : wt_fmr f -> fmr_equal f f = true /\ fmr_equal_rev f f = true.
Proof.
  induction f as [fn args IH] using fmr_ind'; intros Hf.
  inversion Hf as [? ? Ha]; subst.
  rewrite fmr_equal_unfold, fmr_equal_rev_unfold; cbn [f_fn f_args].
  rewrite String.eqb_refl, Nat.eqb_refl. cbn [negb]. clear Hf.
  split.
  - induction args as [|[ty v] args IHa]; [reflexivity|].
    inversion IH as [|? ? IH1 IH2]; inversion Ha as [|? ? Ha1 Ha2]; subst.
    cbn [args_equal]. rewrite String.eqb_refl. cbn [negb].
    apply andb_true_iff; split; [|apply IHa; auto].
    apply arg_equal_refl; auto. intros f -> Wf. cbn [a_value] in IH1. apply IH1; auto.
  - induction args as [|[ty v] args IHa]; [reflexivity|].
    inversion IH as [|? ? IH1 IH2]; inversion Ha as [|? ? Ha1 Ha2]; subst.
    cbn [args_equal]. rewrite String.eqb_refl. cbn [negb].
    apply andb_true_iff; split; [|apply IHa; auto].
    apply arg_equal_refl; auto. intros f -> Wf. cbn [a_value] in IH1. apply IH1; auto.
Qed.

Lemma fmr_equal_iff f g : wt_fmr f -> wt_fmr g -> (fmr_equal f g = true <-> f = g).
Proof.
  intros Hf Hg. split.
  - apply (fmr_equal_sound f g Hf Hg).
  - intros <-. apply fmr_equal_refl; auto.
Qed.

Lemma ofmr_equal_iff f g : wt_ofmr f -> wt_ofmr g -> (ofmr_equal f g = true <-> f = g).
Proof.
  intros Hf Hg. destruct f as [f|], g as [g|]; simpl; try (split; congruence).
  rewrite fmr_equal_iff; [split; congruence| |]; auto.
Qed.

Lemma rb_equal_iff r rb : wt_rb r -> wt_rb rb -> (rb_equal r rb = true <-> r = rb).
Proof.
  intros Hr Hb. unfold rb_equal.
  destruct r as [ts1 f1], rb as [ts2 f2]; cbn [rb_terms rb_f].
  destruct (Nat.eqb (length ts2) (length ts1)) eqn:El; cbn [negb].
  - apply Nat.eqb_eq in El.
    destruct (terms_equal ts2 ts1) eqn:Et; cbn [negb].
    + apply (terms_equal_eq ts2 ts1 El) in Et. subst ts2.
      rewrite (ofmr_equal_iff f1 f2 Hr Hb). split; congruence.
    + split; [discriminate|]. intros E; injection E as -> ->.
      assert (terms_equal ts2 ts2 = true) by (apply terms_equal_eq; reflexivity). congruence.
  - split; [discriminate|]. intros E; injection E as -> ->. rewrite Nat.eqb_refl in El. discriminate.
Qed.

(** Whatever the arguments, Equal rule bodies have the same terms. *)
Lemma rb_equal_terms r rb : rb_equal r rb = true -> rb_terms r = rb_terms rb.
Proof.
  unfold rb_equal.
  destruct (Nat.eqb (length (rb_terms rb)) (length (rb_terms r))) eqn:El; cbn [negb]; [|discriminate].
  destruct (terms_equal (rb_terms rb) (rb_terms r)) eqn:Et; cbn [negb]; [|discriminate].
  intros _. apply Nat.eqb_eq in El. apply (terms_equal_eq _ _ El) in Et. auto.
Qed.

Lemma orb_equal_iff r rb : wt_orb r -> wt_orb rb -> (orb_equal r rb = true <-> r = rb).
Proof.
  intros Hr Hb. destruct r as [r|], rb as [b|]; simpl; try (split; congruence).
  rewrite rb_equal_iff; [split; congruence| |]; auto.
Qed.

(** ** Symmetry and transitivity for all functions, well typed or not *)
Lemma fmr_equal_rev_swap f : forall g, fmr_equal_rev f g = fmr_equal g f /\ fmr_equal f g = fmr_equal_rev g f.
Proof.
  induction f as [fn args IH] using fmr_ind'; intros [fn2 args2].
  rewrite !fmr_equal_unfold, !fmr_equal_rev_unfold; cbn [f_fn f_args].
  split.
  - destruct (negb (String.eqb fn2 fn)); [reflexivity|].
    destruct (negb (Nat.eqb (length args2) (length args))); [reflexivity|].
    revert args2. induction args as [|[ty1 v1] args IHa]; intros [|[ty2 v2] args2]; try reflexivity.
    inversion IH as [|? ? IH1 IH2]; subst. cbn [args_equal].
    destruct (negb (String.eqb ty1 ty2)); [reflexivity|].
    rewrite IHa by auto. f_equal. unfold arg_equal.
    destruct (String.eqb ty1 "string"); [reflexivity|]. destruct (String.eqb ty1 "int"); [reflexivity|].
    destruct (String.eqb ty1 "float"); [reflexivity|]. destruct (String.eqb ty1 "index"); [reflexivity|].
    destruct (String.eqb ty1 "func"); [|reflexivity].
    destruct v1; try reflexivity. destruct v2; try reflexivity. apply IH1.
  - destruct (negb (String.eqb fn fn2)); [reflexivity|].
    destruct (negb (Nat.eqb (length args) (length args2))); [reflexivity|].
    revert args2. induction args as [|[ty1 v1] args IHa]; intros [|[ty2 v2] args2]; try reflexivity.
    inversion IH as [|? ? IH1 IH2]; subst. cbn [args_equal].
    destruct (negb (String.eqb ty2 ty1)); [reflexivity|].
    rewrite IHa by auto. f_equal. unfold arg_equal.
    destruct (String.eqb ty2 "string"); [reflexivity|]. destruct (String.eqb ty2 "int"); [reflexivity|].
    destruct (String.eqb ty2 "float"); [reflexivity|]. destruct (String.eqb ty2 "index"); [reflexivity|].
    destruct (String.eqb ty2 "func"); [|reflexivity].
    destruct v1; destruct v2; try reflexivity. apply IH1.
Qed.

(** [f.Equal(g)], argument by argument; nested functions are compared with the
    roles swapped (types_util.go:126). *)
Lemma fmr_equal_step f g :
  fmr_equal f g =
  (if negb (String.eqb (f_fn f) (f_fn g)) then false else
   if negb (Nat.eqb (length (f_args f)) (length (f_args g))) then false else
   args_equal fmr_equal (f_args g) (f_args f)).
Proof.
  rewrite fmr_equal_unfold.
  destruct (negb (String.eqb (f_fn f) (f_fn g))); [reflexivity|].
  destruct (negb (Nat.eqb (length (f_args f)) (length (f_args g)))); [reflexivity|].
  generalize (f_args f) as l2. induction (f_args g) as [|[ty1 v1] l1 IH]; intros [|[ty2 v2] l2]; try reflexivity.
  cbn [args_equal]. rewrite IH. destruct (negb (String.eqb ty1 ty2)); [reflexivity|]. f_equal.
  unfold arg_equal. destruct v1; try reflexivity. destruct v2; try reflexivity.
  rewrite (proj1 (fmr_equal_rev_swap f1 f0)). reflexivity.
Qed.

Lemma arg_equal_sym (eqf : fmr -> fmr -> bool) ty v1 v2 :
  (forall f g, v1 = VFunc f -> v2 = VFunc g -> eqf f g = eqf g f) ->
  arg_equal eqf ty v1 v2 = arg_equal eqf ty v2 v1.
Proof.
  intros H. unfold arg_equal.
  destruct (String.eqb ty "string"); [destruct v1, v2; try reflexivity; apply String.eqb_sym|].
  destruct (String.eqb ty "int"); [destruct v1, v2; try reflexivity; apply Z.eqb_sym|].
  destruct (String.eqb ty "float").
  { destruct v1, v2; try reflexivity. destruct f as [m e], f0 as [m' e']. simpl.
    rewrite (Z.eqb_sym m), (Z.eqb_sym e). reflexivity. }
  destruct (String.eqb ty "index"); [destruct v1, v2; try reflexivity; apply Z.eqb_sym|].
  destruct (String.eqb ty "func"); [|reflexivity]. destruct v1, v2; try reflexivity. auto.
Qed.

Lemma fmr_equal_sym f : forall g, fmr_equal f g = fmr_equal g f.
Proof.
  induction f as [fn args IH] using fmr_ind'; intros [fn2 args2].
  rewrite !fmr_equal_step; cbn [f_fn f_args].
  rewrite (String.eqb_sym fn fn2), (Nat.eqb_sym (length args)).
  destruct (negb (String.eqb fn2 fn)); [reflexivity|].
  destruct (negb (Nat.eqb (length args2) (length args))); [reflexivity|].
  revert args2. induction args as [|[ty1 v1] args IHa]; intros [|[ty2 v2] args2]; try reflexivity.
  inversion IH as [|? ? IH1 IH2]; subst. cbn [args_equal]. rewrite (String.eqb_sym ty2 ty1).
  destruct (String.eqb ty1 ty2) eqn:E; cbn [negb]; [|reflexivity].
  apply String.eqb_eq in E. subst ty2. rewrite IHa by auto. f_equal.
  rewrite arg_equal_sym; [reflexivity|].
  intros f g -> ->. cbn [a_value] in IH1. symmetry. apply IH1.
Qed.

Lemma arg_equal_trans (eqf : fmr -> fmr -> bool) ty v1 v2 v3 :
  (forall f g h, v2 = VFunc g -> eqf f g = true -> eqf g h = true -> eqf f h = true) ->
  arg_equal eqf ty v1 v2 = true -> arg_equal eqf ty v2 v3 = true -> arg_equal eqf ty v1 v3 = true.
Proof.
  intros H. unfold arg_equal.
  destruct (String.eqb ty "string").
  { destruct v1, v2; try discriminate; destruct v3; try discriminate. rewrite !String.eqb_eq. congruence. }
  destruct (String.eqb ty "int").
  { destruct v1, v2; try discriminate; destruct v3; try discriminate. rewrite !Z.eqb_eq. congruence. }
  destruct (String.eqb ty "float").
  { destruct v1, v2; try discriminate; destruct v3; try discriminate. rewrite !bigf_cmp_eq_eq. congruence. }
  destruct (String.eqb ty "index").
  { destruct v1, v2; try discriminate; destruct v3; try discriminate. rewrite !Z.eqb_eq. congruence. }
  destruct (String.eqb ty "func"); [|reflexivity].
  destruct v1, v2; try discriminate; destruct v3; try discriminate. eauto.
Qed.

Lemma fmr_equal_trans g : forall f h, fmr_equal f g = true -> fmr_equal g h = true -> fmr_equal f h = true.
Proof.
  induction g as [fn args IH] using fmr_ind'; intros [fn1 args1] [fn2 args2].
  rewrite !fmr_equal_step; cbn [f_fn f_args].
  destruct (String.eqb fn1 fn) eqn:E1; cbn [negb]; [|discriminate].
  destruct (Nat.eqb (length args1) (length args)) eqn:L1; cbn [negb]; [|discriminate]. intros H1.
  destruct (String.eqb fn fn2) eqn:E2; cbn [negb]; [|discriminate].
  destruct (Nat.eqb (length args) (length args2)) eqn:L2; cbn [negb]; [|discriminate]. intros H2.
  apply String.eqb_eq in E1, E2. apply Nat.eqb_eq in L1, L2. subst fn1 fn2.
  rewrite String.eqb_refl, L1, L2, Nat.eqb_refl. cbn [negb].
  revert args1 args2 L1 L2 H1 H2.
  induction args as [|[ty v] args IHa]; intros [|[ty1 v1] args1] [|[ty2 v2] args2] L1 L2 H1 H2; simpl in L1, L2; try lia; [reflexivity|].
  inversion IH as [|? ? IH1 IH2]; subst. cbn [args_equal] in *.
  destruct (String.eqb ty ty1) eqn:E1; cbn [negb] in H1; [|discriminate].
  destruct (String.eqb ty2 ty) eqn:E2; cbn [negb] in H2; [|discriminate].
  apply String.eqb_eq in E1, E2. subst. rewrite String.eqb_refl. cbn [negb].
  apply andb_true_iff in H1 as [H1 H1'], H2 as [H2 H2']. apply andb_true_iff. split.
  - eapply arg_equal_trans; [|exact H2|exact H1].
    intros f g h -> Hf Hh. cbn [a_value] in IH1.
    rewrite fmr_equal_sym. rewrite fmr_equal_sym in Hf, Hh. eapply IH1; eauto.
  - apply IHa; auto; lia.
Qed.

Lemma rb_equal_step r rb :
  rb_equal r rb = true <-> rb_terms r = rb_terms rb /\ ofmr_equal (rb_f r) (rb_f rb) = true.
Proof.
  split.
  - intros H. split; [apply rb_equal_terms; auto|]. unfold rb_equal in H.
    destruct (negb _); [discriminate|]. destruct (negb _); [discriminate|]. exact H.
  - intros [E H]. unfold rb_equal. rewrite E, Nat.eqb_refl. cbn [negb].
    replace (terms_equal (rb_terms rb) (rb_terms rb)) with true by (symmetry; apply terms_equal_eq; reflexivity).
    exact H.
Qed.

Lemma orb_equal_sym r rb : orb_equal r rb = true -> orb_equal rb r = true.
Proof.
  destruct r as [r|], rb as [b|]; simpl; auto. rewrite !rb_equal_step. intros [-> H]. split; auto.
  destruct (rb_f r), (rb_f b); simpl in *; auto. rewrite fmr_equal_sym. exact H.
Qed.
Lemma orb_equal_trans r s t : orb_equal r s = true -> orb_equal s t = true -> orb_equal r t = true.
Proof.
  destruct r as [r|], s as [s|], t as [t|]; simpl; try discriminate; auto.
  rewrite !rb_equal_step. intros [-> H] [-> H']. split; auto.
  destruct (rb_f r), (rb_f s), (rb_f t); simpl in *; try discriminate; auto. eapply fmr_equal_trans; eauto.
Qed.
