(** Semantic and Eval agree with the clauses of SpecSem.v. *)
From Verif Require Import Base ModelTypes ModelText ModelEarley ModelTrees ModelApi ModelQuote ModelSem SpecSem ProofEqual.

Section NodeInd.
  Variable P : node -> Prop.
  Hypothesis H : forall v ch, Forall P ch -> P (Node v ch).
  Lemma node_ind' : forall n, P n.
  Proof.
    fix IH 1. intros [v ch]. apply H. induction ch as [|c ch IHc]; constructor; auto.
  Qed.
End NodeInd.

Lemma sequence_ret {A} (l : list (res A)) xs : sequence l = Ret xs <-> Forall2 (fun r x => r = Ret x) l xs.
Proof.
  revert xs. induction l as [|r l IH]; intros xs; simpl.
  - split; [intros [= <-]; constructor|inversion 1; reflexivity].
  - split.
    + destruct r as [a| | |]; try discriminate. simpl. destruct (sequence l) as [ys| | |]; try discriminate.
      simpl. intros [= <-]. constructor; auto. apply IH; reflexivity.
    + inversion 1 as [|? x ? ys E F]; subst. simpl. apply IH in F. rewrite F. reflexivity.
Qed.

Lemma sequence_err {A} (l : list (res A)) : sequence l = Err -> In Err l.
Proof.
  induction l as [|r l IH]; simpl; [discriminate|].
  destruct r as [a| | |]; try discriminate; simpl; auto.
  destruct (sequence l); try discriminate. auto.
Qed.

Lemma sequence_cases {A} (l : list (res A)) : (forall r, In r l -> r <> Panic /\ r <> Fuel) ->
  (exists xs, sequence l = Ret xs) \/ (sequence l = Err).
Proof.
  induction l as [|r l IH]; intros H; simpl; [eauto|].
  destruct r as [a| | |]; simpl; auto.
  - destruct IH as [[xs ->]| ->]; simpl; eauto. intros r Hr. apply H. right; auto.
  - exfalso. destruct (H Panic); [left; auto|congruence].
  - exfalso. destruct (H Fuel); [left; auto|congruence].
Qed.

Lemma eqb_yes a b : String.eqb a b = true -> a = b.
Proof. apply String.eqb_eq. Qed.
Lemma eqb_no a b : String.eqb a b = false -> a <> b.
Proof. apply String.eqb_neq. Qed.

(** An argument is malformed, or one of the seven proper forms. *)
Inductive arg_form : arg -> Prop :=
| af_string s : arg_form (Arg "string" (VStr s))
| af_int z : arg_form (Arg "int" (VInt z))
| af_float x : arg_form (Arg "float" (VFloat x))
| af_func f : arg_form (Arg "func" (VFunc f))
| af_index i : arg_form (Arg "index" (VIdx i))
| af_context v : arg_form (Arg "context" v).

Lemma arg_forms a : arg_form a \/ malformed a.
Proof.
  destruct a as [ty v].
  destruct (String.eqb ty "string") eqn:E1; [apply eqb_yes in E1; subst; destruct v;
    try (left; constructor); right; unfold malformed; repeat split; intros; discriminate|].
  destruct (String.eqb ty "int") eqn:E2; [apply eqb_yes in E2; subst; destruct v;
    try (left; constructor); right; unfold malformed; repeat split; intros; discriminate|].
  destruct (String.eqb ty "float") eqn:E3; [apply eqb_yes in E3; subst; destruct v;
    try (left; constructor); right; unfold malformed; repeat split; intros; discriminate|].
  destruct (String.eqb ty "func") eqn:E4; [apply eqb_yes in E4; subst; destruct v;
    try (left; constructor); right; unfold malformed; repeat split; intros; discriminate|].
  destruct (String.eqb ty "index") eqn:E5; [apply eqb_yes in E5; subst; destruct v;
    try (left; constructor); right; unfold malformed; repeat split; intros; discriminate|].
  destruct (String.eqb ty "context") eqn:E6; [apply eqb_yes in E6; subst; left; constructor|].
  apply eqb_no in E1, E2, E3, E4, E5, E6.
  right. unfold malformed. repeat split; auto; intros; congruence.
Qed.

Section Sem.
  Variable p : parse_t.
  Variable join_words : list string -> string.
  Variable float_string : bigf -> string.
  Variable json : dval -> string.
  Variable is_print_hi : rune -> bool.
  Variable call : string -> list dval -> res dval.

  Notation NL := (node_nl p join_words).
  Notation Q := (quote is_print_hi).
  Notation eval := (eval p join_words float_string call).
  Notation fmr_eval := (fmr_eval float_string call).
  Notation arg_eval := (arg_eval float_string call).
  Notation semantic := (semantic p join_words float_string json is_print_hi call).
  Notation fmr_str := (fmr_str float_string json is_print_hi).
  Notation sem_str := (sem_str float_string json is_print_hi).
  Notation Sem := (Sem p join_words float_string json is_print_hi call).
  Notation FSem := (FSem p join_words float_string json is_print_hi call).
  Notation ASem := (ASem p join_words float_string json is_print_hi call).
  Notation ASems := (ASems p join_words float_string json is_print_hi call).
  Notation Ev := (Ev p join_words float_string call).
  Notation FEv := (FEv p join_words float_string call).
  Notation AEv := (AEv p join_words float_string call).
  Notation AEvs := (AEvs p join_words float_string call).
  Notation EvBad := (EvBad p join_words float_string call).
  Notation FEvBad := (FEvBad p join_words float_string call).
  Notation AEvBad := (AEvBad p join_words float_string call).

  Lemma fmr_str_eq nl sems ctx fn args :
    fmr_str nl sems ctx (FMR fn args) =
    if String.eqb fn "nf.I" then match args with [a] => sem_str nl sems ctx a | _ => Err end
    else (ss <- sequence (map (sem_str nl sems ctx) args) ;;
          Ret (fn ++ "(" ++ join ", " ss ++ ")")%string).
  Proof.
    cbn [ModelSem.fmr_str]. destruct (String.eqb fn "nf.I"); [reflexivity|].
    f_equal. induction args as [|a args IH]; [reflexivity|]. cbn [map sequence]. rewrite IH. reflexivity.
  Qed.

  Lemma fmr_eval_eq nl evs ctx fn args :
    fmr_eval nl evs ctx (FMR fn args) =
    if String.eqb fn "nf.I" then match args with [a] => arg_eval nl evs ctx a | _ => Err end
    else (vs <- sequence (map (arg_eval nl evs ctx) args) ;; call fn vs).
  Proof.
    cbn [ModelSem.fmr_eval]. destruct (String.eqb fn "nf.I"); [reflexivity|].
    f_equal. induction args as [|a args IH]; [reflexivity|]. cbn [map sequence]. rewrite IH. reflexivity.
  Qed.

  Lemma sem_malformed nl sems ctx a : malformed a -> sem_str nl sems ctx a = Err.
  Proof.
    destruct a as [ty v]. intros (H0 & H1 & H2 & H3 & H4 & H5). cbn [ModelSem.sem_str].
    destruct (String.eqb ty "string") eqn:E1.
    { apply eqb_yes in E1. specialize (H1 E1). destruct v; auto. exfalso. eapply H1; eauto. }
    destruct (String.eqb ty "int") eqn:E2.
    { apply eqb_yes in E2. specialize (H2 E2). destruct v; auto. exfalso. eapply H2; eauto. }
    destruct (String.eqb ty "float") eqn:E3.
    { apply eqb_yes in E3. specialize (H3 E3). destruct v; auto. exfalso. eapply H3; eauto. }
    destruct (String.eqb ty "func") eqn:E4.
    { apply eqb_yes in E4. specialize (H4 E4). destruct v; auto. exfalso. eapply H4; eauto. }
    destruct (String.eqb ty "index") eqn:E5.
    { apply eqb_yes in E5. specialize (H5 E5). destruct v; auto. exfalso. eapply H5; eauto. }
    destruct (String.eqb ty "context") eqn:E6; auto. apply eqb_yes in E6. congruence.
  Qed.

  Lemma eval_malformed nl evs ctx a : malformed a -> arg_eval nl evs ctx a = Err.
  Proof.
    destruct a as [ty v]. intros (H0 & H1 & H2 & H3 & H4 & H5). cbn [ModelSem.arg_eval].
    destruct (String.eqb ty "string") eqn:E1.
    { apply eqb_yes in E1. specialize (H1 E1). destruct v; auto. exfalso. eapply H1; eauto. }
    destruct (String.eqb ty "int") eqn:E2.
    { apply eqb_yes in E2. specialize (H2 E2). destruct v; auto. exfalso. eapply H2; eauto. }
    destruct (String.eqb ty "float") eqn:E3.
    { apply eqb_yes in E3. specialize (H3 E3). destruct v; auto. exfalso. eapply H3; eauto. }
    destruct (String.eqb ty "func") eqn:E4.
    { apply eqb_yes in E4. specialize (H4 E4). destruct v; auto. exfalso. eapply H4; eauto. }
    destruct (String.eqb ty "index") eqn:E5.
    { apply eqb_yes in E5. specialize (H5 E5). destruct v; auto. exfalso. eapply H5; eauto. }
    destruct (String.eqb ty "context") eqn:E6; auto. apply eqb_yes in E6. congruence.
  Qed.

  (** Indices: out of range, zero, or a child. *)
  Lemma index_cases (i : Z) (n : nat) :
    (i < 0 \/ Z.of_nat n < i)%Z \/ i = 0%Z \/ exists k, k < n /\ i = Z.of_nat (S k).
  Proof.
    destruct (Z.ltb_spec i 0); [left; lia|]. destruct (Z.ltb_spec (Z.of_nat n) i); [left; lia|].
    destruct (Z.eq_dec i 0); [right; left; auto|]. right; right. exists (Z.to_nat (i - 1)). lia.
  Qed.

  Lemma sem_index_bad nl sems ctx i : (i < 0 \/ Z.of_nat (length sems) < i)%Z ->
    sem_str nl sems ctx (Arg "index" (VIdx i)) = Err.
  Proof.
    intros H. cbn [ModelSem.sem_str String.eqb Ascii.eqb Bool.eqb].
    destruct (Z.ltb_spec i 0); [reflexivity|]. destruct (Z.ltb_spec (Z.of_nat (length sems)) i); [reflexivity|]. lia.
  Qed.
  Lemma sem_index_zero nl sems ctx : sem_str nl sems ctx (Arg "index" (VIdx 0)) = Ret nl.
  Proof.
    cbn [ModelSem.sem_str String.eqb Ascii.eqb Bool.eqb].
    destruct (Z.ltb_spec (Z.of_nat (length sems)) 0); [lia|]. reflexivity.
  Qed.
  Lemma sem_index_child nl sems ctx k c : nth_error sems k = Some c ->
    sem_str nl sems ctx (Arg "index" (VIdx (Z.of_nat (S k)))) =
    match c with None => Ret "null" | Some r => r end.
  Proof.
    intros H. assert (k < length sems) by (apply nth_error_Some; congruence).
    cbn [ModelSem.sem_str String.eqb Ascii.eqb Bool.eqb].
    destruct (Z.ltb_spec (Z.of_nat (S k)) 0); [lia|].
    destruct (Z.ltb_spec (Z.of_nat (length sems)) (Z.of_nat (S k))); [lia|]. cbn [orb].
    destruct (Z.eqb_spec (Z.of_nat (S k)) 0); [lia|].
    replace (Z.to_nat (Z.of_nat (S k) - 1)) with k by lia. unfold idx. rewrite H. reflexivity.
  Qed.

  Lemma eval_index_bad nl evs ctx i : (i < 0 \/ Z.of_nat (length evs) < i)%Z ->
    arg_eval nl evs ctx (Arg "index" (VIdx i)) = Err.
  Proof.
    intros H. cbn [ModelSem.arg_eval String.eqb Ascii.eqb Bool.eqb].
    destruct (Z.ltb_spec i 0); [reflexivity|]. destruct (Z.ltb_spec (Z.of_nat (length evs)) i); [reflexivity|]. lia.
  Qed.
  Lemma eval_index_zero nl evs ctx : arg_eval nl evs ctx (Arg "index" (VIdx 0)) = (t <- nl ;; Ret (DStr t)).
  Proof.
    cbn [ModelSem.arg_eval String.eqb Ascii.eqb Bool.eqb].
    destruct (Z.ltb_spec (Z.of_nat (length evs)) 0); [lia|]. reflexivity.
  Qed.
  Lemma eval_index_child nl evs ctx k e : nth_error evs k = Some e ->
    arg_eval nl evs ctx (Arg "index" (VIdx (Z.of_nat (S k)))) = e.
  Proof.
    intros H. assert (k < length evs) by (apply nth_error_Some; congruence).
    cbn [ModelSem.arg_eval String.eqb Ascii.eqb Bool.eqb].
    destruct (Z.ltb_spec (Z.of_nat (S k)) 0); [lia|].
    destruct (Z.ltb_spec (Z.of_nat (length evs)) (Z.of_nat (S k))); [lia|]. cbn [orb].
    destruct (Z.eqb_spec (Z.of_nat (S k)) 0); [lia|].
    replace (Z.to_nat (Z.of_nat (S k) - 1)) with k by lia. unfold idx. rewrite H. reflexivity.
  Qed.

  (** The children's results as the functions see them. *)
  Definition sems_of (n : node) := map (fun c => Some (semantic c)) (n_children n).
  Definition ctx_of (n : node) := context_value p n (n_children n) (map eval (n_children n)).

  Lemma semantic_eq n : semantic n =
    (t <- NL n ;;
     match function_of n with
     | None => Ret (Q t)
     | Some f => fmr_str (Q t) (sems_of n) (ctx_of n) f
     end).
  Proof.
    destruct n as [v ch]. cbn [ModelSem.semantic]. unfold function_of, sems_of, ctx_of. cbn [n_value n_children].
    destruct (NL (Node v ch)) as [t| | |]; cbn [bind]; auto.
    destruct (s_rb v) as [b|]; [|reflexivity]. destruct (rb_f b); reflexivity.
  Qed.

  Lemma eval_eq n : eval n =
    match function_of n with
    | None => (t <- original_text p n ;; Ret (DStr t))
    | Some f => fmr_eval (NL n) (map eval (n_children n)) (ctx_of n) f
    end.
  Proof.
    destruct n as [v ch]. cbn [ModelSem.eval]. unfold function_of, ctx_of. cbn [n_value n_children].
    destruct (s_rb v) as [b|]; [|reflexivity]. destruct (rb_f b); reflexivity.
  Qed.

  Lemma sems_nth n k c : nth_error (n_children n) k = Some c -> nth_error (sems_of n) k = Some (Some (semantic c)).
  Proof. intros H. unfold sems_of. rewrite nth_error_map, H. reflexivity. Qed.
  Lemma evs_nth n k c : nth_error (n_children n) k = Some c -> nth_error (map eval (n_children n)) k = Some (eval c).
  Proof. intros H. rewrite nth_error_map, H. reflexivity. Qed.

  (** ** Soundness of Semantic *)
  Lemma sem_str_sound n t a s :
    NL n = Ret t ->
    (forall c s, In c (n_children n) -> semantic c = Ret s -> Sem c s) ->
    (forall f s, a_value a = VFunc f -> fmr_str (Q t) (sems_of n) (ctx_of n) f = Ret s -> FSem n f s) ->
    sem_str (Q t) (sems_of n) (ctx_of n) a = Ret s -> ASem n a s.
  Proof.
    intros Hnl Hc Hf H. destruct (arg_forms a) as [F|F]; [|rewrite sem_malformed in H; [discriminate|auto]].
    destruct F.
    - cbn in H. injection H as <-. constructor.
    - cbn [ModelSem.sem_str String.eqb Ascii.eqb Bool.eqb] in H. injection H as <-. constructor.
    - cbn in H. injection H as <-. constructor.
    - constructor. apply Hf; auto.
    - destruct (index_cases i (length (sems_of n))) as [B|[->|(k & Hk & ->)]].
      + rewrite sem_index_bad in H; [discriminate|auto].
      + rewrite sem_index_zero in H. injection H as <-. constructor. auto.
      + destruct (nth_error (n_children n) k) as [c|] eqn:En.
        * rewrite (sem_index_child _ _ _ k _ (sems_nth _ _ _ En)) in H.
          econstructor; eauto. apply Hc; auto. eapply nth_error_In; eauto.
        * apply nth_error_None in En. unfold sems_of in Hk. rewrite map_length in Hk. lia.
    - cbn [ModelSem.sem_str String.eqb Ascii.eqb Bool.eqb] in H.
      destruct (ctx_of n) as [c| | |] eqn:Ec; try discriminate. cbn [bind] in H. injection H as <-.
      constructor. exact Ec.
  Qed.

  Lemma fmr_str_sound n t : NL n = Ret t ->
    (forall c s, In c (n_children n) -> semantic c = Ret s -> Sem c s) ->
    forall f s, fmr_str (Q t) (sems_of n) (ctx_of n) f = Ret s -> FSem n f s.
  Proof.
    intros Hnl Hc f. induction f as [fn args IH] using fmr_ind'. intros s H. rewrite fmr_str_eq in H.
    assert (forall a s, In a args -> sem_str (Q t) (sems_of n) (ctx_of n) a = Ret s -> ASem n a s) as Ha.
    { intros a s' Hin Hs. eapply sem_str_sound; eauto. intros f s'' Ef Hf.
      rewrite Forall_forall in IH. specialize (IH a Hin). rewrite Ef in IH. auto. }
    destruct (String.eqb fn "nf.I") eqn:E.
    - apply eqb_yes in E. subst fn. destruct args as [|a [|b args]]; try discriminate.
      constructor. apply Ha; auto. left; auto.
    - apply eqb_no in E.
      destruct (sequence _) as [ss| | |] eqn:Es; try discriminate. cbn [bind] in H. injection H as <-.
      constructor; auto. apply sequence_ret in Es. clear IH. revert ss Es.
      induction args as [|a args IHa]; intros ss F; cbn [map] in F; inversion F; subst; constructor; auto.
      + apply Ha; auto. left; auto.
      + apply IHa; auto. intros; apply Ha; auto. right; auto.
  Qed.

  Lemma semantic_sound n : forall s, semantic n = Ret s -> Sem n s.
  Proof.
    induction n as [v ch IH] using node_ind'. intros s H. rewrite semantic_eq in H.
    destruct (NL (Node v ch)) as [t| | |] eqn:Et; try discriminate. cbn [bind] in H.
    destruct (function_of (Node v ch)) as [f|] eqn:Ef.
    - eapply Sem_fun; eauto. eapply fmr_str_sound; eauto.
      cbn [n_children]. intros c s' Hc Hs. rewrite Forall_forall in IH. auto.
    - injection H as <-. constructor; auto.
  Qed.

  (** ** Completeness of Semantic *)
  Lemma semantic_complete :
    (forall n s, Sem n s -> semantic n = Ret s)
    /\ (forall n f s, FSem n f s -> forall t, NL n = Ret t -> fmr_str (Q t) (sems_of n) (ctx_of n) f = Ret s)
    /\ (forall n args ss, ASems n args ss -> forall t, NL n = Ret t ->
          sequence (map (sem_str (Q t) (sems_of n) (ctx_of n)) args) = Ret ss)
    /\ (forall n a s, ASem n a s -> forall t, NL n = Ret t -> sem_str (Q t) (sems_of n) (ctx_of n) a = Ret s).
  Proof.
    apply Sem_mutind.
    - intros n t Hf Hn. rewrite semantic_eq, Hn. cbn [bind]. rewrite Hf. reflexivity.
    - intros n f t s Hf Hn _ IH. rewrite semantic_eq, Hn. cbn [bind]. rewrite Hf. auto.
    - intros n a s _ IH t Ht. rewrite fmr_str_eq. rewrite String.eqb_refl. auto.
    - intros n fn args ss Hfn _ IH t Ht. rewrite fmr_str_eq. apply String.eqb_neq in Hfn. rewrite Hfn.
      rewrite (IH t Ht). reflexivity.
    - reflexivity.
    - intros n a args s ss _ IH _ IH' t Ht. cbn [map sequence]. rewrite (IH t Ht), (IH' t Ht). reflexivity.
    - reflexivity.
    - reflexivity.
    - reflexivity.
    - intros n f s _ IH t Ht. apply (IH t Ht).
    - intros n t Ht t' Ht'. rewrite sem_index_zero. congruence.
    - intros n k c s Hk _ IH t Ht. rewrite (sem_index_child _ _ _ k _ (sems_nth _ _ _ Hk)). exact IH.
    - intros n v c Hc t Ht. cbn [ModelSem.sem_str String.eqb Ascii.eqb Bool.eqb]. unfold ctx_of. rewrite Hc. reflexivity.
  Qed.

  Lemma semantic_iff n s : semantic n = Ret s <-> Sem n s.
  Proof. split; [apply semantic_sound|apply semantic_complete]. Qed.

  (** ** Failure of Semantic *)
  Lemma in_err_sequence {A} (l : list (res A)) : In Err l -> (forall r, In r l -> r <> Panic /\ r <> Fuel) -> sequence l = Err.
  Proof.
    intros Hi Hn. destruct (sequence_cases l Hn) as [[xs E]|E]; auto.
    apply sequence_ret in E. exfalso. clear Hn. induction E as [|r x l xs -> E IH]; [destruct Hi|].
    destruct Hi as [Hi|Hi]; [discriminate|auto].
  Qed.

  (** The texts of all nodes are available and no @ occurs: no panic. *)
  Definition readable (n : node) : Prop := forall m, part_of n m -> exists t, NL m = Ret t.
  Definition context_free (n : node) : Prop := forall m f, part_of n m -> function_of m = Some f -> no_context f.

  Lemma args_context n fn args : no_context (FMR fn args) \/ (exists c, ctx_of n = Ret c) ->
    Forall (fun a => no_context_arg a \/ (exists c, ctx_of n = Ret c)) args.
  Proof.
    intros [H|H]; apply Forall_forall; intros a Ha; [left|right; exact H].
    inversion H as [? ? Hargs]; subst. eapply Forall_forall; eauto.
  Qed.

  Lemma fmr_str_decides n t : NL n = Ret t ->
    (forall c, In c (n_children n) -> (exists s, semantic c = Ret s) \/ (semantic c = Err /\ SemBad c)) ->
    forall f, no_context f \/ (exists c, ctx_of n = Ret c) ->
      (exists s, fmr_str (Q t) (sems_of n) (ctx_of n) f = Ret s)
      \/ (fmr_str (Q t) (sems_of n) (ctx_of n) f = Err /\ FBad n f).
  Proof.
    intros Hnl Hc f. induction f as [fn args IH] using fmr_ind'. intros Hno. pose proof (args_context _ _ _ Hno) as Hargs.
    assert (forall a, In a args -> (exists s, sem_str (Q t) (sems_of n) (ctx_of n) a = Ret s)
              \/ (sem_str (Q t) (sems_of n) (ctx_of n) a = Err /\ ABad n a)) as Ha.
    { intros a Hin. rewrite Forall_forall in Hargs, IH. specialize (Hargs a Hin). specialize (IH a Hin).
      destruct (arg_forms a) as [F|F]; [|right; split; [apply sem_malformed; auto|constructor; auto]].
      destruct F.
      - left. eexists. reflexivity.
      - left. eexists. reflexivity.
      - left. eexists. reflexivity.
      - assert (no_context f \/ (exists c, ctx_of n = Ret c)) as Hf.
        { destruct Hargs as [Hargs|Hargs]; [left|right; exact Hargs]. inversion Hargs as [? ? Hnc Hf]; subst. exact (Hf f eq_refl eq_refl). }
        specialize (IH Hf).
        destruct IH as [[s Hs]|[Hs Hb]]; [left; exists s; exact Hs|right; split; [exact Hs|apply ab_func; auto]].
      - destruct (index_cases i (length (sems_of n))) as [B|[->|(k & Hk & ->)]].
        + right. split; [apply sem_index_bad; auto|]. apply ab_index. unfold sems_of in B. rewrite map_length in B. exact B.
        + left. rewrite sem_index_zero. eauto.
        + destruct (nth_error (n_children n) k) as [c|] eqn:En.
          * rewrite (sem_index_child _ _ _ k _ (sems_nth _ _ _ En)).
            destruct (Hc c (nth_error_In _ _ En)) as [[s Hs]|[Hs Hb]]; [left; eauto|].
            right. split; auto. eapply ab_child; eauto.
          * apply nth_error_None in En. unfold sems_of in Hk. rewrite map_length in Hk. lia.
      - destruct Hargs as [Hargs|[c Hx]]; [inversion Hargs; congruence|]. left. exists (json c).
        cbn [ModelSem.sem_str String.eqb Ascii.eqb Bool.eqb]. rewrite Hx. reflexivity. }
    rewrite fmr_str_eq. destruct (String.eqb fn "nf.I") eqn:E.
    - apply eqb_yes in E. subst fn. destruct args as [|a [|b args]].
      + right. split; auto. apply fb_identity. discriminate.
      + destruct (Ha a (or_introl eq_refl)) as [[s Hs]|[Hs Hb]]; [left; eauto|].
        right. split; auto. eapply fb_arg; [left; reflexivity|auto].
      + right. split; auto. apply fb_identity. discriminate.
    - destruct (sequence_cases (map (sem_str (Q t) (sems_of n) (ctx_of n)) args)) as [[ss Hs]|Hs].
      + intros r Hr. apply in_map_iff in Hr as (a & <- & Hin).
        destruct (Ha a Hin) as [[s ->]|[-> _]]; split; discriminate.
      + left. rewrite Hs. eexists. reflexivity.
      + right. rewrite Hs. split; [reflexivity|].
        apply sequence_err in Hs. apply in_map_iff in Hs as (a & Hs & Hin).
        destruct (Ha a Hin) as [[s Hs']|[_ Hb]]; [congruence|]. eapply fb_arg; eauto.
  Qed.

  Lemma part_child v ch c m : In c ch -> part_of c m -> part_of (Node v ch) m.
  Proof. apply po_kid. Qed.

  Lemma semantic_decides n : readable n -> context_free n ->
    (exists s, semantic n = Ret s) \/ (semantic n = Err /\ SemBad n).
  Proof.
    induction n as [v ch IH] using node_ind'. intros Hr Hcf.
    destruct (Hr (Node v ch) (po_self _)) as [t Ht].
    rewrite semantic_eq, Ht. cbn [bind].
    destruct (function_of (Node v ch)) as [f|] eqn:Ef; [|left; eauto].
    destruct (fmr_str_decides (Node v ch) t Ht) with (f := f) as [[s Hs]|[Hs Hb]]; auto.
    - cbn [n_children]. intros c Hin. rewrite Forall_forall in IH. apply IH; auto.
      + intros m Hm. apply Hr. eapply po_kid; eauto.
      + intros m g Hm. apply Hcf. eapply po_kid; eauto.
    - left. eapply Hcf; eauto. constructor.
    - left. eauto.
    - right. split; auto. econstructor; eauto.
  Qed.

  (** A bad part excludes a result. *)
  Lemma bad_not_sem :
    (forall n, SemBad n -> forall s, ~ Sem n s)
    /\ (forall n f, FBad n f -> forall s, ~ FSem n f s)
    /\ (forall n a, ABad n a -> forall s, ~ ASem n a s).
  Proof.
    apply SemBad_mutind.
    - intros n f Hf _ IH s H. inversion H; subst; [congruence|]. rewrite Hf in H0. injection H0 as <-. eapply IH; eauto.
    - intros n args Hl s H. inversion H; subst; simpl in *; [lia|congruence].
    - intros n fn args a Hin _ IH s H. inversion H; subst.
      + destruct Hin as [->|[]]. eapply IH; eauto.
      + match goal with X : SpecSem.ASems _ _ _ _ _ _ _ _ _ |- _ => rename X into Ha end.
        clear H. induction Ha as [|n a' args s ss Ha Has IHa]; [destruct Hin|].
        destruct Hin as [->|Hin]; [eapply IH; eauto|auto].
    - intros n [ty v] (H0 & H1 & H2 & H3 & H4 & H5) s H. inversion H; subst;
        solve [exact (H0 eq_refl)|exact (H1 eq_refl _ eq_refl)|exact (H2 eq_refl _ eq_refl)|exact (H3 eq_refl _ eq_refl)
              |exact (H4 eq_refl _ eq_refl)|exact (H5 eq_refl _ eq_refl)].
    - intros n i Hi s H. inversion H; subst; try lia.
      match goal with E : nth_error _ _ = Some _ |- _ =>
        assert (nth_error (n_children n) k <> None) as Hx by congruence; apply nth_error_Some in Hx; lia end.
    - intros n f _ IH s H. inversion H; subst. eapply IH; eauto.
    - intros n k c Hk _ IH s H. remember (Z.of_nat (S k)) as z eqn:Ez. inversion H; subst; try lia.
      match goal with X : nth_error (n_children n) ?k0 = Some ?c0, Y : _ c0 s |- _ =>
        replace k0 with k in X by lia; rewrite Hk in X; injection X as <-; exact (IH _ Y) end.
  Qed.

  Lemma semantic_fails_iff n : readable n -> context_free n -> (semantic n = Err <-> SemBad n).
  Proof.
    intros Hr Hc. destruct (semantic_decides n Hr Hc) as [[s Hs]|[Hs Hb]]; [|tauto].
    split; [congruence|]. intros Hb. exfalso. apply semantic_iff in Hs. exact (proj1 bad_not_sem n Hb s Hs).
  Qed.

  (** ** The same for Eval *)
  Lemma arg_eval_sound n a v :
    (forall c v, In c (n_children n) -> eval c = Ret v -> Ev c v) ->
    (forall f v, a_value a = VFunc f -> fmr_eval (NL n) (map eval (n_children n)) (ctx_of n) f = Ret v -> FEv n f v) ->
    arg_eval (NL n) (map eval (n_children n)) (ctx_of n) a = Ret v -> AEv n a v.
  Proof.
    intros Hc Hf H. destruct (arg_forms a) as [F|F]; [|rewrite eval_malformed in H; [discriminate|auto]].
    destruct F.
    - cbn in H. injection H as <-. constructor.
    - cbn [ModelSem.arg_eval String.eqb Ascii.eqb Bool.eqb] in H. injection H as <-. constructor.
    - cbn in H. injection H as <-. constructor.
    - constructor. apply Hf; auto.
    - destruct (index_cases i (length (map eval (n_children n)))) as [B|[->|(k & Hk & ->)]].
      + rewrite eval_index_bad in H; [discriminate|auto].
      + rewrite eval_index_zero in H. destruct (NL n) as [t| | |] eqn:Et; try discriminate.
        cbn [bind] in H. injection H as <-. constructor. auto.
      + destruct (nth_error (n_children n) k) as [c|] eqn:En.
        * rewrite (eval_index_child _ _ _ k _ (evs_nth _ _ _ En)) in H.
          econstructor; eauto. apply Hc; auto. eapply nth_error_In; eauto.
        * apply nth_error_None in En. rewrite map_length in Hk. lia.
    - cbn [ModelSem.arg_eval String.eqb Ascii.eqb Bool.eqb] in H. constructor. exact H.
  Qed.

  Lemma fmr_eval_sound n :
    (forall c v, In c (n_children n) -> eval c = Ret v -> Ev c v) ->
    forall f v, fmr_eval (NL n) (map eval (n_children n)) (ctx_of n) f = Ret v -> FEv n f v.
  Proof.
    intros Hc f. induction f as [fn args IH] using fmr_ind'. intros v H. rewrite fmr_eval_eq in H.
    assert (forall a v, In a args -> arg_eval (NL n) (map eval (n_children n)) (ctx_of n) a = Ret v -> AEv n a v) as Ha.
    { intros a s' Hin Hs. eapply arg_eval_sound; eauto. intros f s'' Ef Hf.
      rewrite Forall_forall in IH. specialize (IH a Hin). rewrite Ef in IH. auto. }
    destruct (String.eqb fn "nf.I") eqn:E.
    - apply eqb_yes in E. subst fn. destruct args as [|a [|b args]]; try discriminate.
      constructor. apply Ha; auto. left; auto.
    - apply eqb_no in E.
      destruct (sequence _) as [vs| | |] eqn:Es; try discriminate. cbn [bind] in H.
      apply FE_call with (vs := vs); auto. apply sequence_ret in Es. clear IH H. revert vs Es.
      induction args as [|a args IHa]; intros ss F; cbn [map] in F; inversion F; subst; constructor; auto.
      + apply Ha; auto. left; auto.
      + apply IHa; auto. intros; apply Ha; auto. right; auto.
  Qed.

  Lemma eval_sound n : forall v, eval n = Ret v -> Ev n v.
  Proof.
    induction n as [v ch IH] using node_ind'. intros u H. rewrite eval_eq in H.
    destruct (function_of (Node v ch)) as [f|] eqn:Ef.
    - eapply Ev_fun; eauto. eapply fmr_eval_sound; eauto.
      cbn [n_children]. intros c s' Hc Hs. rewrite Forall_forall in IH. auto.
    - destruct (original_text p (Node v ch)) as [t| | |] eqn:Et; try discriminate. cbn [bind] in H.
      injection H as <-. constructor; auto.
  Qed.

  Lemma eval_complete :
    (forall n v, Ev n v -> eval n = Ret v)
    /\ (forall n f v, FEv n f v -> fmr_eval (NL n) (map eval (n_children n)) (ctx_of n) f = Ret v)
    /\ (forall n args vs, AEvs n args vs ->
          sequence (map (arg_eval (NL n) (map eval (n_children n)) (ctx_of n)) args) = Ret vs)
    /\ (forall n a v, AEv n a v -> arg_eval (NL n) (map eval (n_children n)) (ctx_of n) a = Ret v).
  Proof.
    apply Ev_mutind.
    - intros n t Hf Hn. rewrite eval_eq, Hf, Hn. reflexivity.
    - intros n f v Hf _ IH. rewrite eval_eq, Hf. auto.
    - intros n a v _ IH. rewrite fmr_eval_eq. rewrite String.eqb_refl. auto.
    - intros n fn args vs v Hfn _ IH Hcall. rewrite fmr_eval_eq. apply String.eqb_neq in Hfn. rewrite Hfn.
      rewrite IH. exact Hcall.
    - reflexivity.
    - intros n a args v vs _ IH _ IH'. cbn [map sequence]. rewrite IH, IH'. reflexivity.
    - reflexivity.
    - reflexivity.
    - reflexivity.
    - intros n f v _ IH. apply IH.
    - intros n t Ht. rewrite eval_index_zero, Ht. reflexivity.
    - intros n k c v Hk _ IH. rewrite (eval_index_child _ _ _ k _ (evs_nth _ _ _ Hk)). exact IH.
    - intros n u c Hc. cbn [ModelSem.arg_eval String.eqb Ascii.eqb Bool.eqb]. unfold ctx_of. exact Hc.
  Qed.

  Lemma eval_iff n v : eval n = Ret v <-> Ev n v.
  Proof. split; [apply eval_sound|apply eval_complete]. Qed.

  (** The texts of all nodes can be sliced, functions return or fail. *)
  Definition sliceable (n : node) : Prop := forall m, part_of n m -> exists t, original_text p m = Ret t.
  Definition call_returns : Prop := forall fn vs, call fn vs <> Panic /\ call fn vs <> Fuel.

  Lemma fmr_eval_decides n t : NL n = Ret t -> call_returns ->
    (forall c, In c (n_children n) -> (exists s, eval c = Ret s) \/ (eval c = Err /\ EvBad c)) ->
    forall f, no_context f \/ (exists c, ctx_of n = Ret c) ->
      (exists s, fmr_eval (NL n) (map eval (n_children n)) (ctx_of n) f = Ret s)
      \/ (fmr_eval (NL n) (map eval (n_children n)) (ctx_of n) f = Err /\ FEvBad n f).
  Proof.
    intros Hnl Hcall Hc f. induction f as [fn args IH] using fmr_ind'. intros Hno. pose proof (args_context _ _ _ Hno) as Hargs.
    assert (forall a, In a args -> (exists s, arg_eval (NL n) (map eval (n_children n)) (ctx_of n) a = Ret s)
              \/ (arg_eval (NL n) (map eval (n_children n)) (ctx_of n) a = Err /\ AEvBad n a)) as Ha.
    { intros a Hin. rewrite Forall_forall in Hargs, IH. specialize (Hargs a Hin). specialize (IH a Hin).
      destruct (arg_forms a) as [F|F]; [|right; split; [apply eval_malformed; auto|constructor; auto]].
      destruct F.
      - left. eexists. reflexivity.
      - left. eexists. reflexivity.
      - left. eexists. reflexivity.
      - assert (no_context f \/ (exists c, ctx_of n = Ret c)) as Hf.
        { destruct Hargs as [Hargs|Hargs]; [left|right; exact Hargs]. inversion Hargs as [? ? Hnc Hf]; subst. exact (Hf f eq_refl eq_refl). }
        specialize (IH Hf).
        destruct IH as [[s Hs]|[Hs Hb]]; [left; exists s; exact Hs|right; split; [exact Hs|apply aeb_func; auto]].
      - destruct (index_cases i (length (map eval (n_children n)))) as [B|[->|(k & Hk & ->)]].
        + right. split; [apply eval_index_bad; auto|]. apply aeb_index. rewrite map_length in B. exact B.
        + left. rewrite eval_index_zero, Hnl. eexists. reflexivity.
        + destruct (nth_error (n_children n) k) as [c|] eqn:En.
          * rewrite (eval_index_child _ _ _ k _ (evs_nth _ _ _ En)).
            destruct (Hc c (nth_error_In _ _ En)) as [[s Hs]|[Hs Hb]]; [left; eauto|].
            right. split; auto. eapply aeb_child; eauto.
          * apply nth_error_None in En. rewrite map_length in Hk. lia.
      - destruct Hargs as [Hargs|[c Hx]]; [inversion Hargs; congruence|]. left. exists c. exact Hx. }
    rewrite fmr_eval_eq. destruct (String.eqb fn "nf.I") eqn:E.
    - apply eqb_yes in E. subst fn. destruct args as [|a [|b args]].
      + right. split; auto. apply feb_identity. discriminate.
      + destruct (Ha a (or_introl eq_refl)) as [[s Hs]|[Hs Hb]]; [left; eauto|].
        right. split; auto. eapply feb_arg; [left; reflexivity|auto].
      + right. split; auto. apply feb_identity. discriminate.
    - destruct (sequence_cases (map (arg_eval (NL n) (map eval (n_children n)) (ctx_of n)) args)) as [[ss Hs]|Hs].
      + intros r Hr. apply in_map_iff in Hr as (a & <- & Hin).
        destruct (Ha a Hin) as [[s ->]|[-> _]]; split; discriminate.
      + rewrite Hs. cbn [bind]. destruct (call fn ss) as [v| | |] eqn:Ev.
        * left. eauto.
        * right. split; auto. apply feb_call with (vs := ss); auto; [apply eqb_no; auto|].
          apply sequence_ret in Hs. clear IH Hno Hargs Ev. revert ss Hs. induction args as [|a args IHa]; intros ss Hs;
            cbn [map] in Hs; inversion Hs; subst; constructor.
          -- eapply arg_eval_sound; eauto.
             ++ intros c u Hin Hu. apply eval_sound; auto.
             ++ intros f u _ Hu. eapply fmr_eval_sound; eauto. intros; apply eval_sound; auto.
          -- apply IHa; auto. intros; apply Ha; right; auto.
        * destruct (Hcall fn ss); congruence.
        * destruct (Hcall fn ss); congruence.
      + right. rewrite Hs. split; [reflexivity|].
        apply sequence_err in Hs. apply in_map_iff in Hs as (a & Hs & Hin).
        destruct (Ha a Hin) as [[s Hs']|[_ Hb]]; [congruence|]. eapply feb_arg; eauto.
  Qed.

  Lemma eval_decides n : readable n -> sliceable n -> context_free n -> call_returns ->
    (exists s, eval n = Ret s) \/ (eval n = Err /\ EvBad n).
  Proof.
    induction n as [v ch IH] using node_ind'. intros Hr Hs Hcf Hcall.
    destruct (Hr (Node v ch) (po_self _)) as [t Ht]. destruct (Hs (Node v ch) (po_self _)) as [u Hu].
    rewrite eval_eq. destruct (function_of (Node v ch)) as [f|] eqn:Ef.
    - destruct (fmr_eval_decides (Node v ch) t Ht Hcall) with (f := f) as [[s Hx]|[Hx Hb]]; auto.
      + cbn [n_children]. intros c Hin. rewrite Forall_forall in IH. apply IH; auto.
        * intros m Hm. apply Hr. eapply po_kid; eauto.
        * intros m Hm. apply Hs. eapply po_kid; eauto.
        * intros m g Hm. apply Hcf. eapply po_kid; eauto.
      + left. eapply Hcf; eauto. constructor.
      + left. eauto.
      + right. split; auto. econstructor; eauto.
    - left. rewrite Hu. eexists. reflexivity.
  Qed.

  Lemma AEvs_fun n args vs vs' : AEvs n args vs -> AEvs n args vs' -> vs = vs'.
  Proof.
    intros H H'. apply eval_complete in H, H'. congruence.
  Qed.

  Lemma bad_not_ev :
    (forall n, EvBad n -> forall s, ~ Ev n s)
    /\ (forall n f, FEvBad n f -> forall s, ~ FEv n f s)
    /\ (forall n a, AEvBad n a -> forall s, ~ AEv n a s).
  Proof.
    apply EvBad_mutind.
    - intros n f Hf _ IH s H. inversion H; subst; [congruence|]. rewrite Hf in H0. injection H0 as <-. eapply IH; eauto.
    - intros n args Hl s H. inversion H; subst; simpl in *; [lia|congruence].
    - intros n fn args a Hin _ IH s H. inversion H; subst.
      + destruct Hin as [->|[]]. eapply IH; eauto.
      + match goal with X : SpecSem.AEvs _ _ _ _ _ _ _ |- _ => rename X into Ha end.
        clear H. match goal with E : call _ _ = Ret _ |- _ => clear E end.
        induction Ha as [|n a' args v vs Ha Has IHa]; [destruct Hin|].
        destruct Hin as [->|Hin]; [eapply IH; eauto|auto].
    - intros n fn args vs Hfn Ha Hc s H. inversion H; subst; [congruence|].
      match goal with X : SpecSem.AEvs _ _ _ _ _ _ ?v, Y : call fn ?v = Ret _ |- _ => rename X into Ha' end.
      rewrite (AEvs_fun _ _ _ _ Ha Ha') in Hc. congruence.
    - intros n [ty v] (H0 & H1 & H2 & H3 & H4 & H5) s H. inversion H; subst;
        solve [exact (H0 eq_refl)|exact (H1 eq_refl _ eq_refl)|exact (H2 eq_refl _ eq_refl)|exact (H3 eq_refl _ eq_refl)
              |exact (H4 eq_refl _ eq_refl)|exact (H5 eq_refl _ eq_refl)].
    - intros n i Hi s H. inversion H; subst; try lia.
      match goal with E : nth_error _ _ = Some _ |- _ =>
        assert (nth_error (n_children n) k <> None) as Hx by congruence; apply nth_error_Some in Hx; lia end.
    - intros n f _ IH s H. inversion H; subst. eapply IH; eauto.
    - intros n k c Hk _ IH s H. remember (Z.of_nat (S k)) as z eqn:Ez. inversion H; subst; try lia.
      match goal with X : nth_error (n_children n) ?k0 = Some ?c0, Y : _ c0 s |- _ =>
        replace k0 with k in X by lia; rewrite Hk in X; injection X as <-; exact (IH _ Y) end.
  Qed.

  Lemma eval_fails_iff n : readable n -> sliceable n -> context_free n -> call_returns ->
    (eval n = Err <-> EvBad n).
  Proof.
    intros Hr Hs Hc Hcall. destruct (eval_decides n Hr Hs Hc Hcall) as [[v Hv]|[Hv Hb]]; [|tauto].
    split; [congruence|]. intros Hb. exfalso. apply eval_iff in Hv. exact (proj1 bad_not_ev n Hb v Hv).
  Qed.

  (** ** With @: all labels are readable *)
  Definition labelled (n : node) : Prop := forall m, part_of n m -> t_value (s_term (n_value m)) <> GammaRule.

  Lemma labelled_term n : t_value (s_term (n_value n)) <> GammaRule -> node_term n = Ret (s_term (n_value n)).
  Proof. intros H. unfold node_term. rewrite (proj2 (String.eqb_neq _ _) H). reflexivity. Qed.

  Lemma context_returns n : sliceable n -> labelled n ->
    (forall c, In c (n_children n) -> (exists s, eval c = Ret s) \/ (eval c = Err)) ->
    exists c, ctx_of n = Ret c.
  Proof.
    intros Hs Hl Hc. unfold ctx_of, context_value.
    assert (exists l, context_nodes p (n_children n) (map eval (n_children n)) = Ret l) as [l ->].
    { assert (forall c, In c (n_children n) -> (exists t, original_text p c = Ret t) /\ t_value (s_term (n_value c)) <> GammaRule) as Hk.
      { intros c Hin. split; [apply Hs|apply Hl]; destruct n as [v ch]; eapply po_kid; [exact Hin|constructor|exact Hin|constructor]. }
      clear Hs Hl. induction (n_children n) as [|c ch IH]; [exists []; reflexivity|].
      destruct IH as [l Hl]; [intros; apply Hc; right; auto|intros; apply Hk; right; auto|].
      destruct (Hk c (or_introl eq_refl)) as [[t Ht] Hg].
      cbn [map context_nodes]. rewrite (labelled_term c Hg), Hl, Ht.
      destruct (Hc c (or_introl eq_refl)) as [[s ->]| ->]; eexists; reflexivity. }
    cbn [bind]. destruct (Hs n (po_self _)) as [t Ht]. rewrite Ht. cbn [bind].
    rewrite (labelled_term n (Hl n (po_self _))).
    unfold original_text in Ht. destruct (node_pos p n) as [[a b]| | |]; try discriminate. cbn [bind].
    eexists. reflexivity.
  Qed.

  Lemma eval_decides_at n : readable n -> sliceable n -> labelled n -> call_returns ->
    (exists s, eval n = Ret s) \/ (eval n = Err /\ EvBad n).
  Proof.
    induction n as [v ch IH] using node_ind'. intros Hr Hs Hl Hcall.
    destruct (Hr (Node v ch) (po_self _)) as [t Ht]. destruct (Hs (Node v ch) (po_self _)) as [u Hu].
    assert (forall c, In c ch -> (exists s, eval c = Ret s) \/ (eval c = Err /\ EvBad c)) as Hk.
    { intros c Hin. rewrite Forall_forall in IH. apply IH; auto; intros m Hm;
        [apply Hr|apply Hs|apply Hl]; eapply po_kid; eauto. }
    rewrite eval_eq. destruct (function_of (Node v ch)) as [f|] eqn:Ef.
    - destruct (fmr_eval_decides (Node v ch) t Ht Hcall) with (f := f) as [[s Hx]|[Hx Hb]]; auto.
      + right. apply context_returns; auto. intros c Hin. destruct (Hk c Hin) as [H|[H _]]; auto.
      + left. eauto.
      + right. split; auto. econstructor; eauto.
    - left. rewrite Hu. eexists. reflexivity.
  Qed.

  Lemma eval_fails_at n : readable n -> sliceable n -> labelled n -> call_returns ->
    (eval n = Err <-> EvBad n).
  Proof.
    intros Hr Hs Hc Hcall. destruct (eval_decides_at n Hr Hs Hc Hcall) as [[v Hv]|[Hv Hb]]; [|tauto].
    split; [congruence|]. intros Hb. exfalso. apply eval_iff in Hv. exact (proj1 bad_not_ev n Hb v Hv).
  Qed.

  Lemma semantic_decides_at n : readable n -> sliceable n -> labelled n -> call_returns ->
    (exists s, semantic n = Ret s) \/ (semantic n = Err /\ SemBad n).
  Proof.
    induction n as [v ch IH] using node_ind'. intros Hr Hs Hl Hcall.
    destruct (Hr (Node v ch) (po_self _)) as [t Ht].
    rewrite semantic_eq, Ht. cbn [bind].
    destruct (function_of (Node v ch)) as [f|] eqn:Ef; [|left; eauto].
    destruct (fmr_str_decides (Node v ch) t Ht) with (f := f) as [[s Hx]|[Hx Hb]]; auto.
    - cbn [n_children]. intros c Hin. rewrite Forall_forall in IH. apply IH; auto; intros m Hm;
        [apply Hr|apply Hs|apply Hl]; eapply po_kid; eauto.
    - right. apply context_returns; auto. cbn [n_children]. intros c Hin.
      destruct (eval_decides_at c) as [H|[H _]]; auto; intros m Hm;
        [apply Hr|apply Hs|apply Hl]; eapply po_kid; eauto.
    - left. eauto.
    - right. split; auto. econstructor; eauto.
  Qed.

  Lemma semantic_fails_at n : readable n -> sliceable n -> labelled n -> call_returns ->
    (semantic n = Err <-> SemBad n).
  Proof.
    intros Hr Hs Hc Hcall. destruct (semantic_decides_at n Hr Hs Hc Hcall) as [[v Hv]|[Hv Hb]]; [|tauto].
    split; [congruence|]. intros Hb. exfalso. apply semantic_iff in Hv. exact (proj1 bad_not_sem n Hb v Hv).
  Qed.

  (** ** Children that are not referenced do not matter *)
  Lemma fmr_eval_used nl evs evs' ctx ctx' : length evs = length evs' ->
    forall f, no_context f ->
    (forall k, uses f (Z.of_nat (S k)) -> nth_error evs k = nth_error evs' k) ->
    fmr_eval nl evs ctx f = fmr_eval nl evs' ctx' f.
  Proof.
    intros Hl f. induction f as [fn args IH] using fmr_ind'. intros Hno Hu. inversion Hno as [? ? Hargs]; subst.
    assert (forall a, In a args -> arg_eval nl evs ctx a = arg_eval nl evs' ctx' a) as Ha.
    { intros a Hin. rewrite Forall_forall in Hargs, IH. specialize (Hargs a Hin). specialize (IH a Hin).
      destruct (arg_forms a) as [F|F]; [|rewrite !eval_malformed; auto].
      destruct F; try reflexivity.
      - inversion Hargs as [? ? Hnc Hf]; subst. apply IH; auto. intros k Hk. apply Hu. eapply u_func; eauto.
      - destruct (index_cases i (length evs)) as [B|[->|(k & Hk & ->)]].
        + rewrite !eval_index_bad; auto. rewrite <- Hl. auto.
        + rewrite !eval_index_zero. reflexivity.
        + destruct (nth_error evs k) as [e|] eqn:En; [|apply nth_error_None in En; lia].
          rewrite (eval_index_child _ _ _ k e En).
          rewrite (eval_index_child _ _ _ k e); auto. rewrite <- En. symmetry. apply Hu. constructor. exact Hin.
      - inversion Hargs; congruence. }
    rewrite !fmr_eval_eq. destruct (String.eqb fn "nf.I").
    - destruct args as [|a [|b args]]; auto. apply Ha. left; auto.
    - f_equal. f_equal. apply map_ext_in. exact Ha.
  Qed.

  Lemma eval_unused v ch ch' f : function_of (Node v ch) = Some f -> no_context f ->
    length ch = length ch' ->
    (forall k, uses f (Z.of_nat (S k)) -> nth_error ch k = nth_error ch' k) ->
    eval (Node v ch) = eval (Node v ch').
  Proof.
    intros Hf Hno Hl Hu. rewrite !eval_eq.
    replace (function_of (Node v ch')) with (function_of (Node v ch)) by reflexivity. rewrite Hf.
    replace (NL (Node v ch')) with (NL (Node v ch)) by reflexivity.
    apply fmr_eval_used; auto.
    - cbn [n_children]. rewrite !map_length. exact Hl.
    - intros k Hk. cbn [n_children]. rewrite !nth_error_map. rewrite Hu; auto.
  Qed.

  (** ** Functions that cannot fail *)
  Lemma fun_ok_no_context n : forall f, fun_ok n f -> no_context f.
  Proof.
    intros f. induction f as [fn args IH] using fmr_ind'. intros H. inversion H as [? ? _ Ha]; subst.
    constructor. rewrite Forall_forall in *. intros a Hin. specialize (IH a Hin). specialize (Ha a Hin).
    inversion Ha; subst; constructor; try discriminate; intros; try discriminate.
    match goal with E : VFunc _ = VFunc _ |- _ => injection E as <- end. auto.
  Qed.

  Lemma fun_ok_str n nl sems ctx : length sems = n -> (forall r, In r sems -> r = None \/ exists s, r = Some (Ret s)) ->
    forall f, fun_ok n f -> exists s, fmr_str nl sems ctx f = Ret s.
  Proof.
    intros Hl Hs f. induction f as [fn args IH] using fmr_ind'. intros H. inversion H as [? ? Hi Ha]; subst.
    assert (forall a, In a args -> exists s, sem_str nl sems ctx a = Ret s) as Hargs.
    { intros a Hin. rewrite Forall_forall in *. specialize (IH a Hin). specialize (Ha a Hin).
      inversion Ha; subst; try (eexists; reflexivity).
      - destruct (index_cases i (length sems)) as [B|[->|(k & Hk & ->)]]; [lia| |].
        + rewrite sem_index_zero. eauto.
        + destruct (nth_error sems k) as [c|] eqn:En; [|apply nth_error_None in En; lia].
          rewrite (sem_index_child _ _ _ k c En).
          destruct (Hs c (nth_error_In _ _ En)) as [->|[s ->]]; eauto.
      - apply IH; auto. }
    rewrite fmr_str_eq. destruct (String.eqb fn "nf.I") eqn:E.
    - apply eqb_yes in E. specialize (Hi E). destruct args as [|a [|b args]]; simpl in Hi; try discriminate.
      apply Hargs. left; auto.
    - assert (exists ss, sequence (map (sem_str nl sems ctx) args) = Ret ss) as [ss ->]; [|eexists; reflexivity].
      clear -Hargs. induction args as [|a args IH]; [eexists; reflexivity|].
      destruct (Hargs a (or_introl eq_refl)) as [s Hs]. destruct IH as [ss Hss]; [intros; apply Hargs; right; auto|].
      exists (s :: ss). cbn [map sequence]. rewrite Hs, Hss. reflexivity.
  Qed.

  Lemma semantic_total n : readable n ->
    (forall m f, part_of n m -> function_of m = Some f -> fun_ok (length (n_children m)) f) ->
    exists s, semantic n = Ret s.
  Proof.
    induction n as [v ch IH] using node_ind'. intros Hr Hf.
    destruct (Hr (Node v ch) (po_self _)) as [t Ht].
    rewrite semantic_eq, Ht. cbn [bind].
    destruct (function_of (Node v ch)) as [f|] eqn:Ef; [|eauto].
    apply fun_ok_str with (n := length ch).
    - unfold sems_of. cbn [n_children]. apply map_length.
    - intros r Hin. unfold sems_of in Hin. cbn [n_children] in Hin. apply in_map_iff in Hin as (c & <- & Hc).
      right. rewrite Forall_forall in IH. destruct (IH c Hc) as [s ->]; eauto.
      + intros m Hm. apply Hr. eapply po_kid; eauto.
      + intros m g Hm. apply Hf. eapply po_kid; eauto.
    - apply (Hf (Node v ch)); auto. constructor.
  Qed.
End Sem.
