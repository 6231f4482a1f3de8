(** Lemmas on messages: the model with messages does the same as the model without them;
    which message Eval and Semantic return. *)
From Verif Require Import Base ModelTypes ModelText ModelQuote ModelEarley ModelTrees ModelApi ModelSem
  ModelReader ModelGrammar ModelLocal ModelFrames ModelContext ModelTermType ModelMessages SpecGrammar SpecSem SpecText SpecMessages
  ProofEqual ProofSem.
Local Open Scope list_scope.

(** ** Erasing messages *)
Lemma erase_bind {A B} (x : told A) (f : A -> told B) : erase (tbind x f) = bind (erase x) (fun a => erase (f a)).
Proof. destruct x; reflexivity. Qed.
Lemma erase_with {A} m (x : res A) : erase (with_message m x) = x.
Proof. destruct x; reflexivity. Qed.
Lemma erase_none {A} (x : res A) : erase (no_error x) = x.
Proof. apply erase_with. Qed.
Lemma bind_ext {A B} (x : res A) (f g : A -> res B) : (forall a, f a = g a) -> bind x f = bind x g.
Proof. intros H. destruct x; cbn [bind]; auto. Qed.
Lemma erase_gives {A} (x : told A) a : erase x = Ret a <-> x = Gives a.
Proof. destruct x; cbn; split; intros H; congruence. Qed.
Lemma erase_refuses {A} (x : told A) : erase x = Err <-> exists m, x = Refuses m.
Proof. destruct x; cbn; split; intros H; try discriminate; try (destruct H; discriminate); eauto. Qed.
Lemma erase_idx {A} (l : list (told A)) k : bind (idx (map erase l) k) (fun e => e) = erase (tbind (no_error (idx l k)) (fun e => e)).
Proof.
  unfold idx. rewrite nth_error_map. destruct (nth_error l k) as [t|]; reflexivity.
Qed.

Lemma erase_sequence {A} (l : list (told A)) : erase (sequence_m l) = sequence (map erase l).
Proof.
  induction l as [|r l IH]; [reflexivity|]. cbn [sequence_m map sequence]. rewrite erase_bind. apply bind_ext. intros a.
  rewrite erase_bind, IH. apply bind_ext. intros b. reflexivity.
Qed.
Lemma sequence_refuses {A} (l : list (told A)) m : sequence_m l = Refuses m <->
  exists l1 l2 vs, l = l1 ++ Refuses m :: l2 /\ Forall2 (fun r v => r = Gives v) l1 vs.
Proof.
  split.
  - induction l as [|r l IH]; cbn [sequence_m]; [discriminate|]. destruct r as [a|m'| |]; cbn [tbind]; intros H; try discriminate H.
    + destruct (sequence_m l) as [b|m'| |]; cbn [tbind] in H; try discriminate H.
      destruct (IH H) as (l1 & l2 & vs & -> & F). exists (Gives a :: l1), l2, (a :: vs). split; [reflexivity|]. constructor; auto.
    + injection H as ->. exists [], l, []. split; [reflexivity|constructor].
  - intros (l1 & l2 & vs & -> & F). revert vs F. induction l1 as [|r l1 IH]; intros vs F; inversion F; subst; [reflexivity|].
    cbn [app sequence_m tbind]. erewrite IH by eassumption. reflexivity.
Qed.

(** ** Things that return no error *)
Lemma idx_no_err {A} (l : list A) k : idx l k <> Err.
Proof. unfold idx. destruct (nth_error l k); discriminate. Qed.
Lemma bind_no_err {A B} (x : res A) (f : A -> res B) : x <> Err -> (forall a, f a <> Err) -> bind x f <> Err.
Proof. intros H1 H2. destruct x; cbn [bind]; auto; discriminate. Qed.
Lemma boundary_no_err p s : boundary p s <> Err.
Proof.
  unfold boundary. apply bind_no_err; [apply idx_no_err|]. intros c. destruct (c_token c); [|discriminate].
  apply bind_no_err; [apply idx_no_err|]. intros c2. destruct (c_token c2); discriminate.
Qed.
Lemma slice_no_err s a b : slice s a b <> Err.
Proof. unfold slice. destruct (_ && _); discriminate. Qed.
Lemma original_no_err p n : original_text p n <> Err.
Proof. unfold original_text, node_pos. apply bind_no_err; [apply boundary_no_err|]. intros [a b]. apply slice_no_err. Qed.
Lemma column_texts_no_err p k : forall i, column_texts p i k <> Err.
Proof.
  induction k as [|k IH]; intros i; cbn [column_texts]; [discriminate|]. apply bind_no_err; [apply idx_no_err|]. intros c.
  destruct (c_token c); [|discriminate]. apply bind_no_err; [apply IH|discriminate].
Qed.
Lemma nl_no_err p jw n : node_nl p jw n <> Err.
Proof. unfold node_nl. apply bind_no_err; [apply column_texts_no_err|discriminate]. Qed.
Lemma term_no_err n : node_term n <> Err.
Proof. unfold node_term. destruct (String.eqb _ _); [|discriminate]. destruct (s_rb _); [apply idx_no_err|discriminate]. Qed.
Lemma context_nodes_no_err p nodes : forall evs, context_nodes p nodes evs <> Err.
Proof.
  induction nodes as [|n nodes IH]; intros [|e evs]; cbn [context_nodes]; try discriminate.
  apply bind_no_err.
  - destruct e; try discriminate. apply bind_no_err; [apply original_no_err|discriminate].
  - intros v. apply bind_no_err; [apply term_no_err|]. intros t. apply bind_no_err; [apply IH|discriminate].
Qed.
Lemma context_no_err p n nodes evs : context_value p n nodes evs <> Err.
Proof.
  unfold context_value. apply bind_no_err; [apply context_nodes_no_err|]. intros subs.
  apply bind_no_err; [apply original_no_err|]. intros txt. apply bind_no_err; [apply boundary_no_err|].
  intros [a b]. apply bind_no_err; [apply term_no_err|discriminate].
Qed.
Lemma none_refuses {A} (x : res A) m : x <> Err -> no_error x <> Refuses m.
Proof. unfold no_error. destruct x; cbn; intros H; congruence. Qed.

Section Sem.
  Variable p : parse_t.
  Variable join_words : list string -> string.
  Variable float_string : bigf -> string.
  Variable json : dval -> string.
  Variable is_print_hi : rune -> bool.
  Variable call : string -> list dval -> res dval.
  Variable call_says : string -> list dval -> string.
  Variable show : argval -> string.

  Notation NL := (node_nl p join_words).
  Notation eval := (eval p join_words float_string call).
  Notation fmr_eval := (fmr_eval float_string call).
  Notation arg_eval := (arg_eval float_string call).
  Notation semantic := (semantic p join_words float_string json is_print_hi call).
  Notation fmr_str := (fmr_str float_string json is_print_hi).
  Notation sem_str := (sem_str float_string json is_print_hi).
  Notation eval_m := (eval_m p join_words float_string call call_says show).
  Notation fmr_eval_m := (fmr_eval_m float_string call call_says show).
  Notation arg_eval_m := (arg_eval_m float_string call call_says show).
  Notation semantic_m := (semantic_m p join_words float_string json is_print_hi call show).
  Notation fmr_str_m := (fmr_str_m float_string json is_print_hi show).
  Notation sem_str_m := (sem_str_m float_string json is_print_hi show).
  Notation EvSays := (EvSays p join_words float_string call call_says show).
  Notation FEvSays := (FEvSays p join_words float_string call call_says show).
  Notation AEvSays := (AEvSays p join_words float_string call call_says show).
  Notation SemSays := (SemSays p join_words float_string json is_print_hi call show).
  Notation FSemSays := (FSemSays p join_words float_string json is_print_hi call show).
  Notation ASemSays := (ASemSays p join_words float_string json is_print_hi call show).
  Notation wrong_arg := (wrong_arg show).
  Notation m_kind := (m_kind show).
  Notation about := (about p join_words float_string call call_says show).

  Lemma fmr_eval_m_eq nl evs ctx fn args :
    fmr_eval_m nl evs ctx (FMR fn args) =
    if String.eqb fn "nf.I" then match args with [a] => arg_eval_m nl evs ctx a | _ => Refuses m_identity end
    else tbind (sequence_m (map (arg_eval_m nl evs ctx) args)) (fun vs => with_message (Theirs (call_says fn vs)) (call fn vs)).
  Proof.
    cbn [ModelMessages.fmr_eval_m]. destruct (String.eqb fn "nf.I"); [reflexivity|].
    f_equal. induction args as [|a args IH]; [reflexivity|]. cbn [map sequence_m]. rewrite IH. reflexivity.
  Qed.
  Lemma fmr_str_m_eq nl sems ctx fn args :
    fmr_str_m nl sems ctx (FMR fn args) =
    if String.eqb fn "nf.I" then match args with [a] => sem_str_m nl sems ctx a | _ => Refuses m_identity end
    else tbind (sequence_m (map (sem_str_m nl sems ctx) args)) (fun ss => Gives (fn ++ "(" ++ join ", " ss ++ ")")%string).
  Proof.
    cbn [ModelMessages.fmr_str_m]. destruct (String.eqb fn "nf.I"); [reflexivity|].
    f_equal. induction args as [|a args IH]; [reflexivity|]. cbn [map sequence_m]. rewrite IH. reflexivity.
  Qed.

  Lemma arg_eval_same nl evs ctx a :
    (forall f, a_value a = VFunc f -> erase (fmr_eval_m nl evs ctx f) = fmr_eval nl (map erase evs) ctx f) ->
    erase (arg_eval_m nl evs ctx a) = arg_eval nl (map erase evs) ctx a.
  Proof.
    destruct a as [ty v]. intros Hf. cbn [a_value] in Hf. cbn [ModelMessages.arg_eval_m ModelSem.arg_eval].
    destruct (String.eqb ty "string"); [destruct v; reflexivity|].
    destruct (String.eqb ty "int"); [destruct v; reflexivity|].
    destruct (String.eqb ty "float"); [destruct v; reflexivity|].
    destruct (String.eqb ty "func"); [destruct v; try reflexivity; apply Hf; reflexivity|].
    destruct (String.eqb ty "index").
    { destruct v as [| | |i| |]; try reflexivity. rewrite map_length. destruct (_ || _); [reflexivity|].
      destruct (Z.eqb i 0); [rewrite erase_bind, erase_none; reflexivity|]. symmetry. apply erase_idx. }
    destruct (String.eqb ty "context"); [apply erase_none|reflexivity].
  Qed.
  Lemma fmr_eval_same nl evs ctx : forall f, erase (fmr_eval_m nl evs ctx f) = fmr_eval nl (map erase evs) ctx f.
  Proof.
    intros f. induction f as [fn args IH] using fmr_ind'. rewrite fmr_eval_m_eq, fmr_eval_eq.
    assert (forall a, In a args -> erase (arg_eval_m nl evs ctx a) = arg_eval nl (map erase evs) ctx a) as Ha.
    { intros a Hin. apply arg_eval_same. intros f Ef. rewrite Forall_forall in IH. specialize (IH a Hin). rewrite Ef in IH. exact IH. }
    destruct (String.eqb fn "nf.I").
    - destruct args as [|a [|b args]]; try reflexivity. apply Ha. left; reflexivity.
    - rewrite erase_bind, erase_sequence, map_map. rewrite (map_ext_in _ _ _ Ha). apply bind_ext. intros vs. apply erase_with.
  Qed.
  Lemma eval_m_eq n : eval_m n =
    match function_of n with
    | None => tbind (no_error (original_text p n)) (fun t => Gives (DStr t))
    | Some f => fmr_eval_m (NL n) (map eval_m (n_children n)) (context_value p n (n_children n) (map erase (map eval_m (n_children n)))) f
    end.
  Proof. destruct n as [v ch]. unfold function_of. cbn [n_value n_children ModelMessages.eval_m]. destruct (s_rb v) as [b|]; [|reflexivity]. destruct (rb_f b); reflexivity. Qed.
  Lemma eval_same n : erase (eval_m n) = eval n.
  Proof.
    induction n as [v ch IH] using node_ind'. rewrite eval_m_eq, eval_eq. cbn [n_children].
    assert (map erase (map eval_m ch) = map eval ch) as E by (rewrite map_map; apply map_ext_in; rewrite Forall_forall in IH; exact IH).
    destruct (function_of (Node v ch)) as [f|].
    - rewrite fmr_eval_same, E. reflexivity.
    - rewrite erase_bind, erase_none. reflexivity.
  Qed.
  Lemma evs_same n : map erase (map eval_m (n_children n)) = map eval (n_children n).
  Proof. rewrite map_map. apply map_ext. intros c. apply eval_same. Qed.

  Lemma sem_str_same nl sems ctx a :
    (forall f, a_value a = VFunc f -> erase (fmr_str_m nl sems ctx f) = fmr_str nl (map (option_map erase) sems) ctx f) ->
    erase (sem_str_m nl sems ctx a) = sem_str nl (map (option_map erase) sems) ctx a.
  Proof.
    destruct a as [ty v]. intros Hf. cbn [a_value] in Hf. cbn [ModelMessages.sem_str_m ModelSem.sem_str].
    destruct (String.eqb ty "string"); [destruct v; reflexivity|].
    destruct (String.eqb ty "int"); [destruct v; reflexivity|].
    destruct (String.eqb ty "float"); [destruct v; reflexivity|].
    destruct (String.eqb ty "func"); [destruct v; try reflexivity; apply Hf; reflexivity|].
    destruct (String.eqb ty "index").
    { destruct v as [| | |i| |]; try reflexivity. rewrite map_length. destruct (_ || _); [reflexivity|].
      destruct (Z.eqb i 0); [reflexivity|]. unfold idx. rewrite nth_error_map.
      destruct (nth_error sems (Z.to_nat (i - 1))) as [[t|]|]; reflexivity. }
    destruct (String.eqb ty "context"); [rewrite erase_bind, erase_none; reflexivity|reflexivity].
  Qed.
  Lemma fmr_str_same nl sems ctx : forall f, erase (fmr_str_m nl sems ctx f) = fmr_str nl (map (option_map erase) sems) ctx f.
  Proof.
    intros f. induction f as [fn args IH] using fmr_ind'. rewrite fmr_str_m_eq, fmr_str_eq.
    assert (forall a, In a args -> erase (sem_str_m nl sems ctx a) = sem_str nl (map (option_map erase) sems) ctx a) as Ha.
    { intros a Hin. apply sem_str_same. intros f Ef. rewrite Forall_forall in IH. specialize (IH a Hin). rewrite Ef in IH. exact IH. }
    destruct (String.eqb fn "nf.I").
    - destruct args as [|a [|b args]]; try reflexivity. apply Ha. left; reflexivity.
    - rewrite erase_bind, erase_sequence, map_map. rewrite (map_ext_in _ _ _ Ha). apply bind_ext. intros vs. reflexivity.
  Qed.
  Lemma semantic_m_eq n : semantic_m n = tbind (no_error (NL n)) (fun t =>
    match function_of n with
    | None => Gives (quote is_print_hi t)
    | Some f => fmr_str_m (quote is_print_hi t) (map (fun c => Some (semantic_m c)) (n_children n))
                  (context_value p n (n_children n) (map eval (n_children n))) f
    end).
  Proof.
    destruct n as [v ch]. unfold function_of. cbn [n_value n_children ModelMessages.semantic_m].
    destruct (no_error _); try reflexivity. cbn [tbind]. destruct (s_rb v) as [b|]; [|reflexivity]. destruct (rb_f b); reflexivity.
  Qed.
  Lemma semantic_same n : erase (semantic_m n) = semantic n.
  Proof.
    induction n as [v ch IH] using node_ind'. rewrite semantic_m_eq, semantic_eq, erase_bind, erase_none. cbn [n_children].
    apply bind_ext. intros t. destruct (function_of (Node v ch)) as [f|]; [|reflexivity].
    rewrite fmr_str_same. f_equal. rewrite map_map. apply map_ext_in. intros c Hc. cbn [option_map].
    rewrite Forall_forall in IH. rewrite (IH c Hc). reflexivity.
  Qed.

  (** ** Which message *)
  Lemma wrong_malformed a : malformed a <-> exists s, wrong_arg a s.
  Proof.
    destruct a as [ty v]. split.
    - intros H. destruct (in_dec string_dec ty kinds) as [I|I]; [exists ("arg.Value: " ++ show v ++ " is not " ++ ty)%string; constructor; auto|].
      exists ("arg.Type: " ++ ty ++ " invalid")%string. constructor; auto. apply H.
    - intros (s & H). inversion H; subst; [assumption|]. unfold malformed. unfold kinds in *. cbn [In] in *.
      repeat split; auto; intros ->; exfalso; intuition.
  Qed.
  Lemma eqb_false_in ty s : ty <> s -> String.eqb ty s = false.
  Proof. apply String.eqb_neq. Qed.
  Lemma arg_eval_wrong nl evs ctx a s : wrong_arg a s -> arg_eval_m nl evs ctx a = Refuses (Ours s).
  Proof.
    intros H. inversion H as [ty v I M|ty v I N]; subst.
    - unfold kinds in I. cbn [In] in I. destruct M as (_ & M1 & M2 & M3 & M4 & M5).
      destruct I as [<-|[<-|[<-|[<-|[<-|[]]]]]]; cbn [ModelMessages.arg_eval_m String.eqb Ascii.eqb Bool.eqb]; destruct v; try reflexivity; exfalso;
        [eapply M1|eapply M2|eapply M3|eapply M4|eapply M5]; reflexivity.
    - unfold kinds in I. cbn [In] in I. cbn [ModelMessages.arg_eval_m].
      rewrite !eqb_false_in by (intros ->; intuition). reflexivity.
  Qed.
  Lemma sem_str_wrong nl sems ctx a s : wrong_arg a s -> sem_str_m nl sems ctx a = Refuses (Ours s).
  Proof.
    intros H. inversion H as [ty v I M|ty v I N]; subst.
    - unfold kinds in I. cbn [In] in I. destruct M as (_ & M1 & M2 & M3 & M4 & M5).
      destruct I as [<-|[<-|[<-|[<-|[<-|[]]]]]]; cbn [ModelMessages.sem_str_m String.eqb Ascii.eqb Bool.eqb]; destruct v; try reflexivity; exfalso;
        [eapply M1|eapply M2|eapply M3|eapply M4|eapply M5]; reflexivity.
    - unfold kinds in I. cbn [In] in I. cbn [ModelMessages.sem_str_m].
      rewrite !eqb_false_in by (intros ->; intuition). reflexivity.
  Qed.

  Lemma range_test i n : out_of_range i n -> (Z.ltb i 0 || Z.ltb (Z.of_nat n) i = true)%Z.
  Proof. unfold out_of_range. intros H. apply orb_true_iff. rewrite !Z.ltb_lt. exact H. Qed.
  Lemma eval_m_range nl evs ctx i : out_of_range i (length evs) ->
    arg_eval_m nl evs ctx (Arg "index" (VIdx i)) = Refuses (Ours (range_text i (length evs))).
  Proof. intros H. cbn [ModelMessages.arg_eval_m String.eqb Ascii.eqb Bool.eqb]. rewrite (range_test _ _ H). reflexivity. Qed.
  Lemma sem_m_range nl sems ctx i : out_of_range i (length sems) ->
    sem_str_m nl sems ctx (Arg "index" (VIdx i)) = Refuses (Ours (range_text i (length sems))).
  Proof. intros H. cbn [ModelMessages.sem_str_m String.eqb Ascii.eqb Bool.eqb]. rewrite (range_test _ _ H). reflexivity. Qed.
  Lemma in_range_test k n : k < n -> (Z.ltb (Z.of_nat (S k)) 0 || Z.ltb (Z.of_nat n) (Z.of_nat (S k)) = false)%Z.
  Proof. intros H. apply orb_false_iff. split; apply Z.ltb_ge; lia. Qed.
  Lemma eval_m_child nl evs ctx k e : nth_error evs k = Some e ->
    arg_eval_m nl evs ctx (Arg "index" (VIdx (Z.of_nat (S k)))) = e.
  Proof.
    intros H. cbn [ModelMessages.arg_eval_m String.eqb Ascii.eqb Bool.eqb].
    rewrite in_range_test by (apply nth_error_Some; congruence).
    replace (Z.eqb (Z.of_nat (S k)) 0) with false by (symmetry; apply Z.eqb_neq; lia).
    replace (Z.to_nat (Z.of_nat (S k) - 1)) with k by lia. unfold idx. rewrite H. destruct e; reflexivity.
  Qed.
  Lemma sem_m_child nl sems ctx k c : nth_error sems k = Some c ->
    sem_str_m nl sems ctx (Arg "index" (VIdx (Z.of_nat (S k)))) = match c with None => Gives "null"%string | Some r => r end.
  Proof.
    intros H. cbn [ModelMessages.sem_str_m String.eqb Ascii.eqb Bool.eqb].
    rewrite in_range_test by (apply nth_error_Some; congruence).
    replace (Z.eqb (Z.of_nat (S k)) 0) with false by (symmetry; apply Z.eqb_neq; lia).
    replace (Z.to_nat (Z.of_nat (S k) - 1)) with k by lia. unfold idx. rewrite H. reflexivity.
  Qed.

  Notation ctx_m n := (context_value p n (n_children n) (map erase (map eval_m (n_children n)))).
  Lemma ctx_same n : ctx_m n = context_value p n (n_children n) (map eval (n_children n)).
  Proof. rewrite evs_same. reflexivity. Qed.

  (** The arguments before the failing one have values. *)
  Lemma values_before n args vs : Forall2 (fun r v => r = Gives v) (map (arg_eval_m (NL n) (map eval_m (n_children n)) (ctx_m n)) args) vs ->
    AEvs p join_words float_string call n args vs.
  Proof.
    revert vs. induction args as [|a args IH]; intros vs F; cbn [map] in F; inversion F as [|? v ? vs' E F']; subst; constructor; auto.
    apply (f_equal erase) in E. rewrite arg_eval_same in E by (intros; apply fmr_eval_same).
    rewrite evs_same in E. cbn [erase] in E.
    apply arg_eval_sound in E; auto.
    - intros c u _ Hu. apply eval_iff. exact Hu.
    - intros f u _ Hu. eapply fmr_eval_sound; eauto. intros c u' _ Hu'. apply eval_iff. exact Hu'.
  Qed.
  Lemma values_give n args vs : AEvs p join_words float_string call n args vs ->
    sequence_m (map (arg_eval_m (NL n) (map eval_m (n_children n)) (ctx_m n)) args) = Gives vs.
  Proof.
    intros H. apply erase_gives. rewrite erase_sequence, map_map.
    rewrite (map_ext _ (arg_eval (NL n) (map eval (n_children n)) (ctx_of p join_words float_string call n))).
    - apply eval_complete. exact H.
    - intros a. rewrite arg_eval_same by (intros; apply fmr_eval_same). rewrite evs_same. reflexivity.
  Qed.

  Lemma arg_eval_says n a m :
    (forall c m, In c (n_children n) -> eval_m c = Refuses m -> EvSays c m) ->
    (forall f m, a_value a = VFunc f -> fmr_eval_m (NL n) (map eval_m (n_children n)) (ctx_m n) f = Refuses m -> FEvSays n f m) ->
    arg_eval_m (NL n) (map eval_m (n_children n)) (ctx_m n) a = Refuses m -> AEvSays n a m.
  Proof.
    intros Hc Hf H. destruct (arg_forms a) as [F|F].
    - destruct F.
      + discriminate H.
      + discriminate H.
      + discriminate H.
      + apply aes_func. apply Hf; [reflexivity|exact H].
      + destruct (index_cases i (length (map eval_m (n_children n)))) as [B|[->|(k & Hk & ->)]].
        * rewrite eval_m_range in H by exact B. injection H as <-. rewrite map_length in *. apply aes_range. exact B.
        * exfalso. cbn [ModelMessages.arg_eval_m String.eqb Ascii.eqb Bool.eqb] in H.
          replace (_ || _) with false in H by (symmetry; apply orb_false_iff; split; apply Z.ltb_ge; lia). cbn [Z.eqb] in H.
          destruct (no_error (NL n)) as [t|m'| |] eqn:E; try discriminate H. exact (none_refuses _ m' (nl_no_err p join_words n) E).
        * destruct (nth_error (n_children n) k) as [c|] eqn:En.
          -- rewrite (eval_m_child _ _ _ k (eval_m c)) in H by (rewrite nth_error_map, En; reflexivity).
             eapply aes_child; eauto. apply Hc; auto. eapply nth_error_In; eauto.
          -- apply nth_error_None in En. rewrite map_length in Hk. lia.
      + exfalso. cbn [ModelMessages.arg_eval_m String.eqb Ascii.eqb Bool.eqb] in H.
        exact (none_refuses _ m (context_no_err p n _ _) H).
    - apply wrong_malformed in F. destruct F as (s & W). rewrite (arg_eval_wrong _ _ _ _ _ W) in H. injection H as <-. constructor. exact W.
  Qed.
  Lemma fmr_eval_says n : (forall c m, In c (n_children n) -> eval_m c = Refuses m -> EvSays c m) ->
    forall f m, fmr_eval_m (NL n) (map eval_m (n_children n)) (ctx_m n) f = Refuses m -> FEvSays n f m.
  Proof.
    intros Hc f. induction f as [fn args IH] using fmr_ind'. intros m H. rewrite fmr_eval_m_eq in H.
    assert (forall a m, In a args -> arg_eval_m (NL n) (map eval_m (n_children n)) (ctx_m n) a = Refuses m -> AEvSays n a m) as Ha.
    { intros a m' Hin Hm. eapply arg_eval_says; eauto. intros f m'' Ef Hf.
      rewrite Forall_forall in IH. specialize (IH a Hin). rewrite Ef in IH. auto. }
    destruct (String.eqb fn "nf.I") eqn:E.
    - apply eqb_yes in E. subst fn. destruct args as [|a [|b args]].
      + injection H as <-. apply fes_identity. discriminate.
      + apply fes_identity_arg. apply Ha; auto. left; auto.
      + injection H as <-. apply fes_identity. discriminate.
    - apply eqb_no in E. destruct (sequence_m _) as [vs|m'| |] eqn:Es; cbn [tbind] in H; try discriminate H.
      + destruct (call fn vs) eqn:Ec; cbn [with_message] in H; try discriminate H. injection H as <-.
        apply fes_call; auto. apply erase_gives in Es. rewrite erase_sequence in Es. apply sequence_ret in Es.
        apply values_before. clear -Es. remember (map _ args) as l eqn:El. clear El args. revert vs Es. induction l as [|r l IH]; intros vs F; cbn [map] in F;
          inversion F; subst; constructor; auto. apply erase_gives; assumption.
      + injection H as ->. apply sequence_refuses in Es. destruct Es as (l1 & l2 & vs & El & F).
        apply map_eq_app in El. destruct El as (a1 & a2 & -> & <- & El2).
        apply map_eq_cons in El2. destruct El2 as (a & a3 & -> & Ea & El3).
        apply fes_arg with (vs := vs); auto; [apply values_before; exact F|].
        apply Ha; auto. apply in_or_app. right. left. reflexivity.
  Qed.
  Lemma eval_says_sound n : forall m, eval_m n = Refuses m -> EvSays n m.
  Proof.
    induction n as [v ch IH] using node_ind'. intros m H. rewrite eval_m_eq in H.
    destruct (function_of (Node v ch)) as [f|] eqn:Ef.
    - eapply es; eauto. eapply fmr_eval_says; eauto. cbn [n_children]. intros c m' Hc Hm. rewrite Forall_forall in IH. auto.
    - exfalso. destruct (no_error _) as [t|m'| |] eqn:E; try discriminate H. exact (none_refuses _ m' (original_no_err p _) E).
  Qed.
  Lemma eval_says_complete :
    (forall n m, EvSays n m -> eval_m n = Refuses m)
    /\ (forall n f m, FEvSays n f m -> fmr_eval_m (NL n) (map eval_m (n_children n)) (ctx_m n) f = Refuses m)
    /\ (forall n a m, AEvSays n a m -> arg_eval_m (NL n) (map eval_m (n_children n)) (ctx_m n) a = Refuses m).
  Proof.
    apply EvSays_mutind.
    - intros n f m Hf _ IH. rewrite eval_m_eq, Hf. exact IH.
    - intros n args Hl. rewrite fmr_eval_m_eq, String.eqb_refl. destruct args as [|a [|b args]]; try reflexivity. exfalso. apply Hl. reflexivity.
    - intros n a m _ IH. rewrite fmr_eval_m_eq, String.eqb_refl. exact IH.
    - intros n fn l1 a l2 vs m Hfn Hvs _ IH. rewrite fmr_eval_m_eq, eqb_false_in by exact Hfn.
      replace (sequence_m _) with (@Refuses (list dval) m); [reflexivity|]. symmetry. apply sequence_refuses.
      rewrite map_app. cbn [map]. rewrite IH. eexists _, _, vs. split; [reflexivity|].
      apply values_give in Hvs. apply erase_gives in Hvs. rewrite erase_sequence in Hvs. apply sequence_ret in Hvs.
      clear -Hvs. remember (map _ l1) as l eqn:El. clear El l1. revert vs Hvs. induction l as [|r l IH]; intros vs F; cbn [map] in F;
        inversion F; subst; constructor; auto. apply erase_gives; assumption.
    - intros n fn args vs Hfn Hvs Hcall. rewrite fmr_eval_m_eq, eqb_false_in by exact Hfn.
      rewrite (values_give _ _ _ Hvs). cbn [tbind]. rewrite Hcall. reflexivity.
    - intros n a s W. apply arg_eval_wrong. exact W.
    - intros n i H. rewrite eval_m_range by (rewrite map_length; exact H). rewrite map_length. reflexivity.
    - intros n f m _ IH. exact IH.
    - intros n k c m Hk _ IH. rewrite (eval_m_child _ _ _ k (eval_m c)) by (rewrite nth_error_map, Hk; reflexivity). exact IH.
  Qed.
  Lemma eval_says n m : eval_m n = Refuses m <-> EvSays n m.
  Proof. split; [apply eval_says_sound|apply eval_says_complete]. Qed.

  (** Semantic *)
  Notation sems n := (map (fun c => Some (semantic_m c)) (n_children n)).
  Notation ctx n := (context_value p n (n_children n) (map eval (n_children n))).
  Lemma sems_same n : map (option_map erase) (sems n) = sems_of p join_words float_string json is_print_hi call n.
  Proof. unfold sems_of. rewrite map_map. apply map_ext. intros c. cbn [option_map]. rewrite semantic_same. reflexivity. Qed.
  Lemma texts_before n t args vs : NL n = Ret t ->
    Forall2 (fun r v => r = Gives v) (map (sem_str_m (quote is_print_hi t) (sems n) (ctx n)) args) vs ->
    ASems p join_words float_string json is_print_hi call n args vs.
  Proof.
    intros Ht. revert vs. induction args as [|a args IH]; intros vs F; cbn [map] in F; inversion F as [|? v ? vs' E F']; subst; constructor; auto.
    apply (f_equal erase) in E. rewrite sem_str_same in E by (intros; apply fmr_str_same).
    rewrite sems_same in E. cbn [erase] in E.
    eapply sem_str_sound in E; eauto.
    - intros c u _ Hu. apply semantic_iff. exact Hu.
    - intros f u _ Hu. eapply fmr_str_sound; eauto. intros c u' _ Hu'. apply semantic_iff. exact Hu'.
  Qed.
  Lemma texts_give n t args vs : NL n = Ret t -> ASems p join_words float_string json is_print_hi call n args vs ->
    sequence_m (map (sem_str_m (quote is_print_hi t) (sems n) (ctx n)) args) = Gives vs.
  Proof.
    intros Ht H. apply erase_gives. rewrite erase_sequence, map_map.
    rewrite (map_ext _ (sem_str (quote is_print_hi t) (sems_of p join_words float_string json is_print_hi call n) (ctx_of p join_words float_string call n))).
    - apply semantic_complete; assumption.
    - intros a. rewrite sem_str_same by (intros; apply fmr_str_same). rewrite sems_same. reflexivity.
  Qed.

  Lemma sem_str_says n t a m : NL n = Ret t ->
    (forall c m, In c (n_children n) -> semantic_m c = Refuses m -> SemSays c m) ->
    (forall f m, a_value a = VFunc f -> fmr_str_m (quote is_print_hi t) (sems n) (ctx n) f = Refuses m -> FSemSays n f m) ->
    sem_str_m (quote is_print_hi t) (sems n) (ctx n) a = Refuses m -> ASemSays n a m.
  Proof.
    intros Ht Hc Hf H. destruct (arg_forms a) as [F|F].
    - destruct F.
      + discriminate H.
      + discriminate H.
      + discriminate H.
      + apply ass_func. apply Hf; [reflexivity|exact H].
      + destruct (index_cases i (length (sems n))) as [B|[->|(k & Hk & ->)]].
        * rewrite sem_m_range in H by exact B. injection H as <-. rewrite map_length in *. apply ass_range. exact B.
        * exfalso. cbn [ModelMessages.sem_str_m String.eqb Ascii.eqb Bool.eqb] in H.
          replace (_ || _) with false in H by (symmetry; apply orb_false_iff; split; apply Z.ltb_ge; lia). discriminate H.
        * destruct (nth_error (n_children n) k) as [c|] eqn:En.
          -- rewrite (sem_m_child _ _ _ k (Some (semantic_m c))) in H by (rewrite nth_error_map, En; reflexivity).
             eapply ass_child; eauto. apply Hc; auto. eapply nth_error_In; eauto.
          -- apply nth_error_None in En. rewrite map_length in Hk. lia.
      + exfalso. cbn [ModelMessages.sem_str_m String.eqb Ascii.eqb Bool.eqb] in H.
        destruct (no_error _) as [c|m'| |] eqn:E; try discriminate H.
        exact (none_refuses _ m' (context_no_err p n _ _) E).
    - apply wrong_malformed in F. destruct F as (s & W). rewrite (sem_str_wrong _ _ _ _ _ W) in H. injection H as <-. constructor. exact W.
  Qed.
  Lemma fmr_str_says n t : NL n = Ret t -> (forall c m, In c (n_children n) -> semantic_m c = Refuses m -> SemSays c m) ->
    forall f m, fmr_str_m (quote is_print_hi t) (sems n) (ctx n) f = Refuses m -> FSemSays n f m.
  Proof.
    intros Ht Hc f. induction f as [fn args IH] using fmr_ind'. intros m H. rewrite fmr_str_m_eq in H.
    assert (forall a m, In a args -> sem_str_m (quote is_print_hi t) (sems n) (ctx n) a = Refuses m -> ASemSays n a m) as Ha.
    { intros a m' Hin Hm. eapply sem_str_says; eauto. intros f m'' Ef Hf.
      rewrite Forall_forall in IH. specialize (IH a Hin). rewrite Ef in IH. auto. }
    destruct (String.eqb fn "nf.I") eqn:E.
    - apply eqb_yes in E. subst fn. destruct args as [|a [|b args]].
      + injection H as <-. apply fss_identity. discriminate.
      + apply fss_identity_arg. apply Ha; auto. left; auto.
      + injection H as <-. apply fss_identity. discriminate.
    - apply eqb_no in E. destruct (sequence_m _) as [vs|m'| |] eqn:Es; cbn [tbind] in H; try discriminate H.
      injection H as ->. apply sequence_refuses in Es. destruct Es as (l1 & l2 & vs & El & F).
      apply map_eq_app in El. destruct El as (a1 & a2 & -> & <- & El2).
      apply map_eq_cons in El2. destruct El2 as (a & a3 & -> & Ea & El3).
      apply fss_arg with (ss := vs); auto; [eapply texts_before; eauto|].
      apply Ha; auto. apply in_or_app. right. left. reflexivity.
  Qed.
  Lemma semantic_says_sound n : forall m, semantic_m n = Refuses m -> SemSays n m.
  Proof.
    induction n as [v ch IH] using node_ind'. intros m H. rewrite semantic_m_eq in H.
    destruct (NL (Node v ch)) as [t| | |] eqn:Et; try discriminate H; [|exfalso; exact (nl_no_err _ _ _ Et)].
    cbn [no_error with_message tbind] in H. destruct (function_of (Node v ch)) as [f|] eqn:Ef; [|discriminate H].
    eapply ss; eauto. eapply fmr_str_says; eauto. cbn [n_children]. intros c m' Hc Hm. rewrite Forall_forall in IH. auto.
  Qed.
  Lemma semantic_says_complete :
    (forall n m, SemSays n m -> semantic_m n = Refuses m)
    /\ (forall n f m, FSemSays n f m -> forall t, NL n = Ret t -> fmr_str_m (quote is_print_hi t) (sems n) (ctx n) f = Refuses m)
    /\ (forall n a m, ASemSays n a m -> forall t, NL n = Ret t -> sem_str_m (quote is_print_hi t) (sems n) (ctx n) a = Refuses m).
  Proof.
    apply SemSays_mutind.
    - intros n f m t Hf Ht _ IH. rewrite semantic_m_eq, Ht. cbn [no_error with_message tbind]. rewrite Hf. apply IH. exact Ht.
    - intros n args Hl t _. rewrite fmr_str_m_eq, String.eqb_refl. destruct args as [|a [|b args]]; try reflexivity. exfalso. apply Hl. reflexivity.
    - intros n a m _ IH t Ht. rewrite fmr_str_m_eq, String.eqb_refl. apply IH. exact Ht.
    - intros n fn l1 a l2 vs m Hfn Hvs _ IH t Ht. rewrite fmr_str_m_eq, eqb_false_in by exact Hfn.
      replace (sequence_m _) with (@Refuses (list string) m); [reflexivity|]. symmetry. apply sequence_refuses.
      rewrite map_app. cbn [map]. rewrite (IH t Ht). eexists _, _, vs. split; [reflexivity|].
      eapply texts_give in Hvs; [|exact Ht]. apply erase_gives in Hvs. rewrite erase_sequence in Hvs. apply sequence_ret in Hvs.
      clear -Hvs. remember (map _ l1) as l eqn:El. clear El l1. revert vs Hvs. induction l as [|r l IH]; intros vs F; cbn [map] in F;
        inversion F; subst; constructor; auto. apply erase_gives; assumption.
    - intros n a s W t _. apply sem_str_wrong. exact W.
    - intros n i H t _. rewrite sem_m_range by (rewrite map_length; exact H). rewrite map_length. reflexivity.
    - intros n f m _ IH t Ht. apply (IH t Ht).
    - intros n k c m Hk _ IH t Ht. rewrite (sem_m_child _ _ _ k (Some (semantic_m c))) by (rewrite nth_error_map, Hk; reflexivity). exact IH.
  Qed.
  Lemma semantic_says n m : semantic_m n = Refuses m <-> SemSays n m.
  Proof. split; [apply semantic_says_sound|apply semantic_says_complete]. Qed.

  (** ** A message is about a place of the tree *)
  Lemma within_uses f h i : within f h -> uses h i -> uses f i.
  Proof. intros H U. induction H as [f|fn args f h I _ IH]; [exact U|]. eapply u_func; eauto. Qed.
  Lemma within_trans f h k : within f h -> within h k -> within f k.
  Proof. intros H. induction H as [f|fn args f h I _ IH]; [auto|]. intros K. eapply wi_arg; eauto. Qed.
  Lemma about_child v ch c m : In c ch -> about c m -> about (Node v ch) m.
  Proof.
    intros I H. destruct H as [x f i P|x f args P|x f fn args a s P|x f fn args vs P]; apply (po_kid v ch c x I) in P.
    - eapply ab_range; eauto.
    - eapply ab_identity; eauto.
    - eapply ab_wrong; eauto.
    - eapply ab_call; eauto.
  Qed.
  Lemma about_nth n k c m : nth_error (n_children n) k = Some c -> about c m -> about n m.
  Proof. destruct n as [v ch]. cbn [n_children]. intros H. apply about_child. eapply nth_error_In; eauto. Qed.

  Lemma eval_about_all :
    (forall n m, EvSays n m -> about n m)
    /\ (forall n h m, FEvSays n h m -> forall f, function_of n = Some f -> within f h -> about n m)
    /\ (forall n a m, AEvSays n a m -> forall f fn args, function_of n = Some f -> within f (FMR fn args) -> In a args -> about n m).
  Proof.
    apply EvSays_mutind.
    - intros n f m Hf _ IH. apply (IH f Hf). constructor.
    - intros n args Hl f Hf W. eapply ab_identity; eauto; constructor.
    - intros n a m _ IH f Hf W. eapply IH; eauto. left; reflexivity.
    - intros n fn l1 a l2 vs m Hfn _ _ IH f Hf W. eapply IH; eauto. apply in_or_app. right. left. reflexivity.
    - intros n fn args vs Hfn Hvs Hc f Hf W. eapply ab_call; eauto; constructor.
    - intros n a s Wr f fn args Hf W I. eapply ab_wrong; eauto; constructor.
    - intros n i R f fn args Hf W I. eapply ab_range; eauto; [constructor|]. eapply within_uses; eauto. constructor. exact I.
    - intros n h m _ IH f fn args Hf W I. apply (IH f Hf). eapply within_trans; [exact W|]. eapply wi_arg; [exact I|constructor].
    - intros n k c m Hk _ IH f fn args Hf W I. eapply about_nth; eauto.
  Qed.
  Lemma eval_about n m : eval_m n = Refuses m -> about n m.
  Proof. intros H. apply eval_about_all. apply eval_says. exact H. Qed.
  Lemma semantic_about_all :
    (forall n m, SemSays n m -> about n m)
    /\ (forall n h m, FSemSays n h m -> forall f, function_of n = Some f -> within f h -> about n m)
    /\ (forall n a m, ASemSays n a m -> forall f fn args, function_of n = Some f -> within f (FMR fn args) -> In a args -> about n m).
  Proof.
    apply SemSays_mutind.
    - intros n f m t Hf _ _ IH. apply (IH f Hf). constructor.
    - intros n args Hl f Hf W. eapply ab_identity; eauto; constructor.
    - intros n a m _ IH f Hf W. eapply IH; eauto. left; reflexivity.
    - intros n fn l1 a l2 vs m Hfn _ _ IH f Hf W. eapply IH; eauto. apply in_or_app. right. left. reflexivity.
    - intros n a s Wr f fn args Hf W I. eapply ab_wrong; eauto; constructor.
    - intros n i R f fn args Hf W I. eapply ab_range; eauto; [constructor|]. eapply within_uses; eauto. constructor. exact I.
    - intros n h m _ IH f fn args Hf W I. apply (IH f Hf). eapply within_trans; [exact W|]. eapply wi_arg; [exact I|constructor].
    - intros n k c m Hk _ IH f fn args Hf W I. eapply about_nth; eauto.
  Qed.
  Lemma semantic_no_theirs :
    (forall n m, SemSays n m -> exists s, m = Ours s)
    /\ (forall n h m, FSemSays n h m -> exists s, m = Ours s)
    /\ (forall n a m, ASemSays n a m -> exists s, m = Ours s).
  Proof. apply SemSays_mutind; eauto. Qed.
  Lemma semantic_about n m : semantic_m n = Refuses m -> about n m /\ exists s, m = Ours s.
  Proof. intros H. apply semantic_says in H. split; [apply semantic_about_all|apply semantic_no_theirs in H]; exact H. Qed.

  (** Functions with arguments of the announced kinds: only three messages are left. *)
  Lemma kinded_within f h : within f h -> well_kinded f -> well_kinded h.
  Proof. intros H. induction H as [f|fn args f h I _ IH]; [auto|]. intros K. apply IH. inversion K; subst; auto. Qed.
  Lemma kinded_about n m : (forall x f, part_of n x -> function_of x = Some f -> well_kinded f) -> about n m ->
    (exists x f i, part_of n x /\ function_of x = Some f /\ uses f i /\ out_of_range i (length (n_children x))
       /\ m = Ours (range_text i (length (n_children x))))
    \/ (exists x f args, part_of n x /\ function_of x = Some f /\ within f (FMR "nf.I" args) /\ length args <> 1 /\ m = Ours identity_text)
    \/ (exists x f fn args vs, part_of n x /\ function_of x = Some f /\ within f (FMR fn args)
          /\ AEvs p join_words float_string call x args vs /\ call fn vs = Err /\ m = Theirs (call_says fn vs)).
  Proof.
    intros K H. destruct H as [x f i P Hf U R|x f args P Hf W L|x f fn args a s P Hf W I Wr|x f fn args vs P Hf W N V C].
    - left. exists x, f, i. auto.
    - right. left. exists x, f, args. auto.
    - exfalso. pose proof (kinded_within _ _ W (K x f P Hf)) as K'. inversion K' as [fn' args' Km Kf]; subst. apply (Km a I).
      apply wrong_malformed. exists s. exact Wr.
    - right. right. exists x, f, fn, args, vs. auto 7.
  Qed.
End Sem.
