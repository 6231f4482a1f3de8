(** Semantic gives what the text of the grammar says. *)
From Verif Require Import Base ModelTypes ModelText ModelEarley ModelTrees ModelApi ModelQuote ModelSem ModelReader ModelGrammar ModelLocal
     SpecTypes SpecGrammar SpecTree SpecApi SpecRefine SpecSem SpecNode SpecLocal SpecFuncs SpecEnd SpecMeaning
     ProofEqual ProofTree ProofTreeOk ProofApi ProofSem ProofNodes ProofSemMain ProofNode ProofFuncs.

Section Core.
  Variable p : parse_t.
  Variable toks : list token.
  Hypothesis Htoks : parsed_tokens p toks.
  Variable join_words : list string -> string.
  Variable float_string : bigf -> string.
  Variable json : dval -> string.
  Variable is_print_hi : rune -> bool.
  Variable call : string -> list dval -> res dval.
  Notation sem := (semantic p join_words float_string json is_print_hi call).
  Notation Q := (quote is_print_hi).

  (** ** Functions *)
  Lemma function_says n t ss : node_nl p join_words n = Ret t ->
    Forall2 (fun c s => sem c = Ret s) (n_children n) ss ->
    forall f, fun_ok (length (n_children n)) f -> exists s,
      fmr_str float_string json is_print_hi (Q t) (sems_of p join_words float_string json is_print_hi call n)
        (ctx_of p join_words float_string call n) f = Ret s
      /\ f_says float_string is_print_hi (Q t) ss f s.
  Proof using.
    intros Hnl Hss f. induction f as [fn args IH] using fmr_ind'. intros Hok. inversion Hok as [? ? Hid Hargs]; subst.
    set (ctx := ctx_of p join_words float_string call n) in *.
    set (sems := sems_of p join_words float_string json is_print_hi call n) in *.
    assert (Ha : forall a, In a args -> exists s, sem_str float_string json is_print_hi (Q t) sems ctx a = Ret s
               /\ a_says float_string is_print_hi (Q t) ss a s).
    { intros a Hin. rewrite Forall_forall in IH, Hargs. specialize (IH a Hin). specialize (Hargs a Hin).
      inversion Hargs as [s|z|x|i Hi|f Hf]; subst.
      - eexists. split; [reflexivity|constructor].
      - eexists. split; [reflexivity|constructor].
      - eexists. split; [reflexivity|constructor].
      - destruct (Z.eq_dec i 0) as [->|Hne].
        + eexists. split; [apply sem_index_zero|constructor].
        + remember (Z.to_nat (i - 1)) as k eqn:Ek. assert (i = Z.of_nat (S k)) as -> by lia.
          destruct (nth_error (n_children n) k) as [c|] eqn:Ec; [|apply nth_error_None in Ec; lia].
          assert (exists s, nth_error ss k = Some s /\ sem c = Ret s) as (s & Es & Hs).
          { clear - Hss Ec. revert k Ec. induction Hss as [|x s l l' H _ IH]; intros k Ec; [destruct k; discriminate|].
            destruct k as [|k]; [injection Ec as ->; exists s; auto|apply (IH k Ec)]. }
          exists s. split; [|constructor; exact Es].
          unfold sems. rewrite (sem_index_child float_string json is_print_hi _ _ ctx k (Some (sem c))); [exact Hs|].
          apply sems_nth. exact Ec.
      - cbn [a_value] in IH. destruct (IH Hf) as (s & H1 & H2). exists s. split; [exact H1|constructor; exact H2]. }
    rewrite fmr_str_eq. destruct (String.eqb fn "nf.I") eqn:E.
    - apply String.eqb_eq in E. subst fn. specialize (Hid eq_refl). destruct args as [|a [|b args]]; try discriminate Hid.
      destruct (Ha a (or_introl eq_refl)) as (s & H1 & H2). exists s. split; [exact H1|constructor; exact H2].
    - apply String.eqb_neq in E.
      assert (exists l, Forall2 (fun a s => sem_str float_string json is_print_hi (Q t) sems ctx a = Ret s) args l
                /\ Forall2 (a_says float_string is_print_hi (Q t) ss) args l) as (l & H1 & H2).
      { clear - Ha. induction args as [|a args IHa]; [exists []; auto|].
        destruct (Ha a (or_introl eq_refl)) as (s & A1 & A2).
        destruct IHa as (l & B1 & B2); [intros; apply Ha; right; auto|]. exists (s :: l). auto. }
      exists (call_text fn l). split; [|constructor; auto].
      rewrite (proj2 (sequence_map _ _ _) H1). reflexivity.
  Qed.

  Section Text.
    Variable tokenize : string -> res (list token).
    Variable tmatch : term -> option token -> bool.
    Variable gs : list grammar_rules.
    Hypothesis Hfit : functions_fit gs.
    Variable find_all : string -> string -> option (list (nat * nat)).
    Variable regexps : list (string * string).
    Variable d : document.
    Hypothesis Hitems : string_items d.
    Notation TT := (text_tree tokenize tmatch gs find_all regexps d toks).
    Notation TTs := (text_trees tokenize tmatch gs find_all regexps d toks).
    Notation Says := (says tokenize tmatch gs find_all regexps d join_words float_string is_print_hi toks).
    Notation SayAll := (say_all tokenize tmatch gs find_all regexps d join_words float_string is_print_hi toks).
    Notation quoted := (quoted join_words is_print_hi toks).

    Lemma words_at_match ts i j kids : words_at tmatch toks ts i j kids -> words_match tmatch toks ts i j.
    Proof using.
      induction 1 as [i|t ts i j tok kids Ht Hn Hm _ (IH1 & IH2)]; (split; [cbn [length]; lia|]).
      - intros k t H. destruct k; discriminate.
      - intros [|k] t' H; cbn [nth_error] in H.
        + injection H as <-. split; [exact Ht|]. exists tok. rewrite Nat.add_0_r. auto.
        + destruct (IH2 k t' H) as (A & tok' & B & C). split; [exact A|]. exists tok'. rewrite Nat.add_succ_r. auto.
    Qed.
    Lemma words_at_range ts i j kids : words_at tmatch toks ts i j kids -> i <= j.
    Proof using. intros H. destruct (words_at_match _ _ _ _ H) as [-> _]. lia. Qed.

    Scheme text_tree_mind := Minimality for text_tree Sort Prop
      with text_trees_mind := Minimality for text_trees Sort Prop.
    Combined Scheme text_tree_mutind from text_tree_mind, text_trees_mind.

    Lemma text_range : (forall t i j q, TT t i j q -> i <= j) /\ (forall ts i j qs, TTs ts i j qs -> i <= j).
    Proof using.
      apply text_tree_mutind; intros; auto; try lia; eapply words_at_range; eauto.
    Qed.

    (** a word *)
    Lemma leaf_says t i tok : nth_error toks i = Some tok -> t_type t = TTerminal ->
      sem (Node (mkSt t None i (i + 1) 0) []) = Ret (quoted i (S i)).
    Proof using Htoks.
      intros Hn _. rewrite semantic_eq.
      rewrite (nl_ret p join_words toks _ Htoks); cbn [n_value s_start s_end]; [|lia|].
      2: { assert (i < length toks) by (apply nth_error_Some; congruence). lia. }
      cbn [bind function_of n_value s_rb]. unfold SpecMeaning.quoted. do 5 f_equal. lia.
    Qed.

    Lemma words_say ts i j kids : words_at tmatch toks ts i j kids -> forall ch, kids = map erase ch -> Forall built ch ->
      Forall2 (fun c s => sem c = Ret s) ch (map (fun k => quoted k (S k)) (seq i (j - i))).
    Proof using Htoks.
      induction 1 as [i|t ts i j tok kids Ht Hn Hm Hw IH]; intros ch E Hb; destruct ch as [|c ch]; try discriminate.
      - rewrite Nat.sub_diag. constructor.
      - cbn [map] in E. injection E as E1 E2. inversion Hb as [|? ? Hc Hch]; subst.
        pose proof (words_at_range _ _ _ _ Hw). replace (j - i) with (S (j - S i)) by lia. cbn [seq map]. constructor; [|apply IH; auto].
        inversion Hc as [t' i' Et|t' i' j' d' Et|s rb ch' Et|s ch' Et]; subst; cbn [erase s_term] in E1; rewrite Et in E1; try discriminate.
        injection E1 as <- <-. cbn [s_term s_start]. eapply leaf_says; eauto.
    Qed.

    Lemma entity_ok text x items n : Forall (fun v => exists s, v = VStr s) items -> fun_ok n (entity text x items).
    Proof using.
      intros H. unfold entity. constructor; [discriminate|]. constructor; [constructor|]. constructor; [|constructor].
      constructor. constructor; [discriminate|]. constructor; [constructor|]. constructor; [|constructor].
      constructor. constructor; [discriminate|]. apply Forall_forall. intros a Ha. apply in_map_iff in Ha. destruct Ha as (v & <- & Hv).
      rewrite Forall_forall in H. destruct (H v Hv) as (s & ->). constructor.
    Qed.
    Lemma local_ok x b f n : local_alt find_all regexps d x b -> rb_f b = Some f -> fun_ok n f.
    Proof using Hitems.
      intros H E. inversion H; subst; cbn [rb_f] in E; try discriminate. injection E as <-. apply entity_ok. eapply Hitems; eauto.
    Qed.

    Lemma node_says n : forall t i j, built n -> TT t i j (erase n) -> j <= length toks ->
      exists s, sem n = Ret s /\ Says t i j s.
    Proof using Htoks Hfit Hitems.
      induction n as [v ch IH] using node_ind'. intros t i j Hb Ht Hj.
      assert (Hkids : Forall built ch -> forall ts i j qs, TTs ts i j qs -> qs = map erase ch -> j <= length toks ->
                exists ss, Forall2 (fun c s => sem c = Ret s) ch ss /\ SayAll ts i j ss).
      { clear Ht Hj Hb. intros Hbs. clear - IH Hbs Htoks Hfit Hitems. intros ts i j qs H. revert ch IH Hbs.
        induction H as [i|t ts i j k q qs Hq Hqs IHq]; intros ch IH Hbs E Hj; destruct ch as [|c ch]; try discriminate.
        - exists []. split; constructor.
        - cbn [map] in E. injection E as E1 E2. subst q. inversion IH as [|? ? I1 I2]; subst. inversion Hbs; subst.
          pose proof (proj2 text_range _ _ _ _ Hqs). destruct (I1 t i j) as (s & A1 & A2); auto; [lia|].
          destruct (IHq ch I2) as (ss & B1 & B2); auto. exists (s :: ss). split; [constructor; auto|].
          eapply sa_cons; eauto. }
      pose proof (proj1 text_range _ _ _ _ Ht) as Hij.
      rewrite semantic_eq.
      assert (HNL : s_start v = i -> s_end v = j -> node_nl p join_words (Node v ch) =
                Ret (join_words (map tok_text (firstn (j - i) (skipn i toks))))).
      { intros <- <-. apply (nl_ret p join_words toks (Node v ch) Htoks); auto. }
      (* nodes with a body *)
      assert (Hbody : forall o ss, s_start v = i -> s_end v = j -> function_of (Node v ch) = o ->
                Forall2 (fun c s => sem c = Ret s) ch ss -> (forall f, o = Some f -> fun_ok (length ch) f) ->
                exists s, (t0 <- node_nl p join_words (Node v ch) ;;
                   match function_of (Node v ch) with
                   | Some f => fmr_str float_string json is_print_hi (Q t0)
                       (sems_of p join_words float_string json is_print_hi call (Node v ch))
                       (ctx_of p join_words float_string call (Node v ch)) f
                   | None => Ret (Q t0)
                   end) = Ret s /\ body_says join_words float_string is_print_hi toks o i j ss s).
      { intros o ss Hs He Ho Hss Hf. rewrite (HNL Hs He). cbn [bind]. rewrite Ho. destruct o as [f|].
        - destruct (function_says (Node v ch) _ ss (HNL Hs He) Hss f (Hf f eq_refl)) as (s & A & B).
          exists s. split; [exact A|exact B].
        - eexists. split; [reflexivity|reflexivity]. }
      inversion Hb as [t' i' Et|t' i' j' d' Et|s rb ch' Et Erb El Eb|s ch' Et Erb El Eb]; subst; cbn [erase s_term s_start s_end] in Ht; rewrite Et in Ht.
      - inversion Ht.
      - inversion Ht; subst. destruct (Hbody None []) as (s & A & ->); [reflexivity..|constructor|intros f Hf; discriminate Hf|].
        eexists. split; [exact A|]. apply sy_any; auto.
      - rewrite Erb in Ht. inversion Ht as [t' i' j' x ks kids T1 T2 T3| |t' i' j' b b' kids T1 T2 T3 T4|t' i' j' b kids T1 T2 T3|]; subst.
        + destruct (Hbody None (map (fun k => quoted k (S k)) (seq (s_start v) (s_end v - s_start v)))) as (s & A & ->); auto.
          * unfold function_of. cbn [n_value]. rewrite Erb. reflexivity.
          * eapply words_say; eauto.
          * discriminate.
          * eexists. split; [exact A|]. eapply sy_text; eauto. eapply words_at_match; eauto.
        + destruct (Hkids Eb _ _ _ _ T4 eq_refl Hj) as (ss & S1 & S2).
          assert (length ch = length (rb_terms b)) as Hl.
          { clear - T4. remember (map erase ch) as qs eqn:E. revert ch E.
            induction T4; intros ch E; destruct ch; try discriminate; [reflexivity|]. cbn [map] in E. injection E as -> ->. cbn [length]. f_equal. auto. }
          destruct (Hbody (rb_f b) ss) as (s & A & B); auto.
          * unfold function_of. cbn [n_value]. rewrite Erb. exact T3.
          * intros f Hf. rewrite Hl. eapply Hfit; eauto.
          * exists s. split; [exact A|]. eapply sy_rule; eauto.
        + destruct (Hbody (rb_f rb) (map (fun k => quoted k (S k)) (seq (s_start v) (s_end v - s_start v)))) as (s & A & B); auto.
          * unfold function_of. cbn [n_value]. rewrite Erb. reflexivity.
          * eapply words_say; eauto.
          * intros f Hf. eapply local_ok; eauto.
          * exists s. split; [exact A|]. eapply sy_local; eauto. eapply words_at_match; eauto.
      - inversion Ht as [| | | |t' i' j' n kids T1 T2 T3]; subst.
        destruct (Hkids Eb _ _ _ _ T3 eq_refl Hj) as (ss & S1 & S2).
        exists (call_text "fmr.list" ss). split; [|eapply sy_list; eauto].
        rewrite (HNL eq_refl eq_refl). cbn [bind].
        assert (function_of (Node v ch) = Some (FMR "fmr.list" (positions_to (length ch)))) as ->.
        { unfold function_of. cbn [n_value]. rewrite Erb. cbn [list_rb rb_f]. rewrite <- El. f_equal. f_equal.
          unfold positions_to. rewrite <- seq_shift, map_map. apply map_ext. intros k. do 3 f_equal. lia. }
        rewrite fmr_str_eq. cbn [String.eqb Ascii.eqb Bool.eqb]. unfold positions_to, sems_of. cbn [n_children].
        rewrite (sem_positions p join_words float_string json is_print_hi call (Node v ch) _ _ ch [] eq_refl).
        rewrite (proj2 (sequence_map _ _ _) S1). reflexivity.
    Qed.
  End Text.
End Core.
