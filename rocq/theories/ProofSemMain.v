(** Positions, texts and meanings of the trees of a parse. *)
From Verif Require Import Base ModelTypes ModelText ModelEarley ModelTrees ModelApi ModelQuote ModelSem
     SpecTypes SpecGrammar SpecTree SpecApi SpecSem
     ProofEqual ProofChart ProofTreeOk ProofApi ProofMain ProofSem ProofNodes.

(** ** Substrings *)
Lemma length_append s t : String.length (s ++ t)%string = String.length s + String.length t.
Proof. induction s; simpl; auto. Qed.

Lemma append_assoc a b c : ((a ++ b) ++ c = a ++ (b ++ c))%string.
Proof. induction a; simpl; congruence. Qed.

Lemma substring_prefix x y : forall a k, a + k <= String.length x -> substring a k (x ++ y) = substring a k x.
Proof.
  induction x as [|c x IH]; intros a k H; simpl in H.
  - assert (a = 0) as -> by lia. assert (k = 0) as -> by lia. destruct y; reflexivity.
  - destruct a as [|a]; [|simpl; apply IH; lia]. destruct k as [|k]; [reflexivity|].
    simpl. f_equal. apply IH. lia.
Qed.

Lemma substring_split s : forall n, exists r, s = (substring 0 n s ++ r)%string.
Proof.
  induction s as [|c s IH]; intros n; [exists ""; destruct n; reflexivity|].
  destruct n as [|n]; [exists (String c s); reflexivity|].
  destruct (IH n) as [r Hr]. exists r. simpl. f_equal. exact Hr.
Qed.

Lemma trim_right_prefix n : forall s, exists r, s = (trim_right n s ++ r)%string.
Proof.
  induction n as [|n IH]; intros s.
  - exists "". simpl. induction s; simpl; congruence.
  - cbn [trim_right]. destruct s as [|c s]; [exists ""; reflexivity|].
    destruct (decode_last_rune (String c s)) as [r w]. destruct (is_space r).
    + destruct (substring_split (String c s) (String.length (String c s) - w)) as [x Hx].
      destruct (IH (substring 0 (String.length (String c s) - w) (String c s))) as [y Hy].
      exists (y ++ x)%string. rewrite Hx at 1. rewrite Hy at 1. apply append_assoc.
    + exists "". clear. induction (String c s); simpl; congruence.
Qed.

Lemma trim_space_prefix text : no_leading_space text -> exists r, text = (trim_space text ++ r)%string.
Proof.
  intros H. unfold trim_space.
  assert (trim_left (String.length text) text = text) as ->.
  { destruct text as [|c text]; [reflexivity|]. cbn [String.length trim_left].
    unfold no_leading_space in H. destruct (decode_rune (String c text)) as [r w]. cbn [fst] in H. rewrite H. reflexivity. }
  apply trim_right_prefix.
Qed.

(** ** Nonempty grammars *)
Lemma tree_nonempty tmatch gs toks : no_empty gs -> forall t a b q,
  tree_of gs (accepts_by tmatch) toks (some_range gs) t a b q -> a < b.
Proof.
  intros [He Hc].
  assert ((forall t a b q, tree_of gs (accepts_by tmatch) toks (some_range gs) t a b q -> a < b)
          /\ (forall ts a b qs, trees_of gs (accepts_by tmatch) toks (some_range gs) ts a b qs ->
                a <= b /\ (ts <> [] -> a < b))) as [Hd _]; [|exact Hd].
  apply tree_of_mutind.
  - intros; lia.
  - intros t a b Ht Hab (t' & Ho & H1 & H2 & H3). destruct (Nat.eq_dec a b) as [->|]; [|lia].
    exfalso. rewrite Nat.sub_diag in H3. apply (Hc t' Ho); [left; congruence|exact H3].
  - intros t a b bd ks Ht Hb _ IH. apply IH. exact (He _ _ Hb).
  - intros t a b m ks Ht (t' & Ho & H1 & H2 & H3) _ IH. destruct m as [|m].
    + exfalso. apply (Hc t' Ho); [right; congruence|exact H3].
    + apply IH. discriminate.
  - intros; split; [lia|congruence].
  - intros t ts a b c q qs _ IH1 _ [IH2 _]. split; intros; lia.
Qed.

Section One.
  Variable tmatch : term -> option token -> bool.
  Variable ords : nat -> order.
  Variable gs : list grammar_rules.
  Variable text : string.
  Variables (fuel n : nat) (mf : bool) (toks : list token) (starts : list string) (p : parse_t).
  Hypothesis Ho : is_order (ords n).
  Hypothesis Hp : earley_parse_n tmatch ords gs text fuel n mf toks starts = Ret p.
  Hypothesis Hwf : well_formed gs starts.

  Lemma state_position s a b : parsed_tokens p toks -> in_order toks -> s_start s < s_end s ->
    nth_error toks (s_start s) = Some a -> nth_error toks (s_end s - 1) = Some b ->
    boundary p s = Ret (tok_start a, tok_end b).
  Proof.
    intros Ht Hio Hlt Ha Hb. rewrite (position_of p toks s a b Ht Ha Hlt Hb).
    specialize (Hio (s_start s) (s_end s - 1) a b ltac:(lia) Ha Hb).
    rewrite Nat.max_r by lia. reflexivity.
  Qed.

  (** ** C17 *)
  Lemma final_position ref s : In ref (p_finals p) -> p_state p ref = Ret s -> in_order toks ->
    s_start s = 0 /\ s_end s <= length toks /\
    (forall a b, nth_error toks 0 = Some a -> nth_error toks (s_end s - 1) = Some b -> 0 < s_end s ->
       boundary p s = Ret (tok_start a, tok_end b))
    /\ (s_end s = 0 -> boundary p s = Panic).
  Proof.
    intros Hr Hs Hio. destruct (parse_facts _ _ _ _ _ _ _ _ _ _ Ho Hp) as (Hne & Ht & _ & H0 & _).
    destruct (final_range _ _ _ _ _ _ _ _ _ _ Ho Hp Hwf ref s Hr Hs) as [E1 E2].
    split; [exact E1|]. split; [exact E2|]. split.
    - intros a b Ha Hb Hlt. apply state_position; auto; rewrite E1; auto.
    - intros E. eapply position_start; eauto.
  Qed.

  Hypothesis Hsep : separated gs.

  Lemma tree_nodes t m : tree_of_parse p t -> part_of t m ->
    s_start (n_value m) <= s_end (n_value m) /\ s_end (n_value m) <= length toks
    /\ match s_rb (n_value m) with
       | None => n_children m = []
       | Some b => length (n_children m) = length (rb_terms b)
           /\ (has_body gs (t_value (s_term (n_value m))) b \/ b = list_rb (n_value m)
               \/ exists S, b = gamma_body S)
       end
    /\ exists t' q, tree_of gs (accepts_by tmatch) toks (some_range gs) t' (s_start (n_value m)) (s_end (n_value m)) q.
  Proof.
    intros (ref & fuel' & outs & H1 & H2 & H3) Hm. eapply parse_nodes; eauto.
  Qed.

  Lemma node_position t m : tree_of_parse p t -> part_of t m -> in_order toks ->
    s_start (n_value m) <= s_end (n_value m) <= length toks
    /\ (s_start (n_value m) < s_end (n_value m) ->
        exists a b, nth_error toks (s_start (n_value m)) = Some a
          /\ nth_error toks (s_end (n_value m) - 1) = Some b
          /\ node_pos p m = Ret (tok_start a, tok_end b)).
  Proof.
    intros Ht Hm Hio. destruct (parse_facts _ _ _ _ _ _ _ _ _ _ Ho Hp) as (Hne & Htk & _ & H0 & _).
    destruct (tree_nodes t m Ht Hm) as (E1 & E2 & _). split; [lia|]. intros Hlt.
    destruct (nth_error toks (s_start (n_value m))) as [a|] eqn:Ea; [|apply nth_error_None in Ea; lia].
    destruct (nth_error toks (s_end (n_value m) - 1)) as [b|] eqn:Eb; [|apply nth_error_None in Eb; lia].
    exists a, b. split; [reflexivity|]. split; [reflexivity|].
    unfold node_pos. apply state_position; auto.
  Qed.

  Lemma empty_node_position t m : tree_of_parse p t -> part_of t m -> s_start (n_value m) = s_end (n_value m) ->
    (s_start (n_value m) = length toks \/ s_start (n_value m) = 0 -> node_pos p m = Panic)
    /\ (forall a b, 0 < s_start (n_value m) -> nth_error toks (s_start (n_value m) - 1) = Some a ->
          nth_error toks (s_start (n_value m)) = Some b -> tok_end a <= tok_start b ->
          node_pos p m = Ret (tok_start b, tok_start b)).
  Proof.
    intros Ht Hm He. destruct (parse_facts _ _ _ _ _ _ _ _ _ _ Ho Hp) as (Hne & Htk & _ & H0 & _).
    split.
    - intros [E|E]; unfold node_pos.
      + eapply position_end; eauto. lia.
      + eapply position_start; eauto. congruence.
    - intros a b H1 Ha Hb Hab. unfold node_pos. eapply position_inside; eauto.
  Qed.

  (** ** C18 *)
  Lemma node_text t m : tree_of_parse p t -> part_of t m -> in_order toks -> inside (trim_space text) toks ->
    no_leading_space text -> s_start (n_value m) < s_end (n_value m) ->
    exists a b, nth_error toks (s_start (n_value m)) = Some a /\ nth_error toks (s_end (n_value m) - 1) = Some b
      /\ original_text p m = Ret (substring (tok_start a) (tok_end b - tok_start a) (trim_space text)).
  Proof.
    intros Ht Hm Hio Hin Hls Hlt. destruct (node_position t m Ht Hm Hio) as [_ H].
    destruct (H Hlt) as (a & b & Ha & Hb & Hpos). exists a, b. split; [exact Ha|]. split; [exact Hb|].
    unfold original_text. rewrite Hpos. cbn [bind].
    destruct (parse_facts _ _ _ _ _ _ _ _ _ _ Ho Hp) as (_ & _ & Htext & _). rewrite Htext.
    destruct (trim_space_prefix text Hls) as [r Hr].
    pose proof (Hin b (nth_error_In _ _ Hb)) as Hbl.
    assert (tok_start a <= tok_end b) as Hab by (eapply (Hio (s_start (n_value m)) (s_end (n_value m) - 1)); eauto; lia).
    unfold slice. rewrite (proj2 (Nat.leb_le _ _) Hab).
    assert (tok_end b <= String.length text) as Hle.
    { rewrite Hr, length_append. lia. }
    rewrite (proj2 (Nat.leb_le _ _) Hle). cbn [andb]. f_equal.
    rewrite Hr at 1. apply substring_prefix. lia.
  Qed.

  (** Whatever the text, the bytes are taken from the text as given. *)
  Lemma node_text_given t m : tree_of_parse p t -> part_of t m -> in_order toks -> inside text toks ->
    s_start (n_value m) < s_end (n_value m) ->
    exists a b, nth_error toks (s_start (n_value m)) = Some a /\ nth_error toks (s_end (n_value m) - 1) = Some b
      /\ original_text p m = Ret (substring (tok_start a) (tok_end b - tok_start a) text).
  Proof.
    intros Ht Hm Hio Hin Hlt. destruct (node_position t m Ht Hm Hio) as [_ H].
    destruct (H Hlt) as (a & b & Ha & Hb & Hpos). exists a, b. split; [exact Ha|]. split; [exact Hb|].
    unfold original_text. rewrite Hpos. cbn [bind].
    destruct (parse_facts _ _ _ _ _ _ _ _ _ _ Ho Hp) as (_ & _ & Htext & _). rewrite Htext.
    pose proof (Hin b (nth_error_In _ _ Hb)) as Hbl.
    assert (tok_start a <= tok_end b) as Hab by (eapply (Hio (s_start (n_value m)) (s_end (n_value m) - 1)); eauto; lia).
    unfold slice. rewrite (proj2 (Nat.leb_le _ _) Hab), (proj2 (Nat.leb_le _ _) Hbl). reflexivity.
  Qed.

  (** ** C19, C20 *)
  Section Meaning.
    Variable join_words : list string -> string.
    Variable float_string : bigf -> string.
    Variable json : dval -> string.
    Variable is_print_hi : rune -> bool.
    Variable call : string -> list dval -> res dval.
    Notation semantic := (semantic p join_words float_string json is_print_hi call).
    Notation eval := (eval p join_words float_string call).

    Lemma part_trans a b c : part_of a b -> part_of b c -> part_of a c.
    Proof. induction 1; intros; auto. eapply po_kid; eauto. Qed.

    Lemma node_words t m : tree_of_parse p t -> part_of t m ->
      node_nl p join_words m = Ret (join_words (map tok_text
        (firstn (s_end (n_value m) - s_start (n_value m)) (skipn (s_start (n_value m)) toks)))).
    Proof.
      intros Ht Hm. destruct (parse_facts _ _ _ _ _ _ _ _ _ _ Ho Hp) as (_ & Htk & _).
      destruct (tree_nodes t m Ht Hm) as (E1 & E2 & _). apply nl_ret; auto.
    Qed.

    Lemma tree_readable t m : tree_of_parse p t -> part_of t m -> readable p join_words m.
    Proof.
      intros Ht Hm x Hx. rewrite (node_words t x Ht (part_trans _ _ _ Hm Hx)). eauto.
    Qed.

    Lemma list_fun_ok s f : rb_f (list_rb s) = Some f -> fun_ok (s_dot s) f.
    Proof.
      simpl. intros [= <-]. constructor; [discriminate|].
      apply Forall_forall. intros a Ha. apply in_map_iff in Ha as (i & <- & Hi). apply in_seq in Hi.
      constructor. lia.
    Qed.

    Lemma gamma_fun_ok S f : rb_f (gamma_body S) = Some f -> fun_ok 1 f.
    Proof.
      simpl. intros [= <-]. constructor; [reflexivity|]. constructor; [|constructor]. constructor. simpl. lia.
    Qed.

    Lemma tree_functions t m f : tree_of_parse p t -> part_of t m -> function_of m = Some f ->
      fun_ok (length (n_children m)) f \/ exists x b, has_body gs x b /\ rb_f b = Some f
        /\ length (n_children m) = length (rb_terms b).
    Proof.
      intros Ht Hm Hf. destruct (tree_nodes t m Ht Hm) as (_ & _ & Hk & _).
      unfold function_of in Hf. destruct (s_rb (n_value m)) as [b|]; [|discriminate].
      destruct Hk as [Hl [Hb|[->|[S ->]]]].
      - right. eauto 6.
      - left. rewrite Hl. simpl. rewrite repeat_length. apply list_fun_ok. exact Hf.
      - left. rewrite Hl. apply (gamma_fun_ok S). exact Hf.
    Qed.

    Lemma tree_context_free t m : no_contexts gs -> tree_of_parse p t -> part_of t m -> context_free m.
    Proof.
      intros Hnc Ht Hm x f Hx Hf.
      destruct (tree_functions t x f Ht (part_trans _ _ _ Hm Hx) Hf) as [H|(y & b & Hb & Hf' & _)].
      - eapply fun_ok_no_context; eauto.
      - eapply Hnc; eauto.
    Qed.

    Lemma tree_semantic_total t m : functions_fit gs -> tree_of_parse p t -> part_of t m ->
      exists s, semantic m = Ret s.
    Proof.
      intros Hfit Ht Hm. apply semantic_total.
      - eapply tree_readable; eauto.
      - intros x f Hx Hf.
        destruct (tree_functions t x f Ht (part_trans _ _ _ Hm Hx) Hf) as [H|(y & b & Hb & Hf' & Hl)]; auto.
        rewrite Hl. eapply Hfit; eauto.
    Qed.

    Lemma tree_semantic_fails t m : no_contexts gs -> tree_of_parse p t -> part_of t m ->
      (semantic m = Err <-> SemBad m) /\ (semantic m <> Panic) /\ (semantic m <> Fuel).
    Proof.
      intros Hnc Ht Hm.
      pose proof (tree_readable t m Ht Hm) as Hr. pose proof (tree_context_free t m Hnc Ht Hm) as Hc.
      split; [apply semantic_fails_iff; auto|].
      destruct (semantic_decides p join_words float_string json is_print_hi call m Hr Hc) as [[s Hs]|[Hs _]];
        rewrite Hs; split; discriminate.
    Qed.

    Lemma tree_sliceable t m : in_order toks -> inside text toks ->
      (forall x, part_of m x -> s_start (n_value x) < s_end (n_value x)) ->
      tree_of_parse p t -> part_of t m -> sliceable p m.
    Proof.
      intros Hio Hin Hne Ht Hm x Hx.
      destruct (node_text_given t x Ht (part_trans _ _ _ Hm Hx) Hio Hin (Hne x Hx)) as (a & b & _ & _ & ->). eauto.
    Qed.

    Lemma tree_eval_fails t m : no_contexts gs -> in_order toks -> inside text toks -> call_returns call ->
      (forall x, part_of m x -> s_start (n_value x) < s_end (n_value x)) ->
      tree_of_parse p t -> part_of t m ->
      (eval m = Err <-> EvBad p join_words float_string call m) /\ (eval m <> Panic) /\ (eval m <> Fuel).
    Proof.
      intros Hnc Hio Hin Hcall Hne Ht Hm.
      pose proof (tree_readable t m Ht Hm) as Hr. pose proof (tree_context_free t m Hnc Ht Hm) as Hc.
      pose proof (tree_sliceable t m Hio Hin Hne Ht Hm) as Hs.
      split; [apply eval_fails_iff; auto|].
      destruct (eval_decides p join_words float_string call m Hr Hs Hc Hcall) as [[s E]|[E _]];
        rewrite E; split; discriminate.
    Qed.

    Lemma nodes_nonempty t m : no_empty gs -> tree_of_parse p t -> part_of t m ->
      s_start (n_value m) < s_end (n_value m).
    Proof.
      intros Hne Ht Hm. destruct (tree_nodes t m Ht Hm) as (_ & _ & _ & t' & q & Hq).
      eapply tree_nonempty; eauto.
    Qed.
  End Meaning.
End One.

(** ** The calls: every parse is a parse of the tokens from some position on *)
Section Calls.
  Variable tmatch : term -> option token -> bool.
  Variable ords : nat -> order.
  Variable gs : list grammar_rules.
  Variable text : string.
  Definition suffix_parse (toks : list token) (starts : list string) (p : parse_t) : Prop :=
    exists fuel n mf i, i <= length toks /\ earley_parse_n tmatch ords gs text fuel n mf (skipn i toks) starts = Ret p.

  Lemma suffix_shift k toks starts p : suffix_parse toks starts p -> suffix_parse (k :: toks) starts p.
  Proof. intros (fuel & n & mf & i & Hi & H). exists fuel, n, mf, (S i). simpl. split; [lia|exact H]. Qed.

  Lemma suffix_skip m toks starts p : suffix_parse (skipn m toks) starts p -> suffix_parse toks starts p.
  Proof.
    revert toks. induction m as [|m IH]; intros [|k toks]; simpl; auto. intros H. apply suffix_shift. auto.
  Qed.

  Lemma any_suffix fuel starts : forall toks n q p, any_loop tmatch ords gs text fuel n toks starts q = Ret (Some p) ->
    q = Some p \/ suffix_parse toks starts p.
  Proof.
    induction toks as [|k toks IH]; intros n q p H; cbn [any_loop] in H.
    - left. congruence.
    - destruct (earley_parse_n tmatch ords gs text fuel n true (k :: toks) starts) as [r| | |] eqn:E; try discriminate.
      cbn [bind] in H. assert (suffix_parse (k :: toks) starts r) as Hr.
      { exists fuel, n, true, 0. simpl. split; [lia|exact E]. }
      destruct (has_finals r).
      + injection H as ->. right. exact Hr.
      + destruct (IH _ _ _ H) as [E'|Hs]; [injection E' as ->; right; exact Hr|right; apply suffix_shift; exact Hs].
  Qed.

  Lemma all_suffix fuel starts : forall toks n ps p, all_loop tmatch ords gs text fuel n toks starts = Ret ps -> In p ps ->
    suffix_parse toks starts p.
  Proof.
    induction toks as [|k toks IH]; intros n ps p H Hin; cbn [all_loop] in H.
    - injection H as <-. destruct Hin.
    - destruct (earley_parse_n tmatch ords gs text fuel n false (k :: toks) starts) as [r| | |] eqn:E; try discriminate.
      cbn [bind] in H. assert (suffix_parse (k :: toks) starts r) as Hr.
      { exists fuel, n, false, 0. simpl. split; [lia|exact E]. }
      destruct (all_loop tmatch ords gs text fuel (S n) toks starts) as [rest| | |] eqn:E2; try discriminate.
      cbn [bind] in H. injection H as <-. destruct (has_finals r).
      + destruct Hin as [->|Hin]; [exact Hr|]. apply suffix_shift. eauto.
      + apply suffix_shift. eauto.
  Qed.

  Lemma max_suffix fuel starts : forall steps toks n ps p, max_all_loop tmatch ords gs text steps fuel n toks starts = Ret ps -> In p ps ->
    suffix_parse toks starts p.
  Proof.
    induction steps as [|steps IH]; intros toks n ps p H Hin; cbn [max_all_loop] in H; [discriminate|].
    destruct toks as [|k toks].
    - injection H as <-. destruct Hin.
    - destruct (earley_parse_n tmatch ords gs text fuel n true (k :: toks) starts) as [r| | |] eqn:E; try discriminate.
      cbn [bind] in H. assert (suffix_parse (k :: toks) starts r) as Hr.
      { exists fuel, n, true, 0. simpl. split; [lia|exact E]. }
      destruct (has_finals r).
      + destruct (max_end r (p_finals r) 0) as [m| | |]; try discriminate. cbn [bind] in H.
        destruct (max_all_loop tmatch ords gs text steps fuel (S n) (skipn m (k :: toks)) starts) as [rest| | |] eqn:E2; try discriminate.
        cbn [bind] in H. injection H as <-. destruct Hin as [->|Hin]; [exact Hr|].
        apply (suffix_skip m). eauto.
      + apply suffix_shift. eauto.
  Qed.
End Calls.

Lemma calls_parse_suffixes tmatch ords gs annotate local_grammar ctx text starts toks l p :
  process annotate local_grammar ctx text = Ret (toks, l) ->
  (exists fuel, EarleyParse tmatch ords gs annotate local_grammar fuel ctx text starts = Ret p) \/
  (exists fuel, EarleyParseAny tmatch ords gs annotate local_grammar fuel ctx text starts = Ret (Some p)) \/
  (exists steps fuel ps, EarleyParseMaxAll tmatch ords gs annotate local_grammar steps fuel ctx text starts = Ret ps /\ In p ps) \/
  (exists fuel ps, EarleyParseAll tmatch ords gs annotate local_grammar fuel ctx text starts = Ret ps /\ In p ps) ->
  exists fuel n mf i, i <= length toks /\
    earley_parse_n tmatch ords (with_local gs l) text fuel n mf (skipn i toks) starts = Ret p.
Proof.
  intros Hpr H. unfold EarleyParse, EarleyParseAny, EarleyParseMaxAll, EarleyParseAll in H. rewrite Hpr in H. cbn [bind] in H.
  destruct H as [(fuel & H)|[(fuel & H)|[(steps & fuel & ps & H & Hin)|(fuel & ps & H & Hin)]]].
  - exists fuel, 0, true, 0. split; [lia|exact H].
  - destruct (any_suffix _ _ _ _ _ _ _ _ _ _ H) as [E|Hs]; [discriminate|exact Hs].
  - exact (max_suffix _ _ _ _ _ _ _ _ _ _ _ H Hin).
  - exact (all_suffix _ _ _ _ _ _ _ _ _ _ H Hin).
Qed.

Lemma in_order_skip toks i : in_order toks -> in_order (skipn i toks).
Proof.
  intros H a b x y Hab Hx Hy.
  assert (forall j z, nth_error (skipn i toks) j = Some z -> nth_error toks (i + j) = Some z) as Hn.
  { clear. revert toks. induction i as [|i IH]; intros [|k toks] j z Hz; simpl in *; auto; try (destruct j; discriminate). }
  eapply (H (i + a) (i + b)); eauto. lia.
Qed.
Lemma inside_skip text toks i : inside text toks -> inside text (skipn i toks).
Proof.
  intros H k Hk. apply H. revert toks Hk H. induction i as [|i IH]; intros [|x toks] Hk H; simpl in *; auto.
  right. apply IH; auto. intros y Hy. apply H. right; auto.
Qed.
