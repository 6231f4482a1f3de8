(** A chart has polynomially many states. *)
From Verif Require Import Base ModelTypes ModelEarley ModelApi SpecTypes SpecGrammar SpecTree SpecSize ProofEqual ProofChart ProofSound ProofTerm.

(** ** Sums *)
Lemma sum_app l l' : sum (l ++ l') = sum l + sum l'.
Proof. induction l; cbn; lia. Qed.
Lemma flat_map_sum {A B} (f : A -> list B) l : length (flat_map f l) = sum (map (fun a => length (f a)) l).
Proof. induction l; cbn; [reflexivity|]. rewrite app_length. lia. Qed.
Lemma sum_const {A} (f : A -> nat) k l : (forall a, In a l -> f a <= k) -> sum (map f l) <= length l * k.
Proof. induction l as [|a l IH]; cbn; intros H; [lia|]. specialize (IH (fun b Hb => H b (or_intror Hb))). specialize (H a (or_introl eq_refl)). lia. Qed.
Lemma sum_le {A} (f g : A -> nat) l : (forall a, In a l -> f a <= g a) -> sum (map f l) <= sum (map g l).
Proof. induction l as [|a l IH]; cbn; intros H; [lia|]. specialize (IH (fun b Hb => H b (or_intror Hb))). specialize (H a (or_introl eq_refl)). lia. Qed.
Lemma sum_scale {A} (f : A -> nat) k l : sum (map (fun a => k * f a) l) = k * sum (map f l).
Proof. induction l; cbn; lia. Qed.
Lemma map_flat_map {A B C} (g : B -> C) (f : A -> list B) l : map g (flat_map f l) = flat_map (fun a => map g (f a)) l.
Proof. induction l; cbn; [reflexivity|]. rewrite map_app. congruence. Qed.
Lemma sum_flat_map {A} (f : A -> list nat) l : sum (flat_map f l) = sum (map (fun a => sum (f a)) l).
Proof. induction l; cbn; [reflexivity|]. rewrite sum_app. lia. Qed.

Section Size.
  Variable tmatch : term -> option token -> bool.
  Variable ord : nat -> nat -> nat -> list rulebody -> list rulebody.
  Variable gs : list grammar_rules.
  Variable toks : list token.
  Variable starts : list string.
  Notation bodies := (all_bodies gs starts).
  Notation sz := (grammar_size gs starts).

  Lemma bodies_size : sum (map body_size bodies) + sum (map (fun g : grammar_rules => length g) gs) + 1 <= sz.
  Proof.
    unfold all_bodies, grammar_size. rewrite map_app, sum_app.
    assert (sum (map body_size (map gamma_body starts)) = 2 * length starts) as ->.
    { induction starts as [|s l IH]; cbn [map sum length]; [reflexivity|]. rewrite IH. cbn. lia. }
    enough (sum (map body_size (flat_map (fun g => flat_map (fun kv : string * rule => map snd (r_body (snd kv))) g) gs))
            + sum (map (fun g : grammar_rules => length g) gs) <= sum (map rules_size gs)) by lia.
    induction gs as [|g l IH]; cbn [flat_map map sum]; [lia|]. rewrite map_app, sum_app.
    enough (sum (map body_size (flat_map (fun kv : string * rule => map snd (r_body (snd kv))) g)) + length g <= rules_size g) by lia.
    clear. unfold rules_size. induction g as [|kv g IH]; cbn [flat_map map sum length]; [lia|]. rewrite map_app, sum_app.
    unfold rule_size at 1. rewrite map_map. lia.
  Qed.
  Lemma names_size : length (all_names gs) <= sz.
  Proof.
    pose proof bodies_size as H. unfold all_names. cbn [length]. rewrite flat_map_sum.
    pose proof (sum_le (fun g : grammar_rules => length (map (fun kv : string * rule => r_name (snd kv)) g)) (fun g : grammar_rules => length g) gs) as H1.
    refine (Nat.le_trans _ (S (sum (map (fun g : grammar_rules => length g) gs))) _ _ _); [|lia]. apply le_n_S. apply H1. intros g _. rewrite map_length. lia.
  Qed.
  Lemma terms_size : length (flat_map rb_terms bodies) + 1 <= sz.
  Proof.
    pose proof bodies_size as H. rewrite flat_map_sum.
    assert (sum (map (fun a => length (rb_terms a)) bodies) <= sum (map body_size bodies)) by (apply sum_le; intros; unfold body_size; lia).
    lia.
  Qed.
  Lemma metas_size : length (all_metas gs starts) <= sz.
  Proof. unfold all_metas. cbn [length]. rewrite map_length. pose proof terms_size. lia. Qed.
  Lemma values_size : length (all_values gs starts) <= sz.
  Proof. unfold all_values. cbn [length]. rewrite map_length. pose proof terms_size. lia. Qed.

  Lemma univ_size c : length (univ gs starts c) <= sz * (sz * (sz * S c)) + sz * (sz * S c).
  Proof.
    unfold univ. rewrite app_length. apply Nat.add_le_mono.
    - rewrite flat_map_sum. eapply Nat.le_trans; [apply (sum_const _ (sz * (sz * S c)))|apply Nat.mul_le_mono_r; apply names_size].
      intros n _. rewrite flat_map_sum. eapply Nat.le_trans; [apply (sum_const _ (sz * S c))|apply Nat.mul_le_mono_r; apply metas_size].
      intros m _. rewrite flat_map_sum.
      eapply Nat.le_trans; [apply (sum_le _ (fun b => S c * body_size b))|].
      + intros b _. rewrite flat_map_sum. eapply Nat.le_trans; [apply (sum_const _ (body_size b))|].
        * intros s _. rewrite map_length, seq_length. unfold body_size. lia.
        * rewrite seq_length. lia.
      + rewrite sum_scale. pose proof bodies_size. rewrite (Nat.mul_comm sz). apply Nat.mul_le_mono_l. lia.
    - rewrite flat_map_sum. eapply Nat.le_trans; [apply (sum_const _ (sz * S c))|apply Nat.mul_le_mono_r; apply values_size].
      intros v _. rewrite flat_map_sum. eapply Nat.le_trans; [apply (sum_const _ (S c))|apply Nat.mul_le_mono_r; apply metas_size].
      intros m _. rewrite map_length, seq_length. lia.
  Qed.
  Lemma size_pos : 1 <= sz. Proof. unfold grammar_size. lia. Qed.
  Lemma bound_size c : bound gs starts c <= 3 * sz ^ 3 * S c.
  Proof.
    unfold bound. pose proof (univ_size c) as H. pose proof size_pos as Hp.
    assert (length starts <= sz) by (unfold grammar_size; lia).
    cbn [Nat.pow]. rewrite Nat.mul_1_r.
    assert (sz <= sz * (sz * sz) * S c). { assert (1 <= (sz * sz) * S c) by (apply (Nat.mul_le_mono 1 _ 1); [apply (Nat.mul_le_mono 1 _ 1); lia|lia]). nia. }
    assert (sz * (sz * S c) <= sz * (sz * sz) * S c) by (assert (sz * S c <= sz * sz * S c) by nia; nia).
    nia.
  Qed.

  (** ** The items of list states *)
  Definition luniv (c d : nat) : list tstate :=
    flat_map (fun t => flat_map (fun s => map (fun k => mkSt t None s c k) (seq 0 (S d))) (seq 0 (S c)))
             (filter (fun t => ttype_eqb (t_type t) TList) (flat_map rb_terms bodies)).
  Lemma luniv_size c d : length (luniv c d) <= sz * (S c * S d).
  Proof.
    unfold luniv. rewrite flat_map_sum. eapply Nat.le_trans; [apply (sum_const _ (S c * S d))|].
    - intros t _. rewrite flat_map_sum. eapply Nat.le_trans; [apply (sum_const _ (S d))|].
      + intros s _. rewrite map_length, seq_length. lia.
      + rewrite seq_length. lia.
    - apply Nat.mul_le_mono_r. pose proof terms_size. pose proof (filter_length_le (fun t => ttype_eqb (t_type t) TList) (flat_map rb_terms bodies)). lia.
  Qed.
  Lemma in_luniv c d s : origin gs starts c s -> shape c s -> t_type (s_term s) = TList -> s_dot s <= d -> In s (luniv c d).
  Proof.
    intros Ho (He & Hs & _) Ht Hd. unfold origin in Ho. rewrite Ht in Ho. destruct Ho as [Hr Hocc]. destruct s as [t rb st en dt]; cbn in *. subst.
    apply in_flat_map. exists t. split; [apply filter_In; split; [eapply occurs_in; exact Hocc|rewrite Ht; reflexivity]|].
    apply in_flat_map. exists st. split; [apply in_seq; lia|]. apply (in_map (fun k => mkSt t None st c k)). apply in_seq. lia.
  Qed.

  Hypothesis Hord : is_order ord.
  Hypothesis Hwt : typed_args gs.
  Notation inv := (Inv tmatch gs toks starts).
  Notation linv := (LoopInv tmatch ord gs toks starts).

  Lemma column_nodup cols c : inv cols -> NoDup (skipn (length starts) (states_of cols c)).
  Proof using Hwt.
    intros (HS & HJ & HD). pose proof (justified_origin _ _ _ _ _ HJ) as Hor. set (k := length starts).
    apply NoDup_nth_error. intros i j Hi Hij.
    assert (forall n, nth_error (skipn k (states_of cols c)) n = nth_error (states_of cols c) (k + n)) as Hsk.
    { intros n. clear. revert n. generalize (states_of cols c) as l. induction k as [|k IH]; intros l n; [reflexivity|].
      destruct l; simpl; auto. destruct n; reflexivity. }
    rewrite !Hsk in Hij. destruct (nth_error (states_of cols c) (k + i)) as [s|] eqn:Es.
    2:{ assert (nth_error (skipn k (states_of cols c)) i <> None) by (apply nth_error_Some; auto). rewrite Hsk in H. congruence. }
    symmetry in Hij.
    assert (state_equal s s = true) as Hrefl.
    { apply state_equal_iff; auto; eapply origin_wt; eauto; eapply Hor; exact Es. }
    destruct (Nat.lt_trichotomy i j) as [Hlt|[Heq|Hlt]]; auto; exfalso.
    - destruct (HD c (k + i) (k + j) s s) as [_ Hx]; auto; [lia|unfold k in Hx; lia].
    - destruct (HD c (k + j) (k + i) s s) as [_ Hx]; auto; [lia|unfold k in Hx; lia].
  Qed.

  (** Every list state has at most [d] items. *)
  Definition items_le (d : nat) (cols : list column) : Prop :=
    forall c r s, st_at cols c r = Some s -> t_type (s_term s) = TList -> s_dot s <= d.

  Lemma column_size cols c d : inv cols -> items_le d cols ->
    length (states_of cols c) <= bound gs starts c + length (luniv c d).
  Proof using Hwt.
    intros HI Hd. pose proof HI as (HS & HJ & HD).
    pose proof (justified_shape _ _ _ _ _ HJ) as Hsh. pose proof (justified_origin _ _ _ _ _ HJ) as Hor.
    rewrite <- (firstn_skipn (length starts) (states_of cols c)), app_length. unfold bound.
    pose proof (firstn_le_length (length starts) (states_of cols c)) as H1.
    assert (length (skipn (length starts) (states_of cols c)) <= length (univ gs starts c ++ luniv c d)) as H2.
    { apply NoDup_incl_length; [apply column_nodup; exact HI|]. intros s Hs.
      assert (In s (states_of cols c)) as Hin.
      { rewrite <- (firstn_skipn (length starts) (states_of cols c)). apply in_or_app. right. exact Hs. }
      apply In_nth_error in Hin as [r Hr]. apply in_or_app.
      pose proof (Hor _ _ _ Hr) as Ho. pose proof (st_at_shape _ _ _ _ Hsh Hr) as Hss.
      destruct (ttype_eqb (t_type (s_term s)) TList) eqn:Et.
      - apply ttype_eqb_eq in Et. right. apply in_luniv; auto. eapply Hd; eauto.
      - left. apply in_univ; auto. intros E. rewrite E in Et. discriminate. }
    rewrite app_length in H2. lia.
  Qed.

  (** *** Items are added one per processed row *)
  Definition seen (cols : list column) (i j : nat) : nat :=
    sum (map (fun c => length (filter nonlist (states_of cols c))) (seq 0 i)) + length (filter nonlist (firstn j (states_of cols i))).

  Definition seen_bound (i : nat) : nat := sum (map (bound gs starts) (seq 0 (S i))).
  Lemma seen_le cols i j : inv cols -> seen cols i j <= seen_bound i.
  Proof using Hwt.
    intros HI. unfold seen, seen_bound. rewrite seq_S, map_app, sum_app. cbn [map sum Nat.add]. apply Nat.add_le_mono.
    - apply sum_le. intros c _. eapply nonlist_bound; eauto.
    - rewrite Nat.add_0_r. eapply Nat.le_trans; [apply filter_firstn_le|]. eapply nonlist_bound; eauto.
  Qed.

  Lemma row_items cols i j st : linv i j cols -> st_at cols i j = Some st -> items_le (seen cols i j) cols ->
    forall c s, In (c, s) (row_ops tmatch ord gs toks cols i j st) -> t_type (s_term s) = TList ->
    nonlist st = true /\ s_dot s <= S (seen cols i j).
  Proof using Hwt.
    intros (HI & _) Hst Hd c s Hin Ht. pose proof HI as (HS & HJ & HD).
    pose proof (justified_origin _ _ _ _ _ HJ) as Hor.
    destruct (nonlist st) eqn:Enl.
    2:{ exfalso. unfold nonlist in Enl. apply negb_false_iff in Enl. apply ttype_eqb_eq in Enl.
        apply (list_row_adds tmatch ord gs toks starts _ _ _ _ HI Hst Enl _ _ Hin). rewrite norm_term. exact Ht. }
    split; [reflexivity|]. unfold row_ops in Hin. apply in_app_or in Hin as [Hin|Hin].
    - unfold comp_ops in Hin. destruct (completed st); [|destruct Hin].
      apply in_map_iff in Hin as (x & Hx & Hin). injection Hx as <- ->.
      apply in_comp_list in Hin as (p & t & Hp & Hn & Ha & ->). unfold adv in *; cbn [s_dot s_term t_type] in *.
      apply In_nth_error in Hp as [r Hr]. pose proof (Hd _ _ _ Hr Ht). lia.
    - unfold next_ops in Hin. destruct (nxt st) as [t|] eqn:En; [|destruct Hin].
      apply nonlist_spec in Enl.
      assert (In (c, s) (if Nat.ltb (i + 1) (S (length toks)) then map (pair (i + 1)) (scan_list tmatch (col_tok toks (i + 1)) st t) else []) -> False) as Hsc.
      { destruct (Nat.ltb _ _); [|intros []]. intros H. apply in_map_iff in H as (x & Hx & H). injection Hx as <- ->. unfold scan_list in H.
        destruct (t_type t); try (destruct (tmatch _ _); [|destruct H]); destruct H as [<-|[]]; cbn in Ht; congruence. }
      assert (In (c, s) (map (pair i) (pred_list ord gs i j i t)) -> s_dot s <= S (seen cols i j)) as Hpr.
      { intros H. apply in_map_iff in H as (x & Hx & H). injection Hx as <- ->. unfold pred_list in H.
        destruct (t_type t); try destruct H as [<-|[]]; try destruct H; cbn; try lia.
        apply (in_pred_gs_list tmatch) in H as (k' & g & ru & b & _ & _ & _ & ->). cbn. lia. }
      destruct (t_type (s_term st)); try contradiction; destruct (t_type t); try (exfalso; exact (Hsc Hin)); try exact (Hpr Hin); destruct Hin.
  Qed.

  Lemma filter_app_le {A} (f : A -> bool) l l' : length (filter f l) <= length (filter f (l ++ l')).
  Proof using. rewrite filter_app, app_length. lia. Qed.

  Lemma items_step cols i j st : linv i j cols -> st_at cols i j = Some st -> items_le (seen cols i j) cols ->
    items_le (seen (apply_ops cols (row_ops tmatch ord gs toks cols i j st)) i (S j)) (apply_ops cols (row_ops tmatch ord gs toks cols i j st)).
  Proof using Hwt.
    intros HL Hst Hd. pose proof HL as (HI & _). pose proof HI as (HS & _).
    pose proof (row_items _ _ _ _ HL Hst Hd) as Hrow. set (ops := row_ops tmatch ord gs toks cols i j st) in *.
    set (cols' := apply_ops cols ops).
    assert (seen cols i j + (if nonlist st then 1 else 0) <= seen cols' i (S j)) as Hseen.
    { unfold seen.
      assert (forall c, exists l, states_of cols' c = states_of cols c ++ l) as Happ.
      { intros c. destruct (apply_ops_appended toks (fun _ => True) ops cols HS (fun _ _ _ => I) c) as (l & Hl & _). eauto. }
      assert (sum (map (fun c => length (filter nonlist (states_of cols c))) (seq 0 i))
              <= sum (map (fun c => length (filter nonlist (states_of cols' c))) (seq 0 i))) as H1.
      { apply sum_le. intros c _. destruct (Happ c) as [l ->]. apply filter_app_le. }
      destruct (Happ i) as [l Hl]. unfold st_at in Hst. rewrite Hl, (firstn_S_app _ _ _ _ Hst), filter_app, app_length. cbn [filter].
      destruct (nonlist st); cbn [length]; lia. }
    intros c r s Hs Ht.
    destruct (apply_ops_appended toks (fun s => t_type (s_term s) = TList -> nonlist st = true /\ s_dot s <= S (seen cols i j)) ops cols HS) with (c := c) as (l & Hl & Hf).
    { intros c0 s0 Hin Ht0. rewrite norm_term in Ht0. destruct (Hrow _ _ Hin Ht0) as [H1 H2]. split; [exact H1|].
      unfold norm. rewrite Ht0. exact H2. }
    fold cols' in Hl. unfold st_at in Hs. rewrite Hl in Hs. apply nth_error_In in Hs. apply in_app_or in Hs as [Hs|Hs].
    - apply In_nth_error in Hs as [r0 Hr0]. pose proof (Hd c r0 s Hr0 Ht). lia.
    - rewrite Forall_forall in Hf. destruct (Hf _ Hs Ht) as [Hn H2]. rewrite Hn in Hseen. lia.
  Qed.

  Definition rows_bound (i : nat) : nat := bound gs starts i + length (luniv i (seen_bound i)).
  Lemma rows_le cols i j : linv i j cols -> items_le (seen cols i j) cols -> length (states_of cols i) <= rows_bound i.
  Proof using Hwt.
    intros (HI & _) Hd. apply column_size; [exact HI|]. intros c r s Hs Ht. pose proof (Hd c r s Hs Ht). pose proof (seen_le cols i j HI). lia.
  Qed.

  Lemma col_loop_bounded i : i <= length toks -> forall fuel cols j, linv i j cols -> items_le (seen cols i j) cols ->
    j <= length (states_of cols i) -> S (rows_bound i) <= fuel + j ->
    exists cols', col_loop tmatch ord gs fuel cols i j = Ret cols' /\ items_le (seen cols' (S i) 0) cols'
      /\ length (states_of cols' i) <= rows_bound i.
  Proof using Hord Hwt.
    intros Hi. induction fuel as [|fuel IH]; intros cols j HL Hd Hj Hf; pose proof (rows_le _ _ _ HL Hd) as Hr; [lia|].
    destruct (loopinv_col _ _ _ _ _ _ _ _ HL Hi) as [col Ec].
    assert (states_of cols i = c_states col) as Hso by (unfold states_of; rewrite Ec; auto).
    cbn [col_loop]. unfold idx. rewrite Ec. cbn [bind]. destruct (nth_error (c_states col) j) as [st|] eqn:Es.
    - assert (st_at cols i j = Some st) as Hst by (unfold st_at; rewrite Hso; exact Es).
      destruct (loop_step _ _ _ _ _ cols i j st Hord HL Hst) as [E HL']. rewrite E. cbn [bind].
      apply IH; [exact HL'|apply items_step; assumption| |lia].
      pose proof HL as ((HS & _) & _).
      destruct (apply_ops_appended toks (fun _ => True) (row_ops tmatch ord gs toks cols i j st) cols HS (fun _ _ _ => I) i) as (l & Hl & _).
      rewrite Hl, app_length. pose proof (st_at_len _ _ _ _ Hst). lia.
    - exists cols. split; [reflexivity|]. split; [|exact Hr]. apply nth_error_None in Es.
      intros c r s Hs Ht. pose proof (Hd c r s Hs Ht) as H. unfold seen in *. cbn [firstn filter length]. rewrite seq_S, map_app, sum_app.
      cbn [map sum Nat.add]. rewrite (firstn_all2 (states_of cols i)) in H by (rewrite Hso; exact Es). lia.
  Qed.

  Lemma cols_loop_bounded fuel : forall n cols i, linv i 0 cols -> items_le (seen cols i 0) cols -> i + n <= S (length toks) ->
    (forall c, c < i + n -> S (rows_bound c) <= fuel) -> (forall c, c < i -> length (states_of cols c) <= rows_bound c) ->
    exists cols', cols_loop tmatch ord gs fuel n cols i = Ret cols' /\ forall c, c < i + n -> length (states_of cols' c) <= rows_bound c.
  Proof using Hord Hwt.
    induction n as [|n IH]; intros cols i HL Hd Hn Hf Hc; cbn [cols_loop].
    - exists cols. split; [reflexivity|]. intros c H. apply Hc. lia.
    - destruct (col_loop_bounded i ltac:(lia) fuel cols 0 HL Hd ltac:(lia)) as (c1 & E1 & Hd1 & Hl1); [rewrite Nat.add_0_r; apply Hf; lia|].
      rewrite E1. cbn [bind]. destruct (col_loop_inv _ _ _ _ _ _ _ _ _ _ Hord HL E1) as (_ & HL1 & Hpre).
      destruct (IH c1 (S i) HL1 Hd1 ltac:(lia)) as (c2 & E2 & H2).
      + intros c H. apply Hf. lia.
      + intros c H. destruct (Nat.eq_dec c i) as [->|Hne]; [exact Hl1|]. rewrite Hpre by lia. apply Hc. lia.
      + exists c2. split; [exact E2|]. intros c H. apply H2. lia.
  Qed.

  Lemma start_items : items_le (seen (start_columns toks starts) 0 0) (start_columns toks starts).
  Proof using ord.
    intros c r s Hs Ht. unfold st_at in Hs. rewrite (start_states ord) in Hs. destruct c; [|destruct r; discriminate].
    apply nth_error_In in Hs. apply in_map_iff in Hs as (S' & <- & _). discriminate Ht.
  Qed.

  Lemma parse_bounded fuel mf : starts <> [] -> (forall c, c <= length toks -> rows_bound c < fuel) ->
    exists cols fs, parse tmatch ord gs fuel mf starts (init_columns toks) = Ret (cols, fs)
      /\ forall c, c <= length toks -> length (states_of cols c) <= rows_bound c.
  Proof using Hord Hwt.
    intros Hne Hf. rewrite parse_eq by exact Hne.
    destruct (cols_loop_bounded fuel (S (length toks)) _ 0 (start_inv tmatch ord gs toks starts) start_items) as (cols & E & Hl);
      [lia|intros c H; apply Hf; lia|lia|].
    rewrite E. cbn [bind].
    destruct (cols_loop_inv _ _ _ _ _ _ _ _ _ _ Hord (start_inv tmatch ord gs toks starts) E) as [_ (HI & _)].
    destruct HI as (_ & HJ & _).
    destruct (all_finals_ret ord cols (length cols)) as (fs & -> & _); [eapply justified_shape; eauto|lia|].
    eexists _, _. split; [reflexivity|]. intros c H. apply Hl. lia.
  Qed.

  (** *** In numbers *)
  Lemma seen_bound_size i : seen_bound i <= 3 * sz ^ 3 * (S i * S i).
  Proof using.
    unfold seen_bound. eapply Nat.le_trans; [apply (sum_const _ (3 * sz ^ 3 * S i))|].
    - intros c Hc. apply in_seq in Hc. eapply Nat.le_trans; [apply bound_size|]. apply Nat.mul_le_mono_l. lia.
    - rewrite seq_length. generalize (3 * sz ^ 3). intros x. nia.
  Qed.
  Lemma rows_bound_size i : rows_bound i <= 7 * sz ^ 4 * S i ^ 3.
  Proof using.
    unfold rows_bound. pose proof (bound_size i) as H1. pose proof (luniv_size i (seen_bound i)) as H2.
    pose proof (seen_bound_size i) as H3. pose proof size_pos as Hp.
    replace (sz ^ 4) with (sz * sz ^ 3) by (cbn; lia). replace (S i ^ 3) with (S i * (S i * S i)) by (cbn; lia).
    assert (1 <= sz ^ 3) as Hx by (apply (Nat.pow_le_mono_l 1 sz 3) in Hp; rewrite Nat.pow_1_l in Hp; exact Hp).
    set (x := sz ^ 3) in *. set (z := sz) in *. clearbody x z. set (k := S i) in *. assert (1 <= k) as Hk by (unfold k; lia). clearbody k.
    set (q := k * k) in *. assert (k <= q) by (unfold q; nia). assert (1 <= q) by nia. clearbody q.
    assert (S (seen_bound i) <= 4 * (x * q)) as H4 by nia.
    assert (z * (k * S (seen_bound i)) <= z * (k * (4 * (x * q)))) as H5 by (apply Nat.mul_le_mono_l, Nat.mul_le_mono_l; exact H4).
    assert (x * k <= (z * x) * (k * q)) as H6 by (apply Nat.mul_le_mono; nia).
    nia.
  Qed.
End Size.

Lemma chart_fuel tmatch ords gs text n mf toks starts fuel :
  is_order (ords n) -> typed_args gs -> toks <> [] -> starts <> [] ->
  7 * grammar_size gs starts ^ 4 * (length toks + 1) ^ 3 < fuel ->
  exists p, earley_parse_n tmatch ords gs text fuel n mf toks starts = Ret p.
Proof.
  intros Ho Hty Ht Hs Hf.
  destruct (parse_bounded tmatch (ords n) gs toks starts Ho Hty fuel mf Hs) as (cols & fs & E & _).
  { intros c Hc. eapply Nat.le_lt_trans; [apply rows_bound_size|]. eapply Nat.le_lt_trans; [|exact Hf].
    apply Nat.mul_le_mono_l. apply Nat.pow_le_mono_l. lia. }
  unfold earley_parse_n, earley_parse. destruct starts; [congruence|]. destruct toks; [congruence|]. rewrite E. cbn [bind]. eauto.
Qed.

Lemma chart_size tmatch ords gs text fuel n mf toks starts p :
  is_order (ords n) -> typed_args gs -> earley_parse_n tmatch ords gs text fuel n mf toks starts = Ret p ->
  forall c col, nth_error (p_columns p) c = Some col ->
  length (c_states col) <= 7 * grammar_size gs starts ^ 4 * (c + 1) ^ 3
  /\ (no_lists gs -> length (c_states col) <= 3 * grammar_size gs starts ^ 3 * (c + 1)).
Proof.
  intros Ho Hty H. unfold earley_parse_n, earley_parse in H.
  assert (starts <> []) as Hs by (destruct starts; [discriminate H|discriminate]).
  assert (parse tmatch (ords n) gs fuel mf starts (init_columns toks) = Ret (p_columns p, p_finals p)) as E.
  { destruct starts as [|s0 ss]; [congruence|]. destruct toks as [|t0 ts]; [discriminate H|].
    destruct (parse _ _ _ _ _ _ _) as [[cols fs]| | |]; try discriminate H. cbn in H. injection H as <-. reflexivity. }
  clear H. set (big := fuel + S (sum (map (rows_bound gs starts) (seq 0 (S (length toks)))))).
  assert (forall c, c <= length toks -> rows_bound gs starts c < big) as Hbig.
  { intros c Hc. unfold big. enough (rows_bound gs starts c <= sum (map (rows_bound gs starts) (seq 0 (S (length toks))))) by lia.
    assert (In c (seq 0 (S (length toks)))) as Hin by (apply in_seq; lia). revert Hin. generalize (seq 0 (S (length toks))). clear.
    induction l as [|a l IH]; cbn; [intros []|]. intros [->|H]; [lia|]. specialize (IH H). lia. }
  destruct (parse_bounded tmatch (ords n) gs toks starts Ho Hty big mf Hs Hbig) as (cols & fs & E2 & Hl).
  apply (parse_fuel _ _ _ _ _ _ (S (sum (map (rows_bound gs starts) (seq 0 (S (length toks)))))) _ _ Hs) in E. fold big in E.
  rewrite E in E2. injection E2 as <- <-.
  intros c col Hc.
  assert (c <= length toks) as Hlt.
  { assert (c < length (p_columns p)) as H by (apply nth_error_Some; congruence).
    rewrite parse_eq in E by exact Hs.
    destruct (cols_loop _ _ _ _ _ _ _) as [cs| | |] eqn:Ec; try discriminate E. cbn [bind] in E.
    destruct (cols_loop_inv _ _ _ _ _ _ _ _ _ _ Ho (start_inv tmatch (ords n) gs toks starts) Ec) as [_ ((HS & _) & _)].
    destruct (all_finals _ _); try discriminate E. cbn [bind] in E. injection E as E _. subst cs. rewrite (proj1 HS) in H. lia. }
  specialize (Hl c Hlt). unfold states_of in Hl. rewrite Hc in Hl. rewrite Nat.add_1_r. split.
  - eapply Nat.le_trans; [exact Hl|]. apply rows_bound_size.
  - intros Hnl. eapply Nat.le_trans; [exact Hl|]. unfold rows_bound.
    assert (forall d, luniv gs starts c d = []) as ->.
    { intros d. unfold luniv. replace (filter _ _) with (@nil term); [reflexivity|]. symmetry.
      assert (forall t, In t (flat_map rb_terms (all_bodies gs starts)) -> t_type t <> TList) as Hall.
      { intros t Hin. apply in_flat_map in Hin as (b & Hb & Hin). unfold all_bodies in Hb. apply in_app_or in Hb as [Hb|Hb].
        - apply in_flat_map in Hb as (g & Hg & Hb). apply in_flat_map in Hb as (kv & Hr & Hb).
          apply in_map_iff in Hb as (hb & <- & Hb). eapply Hnl; eauto.
        - apply in_map_iff in Hb as (S0 & <- & _). destruct Hin as [<-|[]]. discriminate. }
      induction (flat_map rb_terms (all_bodies gs starts)) as [|t l IH]; [reflexivity|]. cbn [filter].
      pose proof (Hall t (or_introl eq_refl)). destruct (t_type t); try congruence; apply IH; intros u Hu; apply Hall; right; exact Hu. }
    cbn [length]. rewrite Nat.add_0_r. apply bound_size.
Qed.
