(** Chart construction neither panics nor runs forever. *)
From Coq Require Import Permutation.
From Verif Require Import Base ModelTypes ModelEarley SpecTypes SpecGrammar SpecTree ProofEqual ProofChart ProofSound.

Lemma lookup_in {A} (g : list (string * A)) x a : lookup g x = Some a -> In (x, a) g.
Proof.
  induction g as [|[k v] g IH]; simpl; [discriminate|].
  destruct (String.eqb k x) eqn:E; intros H.
  - injection H as ->. apply String.eqb_eq in E. subst. auto.
  - right; auto.
Qed.

Section Term.
  Variable tmatch : term -> option token -> bool.
  Variable ord : nat -> nat -> nat -> list rulebody -> list rulebody.
  Variable gs : list grammar_rules.
  Variable toks : list token.
  Variable starts : list string.
  Hypothesis Hord : is_order ord.

  Notation linv := (LoopInv tmatch ord gs toks starts).
  Notation loop := (col_loop tmatch ord gs).

  Lemma loopinv_col i j cols : linv i j cols -> i <= length toks -> exists col, nth_error cols i = Some col.
  Proof.
    intros ((HS & _) & _) Hi. destruct (nth_error cols i) as [col|] eqn:E; eauto.
    apply nth_error_None in E. rewrite (proj1 HS) in E. lia.
  Qed.

  (** *** No panic *)
  Lemma col_loop_no_panic fuel : forall cols i j, linv i j cols -> i <= length toks ->
    loop fuel cols i j = Fuel \/ exists cols', loop fuel cols i j = Ret cols'.
  Proof.
    induction fuel as [|fuel IH]; intros cols i j HL Hi; [left; reflexivity|].
    simpl. destruct (loopinv_col _ _ _ HL Hi) as [col Ec]. unfold idx. rewrite Ec. simpl.
    destruct (nth_error (c_states col) j) as [st|] eqn:Es; [|right; eauto].
    assert (st_at cols i j = Some st) as Hst by (unfold st_at, states_of; rewrite Ec; exact Es).
    destruct (loop_step _ _ _ _ _ cols i j st Hord HL Hst) as [E HL']. rewrite E. simpl. apply IH; auto.
  Qed.

  Lemma cols_loop_no_panic fuel n : forall cols i, linv i 0 cols -> i + n <= S (length toks) ->
    cols_loop tmatch ord gs fuel n cols i = Fuel \/ exists cols', cols_loop tmatch ord gs fuel n cols i = Ret cols'.
  Proof.
    induction n as [|n IH]; intros cols i HL Hn; simpl; [right; eauto|].
    destruct (col_loop_no_panic fuel cols i 0 HL) as [->|[cols' E]]; [lia|left; reflexivity|].
    rewrite E. simpl. destruct (col_loop_inv _ _ _ _ _ _ _ _ _ _ Hord HL E) as (_ & HL' & _).
    apply IH; auto. lia.
  Qed.

  Lemma parse_no_panic fuel mf : starts <> [] ->
    parse tmatch ord gs fuel mf starts (init_columns toks) = Fuel
    \/ exists x, parse tmatch ord gs fuel mf starts (init_columns toks) = Ret x.
  Proof.
    intros Hne. rewrite parse_eq by exact Hne.
    destruct (cols_loop_no_panic fuel (S (length toks)) _ 0 (start_inv tmatch ord gs toks starts)) as [->|[cols' E]];
      [lia|left; reflexivity|]. rewrite E. cbn [bind].
    destruct (cols_loop_inv _ _ _ _ _ _ _ _ _ _ Hord (start_inv tmatch ord gs toks starts) E) as [_ (HI & _)].
    destruct HI as (_ & HJ & _).
    destruct (all_finals_ret ord cols' (length cols')) as (fs & -> & _); [eapply justified_shape; eauto|lia|].
    right. eexists; reflexivity.
  Qed.

  (** *** A finite universe for all states but the (list) states *)
  Definition all_bodies : list rulebody :=
    flat_map (fun g => flat_map (fun kv : string * rule => map snd (r_body (snd kv))) g) gs ++ map gamma_body starts.
  Definition all_names : list string :=
    GammaRule :: flat_map (fun g => map (fun kv : string * rule => r_name (snd kv)) g) gs.
  Definition all_metas : list meta := MNil :: map t_meta (flat_map rb_terms all_bodies).
  Definition all_values : list string := "any" :: map t_value (flat_map rb_terms all_bodies).
  Definition univ (c : nat) : list tstate :=
    flat_map (fun n => flat_map (fun m => flat_map (fun b => flat_map (fun s =>
      map (fun d => mkSt (mkTerm n TNonterminal m) (Some b) s c d) (seq 0 (S (length (rb_terms b)))))
      (seq 0 (S c))) all_bodies) all_metas) all_names
    ++ flat_map (fun v => flat_map (fun m => map (fun s => mkSt (mkTerm v TAny m) None s c (c - s))
      (seq 0 (S c))) all_metas) all_values.

  Lemma has_body_in x b : has_body gs x b -> In b all_bodies.
  Proof.
    intros (g & r & h & Hg & Hl & Hb). apply in_or_app. left.
    apply in_flat_map. exists g. split; auto. apply in_flat_map. exists (x, r). split.
    - apply lookup_in; auto.
    - simpl. apply (in_map snd) in Hb. exact Hb.
  Qed.

  Lemma occurs_in t : occurs gs t -> In t (flat_map rb_terms all_bodies).
  Proof.
    intros (x & b & Hb & Ht). apply in_flat_map. exists b. split; auto. eapply has_body_in; eauto.
  Qed.

  Lemma in_univ c s : origin gs starts c s -> shape c s -> t_type (s_term s) <> TList -> In s (univ c).
  Proof.
    intros Ho (He & Hs & _) Hnl. destruct s as [[v ty m] rb st en dt].
    unfold origin in Ho; simpl in *. subst en. destruct ty; try contradiction; try congruence.
    - destruct Ho as (b & -> & Hb & Hd & Hm). apply in_or_app. left.
      assert (In b all_bodies) as Hbb.
      { destruct Hb as [(S & HS & _ & _ & ->)|(g & x & ru & h & Hg & Hl & Hin & _)].
        - apply in_or_app. right. apply in_map; auto.
        - eapply has_body_in. exists g, ru, h. eauto. }
      apply in_flat_map. exists v. split.
      { destruct Hb as [(S & HS & Hv & _)|(g & x & ru & h & Hg & Hl & Hin & Hv & _)]; simpl in Hv; subst v.
        - left; reflexivity.
        - right. apply in_flat_map. exists g. split; auto.
          change (r_name ru) with (r_name (snd (x, ru))).
          apply (in_map (fun kv : string * rule => r_name (snd kv))). apply lookup_in; auto. }
      apply in_flat_map. exists m. split.
      { destruct Hm as [->|(t & Ht & ->)]; [left; reflexivity|right].
        apply in_map. apply in_flat_map. eauto. }
      apply in_flat_map. exists b. split; auto.
      apply in_flat_map. exists st. split; [apply in_seq; lia|].
      apply (in_map (fun d => mkSt (mkTerm v TNonterminal m) (Some b) st c d)). apply in_seq. lia.
    - destruct Ho as (-> & -> & t & Ht & Hty & -> & Hv). apply in_or_app. right.
      apply occurs_in in Ht.
      apply in_flat_map. exists v. split.
      { destruct Hv as [->| ->]; [right; apply in_map; auto|left; reflexivity]. }
      apply in_flat_map. exists (t_meta t). split; [right; apply in_map; auto|].
      apply (in_map (fun s => mkSt (mkTerm v TAny (t_meta t)) None s c (c - s))). apply in_seq. lia.
  Qed.

  Hypothesis Hwt : typed_args gs.

  Lemma wt_gamma S : wt_rb (gamma_body S).
  Proof.
    unfold wt_rb, gamma_body; simpl. intros g H. injection H as <-. constructor. constructor; [|constructor]. constructor.
  Qed.

  Lemma origin_wt c s : origin gs starts c s -> wt_orb (s_rb s).
  Proof.
    unfold origin. destruct (t_type (s_term s)); try contradiction.
    - intros (b & -> & Hb & _) b' E. injection E as <-.
      destruct Hb as [(S & HS & _ & _ & ->)|(g & x & ru & h & Hg & Hl & Hin & _)].
      + apply wt_gamma.
      + apply (Hwt x b). exists g, ru, h. auto.
    - intros (-> & _) b' E. discriminate.
    - intros (-> & _) b' E. discriminate.
  Qed.

  Definition nonlist (s : tstate) : bool := negb (ttype_eqb (t_type (s_term s)) TList).

  Lemma nonlist_spec s : nonlist s = true <-> t_type (s_term s) <> TList.
  Proof.
    unfold nonlist. rewrite negb_true_iff. destruct (t_type (s_term s)); simpl; split; congruence.
  Qed.

  Definition bound (c : nat) : nat := length starts + length (univ c).

  Lemma filter_length_le {A} (f : A -> bool) l : length (filter f l) <= length l.
  Proof. induction l as [|x l IH]; simpl; auto. destruct (f x); simpl; lia. Qed.

  Lemma nonlist_bound cols c : Inv tmatch gs toks starts cols ->
    length (filter nonlist (states_of cols c)) <= bound c.
  Proof.
    intros (HS & HJ & HD).
    pose proof (justified_shape _ _ _ _ _ HJ) as Hsh.
    pose proof (justified_origin _ _ _ _ _ HJ) as Hor.
    set (k := length starts). rewrite <- (firstn_skipn k (states_of cols c)).
    rewrite filter_app, app_length. unfold bound.
    assert (length (filter nonlist (firstn k (states_of cols c))) <= length starts).
    { eapply Nat.le_trans; [apply filter_length_le|]. apply firstn_le_length. }
    assert (length (filter nonlist (skipn k (states_of cols c))) <= length (univ c)); [|lia].
    apply NoDup_incl_length.
    - apply NoDup_filter. apply NoDup_nth_error.
      intros i j Hi Hij.
      assert (forall n, nth_error (skipn k (states_of cols c)) n = nth_error (states_of cols c) (k + n)) as Hsk.
      { intros n. clear. revert n. generalize (states_of cols c) as l.
        induction k as [|k IH]; intros l n; [reflexivity|].
        destruct l; simpl; auto. destruct n; reflexivity. }
      rewrite !Hsk in Hij.
      destruct (nth_error (states_of cols c) (k + i)) as [s|] eqn:Es.
      2:{ assert (nth_error (skipn k (states_of cols c)) i <> None) by (apply nth_error_Some; auto).
          rewrite Hsk in H0. congruence. }
      symmetry in Hij.
      assert (state_equal s s = true) as Hrefl.
      { apply state_equal_iff; auto; eapply origin_wt; eapply Hor; exact Es. }
      destruct (Nat.lt_trichotomy i j) as [Hlt|[Heq|Hlt]]; auto; exfalso.
      + destruct (HD c (k + i) (k + j) s s) as [_ Hx]; auto; [lia|unfold k in Hx; lia].
      + destruct (HD c (k + j) (k + i) s s) as [_ Hx]; auto; [lia|unfold k in Hx; lia].
    - intros s Hs. apply filter_In in Hs as [Hin Hnl].
      assert (In s (states_of cols c)) as Hin'.
      { rewrite <- (firstn_skipn k (states_of cols c)). apply in_or_app. right; auto. }
      apply nonlist_spec in Hnl.
      apply In_nth_error in Hin' as [r Hr]. apply in_univ; auto.
      + eapply Hor; eauto.
      + eapply st_at_shape; eauto.
  Qed.

  (** *** What a row adds *)
  Lemma apply_ops_appended (P : tstate -> Prop) ops : forall cols,
    structured toks cols -> (forall c s, In (c, s) ops -> P (norm c s)) ->
    forall c, exists l, states_of (apply_ops cols ops) c = states_of cols c ++ l /\ Forall P l.
  Proof.
    induction ops as [|[c0 s0] ops IH]; intros cols HS HP c.
    - exists []. rewrite app_nil_r. auto.
    - simpl. destruct (IH (apply_op cols (c0, s0))) with (c := c) as (l & Hl & Hf).
      + eapply ext_structured; [apply apply_op_ext|exact HS].
      + intros c1 s1 H. apply HP. right; auto.
      + rewrite Hl. destruct (Nat.eq_dec c0 c) as [->|Hne].
        * destruct (nth_error cols c) as [col|] eqn:Ec.
          -- rewrite (states_of_apply_op _ _ _ _ Ec).
             destruct (proj2 HS _ _ Ec) as [Hi _].
             assert (states_of cols c = c_states col) as -> by (unfold states_of; rewrite Ec; auto).
             destruct (insert_cases col s0) as [(x & _ & _ & ->)|[_ ->]].
             ++ exists l. auto.
             ++ simpl. rewrite Hi. exists (norm c s0 :: l). rewrite <- app_assoc. split; auto.
                constructor; auto. apply HP. left; reflexivity.
          -- unfold apply_op. simpl. rewrite Ec. exists l. auto.
        * rewrite states_of_other by auto. exists l. auto.
  Qed.

  Lemma norm_term c s : s_term (norm c s) = s_term s.
  Proof. unfold norm. destruct (t_type (s_term s)); reflexivity. Qed.

  Lemma list_row_adds cols i j st : Inv tmatch gs toks starts cols -> st_at cols i j = Some st ->
    t_type (s_term st) = TList ->
    forall c s, In (c, s) (row_ops tmatch ord gs toks cols i j st) -> t_type (s_term (norm c s)) <> TList.
  Proof.
    intros (HS & HJ & HD) Hst Hl c s Hin. rewrite norm_term.
    pose proof (justified_origin _ _ _ _ _ HJ) as Hor.
    pose proof (Hor _ _ _ Hst) as Ho.
    unfold row_ops in Hin. apply in_app_or in Hin as [Hin|Hin].
    - unfold comp_ops in Hin. destruct (completed st); [|destruct Hin].
      apply in_map_iff in Hin as (x & Hx & Hin). injection Hx as <- ->.
      apply in_comp_list in Hin as (p & t & Hp & Hn & Ha & ->). unfold adv; simpl.
      apply In_nth_error in Hp as [r Hr]. pose proof (Hor _ _ _ Hr) as Hop.
      apply advances_spec in Ha as [[_ Ha]|[Ha _]]; [congruence|].
      destruct (nxt_origin _ _ _ _ _ Hop Hn) as [(Ep & _)|[(Ep & ->)|(Ep & ->)]]; try congruence.
      simpl in Ha. congruence.
    - unfold next_ops in Hin. destruct (nxt st) as [t|] eqn:En; [|destruct Hin].
      rewrite Hl in Hin. apply nxt_list_type in En; auto. rewrite En in Hin.
      apply in_map_iff in Hin as (x & Hx & Hin). injection Hx as <- ->.
      unfold pred_list in Hin. rewrite En in Hin.
      apply (in_pred_gs_list tmatch) in Hin as (k' & g & ru & b & _ & _ & _ & ->). simpl. discriminate.
  Qed.

  (** *** Termination of one column *)
  Lemma firstn_S_app {A} (l l' : list A) j a :
    nth_error l j = Some a -> firstn (S j) (l ++ l') = firstn j l ++ [a].
  Proof.
    revert j; induction l as [|x l IH]; intros [|j] H; simpl in *; try discriminate.
    - injection H as ->. reflexivity.
    - f_equal. apply IH; auto.
  Qed.

  Lemma filter_firstn_le {A} (f : A -> bool) l n : length (filter f (firstn n l)) <= length (filter f l).
  Proof.
    rewrite <- (firstn_skipn n l) at 2. rewrite filter_app, app_length. lia.
  Qed.

  Lemma col_loop_terminates i : i <= length toks -> forall a b k cols j,
    linv i j cols ->
    bound i - length (filter nonlist (firstn j (states_of cols i))) = a ->
    bound i - length (filter nonlist (states_of cols i)) = b ->
    length (states_of cols i) - j = k ->
    exists fuel cols', loop fuel cols i j = Ret cols'.
  Proof.
    intros Hi.
    induction a as [a IHa] using (well_founded_induction lt_wf).
    induction b as [b IHb] using (well_founded_induction lt_wf).
    induction k as [k IHk] using (well_founded_induction lt_wf).
    intros cols j HL Ha Hb Hk.
    destruct (loopinv_col _ _ _ HL Hi) as [col Ec].
    assert (states_of cols i = c_states col) as Hso by (unfold states_of; rewrite Ec; auto).
    destruct (nth_error (c_states col) j) as [st|] eqn:Es.
    2:{ exists 1, cols. simpl. unfold idx. rewrite Ec. simpl. rewrite Es. reflexivity. }
    assert (st_at cols i j = Some st) as Hst by (unfold st_at; rewrite Hso; exact Es).
    pose proof (st_at_len _ _ _ _ Hst) as Hj.
    destruct (loop_step _ _ _ _ _ cols i j st Hord HL Hst) as [E HL'].
    set (ops := row_ops tmatch ord gs toks cols i j st) in *.
    set (cols' := apply_ops cols ops) in *.
    pose proof HL as (HI & _). pose proof HL' as (HI' & _).
    pose proof (nonlist_bound cols i HI) as HB. pose proof (nonlist_bound cols' i HI') as HB'.
    assert (exists fuel cols'', loop fuel cols' i (S j) = Ret cols'') as (fuel & cols'' & Hf).
    { destruct (nonlist st) eqn:Enl.
      - (* a rule or (any) state *)
        destruct (apply_ops_appended (fun _ => True) ops cols (proj1 HI)) with (c := i) as (l & Hl & _); auto.
        fold cols' in Hl. unfold st_at in Hst.
        assert (length (filter nonlist (firstn (S j) (states_of cols' i)))
                = length (filter nonlist (firstn j (states_of cols i))) + 1) as HP.
        { rewrite Hl, (firstn_S_app _ _ _ _ Hst), filter_app, app_length. simpl. rewrite Enl. reflexivity. }
        pose proof (filter_firstn_le nonlist (states_of cols' i) (S j)) as HPN.
        eapply IHa; [|exact HL'|reflexivity|reflexivity|reflexivity]. lia.
      - (* a list state *)
        assert (t_type (s_term st) = TList) as Htl.
        { unfold nonlist in Enl. apply negb_false_iff in Enl. apply ttype_eqb_eq in Enl. exact Enl. }
        destruct (apply_ops_appended (fun s => t_type (s_term s) <> TList) ops cols (proj1 HI)) with (c := i)
          as (l & Hl & Hfl).
        { intros c s Hin. exact (list_row_adds cols i j st HI Hst Htl c s Hin). }
        fold cols' in Hl. unfold st_at in Hst.
        assert (length (filter nonlist (firstn (S j) (states_of cols' i)))
                = length (filter nonlist (firstn j (states_of cols i)))) as HP.
        { rewrite Hl, (firstn_S_app _ _ _ _ Hst), filter_app, app_length. simpl. rewrite Enl. simpl. lia. }
        destruct l as [|s0 l].
        + rewrite app_nil_r in Hl.
          eapply (IHk (length (states_of cols' i) - S j)); [|exact HL'| | |reflexivity].
          * rewrite Hl. lia.
          * rewrite HP. exact Ha.
          * rewrite Hl. exact Hb.
        + assert (nonlist s0 = true) as Hs0.
          { inversion Hfl; subst. apply nonlist_spec; auto. }
          assert (length (filter nonlist (states_of cols i)) < length (filter nonlist (states_of cols' i))) as HN.
          { rewrite Hl, filter_app, app_length. simpl. rewrite Hs0. simpl. lia. }
          eapply (IHb (bound i - length (filter nonlist (states_of cols' i)))); [|exact HL'| |reflexivity|reflexivity].
          * lia.
          * rewrite HP. exact Ha. }
    exists (S fuel), cols''. simpl. unfold idx. rewrite Ec. simpl. rewrite Es, E. exact Hf.
  Qed.

  (** *** More fuel does not change the result *)
  Lemma col_loop_fuel fuel : forall cols i j cols' k,
    loop fuel cols i j = Ret cols' -> loop (fuel + k) cols i j = Ret cols'.
  Proof.
    induction fuel as [|fuel IH]; intros cols i j cols' k H; [discriminate|].
    simpl in *. destruct (idx cols i) as [col| | |]; simpl in *; try discriminate.
    destruct (nth_error (c_states col) j) as [st|]; auto.
    destruct (step_row tmatch ord gs cols i j st) as [c1| | |]; simpl in *; try discriminate.
    apply IH; auto.
  Qed.

  Lemma cols_loop_fuel fuel k n : forall cols i cols',
    cols_loop tmatch ord gs fuel n cols i = Ret cols' ->
    cols_loop tmatch ord gs (fuel + k) n cols i = Ret cols'.
  Proof.
    induction n as [|n IH]; intros cols i cols' H; simpl in *; auto.
    destruct (loop fuel cols i 0) as [c1| | |] eqn:E; simpl in *; try discriminate.
    rewrite (col_loop_fuel _ _ _ _ _ k E). simpl. apply IH; auto.
  Qed.

  Lemma cols_loop_terminates n : forall cols i, linv i 0 cols -> i + n <= S (length toks) ->
    exists fuel cols', cols_loop tmatch ord gs fuel n cols i = Ret cols'.
  Proof.
    induction n as [|n IH]; intros cols i HL Hn.
    - exists 0, cols. reflexivity.
    - destruct (col_loop_terminates i) with (cols := cols) (j := 0) (a := bound i - length (filter nonlist (firstn 0 (states_of cols i))))
        (b := bound i - length (filter nonlist (states_of cols i))) (k := length (states_of cols i) - 0)
        as (f1 & c1 & E1); auto; [lia|].
      destruct (col_loop_inv _ _ _ _ _ _ _ _ _ _ Hord HL E1) as (_ & HL1 & _).
      destruct (IH c1 (S i) HL1) as (f2 & c2 & E2); [lia|].
      exists (f1 + f2), c2. simpl. rewrite (col_loop_fuel _ _ _ _ _ f2 E1). simpl.
      rewrite Nat.add_comm. apply cols_loop_fuel. exact E2.
  Qed.

  Lemma parse_terminates : starts <> [] ->
    exists fuel cols, forall mf, exists fs,
      parse tmatch ord gs fuel mf starts (init_columns toks) = Ret (cols, fs).
  Proof.
    intros Hne.
    destruct (cols_loop_terminates (S (length toks)) _ 0 (start_inv tmatch ord gs toks starts)) as (fuel & cols & E); [lia|].
    exists fuel, cols. intros mf. rewrite parse_eq by exact Hne. rewrite E. cbn [bind].
    destruct (cols_loop_inv _ _ _ _ _ _ _ _ _ _ Hord (start_inv tmatch ord gs toks starts) E) as [_ (HI & _)].
    destruct HI as (_ & HJ & _).
    destruct (all_finals_ret ord cols (length cols)) as (fs & -> & _); [eapply justified_shape; eauto|lia|].
    eexists; reflexivity.
  Qed.
End Term.

Lemma parse_fuel tmatch ord gs toks starts fuel k mf x :
  starts <> [] ->
  parse tmatch ord gs fuel mf starts (init_columns toks) = Ret x ->
  parse tmatch ord gs (fuel + k) mf starts (init_columns toks) = Ret x.
Proof.
  intros Hne H. rewrite parse_eq in * by exact Hne.
  destruct (cols_loop tmatch ord gs fuel (S (length toks)) (start_columns toks starts) 0) as [c| | |] eqn:E;
    try discriminate.
  rewrite (cols_loop_fuel _ _ _ _ k _ _ _ _ E). exact H.
Qed.
