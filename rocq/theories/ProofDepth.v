(** The breadth-first order of the chart columns: every row has a depth, the
    number of completions in its column that lead to it, and rows are listed by
    increasing depth. *)
From Coq Require Import Permutation.
From Verif Require Import Base ModelTypes ModelEarley ModelApi SpecTypes SpecGrammar ProofEqual ProofChart ProofApi.

Section Depth.
  Variable tmatch : term -> option token -> bool.
  Variable ord : nat -> nat -> nat -> list rulebody -> list rulebody.
  Variable gs : list grammar_rules.
  Variable toks : list token.
  Variable starts : list string.
  Hypothesis Hord : is_order ord.

  Notation depth := (nat -> nat -> nat).

  (** How a row came about, with depths that grow along completions. *)
  Inductive caused (cols : list column) (D : depth) (c r : nat) (s : tstate) : Prop :=
  | C_zero : s_dot s = 0 -> s_start s = c -> caused cols D c r s
  | C_any : t_type (s_term s) = TAny -> caused cols D c r s
  | C_scan c' r' p t tok :
      c = S c' -> st_at cols c' r' = Some p -> nxt p = Some t ->
      t_type (s_term p) <> TAny -> t_type t = TTerminal ->
      nth_error toks c' = Some tok -> tmatch t (Some tok) = true ->
      s = mkSt (s_term p) (s_rb p) (s_start p) c (s_dot p + 1) -> caused cols D c r s
  | C_comp rd d r0 p t :
      rd < r -> D c rd < D c r -> st_at cols c rd = Some d -> completed d = true ->
      st_at cols (s_start d) r0 = Some p -> (s_start d = c -> r0 < r) ->
      nxt p = Some t -> advances t d = true -> t_type (s_term p) <> TAny ->
      s = mkSt (mkTerm (t_value (s_term p)) (t_type (s_term p)) (t_meta t))
               (s_rb p) (s_start p) c (s_dot p + 1) -> caused cols D c r s.

  (** The operation is reflected in its column at a row of depth at most [n]. *)
  Definition found (cols : list column) (D : depth) (n : nat) (op : nat * tstate) : Prop :=
    exists r s', st_at cols (fst op) r = Some s' /\ D (fst op) r <= n
      /\ (s' = norm (fst op) (snd op) \/ state_equal s' (norm (fst op) (snd op)) = true).

  Definition levels (cols : list column) (D : depth) (i j : nat) : Prop :=
    (forall c r r', r <= r' -> r' < length (states_of cols c) -> D c r <= D c r')
    /\ (forall c r s, st_at cols c r = Some s -> caused cols D c r s)
    /\ (forall c r, i < c -> D c r = 0)
    /\ (forall r, j = 0 -> D i r = 0)
    /\ (forall r, 0 < j -> r < length (states_of cols i) -> D i r <= D i (j - 1) + 1)
    /\ (forall c r st op, st_at cols c r = Some st -> c < i \/ (c = i /\ r < j) ->
         In op (next_ops tmatch ord gs toks c r st) -> fst op = S c -> found cols D 0 op)
    /\ (forall c r st op, st_at cols c r = Some st -> c < i \/ (c = i /\ r < j) -> s_start st < c ->
         In op (comp_ops cols c st) -> found cols D (D c r + 1) op).

  Lemma apply_op_new cols c x c' r s : structured toks cols ->
    st_at (apply_op cols (c, x)) c' r = Some s ->
    st_at cols c' r = Some s \/ (c' = c /\ r = length (states_of cols c) /\ s = norm c x).
  Proof.
    intros HS H. destruct (nth_error cols c) as [col|] eqn:Ec.
    2:{ unfold apply_op in H; simpl in H. rewrite Ec in H. auto. }
    destruct (proj2 HS _ _ Ec) as [Hidx _].
    pose proof (states_of_apply_op cols c x col Ec) as Hso.
    assert (states_of cols c = c_states col) as Hsc by (unfold states_of; rewrite Ec; reflexivity).
    destruct (Nat.eq_dec c c') as [<-|Hne].
    2:{ left. unfold st_at in *. rewrite states_of_other in H by auto. exact H. }
    unfold st_at in *. rewrite Hso in H. rewrite Hsc.
    destruct (insert_cases col x) as [(s' & _ & _ & E)|[_ E]]; rewrite E in H; [auto|]. cbn [c_states] in H. rewrite Hidx in H.
    destruct (Nat.lt_trichotomy r (length (c_states col))) as [Hl|[Hl|Hl]].
    - rewrite nth_error_app1 in H by auto. auto.
    - right. rewrite Hl, nth_error_app2, Nat.sub_diag in H by auto. cbn in H. injection H as <-. auto.
    - exfalso. assert (r < length (c_states col ++ [norm c x])) as L by (apply nth_error_Some; congruence).
      rewrite app_length in L. cbn in L. lia.
  Qed.

  Lemma apply_ops_new ops : forall cols c r s, structured toks cols ->
    st_at (apply_ops cols ops) c r = Some s ->
    st_at cols c r = Some s \/ (length (states_of cols c) <= r /\ exists x, In (c, x) ops /\ s = norm c x).
  Proof.
    induction ops as [|[c0 x0] ops IH]; intros cols c r s HS H; [left; exact H|].
    cbn [apply_ops fold_left] in H. pose proof (apply_op_ext cols (c0, x0)) as He.
    destruct (IH _ _ _ _ (ext_structured _ _ _ He HS) H) as [H'|(Hr & x & Hx & ->)].
    - destruct (apply_op_new _ _ _ _ _ _ HS H') as [H''|(-> & -> & ->)]; [left; exact H''|].
      right. split; [lia|]. exists x0. split; [left; reflexivity|reflexivity].
    - right. split; [pose proof (ext_len _ _ c He); lia|]. exists x. split; [right; exact Hx|reflexivity].
  Qed.

  Lemma caused_mono cols cols' D D' c r s : ext cols cols' ->
    (forall r', r' <= r -> D' c r' = D c r') -> caused cols D c r s -> caused cols' D' c r s.
  Proof.
    intros He HD H. pose proof (fun c r s => ext_st_at cols cols' c r s He) as E. destruct H.
    - apply C_zero; auto.
    - apply C_any; auto.
    - eapply C_scan; eauto.
    - eapply C_comp with (rd := rd) (r0 := r0); eauto. rewrite !HD by lia. assumption.
  Qed.

  Lemma row_ops_caused cols D i j st c x r : Inv tmatch gs toks starts cols ->
    st_at cols i j = Some st -> In (c, x) (row_ops tmatch ord gs toks cols i j st) ->
    length (states_of cols c) <= r -> (c = i -> D i j < D i r) ->
    caused cols D c r (norm c x).
  Proof.
    intros (HS & HJ & _) Hst Hin Hr HD.
    pose proof (justified_shape _ _ _ _ cols HJ) as Hsh.
    pose proof (st_at_shape _ _ _ _ Hsh Hst) as Hss.
    pose proof (st_at_len _ _ _ _ Hst) as Hj.
    unfold row_ops in Hin. apply in_app_or in Hin as [Hin|Hin].
    - pose proof (comp_ops_col _ _ _ _ _ Hin). subst c.
      unfold comp_ops in Hin. destruct (completed st) eqn:Ed; [|destruct Hin].
      apply in_map_iff in Hin as (x' & Hx & Hin). injection Hx as ->.
      apply in_comp_list in Hin as (p & t & Hp & Hn & Ha & ->).
      apply In_nth_error in Hp as [r0 Hr0].
      destruct (ttype_eqb (t_type (s_term p)) TAny) eqn:Et.
      + apply ttype_eqb_eq in Et. apply C_any. rewrite norm_any by exact Et. exact Et.
      + assert (t_type (s_term p) <> TAny) as Et' by (intros X; rewrite X in Et; discriminate).
        eapply C_comp with (rd := j) (r0 := r0); eauto.
        * lia.
        * intros E. assert (r0 < length (states_of cols (s_start st))) by (apply nth_error_Some; congruence).
          rewrite E in *. lia.
        * rewrite norm_not_any by exact Et'. reflexivity.
    - unfold next_ops in Hin. destruct (nxt st) as [t|] eqn:En; [|destruct Hin].
      assert (In (c, x) (if Nat.ltb (i + 1) (S (length toks))
                         then map (pair (i + 1)) (scan_list tmatch (col_tok toks (i + 1)) st t) else []) ->
              t_type (s_term st) = TAny \/ (t_type (s_term st) <> TAny /\ t_type t = TTerminal) ->
              caused cols D c r (norm c x)) as Hscan.
      { intros H Hty. destruct (Nat.ltb (i + 1) (S (length toks))) eqn:E; [|destruct H].
        apply Nat.ltb_lt in E. apply in_map_iff in H as (x' & Hx & H). injection Hx as <- ->.
        replace (i + 1) with (S i) in * by lia.
        destruct Hty as [Ha|[Ha Ht]].
        - pose proof (nxt_any_type _ _ Ha En) as Ht. unfold scan_list in H. rewrite Ht in H.
          destruct H as [<-|[]]. apply C_any. reflexivity.
        - unfold scan_list in H. rewrite Ht in H. simpl in H.
          destruct (tmatch t (nth_error toks i)) eqn:Em; [|destruct H].
          destruct H as [<-|[]].
          destruct (nth_error toks i) as [tok|] eqn:Etok.
          2:{ apply nth_error_None in Etok. lia. }
          eapply C_scan with (p := st) (t := t); eauto. rewrite norm_not_any by exact Ha. reflexivity. }
      assert (In (c, x) (map (pair i) (pred_list ord gs i j i t)) -> caused cols D c r (norm c x)) as Hpred.
      { intros H. apply in_map_iff in H as (x' & Hx & H). injection Hx as <- ->.
        unfold pred_list in H. destruct (t_type t) eqn:Et; try (destruct H; fail).
        - apply (in_pred_gs_list tmatch) in H as (k' & g & ru & b & Hg & Hl & Hb & ->). apply C_zero; reflexivity.
        - destruct H as [<-|[]]. apply C_any. unfold norm; cbn [s_term]. rewrite Et. exact Et.
        - destruct H as [<-|[]]. unfold norm; cbn [s_term]; rewrite Et. apply C_zero; reflexivity. }
      assert (t_type (s_term st) = TAny \/ t_type (s_term st) <> TAny) as [Hty|Hty]
        by (destruct (t_type (s_term st)); auto; right; discriminate).
      + rewrite Hty in Hin. apply Hscan; auto.
      + destruct (t_type (s_term st)) eqn:Es; try congruence;
          destruct (t_type t) eqn:Et; try (destruct Hin; fail);
          try (apply Hpred; auto; fail); apply Hscan; auto.
  Qed.

  Lemma found_ext cols cols' D D' n op : ext cols cols' ->
    (forall r, r < length (states_of cols (fst op)) -> D' (fst op) r = D (fst op) r) ->
    found cols D n op -> found cols' D' n op.
  Proof.
    intros He HD (r & s' & H1 & H2 & H3). exists r, s'. split; [eapply ext_st_at; eauto|]. split; [|exact H3].
    rewrite HD; [exact H2|]. eapply st_at_len; eauto.
  Qed.

  Lemma levels_step cols D i j st : LoopInv tmatch ord gs toks starts i j cols -> levels cols D i j -> st_at cols i j = Some st ->
    exists D', levels (apply_ops cols (row_ops tmatch ord gs toks cols i j st)) D' i (S j).
  Proof.
    intros HL (L1 & L2 & L3 & L4 & L5 & L6 & L7) Hst.
    pose proof HL as (HI & Hlen & Hdone & Hemp & Hbeg). pose proof HI as (HS & HJ & HD).
    pose proof (st_at_col _ _ _ _ Hst) as Hi. pose proof (st_at_len _ _ _ _ Hst) as Hj.
    assert (i < S (length toks)) as Hi' by (rewrite <- (proj1 HS); exact Hi).
    set (ops := row_ops tmatch ord gs toks cols i j st).
    pose proof (apply_ops_ext ops cols) as He. set (cols' := apply_ops cols ops) in *.
    set (n := length (states_of cols i)) in *.
    pose (D' := fun c r => if Nat.eqb c i && Nat.leb n r then D i j + 1 else D c r).
    assert (forall c r, c <> i -> D' c r = D c r) as Do.
    { intros c r Hc. unfold D'. apply Nat.eqb_neq in Hc. rewrite Hc. reflexivity. }
    assert (forall r, r < n -> D' i r = D i r) as Dn.
    { intros r Hr. unfold D'. replace (Nat.leb n r) with false by (symmetry; apply Nat.leb_gt; exact Hr). rewrite andb_false_r. reflexivity. }
    assert (forall r, n <= r -> D' i r = D i j + 1) as Dg.
    { intros r Hr. unfold D'. rewrite Nat.eqb_refl. apply Nat.leb_le in Hr. rewrite Hr. reflexivity. }
    assert (forall c r, r < length (states_of cols c) -> D' c r = D c r) as Dold.
    { intros c r Hr. destruct (Nat.eq_dec c i) as [->|Hc]; [apply Dn; exact Hr|apply Do; exact Hc]. }
    assert (forall c, c <> i -> c <> i + 1 -> states_of cols' c = states_of cols c) as Hother.
    { intros c H1 H2. apply states_of_apply_ops. intros op Hop. destruct (row_ops_fst _ _ _ _ _ _ _ _ _ Hi' Hop). lia. }
    assert (forall r, r < n -> D i r <= D i j + 1) as Hup.
    { intros r Hr. destruct (Nat.eq_dec j 0) as [->|Hj0]; [rewrite (L4 r eq_refl); lia|].
      pose proof (L5 r ltac:(lia) Hr). pose proof (L1 i (j - 1) j ltac:(lia) Hj). lia. }
    assert (forall r, D' i r <= D i j + 1) as Hup'.
    { intros r. destruct (le_lt_dec n r) as [Hr|Hr]; [rewrite Dg by exact Hr; lia|rewrite Dn by exact Hr; auto]. }
    assert (D' i j = D i j) as Dj by (apply Dn; exact Hj).
    exists D'. split; [|split; [|split; [|split; [|split; [|split]]]]].
    - intros c r r' Hle Hr'. destruct (Nat.eq_dec c i) as [->|Hc].
      + destruct (le_lt_dec n r') as [Hr|Hr]; [rewrite (Dg r' Hr); auto|]. rewrite !Dn by lia. apply L1; [exact Hle|exact Hr].
      + rewrite !Do by exact Hc. destruct (Nat.eq_dec c (i + 1)) as [->|Hc'].
        * rewrite !L3 by lia. lia.
        * rewrite Hother in Hr' by auto. apply L1; auto.
    - intros c r s Hs. destruct (apply_ops_new _ _ _ _ _ HS Hs) as [Hs'|(Hr & x & Hx & ->)].
      + eapply caused_mono; [exact He| |apply L2; exact Hs']. intros r' Hr'. apply Dold. apply st_at_len in Hs'. lia.
      + assert (caused cols D' c r (norm c x)) as Hc.
        { eapply row_ops_caused; eauto. intros ->. rewrite Dj, Dg by exact Hr. lia. }
        eapply caused_mono; [exact He| |exact Hc]. auto.
    - intros c r Hc. rewrite Do by lia. apply L3. exact Hc.
    - intros r H0. discriminate.
    - intros r _ _. cbn [Nat.sub]. rewrite Nat.sub_0_r, Dj. apply Hup'.
    - intros c r st' op Hst' Hpos Hop Hf.
      assert (found cols' D' 0 op \/ (c = i /\ r = j)) as [Hfd|[-> ->]]; [|exact Hfd|].
      { destruct (Nat.eq_dec c i) as [->|Hne]; [destruct (Nat.eq_dec r j) as [->|Hnj]; [right; auto|]|]; left.
        - assert (st_at cols i r = Some st') as H0.
          { destruct (nth_error (states_of cols i) r) as [x|] eqn:Ex; [|apply nth_error_None in Ex; unfold n in *; lia].
            pose proof (ext_st_at _ _ _ _ _ He Ex) as Hx'. rewrite Hx' in Hst'. unfold st_at. congruence. }
          eapply found_ext; [exact He| |eapply L6; [exact H0|right; split; [reflexivity|lia]|exact Hop|exact Hf]]. intros; apply Dold; auto.
        - assert (st_at cols c r = Some st') as H0 by (unfold st_at in *; rewrite Hother in Hst' by lia; exact Hst').
          eapply found_ext; [exact He| |eapply L6; [exact H0|left; lia|exact Hop|exact Hf]]. intros; apply Dold; auto. }
      rewrite (ext_st_at _ _ _ _ _ He Hst) in Hst'. injection Hst' as <-.
      assert (sat cols' op) as (s' & Hin & Hs').
      { eapply sat_apply_ops; eauto.
        - intros op' H'. rewrite (proj1 HS). apply (row_ops_fst _ _ _ _ _ _ _ _ _ Hi' H').
        - unfold ops, row_ops. apply in_or_app. right. exact Hop. }
      apply In_nth_error in Hin as [r' Hr']. exists r', s'. split; [exact Hr'|]. split; [|exact Hs'].
      rewrite Hf, Do, L3 by lia. lia.
    - intros c r st' op Hst' Hpos Hlt Hop.
      assert (found cols' D' (D' c r + 1) op \/ (c = i /\ r = j)) as [Hfd|[-> ->]]; [|exact Hfd|].
      { destruct (Nat.eq_dec c i) as [->|Hne]; [destruct (Nat.eq_dec r j) as [->|Hnj]; [right; auto|]|]; left.
        - assert (st_at cols i r = Some st') as H0.
          { destruct (nth_error (states_of cols i) r) as [x|] eqn:Ex; [|apply nth_error_None in Ex; unfold n in *; lia].
            pose proof (ext_st_at _ _ _ _ _ He Ex) as Hx'. rewrite Hx' in Hst'. unfold st_at. congruence. }
          assert (In op (comp_ops cols i st')) as Hop' by (unfold comp_ops in *; rewrite Hother in Hop by lia; exact Hop).
          rewrite Dn by lia.
          eapply found_ext; [exact He| |eapply L7; [exact H0|right; split; [reflexivity|lia]|exact Hlt|exact Hop']]. intros; apply Dold; auto.
        - assert (st_at cols c r = Some st') as H0 by (unfold st_at in *; rewrite Hother in Hst' by lia; exact Hst').
          assert (In op (comp_ops cols c st')) as Hop' by (unfold comp_ops in *; rewrite Hother in Hop by lia; exact Hop).
          rewrite Do by exact Hne.
          eapply found_ext; [exact He| |eapply L7; [exact H0|left; lia|exact Hlt|exact Hop']]. intros; apply Dold; auto. }
      rewrite (ext_st_at _ _ _ _ _ He Hst) in Hst'. injection Hst' as <-.
      assert (In op (comp_ops cols i st)) as Hop' by (unfold comp_ops in *; rewrite Hother in Hop by lia; exact Hop).
      assert (sat cols' op) as (s' & Hin & Hs').
      { eapply sat_apply_ops; eauto.
        - intros op' H'. rewrite (proj1 HS). apply (row_ops_fst _ _ _ _ _ _ _ _ _ Hi' H').
        - unfold ops, row_ops. apply in_or_app. left. exact Hop'. }
      apply In_nth_error in Hin as [r' Hr']. exists r', s'. split; [exact Hr'|]. split; [|exact Hs'].
      destruct op as [c0 x0]. pose proof (comp_ops_col _ _ _ _ _ Hop') as ->. cbn [fst]. rewrite Dj. apply Hup'.
  Qed.

  Lemma col_levels fuel : forall cols D i j cols',
    LoopInv tmatch ord gs toks starts i j cols -> levels cols D i j -> col_loop tmatch ord gs fuel cols i j = Ret cols' ->
    exists D', levels cols' D' (S i) 0.
  Proof.
    induction fuel as [|fuel IH]; intros cols D i j cols' HL HV H; [discriminate|].
    simpl in H. unfold idx in H. destruct (nth_error cols i) as [col|] eqn:Ec; [|discriminate].
    simpl in H. destruct (nth_error (c_states col) j) as [st|] eqn:Es.
    - assert (st_at cols i j = Some st) as Hst by (unfold st_at, states_of; rewrite Ec; exact Es).
      destruct (loop_step _ _ _ _ _ cols i j st Hord HL Hst) as [E HL']. rewrite E in H. simpl in H.
      destruct (levels_step _ _ _ _ _ HL HV Hst) as [D' HV']. eapply IH; eauto.
    - injection H as <-. exists D. destruct HV as (L1 & L2 & L3 & L4 & L5 & L6 & L7).
      assert (forall c r st, st_at cols c r = Some st -> c < S i \/ (c = S i /\ r < 0) -> c < i \/ (c = i /\ r < j)) as Hpos.
      { intros c r st Hst Hp. destruct (Nat.eq_dec c i) as [->|]; [|left; lia]. right. split; [reflexivity|].
        apply st_at_len in Hst. unfold states_of in Hst. rewrite Ec in Hst. apply nth_error_None in Es. lia. }
      split; [exact L1|]. split; [exact L2|]. split; [intros; apply L3; lia|]. split; [intros; apply L3; lia|].
      split; [intros; lia|]. split; [intros; eapply L6; eauto|intros; eapply L7; eauto].
  Qed.

  Lemma cols_levels fuel n : forall cols D i cols',
    LoopInv tmatch ord gs toks starts i 0 cols -> levels cols D i 0 -> cols_loop tmatch ord gs fuel n cols i = Ret cols' ->
    exists D', levels cols' D' (i + n) 0.
  Proof.
    induction n as [|n IH]; intros cols D i cols' HL HV H; simpl in H.
    - injection H as <-. rewrite Nat.add_0_r. eauto.
    - destruct (col_loop tmatch ord gs fuel cols i 0) as [c1| | |] eqn:E; try discriminate.
      simpl in H. destruct (col_loop_inv _ _ _ _ _ _ _ _ _ _ Hord HL E) as (_ & HL' & _).
      destruct (col_levels _ _ _ _ _ _ HL HV E) as [D' HV'].
      replace (i + S n) with (S i + n) by lia. eapply IH; eauto.
  Qed.

  Lemma parse_levels fuel mf cols fs : starts <> [] ->
    parse tmatch ord gs fuel mf starts (init_columns toks) = Ret (cols, fs) ->
    exists D, levels cols D (S (length toks)) 0.
  Proof.
    intros Hne H. rewrite parse_eq in H by exact Hne.
    destruct (cols_loop tmatch ord gs fuel (S (length toks)) (start_columns toks starts) 0) as [c1| | |] eqn:E; try discriminate.
    cbn [bind] in H. destruct (all_finals (length c1) c1) as [f| | |] eqn:Ef; try discriminate. cbn [bind] in H.
    injection H as <- <-.
    eapply (cols_levels _ _ _ (fun _ _ => 0) 0); [apply start_inv| |exact E].
    split; [auto|]. split; [|split; [auto|split; [auto|split; [intros; lia|]]]].
    - intros c r s Hs. unfold st_at in Hs. rewrite (start_states ord) in Hs. destruct c; [|destruct r; discriminate].
      apply nth_error_In, in_map_iff in Hs as (S' & <- & _). apply C_zero; reflexivity.
    - split; intros; lia.
  Qed.
End Depth.

Lemma earley_levels tmatch gs text ords fuel n mf toks starts p : is_order (ords n) ->
  earley_parse_n tmatch ords gs text fuel n mf toks starts = Ret p ->
  exists D, levels tmatch (ords n) gs toks (p_columns p) D (S (length toks)) 0.
Proof.
  unfold earley_parse_n, earley_parse. intros Ho H.
  destruct starts as [|S0 ss] eqn:Es; [discriminate|]. destruct toks as [|k0 ks] eqn:Ek; [discriminate|].
  rewrite <- Es, <- Ek in *. assert (starts <> []) as Hs by (rewrite Es; discriminate).
  destruct (parse tmatch (ords n) gs fuel mf starts (init_columns toks)) as [[cols fs]| | |] eqn:E; try discriminate.
  simpl in H. injection H as <-. cbn. eapply parse_levels; eauto.
Qed.
