(** Completeness of the finished chart for derivations without empty constituents. *)
From Coq Require Import Permutation.
From Verif Require Import Base ModelTypes ModelEarley SpecTypes SpecGrammar SpecTree ProofEqual ProofChart ProofSound.

Lemma sim_nxt s s' : sim s s' -> nxt s = nxt s'.
Proof.
  intros (Et & _ & _ & Ed & Er). unfold nxt, get_next_term, is_completed, at_max, meta_empty.
  rewrite Et, Ed. destruct (t_type (s_term s')); auto.
  all: destruct (s_rb s) as [b|], (s_rb s') as [b'|]; simpl in Er; try discriminate; auto;
    injection Er as Er; rewrite Er; reflexivity.
Qed.

Lemma sim_completed s s' : sim s s' -> completed s = completed s'.
Proof.
  intros (Et & _ & _ & Ed & Er). unfold completed, is_completed, meta_empty.
  rewrite Et, Ed. destruct (t_type (s_term s')); auto.
  all: destruct (s_rb s) as [b|], (s_rb s') as [b'|]; simpl in Er; try discriminate; auto;
    injection Er as Er; rewrite Er; reflexivity.
Qed.

Lemma sim_sym s s' : sim s s' -> sim s' s.
Proof. intros (? & ? & ? & ? & ?). repeat split; auto. Qed.

Lemma sim_trans a b c : sim a b -> sim b c -> sim a c.
Proof. intros (? & ? & ? & ? & ?) (? & ? & ? & ? & ?). repeat split; congruence. Qed.

Lemma sat_sim cols op : sat cols op ->
  exists s, In s (states_of cols (fst op)) /\ sim s (norm (fst op) (snd op)).
Proof.
  intros (s & Hin & H). exists s. split; auto. destruct H as [->|H]; [apply sim_refl|].
  apply state_equal_sim; auto.
Qed.

Section Complete.
  Variable tmatch : term -> option token -> bool.
  Variable ord : nat -> nat -> nat -> list rulebody -> list rulebody.
  Variable gs : list grammar_rules.
  Variable toks : list token.
  Variable starts : list string.
  Hypothesis Hord : is_order ord.
  Variable cols : list column.
  Hypothesis Hfin : finished tmatch ord gs toks starts cols.

  Lemma fin_shape c s : In s (states_of cols c) -> shape c s.
  Proof. destruct Hfin as ((_ & HJ & _) & _). eapply justified_shape; eauto. Qed.

  Lemma fin_row c s : In s (states_of cols c) -> exists r, st_at cols c r = Some s.
  Proof. apply In_nth_error. Qed.

  Lemma fin_len : length cols = S (length toks).
  Proof. destruct Hfin as ((HS & _) & _). apply HS. Qed.

  (** One lemma per kind of operation. *)
  Lemma close_next c p : In p (states_of cols c) -> forall j c' s',
    st_at cols c j = Some p -> In (c', s') (next_ops tmatch ord gs toks c j p) ->
    exists q, In q (states_of cols c') /\ sim q (norm c' s').
  Proof.
    intros Hp j c' s' Hj Hin.
    assert (sat cols (c', s')) as Hs.
    { eapply finished_due; eauto. unfold due_ops. apply in_or_app. right. exact Hin. }
    apply sat_sim in Hs. exact Hs.
  Qed.

  Lemma close_predict c p t g ru b :
    In p (states_of cols c) -> nxt p = Some t -> t_type t = TNonterminal ->
    In g gs -> lookup g (t_value t) = Some ru -> In b (map snd (r_body ru)) ->
    exists q, In q (states_of cols c)
      /\ sim q (mkSt (mkTerm (r_name ru) TNonterminal MNil) (Some b) c c 0).
  Proof.
    intros Hp Hn Ht Hg Hl Hb. destruct (fin_row _ _ Hp) as [j Hj].
    apply (close_next c p Hp j c (mkSt (mkTerm (r_name ru) TNonterminal MNil) (Some b) c 0 0) Hj).
    unfold next_ops. rewrite Hn. pose proof (fin_shape _ _ Hp) as (_ & _ & Hty).
    destruct Hty as [[Hty _]|[Hty|Hty]].
    - rewrite Hty, Ht. apply in_map. unfold pred_list. rewrite Ht. eapply pred_gs_list_in; eauto.
    - apply nxt_any in Hn; auto. congruence.
    - rewrite Hty, Ht. apply in_map. unfold pred_list. rewrite Ht. eapply pred_gs_list_in; eauto.
  Qed.

  Lemma close_special c p t :
    In p (states_of cols c) -> nxt p = Some t -> t_type (s_term p) <> TAny ->
    t_type t = TAny \/ t_type t = TList ->
    exists q, In q (states_of cols c) /\ sim q (mkSt t None c c 0).
  Proof.
    intros Hp Hn Hna Ht. destruct (fin_row _ _ Hp) as [j Hj].
    assert (norm c (mkSt t None c 0 0) = mkSt t None c c 0) as E.
    { unfold norm; simpl. destruct Ht as [E|E]; rewrite E; auto. rewrite Nat.sub_diag. reflexivity. }
    rewrite <- E. apply (close_next c p Hp j c (mkSt t None c 0 0) Hj).
    unfold next_ops. rewrite Hn. pose proof (fin_shape _ _ Hp) as (_ & _ & Hty).
    destruct Hty as [[Hty _]|[Hty|Hty]]; rewrite Hty; [|congruence|].
    - destruct Ht as [E'|E']; rewrite E'; apply in_map; unfold pred_list; rewrite E'; left; auto.
    - apply nxt_list in Hn; auto. subst t. simpl in Ht. destruct Ht; discriminate.
  Qed.

  Lemma close_scan c p t tok :
    In p (states_of cols c) -> nxt p = Some t -> t_type (s_term p) <> TAny ->
    t_type t = TTerminal -> nth_error toks c = Some tok -> tmatch t (Some tok) = true ->
    exists q, In q (states_of cols (S c))
      /\ sim q (mkSt (s_term p) (s_rb p) (s_start p) (S c) (s_dot p + 1)).
  Proof.
    intros Hp Hn Hna Ht Htok Hm. destruct (fin_row _ _ Hp) as [j Hj].
    assert (c < length toks) as Hc by (apply nth_error_Some; congruence).
    pose (x := mkSt (s_term p) (s_rb p) (s_start p) 0 (s_dot p + 1)).
    assert (norm (S c) x = mkSt (s_term p) (s_rb p) (s_start p) (S c) (s_dot p + 1)) as E.
    { apply norm_not_any. exact Hna. }
    rewrite <- E. apply (close_next c p Hp j (S c) x Hj).
    unfold next_ops. rewrite Hn. replace (c + 1) with (S c) by lia.
    replace (Nat.ltb (S c) (S (length toks))) with true by (symmetry; apply Nat.ltb_lt; lia).
    assert (In (S c, x) (map (pair (S c)) (scan_list tmatch (col_tok toks (S c)) p t))) as H.
    { apply in_map. unfold scan_list. rewrite Ht. simpl. rewrite Htok, Hm. left; reflexivity. }
    rewrite Ht. destruct (t_type (s_term p)); auto.
  Qed.

  Lemma close_any c p t :
    In p (states_of cols c) -> t_type (s_term p) = TAny -> nxt p = Some t -> c < length toks ->
    exists q, In q (states_of cols (S c))
      /\ sim q (mkSt (mkTerm "any" TAny (t_meta (s_term p))) (s_rb p) (s_start p) (S c) (S c - s_start p)).
  Proof.
    intros Hp Ht Hn Hc. destruct (fin_row _ _ Hp) as [j Hj].
    pose proof (nxt_any _ Ht _ Hn) as ->.
    pose (x := mkSt (mkTerm "any" TAny (t_meta (s_term p))) (s_rb p) (s_start p) 0 (s_dot p + 1)).
    assert (norm (S c) x = mkSt (mkTerm "any" TAny (t_meta (s_term p))) (s_rb p) (s_start p) (S c) (S c - s_start p)) as E
      by reflexivity.
    rewrite <- E. apply (close_next c p Hp j (S c) x Hj).
    unfold next_ops. rewrite Hn. replace (c + 1) with (S c) by lia.
    replace (Nat.ltb (S c) (S (length toks))) with true by (symmetry; apply Nat.ltb_lt; lia).
    rewrite Ht. apply in_map. unfold scan_list. rewrite Ht. left; reflexivity.
  Qed.

  Lemma close_complete c d p t :
    In d (states_of cols c) -> completed d = true -> s_start d < c ->
    In p (states_of cols (s_start d)) -> nxt p = Some t -> advances t d = true ->
    exists q, In q (states_of cols c) /\ sim q (norm c (adv p t)).
  Proof.
    intros Hd Hc Hlt Hp Hn Ha. destruct (fin_row _ _ Hd) as [j Hj].
    assert (sat cols (c, adv p t)) as Hs.
    { eapply finished_due; eauto. unfold due_ops. apply in_or_app. left.
      replace (Nat.ltb (s_start d) c) with true by (symmetry; apply Nat.ltb_lt; auto).
      unfold comp_ops. rewrite Hc. apply in_map. eapply comp_list_in; eauto. }
    apply sat_sim in Hs. exact Hs.
  Qed.

  (** ** Following a derivation through the chart *)
  Hypothesis Hnamed : named_rules gs.
  Notation D := (derives (has_alt gs) (accepts_by tmatch) toks own_range (fun i j => i < j)).
  Notation DS := (derives_seq (has_alt gs) (accepts_by tmatch) toks own_range (fun i j => i < j)).

  (** [q] is [p] with n more terms recognised. *)
  Definition moved (n : nat) (p q : tstate) : Prop :=
    t_type (s_term q) = t_type (s_term p) /\ t_value (s_term q) = t_value (s_term p)
    /\ s_start q = s_start p /\ s_dot q = s_dot p + n
    /\ option_map rb_terms (s_rb q) = option_map rb_terms (s_rb p)
    /\ (t_type (s_term p) = TList -> t_meta (s_term q) = t_meta (s_term p)).

  Lemma moved_refl p : moved 0 p p.
  Proof. repeat split; auto. Qed.

  Lemma moved_trans n m p q r : moved n p q -> moved m q r -> moved (n + m) p r.
  Proof.
    intros (A1 & A2 & A3 & A4 & A5 & A6) (B1 & B2 & B3 & B4 & B5 & B6).
    repeat split; try congruence; try lia.
    intros H. rewrite B6, A6; auto. congruence.
  Qed.

  Definition same_for (t t' : term) : Prop :=
    t' = t \/ (t_type t = TNonterminal /\ t_type t' = TNonterminal /\ t_value t' = t_value t).

  Definition passes (t : term) (i j : nat) : Prop :=
    forall p t', In p (states_of cols i) -> t_type (s_term p) <> TAny ->
      nxt p = Some t' -> same_for t t' ->
      exists q, In q (states_of cols j) /\ moved 1 p q.

  (** What remains to be recognised of [p] starts with [ts]. *)
  Definition awaits (p : tstate) (ts : list term) : Prop :=
    (t_type (s_term p) = TNonterminal /\ exists b rest, s_rb p = Some b
        /\ skipn (s_dot p) (rb_terms b) = ts ++ rest)
    \/ (t_type (s_term p) = TList /\ ts = repeat (nonterm (t_value (s_term p))) (length ts)
        /\ range_allows (t_meta (s_term p)) (s_dot p + length ts)).

  Definition passes_seq (ts : list term) (i j : nat) : Prop :=
    forall p, In p (states_of cols i) -> awaits p ts ->
      exists q, In q (states_of cols j) /\ moved (length ts) p q.

  Lemma skipn_cons_nth {A} n (l : list A) a r : skipn n l = a :: r -> nth_error l n = Some a /\ skipn (S n) l = r.
  Proof.
    revert l; induction n as [|n IH]; intros [|x l] H; simpl in *; try discriminate.
    - injection H as -> ->. auto.
    - apply IH in H. exact H.
  Qed.

  Lemma awaits_nxt p t ts : awaits p (t :: ts) ->
    t_type (s_term p) <> TAny /\ exists t', nxt p = Some t' /\ same_for t t'.
  Proof.
    intros [(Ht & b & rest & Hb & Hsk)|(Ht & Hts & Hr)].
    - split; [congruence|]. simpl in Hsk. apply skipn_cons_nth in Hsk as [Hn _].
      exists t. split; [|left; auto]. rewrite (nxt_rule p b); auto.
    - split; [congruence|]. exists (mkTerm (t_value (s_term p)) TNonterminal (t_meta (s_term p))).
      split.
      + unfold nxt, get_next_term. rewrite Ht. erewrite at_max_range; [reflexivity|exact Hr|].
        simpl. lia.
      + simpl in Hts. injection Hts as Ht' _. right. rewrite Ht'. simpl. auto.
  Qed.

  Lemma awaits_moved p q t ts : awaits p (t :: ts) -> moved 1 p q -> awaits q ts.
  Proof.
    intros Ha (M1 & M2 & M3 & M4 & M5 & M6).
    destruct Ha as [(Ht & b & rest & Hb & Hsk)|(Ht & Hts & Hr)].
    - left. split; [congruence|]. rewrite Hb in M5. destruct (s_rb q) as [b'|]; simpl in M5; [|discriminate].
      injection M5 as M5. exists b', rest. split; auto. rewrite M4, M5.
      simpl in Hsk. apply skipn_cons_nth in Hsk as [_ Hsk]. rewrite Nat.add_1_r. exact Hsk.
    - right. split; [congruence|]. rewrite M2, M6, M4 by auto. split.
      + simpl in Hts. injection Hts as _ Hts. exact Hts.
      + simpl in Hr. replace (s_dot p + 1 + length ts) with (s_dot p + S (length ts)) by lia. exact Hr.
  Qed.

  Lemma adv_moved c p t q : t_type (s_term p) <> TAny -> nxt p = Some t ->
    sim q (norm c (adv p t)) -> moved 1 p q.
  Proof.
    intros Hna Hn (S1 & S2 & S3 & S4 & S5). rewrite norm_not_any in * by exact Hna. simpl in *.
    unfold moved. rewrite S1, S2, S4, S5. simpl. repeat split; auto.
    intros Hl. apply nxt_list in Hn; auto. subst t. reflexivity.
  Qed.

  Lemma any_run' c0 m q0 n : In q0 (states_of cols c0) ->
    t_type (s_term q0) = TAny -> t_meta (s_term q0) = m -> s_start q0 = c0 -> s_dot q0 = 0 ->
    c0 + n <= length toks -> (exists k, range_allows m k /\ n <= k) ->
    exists q, In q (states_of cols (c0 + n)) /\ t_type (s_term q) = TAny /\ t_meta (s_term q) = m
      /\ s_start q = c0 /\ s_dot q = n.
  Proof.
    intros Hin Hty Hm Hs Hd. induction n as [|n IH]; intros Hl (k & Hk & Hnk).
    - rewrite Nat.add_0_r. eexists. split; [exact Hin|]. auto.
    - destruct IH as (q & Hq & Hty' & Hm' & Hs' & Hd'); auto; [lia|exists k; split; auto; lia|].
      assert (nxt q = Some (s_term q)) as Hn.
      { unfold nxt, get_next_term. rewrite Hty'.
        rewrite (at_max_range q k); [reflexivity| |lia]. rewrite Hm'. exact Hk. }
      destruct (close_any _ _ _ Hq Hty' Hn) as (q' & Hq' & S1 & S2 & S3 & S4 & S5); [lia|].
      cbn [s_term s_rb s_start s_end s_dot] in *. exists q'.
      replace (c0 + S n) with (S (c0 + n)) by lia. split; auto.
      rewrite S1, S2, S4, Hs'. cbn [t_type t_meta]. repeat split; auto; lia.
  Qed.

  Lemma derivation_passes :
    (forall t i j, D t i j -> passes t i j) /\ (forall ts i j, DS ts i j -> passes_seq ts i j).
  Proof.
    apply derives_mutind.
    - (* terminal *)
      intros t i tok Ht Htok Hacc _ p t' Hp Hna Hn [->|(H & _)]; [|congruence].
      destruct (close_scan i p t tok Hp Hn Hna Ht Htok Hacc) as (q & Hq & S1 & S2 & S3 & S4 & S5).
      exists q. split; auto. simpl in *. unfold moved. rewrite S1, S2, S4, S5. repeat split; auto.
    - (* rule *)
      intros t i j ts Ht (b & (g & ru & h & Hg & Hl & Hb) & <-) _ IH Hlt p t' Hp Hna Hn Hsf.
      assert (t_type t' = TNonterminal /\ t_value t' = t_value t) as [Ht' Hv'].
      { destruct Hsf as [->|(_ & H1 & H2)]; auto. }
      rewrite <- Hv' in Hl.
      destruct (close_predict i p t' g ru b Hp Hn Ht' Hg Hl) as (q0 & Hq0 & S1 & S2 & S3 & S4 & S5).
      { apply (in_map snd) in Hb. exact Hb. }
      simpl in *. destruct (s_rb q0) as [b0|] eqn:Eb0; simpl in S5; [|discriminate]. injection S5 as S5.
      destruct (IH q0 Hq0) as (q1 & Hq1 & M1 & M2 & M3 & M4 & M5 & M6).
      { left. rewrite S1. split; auto. exists b0, []. split; auto. rewrite S4, S5, app_nil_r. reflexivity. }
      rewrite S1, S2, S4, Eb0 in *. simpl in *.
      destruct (s_rb q1) as [b1|] eqn:Eb1; simpl in M5; [|discriminate]. injection M5 as M5.
      destruct (close_complete j q1 p t') as (q & Hq & Hsim); auto.
      + rewrite (completed_rule q1 b1 M1 Eb1). rewrite M4, M5, S5. lia.
      + lia.
      + rewrite M3. exact Hp.
      + apply advances_spec. right. rewrite Ht', M1, M2. split; auto.
        symmetry. eapply Hnamed; eauto.
      + exists q. split; auto. eapply adv_moved; eauto.
    - (* any *)
      intros t i j Ht Hij Hr Hlt p t' Hp Hna Hn [->|(H & _)]; [|congruence].
      destruct (close_special i p t Hp Hn Hna (or_introl Ht)) as (q0 & Hq0 & S1 & S2 & S3 & S4 & S5).
      simpl in *. destruct (any_run' i (t_meta t) q0 (j - i)) as (q1 & Hq1 & A1 & A2 & A3 & A4); auto; try congruence.
      + lia.
      + exists (j - i). auto.
      + replace (i + (j - i)) with j in Hq1 by lia.
        destruct (close_complete j q1 p t) as (q & Hq & Hsim); auto.
        * apply completed_special; auto. rewrite A2, A4. exact Hr.
        * lia.
        * rewrite A3. exact Hp.
        * apply advances_spec. left. auto.
        * exists q. split; auto. eapply adv_moved; eauto.
    - (* list *)
      intros t i j n Ht Hr _ IH Hlt p t' Hp Hna Hn [->|(H & _)]; [|congruence].
      destruct (close_special i p t Hp Hn Hna (or_intror Ht)) as (q0 & Hq0 & S1 & S2 & S3 & S4 & S5).
      simpl in *. destruct (IH q0 Hq0) as (q1 & Hq1 & M1 & M2 & M3 & M4 & M5 & M6).
      { right. rewrite S1. split; auto. rewrite repeat_length. split; auto. rewrite S4. exact Hr. }
      rewrite S1, repeat_length in *.
      destruct (close_complete j q1 p t) as (q & Hq & Hsim); auto.
      + apply completed_special; [rewrite M1; auto|]. rewrite M6, M4, S4 by auto. exact Hr.
      + lia.
      + rewrite M3, S2. exact Hp.
      + apply advances_spec. right. rewrite M1, M2. auto.
      + exists q. split; auto. eapply adv_moved; eauto.
    - (* nil *)
      intros i p Hp _. exists p. split; auto. apply moved_refl.
    - (* cons *)
      intros t ts i j k _ IHt _ IHts p Hp Ha.
      destruct (awaits_nxt _ _ _ Ha) as (Hna & t' & Hn & Hsf).
      destruct (IHt p t' Hp Hna Hn Hsf) as (q & Hq & Hm).
      destruct (IHts q Hq (awaits_moved _ _ _ _ Ha Hm)) as (q' & Hq' & Hm').
      exists q'. split; auto. apply (moved_trans 1 (length ts) p q q'); auto.
  Qed.

  Lemma complete_final S k : In S starts -> D (nonterm S) 0 k ->
    exists r s, st_at cols k r = Some s /\ t_value (s_term s) = GammaRule /\ completed s = true
      /\ t_type (s_term s) = TNonterminal /\ s_start s = 0 /\ option_map rb_terms (s_rb s) = Some [nonterm S].
  Proof.
    intros HS HD. apply (finished_begin _ _ _ _ _ _ _ Hfin) in HS.
    destruct (proj1 derivation_passes _ _ _ HD (begin_state S) (nonterm S)) as (q & Hq & M1 & M2 & M3 & M4 & M5 & M6); auto.
    - discriminate.
    - left; reflexivity.
    - destruct (fin_row _ _ Hq) as [r Hr]. exists r, q. split; auto. simpl in *.
      destruct (s_rb q) as [b|] eqn:Eb; simpl in M5; [|discriminate]. injection M5 as M5.
      repeat split; auto.
      + rewrite (completed_rule q b M1 Eb). rewrite M4, M5. simpl. lia.
      + simpl. f_equal. exact M5.
  Qed.
End Complete.
