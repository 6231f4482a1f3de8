(** The final states of one parse, in terms of derivations. *)
From Coq Require Import Permutation.
From Verif Require Import Base ModelTypes ModelEarley ModelTrees ModelApi SpecTypes SpecGrammar SpecTree SpecApi
  ProofEqual ProofChart ProofSound ProofComplete ProofTerm ProofOrder.

(** * Derivations on a suffix of the tokens *)
Lemma nth_error_skipn {A} (l : list A) n i : nth_error (skipn n l) i = nth_error l (n + i).
Proof.
  revert l. induction n as [|n IH]; intros [|a l]; simpl; auto. destruct i; reflexivity.
Qed.

Section Shift.
  Variable alt : string -> list term -> Prop.
  Variable accepts : term -> token -> Prop.
  Variable toks : list token.
  Variable count_ok : term -> nat -> Prop.
  Variable span_ok : nat -> nat -> Prop.
  Variable n : nat.
  Hypothesis Hn : n <= length toks.
  Hypothesis Hspan : forall i j, span_ok (n + i) (n + j) <-> span_ok i j.

  Lemma derives_shift :
    (forall t i j, derives alt accepts (skipn n toks) count_ok span_ok t i j ->
       derives alt accepts toks count_ok span_ok t (n + i) (n + j))
    /\ (forall ts i j, derives_seq alt accepts (skipn n toks) count_ok span_ok ts i j ->
       derives_seq alt accepts toks count_ok span_ok ts (n + i) (n + j)).
  Proof.
    apply derives_mutind.
    - intros t i tok Ht Hi Ha Hs. replace (n + S i) with (S (n + i)) by lia.
      eapply d_terminal; eauto.
      + rewrite <- nth_error_skipn. exact Hi.
      + replace (S (n + i)) with (n + S i) by lia. apply Hspan; auto.
    - intros t i j ts Ht Ha Hs IH Hsp. eapply d_rule; eauto. apply Hspan; auto.
    - intros t i j Ht Hij Hc Hsp. rewrite skipn_length in Hij.
      apply d_any; auto; [lia|replace (n + j - (n + i)) with (j - i) by lia; auto|apply Hspan; auto].
    - intros t i j m Ht Hc Hs IH Hsp. eapply d_list; eauto. apply Hspan; auto.
    - intros i. constructor.
    - intros t ts i j k _ IH1 _ IH2. econstructor; eauto.
  Qed.

  Lemma derives_unshift :
    (forall t i j, derives alt accepts toks count_ok span_ok t i j -> n <= i ->
       n <= j /\ derives alt accepts (skipn n toks) count_ok span_ok t (i - n) (j - n))
    /\ (forall ts i j, derives_seq alt accepts toks count_ok span_ok ts i j -> n <= i ->
       n <= j /\ derives_seq alt accepts (skipn n toks) count_ok span_ok ts (i - n) (j - n)).
  Proof.
    assert (forall i j, n <= i -> n <= j -> span_ok i j -> span_ok (i - n) (j - n)) as Hsp'.
    { intros i j Hi Hj H. apply Hspan. replace (n + (i - n)) with i by lia.
      replace (n + (j - n)) with j by lia. exact H. }
    apply derives_mutind.
    - intros t i tok Ht Hi Ha Hs Hni. split; [lia|]. specialize (Hsp' i (S i) Hni ltac:(lia) Hs).
      replace (S i - n) with (S (i - n)) in * by lia. eapply d_terminal; eauto.
      rewrite nth_error_skipn. replace (n + (i - n)) with i by lia. exact Hi.
    - intros t i j ts Ht Ha _ IH Hsp Hni. destruct (IH Hni) as [Hnj H]. split; auto.
      eapply d_rule; eauto.
    - intros t i j Ht Hij Hc Hsp Hni. split; [lia|].
      apply d_any; auto.
      + rewrite skipn_length. lia.
      + replace (j - n - (i - n)) with (j - i) by lia. auto.
      + apply Hsp'; auto; lia.
    - intros t i j m Ht Hc _ IH Hsp Hni. destruct (IH Hni) as [Hnj H]. split; auto.
      eapply d_list; eauto.
    - intros i Hni. split; auto. constructor.
    - intros t ts i j k _ IH1 _ IH2 Hni. destruct (IH1 Hni) as [H1 D1]. destruct (IH2 H1) as [H2 D2].
      split; auto. econstructor; eauto.
  Qed.
End Shift.

Lemma shift_iff alt accepts toks count_ok (span_ok : nat -> nat -> Prop) n t k :
  n <= length toks -> (forall i j, span_ok (n + i) (n + j) <-> span_ok i j) ->
  derives alt accepts (skipn n toks) count_ok span_ok t 0 k
  <-> derives alt accepts toks count_ok span_ok t n (n + k).
Proof.
  intros Hn Hs. split; intros H.
  - pose proof (proj1 (derives_shift alt accepts toks count_ok span_ok n Hn Hs) _ _ _ H) as H'.
    rewrite Nat.add_0_r in H'. exact H'.
  - destruct (proj1 (derives_unshift alt accepts toks count_ok span_ok n Hn Hs) _ _ _ H (le_n n)) as [_ H'].
    replace (n - n) with 0 in H' by lia. replace (n + k - n) with k in H' by lia. exact H'.
Qed.

Lemma match_shift tmatch gs toks S n k : n <= length toks ->
  Match tmatch gs (skipn n toks) S 0 k <-> Match tmatch gs toks S n (n + k).
Proof. intros Hn. apply shift_iff; auto. tauto. Qed.

Lemma match_lax_shift tmatch gs toks S n k : n <= length toks ->
  MatchLax tmatch gs (skipn n toks) S 0 k <-> MatchLax tmatch gs toks S n (n + k).
Proof. intros Hn. apply shift_iff; auto. tauto. Qed.

Lemma match_nonempty_shift tmatch gs toks S n k : n <= length toks ->
  MatchNonempty tmatch gs (skipn n toks) S 0 k <-> MatchNonempty tmatch gs toks S n (n + k).
Proof. intros Hn. apply shift_iff; auto. intros; simpl; lia. Qed.

(** * Relations between the three kinds of match *)
Lemma derives_mono alt accepts toks (c1 c2 : term -> nat -> Prop) (s1 s2 : nat -> nat -> Prop) :
  (forall t n, c1 t n -> c2 t n) -> (forall i j, s1 i j -> s2 i j) ->
  (forall t i j, derives alt accepts toks c1 s1 t i j -> derives alt accepts toks c2 s2 t i j)
  /\ (forall ts i j, derives_seq alt accepts toks c1 s1 ts i j -> derives_seq alt accepts toks c2 s2 ts i j).
Proof.
  intros Hc Hs. apply derives_mutind; intros.
  - eapply d_terminal; eauto.
  - eapply d_rule; eauto.
  - apply d_any; auto.
  - eapply d_list; eauto.
  - constructor.
  - econstructor; eauto.
Qed.

Lemma match_nonempty_match tmatch gs toks S i j :
  MatchNonempty tmatch gs toks S i j -> Match tmatch gs toks S i j /\ i < j.
Proof.
  intros H. split.
  - eapply (proj1 (derives_mono _ _ _ _ _ _ _ (fun _ _ H => H) (fun _ _ _ => I))). exact H.
  - inversion H; auto.
Qed.

Section Uniform.
  Variable tmatch : term -> option token -> bool.
  Variable gs : list grammar_rules.
  Variable toks : list token.
  Hypothesis Hu : uniform_ranges gs.

  (** With uniform ranges the exchange of ranges is harmless. *)
  Lemma lax_strict :
    (forall t i j, DerivesLax tmatch gs toks t i j -> (occurs gs t \/ t_type t = TNonterminal) -> Derives tmatch gs toks t i j)
    /\ (forall ts i j, derives_seq (has_alt gs) (accepts_by tmatch) toks (some_range gs) (fun _ _ => True) ts i j ->
         (forall t, In t ts -> occurs gs t \/ t_type t = TNonterminal) ->
         DerivesSeq tmatch gs toks ts i j).
  Proof.
    assert (forall t n, some_range gs t n -> occurs gs t -> t_type t = TAny \/ t_type t = TList -> own_range t n) as Hr.
    { intros t n (t' & Ho & Hty & Hv & Hra) Hocc Hsp. unfold own_range.
      rewrite (Hu t t' Hocc Ho); auto. destruct Hsp as [E|E]; [left; auto|right]. split; auto.
      symmetry; auto. }
    apply derives_mutind; unfold Derives, DerivesSeq; intros.
    - eapply d_terminal; eauto.
    - eapply d_rule; eauto. apply H. intros t' Ht'. left.
      destruct a as (b & Hb & <-). exists (t_value t), b. auto.
    - apply d_any; auto. destruct H as [H|H]; [|congruence]. apply Hr; auto.
    - assert (occurs gs t) as Ho by (destruct H0 as [H0|H0]; [auto|congruence]).
      eapply d_list; eauto. apply H. intros t' Ht'. apply repeat_spec in Ht'. subst. right. reflexivity.
    - constructor.
    - econstructor; [apply H|apply H0]; intros; apply H1; simpl; auto.
  Qed.

  Lemma match_lax_match S i j : MatchLax tmatch gs toks S i j -> Match tmatch gs toks S i j.
  Proof. intros H. apply lax_strict; auto. Qed.
End Uniform.

Section NoEmpty.
  Variable tmatch : term -> option token -> bool.
  Variable gs : list grammar_rules.
  Variable toks : list token.
  Hypothesis Hne : no_empty gs.

  Lemma no_empty_derives :
    (forall t i j, Derives tmatch gs toks t i j -> (occurs gs t \/ t_type t = TNonterminal) ->
       i < j /\ DerivesNonempty tmatch gs toks t i j)
    /\ (forall ts i j, DerivesSeq tmatch gs toks ts i j -> (forall t, In t ts -> occurs gs t \/ t_type t = TNonterminal) ->
       i <= j /\ (ts <> [] -> i < j)
       /\ derives_seq (has_alt gs) (accepts_by tmatch) toks own_range (fun i j => i < j) ts i j).
  Proof.
    destruct Hne as [Hb Hr]. apply derives_mutind; unfold DerivesNonempty; intros.
    - split; [lia|]. eapply d_terminal; eauto.
    - destruct a as (b & Hbo & Heq). destruct H as (_ & H1 & H2).
      { intros t' Ht'. left. exists (t_value t), b. subst. auto. }
      assert (i < j) as Hlt. { apply H1. rewrite <- Heq. eapply Hb; eauto. }
      split; auto. eapply d_rule; eauto. exists b. auto.
    - assert (occurs gs t) as Ho by (destruct H; [auto|congruence]).
      assert (i < j) as Hlt.
      { destruct (Nat.eq_dec i j) as [->|]; [|lia]. exfalso. apply (Hr t Ho); auto.
        replace (j - j) with 0 in c by lia. exact c. }
      split; auto. apply d_any; auto.
    - assert (occurs gs t) as Ho by (destruct H0; [auto|congruence]).
      destruct H as (_ & H1 & H2).
      { intros t' Ht'. apply repeat_spec in Ht'. subst. right. reflexivity. }
      assert (i < j) as Hlt.
      { apply H1. destruct n; [|discriminate]. exfalso. apply (Hr t Ho); auto. }
      split; auto. eapply d_list; eauto.
    - split; [lia|]. split; [congruence|constructor].
    - destruct H as [L1 D1]; [apply H1; left; reflexivity|].
      destruct H0 as (L2 & _ & D2); [intros; apply H1; right; auto|].
      split; [lia|]. split; [lia|]. econstructor; eauto.
  Qed.

  Lemma match_match_nonempty S i j : Match tmatch gs toks S i j ->
    i < j /\ MatchNonempty tmatch gs toks S i j.
  Proof. intros H. apply no_empty_derives; auto. Qed.
End NoEmpty.

Lemma nth_error_eq {A} (l l' : list A) : (forall i, nth_error l i = nth_error l' i) -> l = l'.
Proof.
  revert l'. induction l as [|a l IH]; intros [|a' l'] H; auto; try (specialize (H 0); discriminate).
  f_equal; [specialize (H 0); simpl in H; congruence|]. apply IH. intros i. exact (H (S i)).
Qed.

(** * One parse *)
Section One.
  Variable tmatch : term -> option token -> bool.
  Variable ord : order.
  Variable gs : list grammar_rules.
  Variable toks : list token.
  Variable starts : list string.
  Hypothesis Hord : is_order ord.
  Hypothesis Hwf : well_formed gs starts.
  Variable cols : list column.
  Hypothesis Hfin : finished tmatch ord gs toks starts cols.

  Let HJ : all_justified tmatch gs toks starts cols := proj1 (proj2 (proj1 Hfin)).
  Let Hsh : all_shaped cols := justified_shape _ _ _ _ _ HJ.
  Let Hlen : length cols = S (length toks) := proj1 (proj1 (proj1 Hfin)).

  (** the completed start states *)
  Definition final_at (c r : nat) : Prop :=
    exists s, st_at cols c r = Some s /\ t_value (s_term s) = GammaRule /\ completed s = true.

  Lemma final_facts c r s : st_at cols c r = Some s -> t_value (s_term s) = GammaRule -> completed s = true ->
    exists S, In S starts /\ tag s = Ret S /\ s_start s = 0 /\ s_end s = c /\ c <= length toks
      /\ s_rb s = Some (gamma_body S) /\ t_type (s_term s) = TNonterminal
      /\ s_dot s = 1 /\ MatchLax tmatch gs toks S 0 c.
  Proof.
    intros Hs Hg Hc. destruct Hwf as [Hnamed Hres].
    pose proof (justified_origin _ _ _ _ _ HJ _ _ _ Hs) as Ho.
    pose proof (st_at_shape _ _ _ _ Hsh Hs) as Hshape.
    assert (forall t t' n, occurs gs t -> occurs gs t' -> t_type t = t_type t' ->
      t_type t = TAny \/ (t_type t = TList /\ t_value t = t_value t') ->
      range_allows (t_meta t') n -> some_range gs t n) as Hcount.
    { intros t t' n H1 H2 H3 H4 H5. exists t'. split; [exact H2|]. split; [congruence|]. split; auto.
      intros Et. destruct H4 as [E|[_ E]]; congruence. }
    destruct (justified_sound tmatch gs toks starts (some_range gs) Hnamed Hres Hcount cols HJ Hlen _ _ _ Hs) as [Hle Hsound].
    unfold origin in Ho.
    assert (t_type (s_term s) = TNonterminal) as Ht.
    { destruct (t_type (s_term s)) eqn:Et; auto; try contradiction; exfalso.
      - destruct Ho as (_ & _ & t & Hto & Hty & _ & [E|E]); [|rewrite Hg in E; discriminate].
        destruct Hres as [Hres _]. apply (Hres t Hto); congruence.
      - destruct Ho as [_ Ho]. destruct Hres as [Hres _]. apply (Hres _ Ho); congruence. }
    rewrite Ht in Ho. destruct Ho as (b & Hb & Hbo & Hdot & _).
    destruct Hbo as [(S & HS & _ & H0 & ->)|(g & x & ru & h & Hgi & Hl & _ & Hv & Hrf)].
    2:{ exfalso. rewrite (Hnamed g x ru Hgi Hl) in Hv.
        apply (referenced_not_gamma gs starts Hres x Hrf). congruence. }
    exists S. destruct Hshape as (He & Hst & _).
    rewrite (completed_rule s _ Ht Hb) in Hc. simpl in Hc, Hdot.
    assert (s_dot s = 1) as Hd by lia.
    unfold sound in *. rewrite Ht, Hb, Hd in Hsound. simpl in Hsound.
    repeat split; auto.
    - unfold tag. rewrite Hb. reflexivity.
    - rewrite H0 in Hsound. inversion Hsound as [|t0 ts i j k Hd1 Hd2]; subst.
      inversion Hd2; subst. exact Hd1.
  Qed.

  Lemma final_lax c r s S : st_at cols c r = Some s -> t_value (s_term s) = GammaRule -> completed s = true ->
    tag s = Ret S -> In S starts /\ s_start s = 0 /\ s_end s = c /\ c <= length toks /\ MatchLax tmatch gs toks S 0 c.
  Proof.
    intros Hs Hg Hc Ht. destruct (final_facts c r s Hs Hg Hc) as (S' & H1 & H2 & H3 & H4 & H5 & _ & _ & _ & H6).
    rewrite Ht in H2. injection H2 as <-. auto.
  Qed.

  Lemma final_complete S k : In S starts -> MatchNonempty tmatch gs toks S 0 k ->
    exists r s, st_at cols k r = Some s /\ t_value (s_term s) = GammaRule /\ completed s = true /\ tag s = Ret S.
  Proof.
    intros HS HD. destruct Hwf as [Hnamed _].
    destruct (complete_final tmatch ord gs toks starts Hord cols Hfin Hnamed S k HS HD)
      as (r & s & H1 & H2 & H3 & H4 & H5 & H6).
    exists r, s. repeat split; auto. unfold tag. destruct (s_rb s) as [b|]; [|discriminate].
    simpl in H6. injection H6 as ->. reflexivity.
  Qed.
End One.

(** * The result of a parse *)
Definition parse_result tmatch ord gs text toks starts (mf : bool) (p : parse_t) : Prop :=
  p_text p = text /\ finished tmatch ord gs toks starts (p_columns p)
  /\ parsed_tokens p toks
  /\ exists fs0, (forall c r, In (c, r) fs0 <-> final_at (p_columns p) c r)
       /\ (forall l1 x y l2, fs0 = l1 ++ x :: y :: l2 -> fst y <= fst x)
       /\ p_finals p = if mf then firstn 1 fs0 else fs0.

Lemma structured_tokens toks cols : structured toks cols ->
  map c_token (tl cols) = map Some toks.
Proof.
  intros [Hl H]. destruct cols as [|c0 cols]; [discriminate|]. simpl in *.
  apply nth_error_eq. intros i. rewrite !nth_error_map.
  destruct (nth_error cols i) as [col|] eqn:E.
  - specialize (H (S i) col E) as [_ H]. simpl. rewrite H. unfold col_tok.
    assert (i < length cols) by (apply nth_error_Some; congruence).
    destruct (nth_error toks i) eqn:Et; auto. apply nth_error_None in Et. lia.
  - apply nth_error_None in E. destruct (nth_error toks i) eqn:Et; auto.
    assert (i < length toks) by (apply nth_error_Some; congruence). lia.
Qed.

Section Result.
  Variable tmatch : term -> option token -> bool.
  Variable gs : list grammar_rules.
  Variable text : string.

  Lemma earley_parse_result ords fuel n mf toks starts p : is_order (ords n) ->
    earley_parse_n tmatch ords gs text fuel n mf toks starts = Ret p ->
    starts <> [] /\ toks <> [] /\ parse_result tmatch (ords n) gs text toks starts mf p.
  Proof.
    unfold earley_parse_n, earley_parse. intros Ho H.
    destruct starts as [|S0 ss] eqn:Es; [discriminate|]. destruct toks as [|k0 ks] eqn:Ek; [discriminate|].
    rewrite <- Es, <- Ek in *. assert (starts <> []) as Hs by (rewrite Es; discriminate).
    split; [exact Hs|]. split; [rewrite Ek; discriminate|].
    destruct (parse tmatch (ords n) gs fuel mf starts (init_columns toks)) as [[cols fs]| | |] eqn:E; try discriminate.
    simpl in H. injection H as <-. unfold parse_result, parsed_tokens; simpl.
    destruct (parse_finished _ _ _ _ _ _ _ _ _ Ho Hs E) as (Hfin & fs0 & Hf & ->).
    pose proof Hfin as ((Hst & HJ & _) & _).
    split; [reflexivity|]. split; [exact Hfin|]. split; [apply structured_tokens; exact Hst|].
    destruct (all_finals_ret (ords n) cols (length cols)) as (fs1 & Hf1 & Hin & Hsort);
      [eapply justified_shape; eauto|lia|].
    rewrite Hf in Hf1. injection Hf1 as <-. exists fs0. split; [|split; auto].
    intros c r. rewrite Hin. unfold final_at. split; [intros [_ H]; exact H|].
    intros (s & Hs' & H). split; [apply st_at_col in Hs'; exact Hs'|]. exists s. auto.
  Qed.

  Lemma desc_head {A} (f : A -> nat) (l : list A) :
    (forall l1 x y l2, l = l1 ++ x :: y :: l2 -> f y <= f x) ->
    forall x l', l = x :: l' -> forall y, In y l -> f y <= f x.
  Proof.
    induction l as [|a l IH]; intros H x l' E y Hy; [destruct Hy|]. injection E as -> ->.
    destruct Hy as [<-|Hy]; [lia|]. destruct l' as [|b l']; [destruct Hy|].
    assert (f b <= f x) by (eapply (H []); reflexivity).
    assert (f y <= f b); [|lia]. eapply IH; eauto. intros l1 x0 y0 l2 E. apply (H (x :: l1) x0 y0 l2).
    rewrite E. reflexivity.
  Qed.

  Variable ord : order.
  Hypothesis Hord : is_order ord.
  Variable starts : list string.
  Hypothesis Hwf : well_formed gs starts.
  Variable toks : list token.

  Lemma p_state_at p c r s : st_at (p_columns p) c r = Some s <-> p_state p (c, r) = Ret s.
  Proof.
    unfold p_state, st_at, states_of, idx; simpl. destruct (nth_error (p_columns p) c) as [col|]; simpl.
    - destruct (nth_error (c_states col) r); split; congruence.
    - destruct r; simpl; split; discriminate.
  Qed.

  Lemma final_sound mf p ref : parse_result tmatch ord gs text toks starts mf p -> In ref (p_finals p) ->
    final_at (p_columns p) (fst ref) (snd ref).
  Proof.
    intros (_ & Hfin & _ & fs0 & Hin & Hsort & Hf) Hr. destruct ref as [c r]. simpl.
    apply Hin. rewrite Hf in Hr. destruct mf; auto. destruct fs0 as [|x fs0]; [destruct Hr|].
    destruct Hr as [->|[]]. left; reflexivity.
  Qed.

  Lemma final_reports mf p ref : parse_result tmatch ord gs text toks starts mf p -> In ref (p_finals p) ->
    exists s S, p_state p ref = Ret s /\ tag s = Ret S /\ In S starts /\ s_start s = 0 /\ s_end s = fst ref
      /\ fst ref <= length toks /\ reports p S (fst ref) /\ MatchLax tmatch gs toks S 0 (fst ref).
  Proof.
    intros Hp Hr. pose proof (final_sound _ _ _ Hp Hr) as (s & Hs & Hg & Hc). destruct Hp as (_ & Hfin & _).
    destruct ref as [c r]. simpl in *.
    destruct (final_facts tmatch ord gs toks starts Hwf _ Hfin c r s Hs Hg Hc)
      as (S & H1 & H2 & H3 & H4 & H5 & _ & _ & _ & H6).
    apply p_state_at in Hs. exists s, S. repeat split; auto. exists (c, r), s. auto.
  Qed.

  Lemma reports_sound mf p S k : parse_result tmatch ord gs text toks starts mf p -> reports p S k ->
    In S starts /\ k <= length toks /\ MatchLax tmatch gs toks S 0 k.
  Proof.
    intros Hp (ref & s & Hr & Hs & Ht & _ & He).
    destruct (final_reports _ _ _ Hp Hr) as (s' & S' & H1 & H2 & H3 & _ & H5 & H6 & _ & H8).
    rewrite Hs in H1. injection H1 as <-. rewrite Ht in H2. injection H2 as <-. subst k. rewrite H5. auto.
  Qed.

  Lemma reports_complete p S k : parse_result tmatch ord gs text toks starts false p -> In S starts ->
    MatchNonempty tmatch gs toks S 0 k -> reports p S k.
  Proof.
    intros Hp HS HD. pose proof Hp as (_ & Hfin & _ & fs0 & Hin & _ & Hf).
    destruct (final_complete tmatch ord gs toks starts Hord Hwf _ Hfin S k HS HD) as (r & s & Hs & Hg & Hc & Ht).
    destruct (final_lax tmatch ord gs toks starts Hwf _ Hfin k r s S Hs Hg Hc Ht) as (_ & H0 & He & _).
    exists (k, r), s. split; [|split; [apply p_state_at; exact Hs|auto]].
    rewrite Hf. apply Hin. exists s. auto.
  Qed.

  Lemma longest p : parse_result tmatch ord gs text toks starts true p ->
    length (p_finals p) <= 1 /\
    (forall S' k', In S' starts -> MatchNonempty tmatch gs toks S' 0 k' -> exists S k, reports p S k /\ k' <= k).
  Proof.
    intros Hp. pose proof Hp as (_ & Hfin & _ & fs0 & Hin & Hsort & Hf). split.
    - rewrite Hf. rewrite firstn_length. lia.
    - intros S' k' HS HD.
      destruct (final_complete tmatch ord gs toks starts Hord Hwf _ Hfin S' k' HS HD) as (r & s & Hs & Hg & Hc & Ht).
      assert (In (k', r) fs0) as Hi by (apply Hin; exists s; auto).
      destruct fs0 as [|[c0 r0] fs0]; [destruct Hi|]. simpl in Hf.
      destruct (final_reports true p (c0, r0) Hp) as (s' & S & H1 & H2 & H3 & _ & H5 & H6 & H7 & H8).
      { rewrite Hf. left; reflexivity. }
      exists S, c0. split; [exact H7|].
      pose proof (desc_head fst _ Hsort (c0, r0) fs0 eq_refl (k', r) Hi) as Hle. simpl in Hle. exact Hle.
  Qed.

  Lemma one_final p ref : parse_result tmatch ord gs text toks starts true p -> In ref (p_finals p) ->
    p_finals p = [ref].
  Proof.
    intros Hp Hr. destruct (longest p Hp) as [Hl _]. destruct (p_finals p) as [|a [|b l]]; simpl in *; [destruct Hr|destruct Hr as [->|[]]; reflexivity|lia].
  Qed.
End Result.

(** Longest mode keeps the first of what 'all' mode reports, on the same chart. *)
Lemma max_vs_all tmatch ords gs text fuel n toks starts p p' :
  is_order (ords n) -> well_formed gs starts ->
  earley_parse_n tmatch ords gs text fuel n true toks starts = Ret p ->
  earley_parse_n tmatch ords gs text fuel n false toks starts = Ret p' ->
  p_columns p = p_columns p' /\ p_finals p = firstn 1 (p_finals p')
  /\ (forall S k S' k', reports p S k -> reports p' S' k' -> k' <= k)
  /\ (forall S' k', reports p' S' k' -> exists S k, reports p S k).
Proof.
  intros Ho Hwf H1 H2.
  destruct (earley_parse_result tmatch gs text ords fuel n _ _ _ p Ho H1) as (Hs & Ht & R1).
  destruct (earley_parse_result tmatch gs text ords fuel n _ _ _ p' Ho H2) as (_ & _ & R2).
  assert (p_columns p = p_columns p' /\ p_finals p = firstn 1 (p_finals p')) as [E1 E2].
  { unfold earley_parse_n, earley_parse in *. destruct starts; [congruence|]. destruct toks; [congruence|].
    rewrite parse_eq in H1, H2 by discriminate.
    match type of H1 with context [cols_loop ?a ?b ?c ?d ?e ?f ?g] =>
      destruct (cols_loop a b c d e f g) as [cs| | |] end; try discriminate. simpl in *.
    destruct (all_finals (length cs) cs) as [fs| | |]; try discriminate. simpl in *.
    injection H1 as <-. injection H2 as <-. auto. }
  split; [exact E1|]. split; [exact E2|].
  destruct R2 as (T2 & F2 & K2 & fs0 & Hin & Hsort & Hf). simpl in Hf. rewrite Hf in E2.
  assert (forall S' k', reports p' S' k' -> exists ref, In ref fs0 /\ fst ref = k') as Hk.
  { intros S' k' (ref & s & Hr & Hps & Htg & Hs0 & He). rewrite Hf in Hr. exists ref. split; auto.
    destruct (final_reports tmatch gs text (ords n) starts Hwf toks false p' ref) as (s1 & S1 & Q1 & _ & _ & _ & Q5 & _).
    - split; [exact T2|]. split; [exact F2|]. split; [exact K2|]. exists fs0. auto.
    - rewrite Hf. exact Hr.
    - rewrite Hps in Q1. injection Q1 as <-. congruence. }
  split.
  - intros S k S' k' (ref & s & Hr & Hps & Htg & Hs0 & He) Hr'. destruct (Hk _ _ Hr') as (ref' & Hi & <-).
    destruct (final_reports tmatch gs text (ords n) starts Hwf toks true p ref R1 Hr) as (s1 & S1 & Q1 & _ & _ & _ & Q5 & _).
    rewrite Hps in Q1. injection Q1 as <-. subst k. rewrite Q5.
    destruct fs0 as [|x fs0]; [destruct Hi|]. rewrite E2 in Hr. destruct Hr as [<-|[]].
    eapply (desc_head fst); eauto.
  - intros S' k' Hr'. destruct (Hk _ _ Hr') as (ref' & Hi & _).
    destruct fs0 as [|x fs0]; [destruct Hi|]. simpl in E2.
    destruct (final_reports tmatch gs text (ords n) starts Hwf toks true p x R1) as (s1 & S1 & _ & _ & _ & _ & _ & _ & Q & _).
    { rewrite E2. left; auto. }
    eauto.
Qed.
