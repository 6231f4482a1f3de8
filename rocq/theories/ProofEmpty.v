(** Start rules with an empty alternative: they are reported everywhere, and
    EarleyParseMaxAll returns only when matches cover the whole text. *)
From Coq Require Import Permutation.
From Verif Require Import Base ModelTypes ModelText ModelEarley ModelTrees ModelApi
     SpecTypes SpecGrammar SpecTree SpecApi
     ProofEqual ProofChart ProofSound ProofComplete ProofTerm ProofOrder
     ProofTree ProofApi ProofApiLoops ProofApiMain ProofMain ProofRefute ProofExtract.

Section Empty.
  Variable tmatch : term -> option token -> bool.
  Variable ord : nat -> nat -> nat -> list rulebody -> list rulebody.
  Variable gs : list grammar_rules.
  Variable toks : list token.
  Variable starts : list string.
  Hypothesis Hord : is_order ord.
  Hypothesis Hwf : well_formed gs starts.
  Variable cols : list column.
  Hypothesis Hfin : finished tmatch ord gs toks starts cols.

  (** a completion within the column reaches the rows before it *)
  Lemma close_here c r d r' p t :
    st_at cols c r = Some d -> completed d = true -> s_start d = c ->
    st_at cols c r' = Some p -> r' < r -> nxt p = Some t -> advances t d = true ->
    exists q, In q (states_of cols c) /\ sim q (norm c (adv p t)).
  Proof.
    intros Hd Hc Hs Hp Hlt Hn Ha.
    assert (sat cols (c, adv p t)) as HS.
    { eapply finished_due; [exact Hfin|exact Hd|]. unfold due_ops. apply in_or_app. left.
      rewrite Hs, Nat.ltb_irrefl, Hc. apply in_map. eapply comp_list_in; eauto.
      unfold st_at in Hp. rewrite <- (firstn_skipn r (states_of cols c)) in Hp.
      rewrite nth_error_app1 in Hp.
      - eapply nth_error_In; eauto.
      - rewrite firstn_length. apply st_at_len in Hd. lia. }
    apply sat_sim in HS. exact HS.
  Qed.

  Lemma empty_final S b : In S starts -> has_body gs S b -> rb_terms b = [] ->
    exists r s, st_at cols 0 r = Some s /\ t_value (s_term s) = GammaRule /\ completed s = true /\ tag s = Ret S.
  Proof.
    intros HS (g & ru & h & Hg & Hl & Hb) He. destruct Hwf as [Hnamed (_ & HG)].
    apply In_nth_error in HS. destruct HS as [r' Hr']. pose proof Hfin as (_ & _ & Hbeg).
    pose proof (Hbeg _ _ Hr') as Hp. pose proof (nth_error_In _ _ Hp) as HpI.
    destruct (close_predict tmatch ord gs toks starts Hord cols Hfin 0 (begin_state S) (nonterm S) g ru b HpI) as (d & HdI & S1 & S2 & S3 & S4 & S5); auto.
    { apply in_map_iff. exists (h, b). auto. }
    simpl in S1, S2, S3, S4, S5. rewrite (Hnamed g S ru Hg Hl) in S1.
    destruct (fin_row cols 0 d HdI) as [r Hr].
    assert (r' < r) as Hlt.
    { destruct (Nat.lt_ge_cases r' r) as [L|L]; [exact L|]. exfalso.
      destruct (nth_error starts r) as [S'|] eqn:E.
      - pose proof (Hbeg _ _ E) as H. rewrite H in Hr. injection Hr as <-. simpl in S1. injection S1 as S1.
        apply HG. change GammaRule with (t_value (mkTerm GammaRule TNonterminal MNil)). rewrite S1.
        apply nth_error_In in Hr'. exact Hr'.
      - apply nth_error_None in E. assert (r' < length starts) by (apply nth_error_Some; congruence). lia. }
    assert (completed d = true) as Hc.
    { destruct (s_rb d) as [b0|] eqn:Eb; simpl in S5; [|discriminate]. injection S5 as S5.
      rewrite (completed_rule d b0); auto; [|rewrite S1; reflexivity]. rewrite S4, S5, He. reflexivity. }
    destruct (close_here 0 r d r' (begin_state S) (nonterm S)) as (q & Hq & Hsim); auto.
    { apply advances_spec. right. rewrite S1. split; auto. }
    destruct (fin_row cols 0 q Hq) as [rq Hrq]. exists rq, q. split; [exact Hrq|].
    destruct Hsim as (Q1 & Q2 & Q3 & Q4 & Q5). simpl in *. split; [rewrite Q1; reflexivity|].
    destruct (s_rb q) as [b0|] eqn:Eb; simpl in Q5; [|discriminate]. injection Q5 as Q5.
    rewrite (completed_rule q b0); auto; [|rewrite Q1; reflexivity]. rewrite Q4, Q5. split; [reflexivity|].
    unfold tag. rewrite Eb, Q5. reflexivity.
  Qed.
End Empty.

Section Calls.
  Variable tmatch : term -> option token -> bool.
  Variable ords : nat -> order.
  Hypothesis Hords : orders ords.
  Variable gs : list grammar_rules.
  Variable text : string.
  Variable starts : list string.
  Hypothesis Hwf : well_formed gs starts.
  Variable S0 : string.
  Hypothesis HS0 : In S0 starts.
  Hypothesis Hempty : has_alt gs S0 [].

  Lemma empty_has_finals n mf toks p : parse_result tmatch (ords n) gs text toks starts mf p -> p_finals p <> [].
  Proof.
    intros (_ & Hfin & _ & fs0 & Hin & _ & Hf). destruct Hempty as (b & Hb & He).
    destruct (empty_final tmatch (ords n) gs toks starts (Hords n) Hwf _ Hfin S0 b HS0 Hb He) as (r & s & H1 & H2 & H3 & _).
    assert (In (0, r) fs0) as Hr by (apply Hin; exists s; auto). rewrite Hf. destruct fs0 as [|x l]; [destruct Hr|]. destruct mf; discriminate.
  Qed.

  Lemma empty_reports_result n toks p : parse_result tmatch (ords n) gs text toks starts false p -> reports p S0 0.
  Proof.
    intros (_ & Hfin & _ & fs0 & Hin & _ & Hf).
    destruct Hempty as (b & Hb & He).
    destruct (empty_final tmatch (ords n) gs toks starts (Hords n) Hwf _ Hfin S0 b HS0 Hb He) as (r & s & H1 & H2 & H3 & H4).
    destruct (final_lax tmatch (ords n) gs toks starts Hwf _ Hfin 0 r s S0 H1 H2 H3 H4) as (_ & K0 & K1 & _).
    exists (0, r), s. split; [|split; [apply p_state_at; exact H1|auto]]. rewrite Hf. apply Hin. exists s. auto.
  Qed.

  Lemma empty_reports n fuel toks p :
    earley_parse_n tmatch ords gs text fuel n false toks starts = Ret p -> reports p S0 0.
  Proof.
    intros H. destruct (earley_parse_result _ _ _ _ _ _ _ _ _ _ (Hords n) H) as (_ & _ & R).
    eapply empty_reports_result; eauto.
  Qed.

  (** the loop returns or runs out of steps *)
  Lemma max_all_loop_outcome fuel : forall steps n toks,
    (exists ps, max_all_loop tmatch ords gs text steps fuel n toks starts = Ret ps)
    \/ max_all_loop tmatch ords gs text steps fuel n toks starts = Fuel.
  Proof.
    induction steps as [|steps IH]; intros n toks; [right; reflexivity|]. cbn [max_all_loop].
    destruct toks as [|k ks]; [left; eexists; reflexivity|].
    destruct (chart_no_panic tmatch ords gs text fuel n true (k :: ks) starts (Hords n)) as [Hp He].
    destruct (earley_parse_n tmatch ords gs text fuel n true (k :: ks) starts) as [p| | |] eqn:E; cbn [bind]; auto.
    - destruct (earley_parse_result _ _ _ _ _ _ _ _ _ _ (Hords n) E) as (_ & _ & R).
      destruct (has_finals p) eqn:Ef; [|apply IH].
      apply has_finals_true in Ef. destruct (max_end_one tmatch ords Hords gs text starts Hwf p n _ R Ef) as (S & m & _ & -> & _).
      cbn [bind]. destruct (IH (Datatypes.S n) (skipn m (k :: ks))) as [[ps ->]| ->]; cbn [bind]; [left; eauto|right; reflexivity].
    - destruct (proj1 He eq_refl) as [H|H]; [discriminate|]. rewrite H in HS0. destruct HS0.
    - congruence.
  Qed.
End Calls.

Section Api.
  Variable tmatch : term -> option token -> bool.
  Variable ords : nat -> order.
  Variable gs : list grammar_rules.
  Variable annotate : string -> string -> res (list token).
  Variable local_grammar : list token -> res (option grammar_rules).
  Variables (ctx text : string) (starts : list string) (toks : list token) (l : option grammar_rules).
  Hypothesis Hords : orders ords.
  Hypothesis Hproc : process annotate local_grammar ctx text = Ret (toks, l).
  Let G := with_local gs l.
  Hypothesis Hwf : well_formed (with_local gs l) starts.
  Variable S0 : string.
  Hypothesis HS0 : In S0 starts.
  Hypothesis Hempty : has_alt (with_local gs l) S0 [].

  Lemma empty_covers steps fuel ps :
    EarleyParseMaxAll tmatch ords gs annotate local_grammar steps fuel ctx text starts = Ret ps ->
    forall x, x < length toks -> exists S i j, In S starts /\ i <= x < j /\ MatchLax tmatch G toks S i j.
  Proof.
    unfold EarleyParseMaxAll. rewrite Hproc. cbn [bind]. intros H x Hx.
    destruct (max_all_spec tmatch ords Hords G text starts Hwf fuel steps toks 0 ps H) as (spans & F & T & Hno).
    assert (covered spans x) as (i & m & Hin & Him).
    { assert (forall sp : list (nat * nat), covered sp x \/ ~ covered sp x) as Hdec.
      { induction sp as [|[i m] sp IH]; [right; intros (i & m & [] & _)|].
        destruct IH as [(i' & m' & H1 & H2)|IH]; [left; exists i', m'; split; [right|]; auto|].
        destruct (Nat.le_gt_cases i x), (Nat.lt_ge_cases x (i + m));
          try (left; exists i, m; split; [left; reflexivity|lia]);
          right; intros (i' & m' & [E|K1] & K2); try (injection E as <- <-; lia); apply IH; exists i', m'; auto. }
      destruct (Hdec spans) as [Hc|Hc]; [exact Hc|]. exfalso.
      destruct (Hno x Hx Hc) as (n' & p' & R & E). exact (empty_has_finals tmatch ords Hords G text starts Hwf S0 HS0 Hempty _ _ _ _ R E). }
    destruct (Forall2_in_l _ _ _ _ F Hin) as (p & _ & (Hi & Hle & (n' & R) & (S & HS) & _)).
    cbn [fst snd] in *. assert (i <= length toks) as Hil by lia.
    destruct (at_sound _ _ _ _ _ Hwf toks i p true Hil R S m HS) as (H1 & _ & H3). exists S, i, (i + m). auto.
  Qed.

  Lemma empty_never_returns x : x < length toks ->
    (forall S i j, In S starts -> i <= x < j -> ~ MatchLax tmatch G toks S i j) ->
    forall steps fuel, EarleyParseMaxAll tmatch ords gs annotate local_grammar steps fuel ctx text starts = Fuel.
  Proof.
    intros Hx Hno steps fuel.
    destruct (max_all_loop_outcome tmatch ords Hords G text starts Hwf S0 HS0 fuel steps 0 toks) as [[ps E]|E].
    - exfalso. destruct (empty_covers steps fuel ps) with (x := x) as (S & i & j & H1 & H2 & H3); auto.
      + unfold EarleyParseMaxAll. rewrite Hproc. exact E.
      + eapply Hno; eauto.
    - unfold EarleyParseMaxAll. rewrite Hproc. exact E.
  Qed.
End Api.

(** One parse, with the hypothesis on its own order only. *)
Lemma empty_start_found tmatch ords gs text fuel n mf toks starts p :
  is_order (ords n) -> earley_parse_n tmatch ords gs text fuel n mf toks starts = Ret p ->
  forall S, mf = false -> well_formed gs starts -> In S starts -> has_alt gs S [] -> reports p S 0.
Proof.
  intros Ho H S -> Hw Hin He.
  apply (empty_reports tmatch (fun _ => ords n) (fun _ => Ho) gs text starts Hw S Hin He n fuel toks p). exact H.
Qed.
