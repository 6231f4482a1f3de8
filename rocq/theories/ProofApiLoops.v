(** The loops over token positions. *)
From Coq Require Import Permutation Sorting.Sorted.
From Verif Require Import Base ModelTypes ModelEarley ModelTrees ModelApi SpecTypes SpecGrammar SpecApi
  ProofEqual ProofChart ProofTerm ProofTree ProofApi.

Section Loops.
  Variable tmatch : term -> option token -> bool.
  Variable ords : nat -> order.
  Hypothesis Hords : orders ords.
  Variable gs : list grammar_rules.
  Variable text : string.
  Variable starts : list string.
  Notation result n toks mf p := (parse_result tmatch (ords n) gs text toks starts mf p).

  Lemma has_finals_false p : has_finals p = false <-> p_finals p = [].
  Proof. unfold has_finals. destruct (p_finals p); split; congruence. Qed.
  Lemma has_finals_true p : has_finals p = true <-> p_finals p <> [].
  Proof. unfold has_finals. destruct (p_finals p); split; congruence. Qed.

  (** ** EarleyParseAny *)
  Lemma any_loop_spec fuel : forall toks n p0 r, any_loop tmatch ords gs text fuel n toks starts p0 = Ret r ->
    toks <> [] ->
    exists i p, r = Some p /\ i < length toks /\ result (n + i) (skipn i toks) true p
      /\ (forall i', i' < i -> exists p', result (n + i') (skipn i' toks) true p' /\ p_finals p' = [])
      /\ (p_finals p = [] -> S i = length toks).
  Proof.
    induction toks as [|k toks IH]; intros n p0 r H Hne; [congruence|]. simpl in H.
    destruct (earley_parse_n tmatch ords gs text fuel n true (k :: toks) starts) as [q| | |] eqn:E; try discriminate.
    simpl in H. destruct (earley_parse_result _ _ _ _ _ _ _ _ _ _ (Hords n) E) as (_ & _ & R).
    destruct (has_finals q) eqn:Ef.
    - injection H as <-. exists 0, q. rewrite Nat.add_0_r. simpl. split; [auto|]. split; [lia|]. split; [auto|].
      split; [intros; lia|]. apply has_finals_true in Ef. congruence.
    - apply has_finals_false in Ef. destruct toks as [|k' toks].
      + simpl in H. injection H as <-. exists 0, q. rewrite Nat.add_0_r. simpl.
        split; [auto|]. split; [lia|]. split; [auto|]. split; [intros; lia|auto].
      + destruct (IH (S n) (Some q) r H) as (i & p & -> & Hi & Rp & Hb & Hl); [discriminate|].
        exists (S i), p. split; [auto|]. split; [simpl in *; lia|].
        replace (n + S i) with (S n + i) by lia. split; [exact Rp|]. split.
        * intros [|i'] Hi'.
          -- exists q. rewrite Nat.add_0_r. auto.
          -- destruct (Hb i') as (p' & Rp' & Hf); [lia|]. exists p'. replace (n + S i') with (S n + i') by lia. auto.
        * intros Hf. specialize (Hl Hf). simpl in *. lia.
  Qed.

  (** ** EarleyParseAll *)
  Lemma all_loop_spec fuel : forall toks n ps, all_loop tmatch ords gs text fuel n toks starts = Ret ps ->
    exists is, Forall2 (fun i p => i < length toks /\ result (n + i) (skipn i toks) false p /\ p_finals p <> []) is ps
      /\ StronglySorted lt is
      /\ (forall i, i < length toks -> ~ In i is ->
            exists p, result (n + i) (skipn i toks) false p /\ p_finals p = []).
  Proof.
    induction toks as [|k toks IH]; intros n ps H; simpl in H.
    { injection H as <-. exists []. split; [constructor|]. split; [constructor|]. simpl; intros; lia. }
    destruct (earley_parse_n tmatch ords gs text fuel n false (k :: toks) starts) as [q| | |] eqn:E; try discriminate.
    simpl in H. destruct (earley_parse_result _ _ _ _ _ _ _ _ _ _ (Hords n) E) as (_ & _ & R).
    destruct (all_loop tmatch ords gs text fuel (S n) toks starts) as [rest| | |] eqn:El; try discriminate.
    simpl in H. injection H as <-. destruct (IH _ _ El) as (is & F & Hsort & Hno).
    assert (Forall2 (fun i p => i < length (k :: toks) /\ result (n + i) (skipn i (k :: toks)) false p /\ p_finals p <> [])
              (map S is) rest) as F'.
    { clear -F. induction F as [|i p is ps (H1 & H2 & H3) F IH]; simpl; constructor; auto.
      split; [simpl; lia|]. replace (n + S i) with (S n + i) by lia. auto. }
    assert (StronglySorted lt (map S is)) as Hsort'.
    { clear -Hsort. induction Hsort as [|i is Hs IH Hf]; simpl; constructor; auto.
      apply Forall_map. eapply Forall_impl; [|exact Hf]. simpl; intros; lia. }
    assert (forall i, i < length (k :: toks) -> i <> 0 -> ~ In i (map S is) ->
            exists p, result (n + i) (skipn i (k :: toks)) false p /\ p_finals p = []) as Hno'.
    { intros [|i] Hi Hnz Hni; [congruence|]. destruct (Hno i) as (p & Rp & Hp).
      - simpl in Hi; lia.
      - intros Hc. apply Hni. apply in_map; auto.
      - exists p. replace (n + S i) with (S n + i) by lia. auto. }
    destruct (has_finals q) eqn:Ef.
    - apply has_finals_true in Ef. exists (0 :: map S is). split; [|split].
      + constructor; auto. rewrite Nat.add_0_r. simpl. split; [lia|auto].
      + constructor; auto. apply Forall_map. apply Forall_forall. intros; lia.
      + intros i Hi Hni. apply Hno'; auto.
        * intros ->. apply Hni. left; auto.
        * intros Hc. apply Hni. right; auto.
    - apply has_finals_false in Ef. exists (map S is). split; [auto|split; [auto|]].
      intros i Hi Hni. destruct (Nat.eq_dec i 0) as [->|Hz]; auto.
      exists q. rewrite Nat.add_0_r. auto.
  Qed.

  (** ** EarleyParseMaxAll *)
  Hypothesis Hwf : well_formed gs starts.

  Lemma max_end_one p n toks : result n toks true p -> p_finals p <> [] ->
    exists S m, reports p S m /\ max_end p (p_finals p) 0 = Ret m /\ m <= length toks
      /\ (forall S' k', reports p S' k' -> k' = m).
  Proof.
    intros R Hf. destruct (p_finals p) as [|ref l] eqn:E; [congruence|].
    destruct (final_reports tmatch gs text (ords n) starts Hwf toks true p ref R) as
        (s & S & H1 & H2 & H3 & H4 & H5 & H6 & H7 & H8); [rewrite E; left; auto|].
    pose proof (one_final tmatch gs text (ords n) (Hords n) starts Hwf toks p ref R) as Ho.
    rewrite E in Ho. specialize (Ho (or_introl eq_refl)). injection Ho as ->.
    exists S, (fst ref). split; [exact H7|]. split.
    - simpl. rewrite H1. simpl. rewrite H5. destruct (fst ref); reflexivity.
    - split; auto. intros S' k' (ref' & s' & Hr & Hs & _ & _ & He). rewrite E in Hr. destruct Hr as [<-|[]].
      rewrite H1 in Hs. injection Hs as <-. congruence.
  Qed.

  (** spans (start, length) in order *)
  Lemma tiles_shift d spans : forall lo, tiles lo spans ->
    tiles (d + lo) (map (fun im => (d + fst im, snd im)) spans).
  Proof.
    induction spans as [|[i m] spans IH]; intros lo H; simpl in *; auto.
    destruct H as [H1 H2]. split; [lia|]. replace (d + i + m) with (d + (i + m)) by lia. auto.
  Qed.

  Lemma skipn_add {A} (l : list A) a b : skipn a (skipn b l) = skipn (b + a) l.
  Proof.
    revert l. induction b as [|b IH]; intros [|x l]; simpl; auto. destruct a; reflexivity.
  Qed.

  Lemma max_all_spec fuel : forall steps toks n ps,
    max_all_loop tmatch ords gs text steps fuel n toks starts = Ret ps ->
    exists spans,
      Forall2 (fun im p => fst im < length toks /\ fst im + snd im <= length toks
                 /\ (exists n', result n' (skipn (fst im) toks) true p)
                 /\ (exists S, reports p S (snd im)) /\ (forall S k, reports p S k -> k = snd im)) spans ps
      /\ tiles 0 spans
      /\ (forall x, x < length toks -> ~ covered spans x ->
            exists n' p', result n' (skipn x toks) true p' /\ p_finals p' = []).
  Proof.
    induction steps as [|steps IH]; intros toks n ps H; [discriminate|]. simpl in H.
    destruct toks as [|k toks0] eqn:Ek.
    { injection H as <-. exists []. simpl. split; [constructor|]. split; auto. intros; lia. }
    rewrite <- Ek in *. assert (0 < length toks) as Hpos by (rewrite Ek; simpl; lia).
    destruct (earley_parse_n tmatch ords gs text fuel n true toks starts) as [q| | |] eqn:E; try discriminate.
    simpl in H. destruct (earley_parse_result _ _ _ _ _ _ _ _ _ _ (Hords n) E) as (_ & _ & R).
    assert (forall d ps', d <= length toks -> forall n', max_all_loop tmatch ords gs text steps fuel n' (skipn d toks) starts = Ret ps' ->
      exists spans, 
        Forall2 (fun im p => fst im < length toks /\ fst im + snd im <= length toks
                 /\ (exists n', result n' (skipn (fst im) toks) true p)
                 /\ (exists S, reports p S (snd im)) /\ (forall S k, reports p S k -> k = snd im)) spans ps'
        /\ tiles d spans
        /\ (forall x, d <= x < length toks -> ~ covered spans x ->
            exists n' p', result n' (skipn x toks) true p' /\ p_finals p' = [])) as Hshift.
    { intros d ps' Hd n' H'. destruct (IH _ _ _ H') as (spans & F & T & U).
      exists (map (fun im => (d + fst im, snd im)) spans). split; [|split].
      - clear -F Hd. rewrite skipn_length in F.
        induction F as [|im p spans ps (H1 & H2 & (n' & H3) & H4) F IHF]; simpl; constructor; auto. simpl.
        split; [lia|]. split; [lia|]. split; [exists n'; rewrite <- skipn_add; exact H3|exact H4].
      - rewrite <- (Nat.add_0_r d) at 1. apply tiles_shift. exact T.
      - intros x Hx Hc. destruct (U (x - d)) as (n1 & p' & R' & Hf).
        + rewrite skipn_length. lia.
        + intros (i & m & Hin & Hi). apply Hc. exists (d + i), m. split; [|lia].
          apply in_map_iff. exists (i, m). auto.
        + exists n1, p'. rewrite skipn_add in R'. replace (d + (x - d)) with x in R' by lia. auto. }
    destruct (has_finals q) eqn:Ef.
    - apply has_finals_true in Ef. destruct (max_end_one q n toks R Ef) as (S & m & HR & Hm & Hml & Hu).
      rewrite Hm in H. simpl in H.
      destruct (max_all_loop tmatch ords gs text steps fuel (Datatypes.S n) (skipn m toks) starts) as [rest| | |] eqn:El; try discriminate.
      simpl in H. injection H as <-. destruct (Hshift m rest Hml _ El) as (spans & F & T & U).
      exists ((0, m) :: spans). split; [|split].
      + constructor; auto. simpl. split; [lia|]. split; [lia|]. split; [exists n; exact R|]. split; [eauto|].
        intros. eapply Hu; eauto.
      + simpl. split; [lia|exact T].
      + intros x Hx Hc. apply U.
        * split; [|lia]. destruct (Nat.lt_ge_cases x m) as [L|L]; [|exact L]. exfalso. apply Hc.
          exists 0, m. split; [left; auto|lia].
        * intros (i & m' & Hin & Hi). apply Hc. exists i, m'. split; [right; auto|auto].
    - apply has_finals_false in Ef.
      destruct (Hshift 1 ps) with (n' := Datatypes.S n) as (spans & F & T & U).
      + lia.
      + rewrite Ek. simpl. exact H.
      + exists spans. split; [exact F|]. split.
        * destruct spans as [|[i m] spans]; simpl in *; auto. destruct T; split; auto; lia.
        * intros x Hx Hc. destruct x as [|x].
          -- exists n, q. simpl. auto.
          -- apply U; auto. lia.
  Qed.
End Loops.

(** ** Termination of the calls *)
Section Terminate.
  Variable tmatch : term -> option token -> bool.
  Variable ords : nat -> order.
  Hypothesis Hords : orders ords.
  Variable gs : list grammar_rules.
  Hypothesis Htyped : typed_args gs.
  Variable text : string.
  Variable starts : list string.
  Hypothesis Hne : starts <> [].

  Lemma earley_parse_settles n mf toks : toks <> [] ->
    exists p, settles (fun m => earley_parse_n tmatch ords gs text m n mf toks starts) (Ret p).
  Proof.
    intros Ht. destruct (parse_terminates tmatch (ords n) gs toks starts (Hords n) Htyped Hne) as (fuel & cols & H).
    destruct (H mf) as (fs & E). exists (mkParse text cols fs), fuel. intros m Hm.
    unfold earley_parse_n, earley_parse. destruct starts as [|S0 ss]; [congruence|].
    destruct toks as [|k ks]; [congruence|]. replace m with (fuel + (m - fuel)) by lia.
    rewrite (parse_fuel _ _ _ _ _ _ (m - fuel) _ _ Hne E). reflexivity.
  Qed.

  Definition terminates {A} (f : nat -> res A) : Prop := exists a, settles f (Ret a).

  Lemma terminates_bind {A B} (f : nat -> res A) (g : nat -> A -> res B) :
    terminates f -> (forall a, settles f (Ret a) -> terminates (fun m => g m a)) ->
    terminates (fun m => bind (f m) (g m)).
  Proof.
    intros [a Ha] H. destruct (H a Ha) as [b Hb]. exists b. eapply settles_bind; eauto.
  Qed.

  Lemma terminates_ret {A} (a : A) : terminates (fun _ => Ret a).
  Proof. exists a, 0. auto. Qed.

  Lemma any_loop_terminates toks : forall n p0,
    terminates (fun m => any_loop tmatch ords gs text m n toks starts p0).
  Proof.
    induction toks as [|k toks IH]; intros n p0; simpl; [apply terminates_ret|].
    apply terminates_bind; [apply earley_parse_settles; discriminate|]. intros q _.
    destruct (has_finals q); [apply terminates_ret|apply IH].
  Qed.

  Lemma all_loop_terminates toks : forall n,
    terminates (fun m => all_loop tmatch ords gs text m n toks starts).
  Proof.
    induction toks as [|k toks IH]; intros n; simpl; [apply terminates_ret|].
    apply terminates_bind; [apply earley_parse_settles; discriminate|]. intros q _.
    apply terminates_bind; [apply IH|]. intros r _. apply terminates_ret.
  Qed.

  Hypothesis Hwf : well_formed gs starts.

  Lemma settles_shift {A} (f : nat -> res A) a : settles f (Ret a) -> settles (fun m => f (S m)) (Ret a).
  Proof. intros [n Hn]. exists n. intros m Hm. apply Hn. lia. Qed.

  (** the loop advances when no start rule matches the empty sequence *)
  Lemma max_all_terminates : forall toks0 toks,
    (forall S i, In S starts -> i <= length toks0 -> ~ MatchLax tmatch gs toks0 S i i) ->
    (exists d, d <= length toks0 /\ toks = skipn d toks0) -> forall n,
    exists ps n0, forall steps fuel, n0 <= fuel -> length toks < steps ->
      max_all_loop tmatch ords gs text steps fuel n toks starts = Ret ps.
  Proof.
    intros toks0 toks Hem. remember (length toks) as L eqn:EL. revert toks EL.
    induction L as [L IH] using (well_founded_induction lt_wf). intros toks EL (d & Hd & Et) n.
    destruct toks as [|k toks1] eqn:Ek.
    { exists [], 0. intros [|steps] fuel _ Hs; [lia|]. reflexivity. }
    rewrite <- Ek in *. assert (0 < length toks) as Hpos0 by (rewrite Ek; simpl; lia).
    destruct (earley_parse_settles n true toks) as (p & f0 & Hp); [rewrite Ek; discriminate|].
    destruct (earley_parse_result _ _ _ _ _ _ _ _ _ _ (Hords n) (Hp f0 (le_n _))) as (_ & _ & R).
    assert (d < length toks0) as Hd'.
    { assert (length toks = length toks0 - d) by (rewrite Et, skipn_length; reflexivity).
      assert (length toks <> 0) by (rewrite Ek; discriminate). lia. }
    assert (exists m rest n1, 0 < m /\ (p_finals p <> [] -> max_end p (p_finals p) 0 = Ret m) /\ (p_finals p = [] -> m = 1) /\
       forall steps fuel, n1 <= fuel -> length toks <= steps ->
        max_all_loop tmatch ords gs text steps fuel (S n) (skipn m toks) starts = Ret rest)
      as (m & rest & n1 & Hm & Hf1 & Hf2 & Hrest).
    { destruct (p_finals p) as [|ref l] eqn:Ef.
      - destruct (IH (length (skipn 1 toks))) with (toks := skipn 1 toks) (n := S n) as (ps & n1 & H1).
        + rewrite EL, skipn_length. lia.
        + reflexivity.
        + exists (S d). split; [lia|]. rewrite Et, skipn_add. f_equal. lia.
        + exists 1, ps, n1. split; [lia|]. split; [congruence|]. split; auto.
          intros steps fuel Hn1 Hs. apply H1; auto. rewrite skipn_length. lia.
      - destruct (max_end_one tmatch ords Hords gs text starts Hwf p n toks R) as (T & m & HR & Hmm & Hml & _).
        { rewrite Ef. discriminate. }
        assert (0 < m) as Hpos.
        { destruct m; [|lia]. exfalso.
          destruct (reports_sound tmatch gs text (ords n) starts Hwf toks true p T 0 R HR) as (H1 & _ & H3).
          rewrite Et in H3. apply match_lax_shift in H3; [|lia]. rewrite Nat.add_0_r in H3.
          apply (Hem T d H1); auto. }
        destruct (IH (length (skipn m toks))) with (toks := skipn m toks) (n := S n) as (ps & n1 & H1).
        + rewrite EL, skipn_length. lia.
        + reflexivity.
        + exists (d + m). rewrite Et in Hml. rewrite skipn_length in Hml. split; [lia|].
          rewrite Et, skipn_add. reflexivity.
        + exists m, ps, n1. split; [lia|]. split; [rewrite Ef in Hmm; auto|]. split; [congruence|].
          intros steps fuel Hn1 Hs. apply H1; auto. rewrite skipn_length. lia. }
    exists (if has_finals p then p :: rest else rest), (f0 + n1). intros [|steps] fuel Hfu Hst; [lia|].
    simpl. rewrite Ek. rewrite <- Ek. rewrite Hp by lia. simpl.
    destruct (has_finals p) eqn:Ef.
    - apply has_finals_true in Ef. rewrite (Hf1 Ef). simpl. rewrite Hrest by lia. reflexivity.
    - apply has_finals_false in Ef. rewrite (Hf2 Ef) in Hrest. rewrite Ek in Hrest. simpl in Hrest.
      rewrite <- (Hrest steps fuel); [reflexivity|lia|]. rewrite EL, Ek in Hst. simpl in Hst. lia.
  Qed.
End Terminate.
