(** The public calls: what they return, in terms of the matches of the text. *)
From Coq Require Import Permutation Sorted.
From Verif Require Import Base ModelTypes ModelText ModelEarley ModelTrees ModelApi
     SpecTypes SpecGrammar SpecTree SpecApi
     ProofEqual ProofChart ProofSound ProofComplete ProofTerm ProofOrder
     ProofTree ProofTreeOk ProofTreeSet ProofTreeDup ProofApi ProofApiLoops ProofTreeApi ProofMain.

Lemma Forall2_impl {A B} (P Q : A -> B -> Prop) l l' :
  (forall a b, P a b -> Q a b) -> Forall2 P l l' -> Forall2 Q l l'.
Proof. intros H F. induction F; constructor; auto. Qed.

Lemma derives_le alt accepts toks count_ok span_ok :
  (forall t i j, derives alt accepts toks count_ok span_ok t i j -> i <= j)
  /\ (forall ts i j, derives_seq alt accepts toks count_ok span_ok ts i j -> i <= j).
Proof. apply derives_mutind; intros; lia. Qed.

Lemma match_le tmatch gs toks S i j : Match tmatch gs toks S i j -> i <= j.
Proof. apply (proj1 (derives_le _ _ _ _ _)). Qed.

Section Position.
  Variable tmatch : term -> option token -> bool.
  Variable gs : list grammar_rules.
  Variable text : string.
  Variable starts : list string.
  Variable ord : order.
  Hypothesis Hord : is_order ord.
  Hypothesis Hwf : well_formed gs starts.
  Variable toks : list token.
  Variables (i : nat) (p : parse_t) (mf : bool).
  Hypothesis Hi : i <= length toks.
  Hypothesis Hp : parse_result tmatch ord gs text (skipn i toks) starts mf p.

  (** what a parse of the tokens from position i on reports *)
  Lemma at_sound S k : reports p S k -> In S starts /\ i + k <= length toks /\ MatchLax tmatch gs toks S i (i + k).
  Proof.
    intros Hr. destruct (reports_sound _ _ _ _ _ Hwf _ _ _ _ _ Hp Hr) as (H1 & H2 & H3).
    rewrite skipn_length in H2. split; [exact H1|]. split; [lia|]. apply match_lax_shift; auto.
  Qed.

  Lemma at_sound_uniform S k : uniform_ranges gs -> reports p S k -> In S starts /\ Match tmatch gs toks S i (i + k).
  Proof.
    intros Hu Hr. destruct (at_sound S k Hr) as (H1 & _ & H3). split; [exact H1|]. apply match_lax_match; auto.
  Qed.

  Lemma at_finals : p_finals p <> [] <-> exists S k, reports p S k.
  Proof.
    split.
    - intros H. destruct (p_finals p) as [|x l] eqn:E; [congruence|].
      destruct (final_reports _ _ _ _ _ Hwf _ _ _ x Hp) as (s & S & _ & _ & _ & _ & _ & _ & H7 & _);
        [rewrite E; left; reflexivity|]. eauto.
    - intros (S & k & ref & s & Hr & _) E. rewrite E in Hr. destruct Hr.
  Qed.

  Lemma nonempty_at S j : MatchNonempty tmatch gs toks S i j ->
    exists k, j = i + k /\ MatchNonempty tmatch gs (skipn i toks) S 0 k.
  Proof.
    intros H. exists (j - i). assert (i < j) as Hlt by (apply match_nonempty_match in H; apply H).
    split; [lia|]. apply match_nonempty_shift; auto. replace (i + (j - i)) with j by lia. exact H.
  Qed.

  Lemma at_complete S j : mf = false -> In S starts -> MatchNonempty tmatch gs toks S i j ->
    exists k, j = i + k /\ reports p S k.
  Proof.
    intros Em Hin H. destruct (nonempty_at S j H) as (k & -> & Hk). exists k. split; [reflexivity|].
    pose proof Hp as R. rewrite Em in R. eapply reports_complete; eauto.
  Qed.

  Lemma at_longest S j : mf = true -> In S starts -> MatchNonempty tmatch gs toks S i j ->
    exists S' k, reports p S' k /\ j <= i + k.
  Proof.
    intros Em Hin H. destruct (nonempty_at S j H) as (k & -> & Hk).
    pose proof Hp as R. rewrite Em in R. destruct (longest _ _ _ _ Hord _ Hwf _ _ R) as [_ Hl].
    destruct (Hl S k Hin Hk) as (S' & k' & Hr & Hle). exists S', k'. split; [exact Hr|lia].
  Qed.

  Lemma at_none S j : p_finals p = [] -> In S starts -> ~ MatchNonempty tmatch gs toks S i j.
  Proof.
    intros E Hin H. assert (exists S' k', reports p S' k') as Hr.
    { assert (mf = true \/ mf = false) as [Em|Em] by (clear; destruct mf; auto).
      - destruct (at_longest S j Em Hin H) as (S' & k & Hr & _). eauto.
      - destruct (at_complete S j Em Hin H) as (k & _ & Hr). eauto. }
    apply at_finals in Hr. congruence.
  Qed.

  Lemma at_unique S k S' k' : mf = true -> reports p S k -> reports p S' k' -> k = k'.
  Proof.
    intros Em (ref & s & Hi1 & Hs & _ & _ & He) (ref2 & s2 & Hi2 & Hs2 & _ & _ & He2).
    pose proof Hp as R. rewrite Em in R.
    rewrite (one_final _ _ _ _ Hord _ Hwf _ _ ref R Hi1) in Hi2. destruct Hi2 as [<-|[]].
    rewrite Hs in Hs2. injection Hs2 as <-. lia.
  Qed.

  Section Exact.
    Hypothesis Hu : uniform_ranges gs.
    Hypothesis Hne : no_empty gs.

    Lemma at_exact S k : mf = false -> (reports p S k <-> In S starts /\ Match tmatch gs toks S i (i + k)).
    Proof.
      intros Em. split; [apply at_sound_uniform; auto|]. intros [Hin Hm].
      apply match_match_nonempty in Hm; auto. destruct Hm as [_ Hm].
      destruct (at_complete S (i + k) Em Hin Hm) as (k' & E & Hr). assert (k' = k) as -> by lia. exact Hr.
    Qed.

    Lemma at_longest_exact k : mf = true -> ((exists S, reports p S k) <-> longest_at tmatch gs toks starts i k).
    Proof.
      intros Em. split.
      - intros (S & Hr). destruct (at_sound_uniform S k Hu Hr) as [H1 H2]. split; [eauto|].
        intros S' j Hin Hm. apply match_match_nonempty in Hm; auto. destruct Hm as [_ Hm].
        destruct (at_longest S' j Em Hin Hm) as (S2 & k2 & Hr2 & Hle).
        rewrite (at_unique _ _ _ _ Em Hr Hr2). exact Hle.
      - intros [(S & Hin & Hm) Hmax]. apply match_match_nonempty in Hm; auto. destruct Hm as [_ Hm].
        destruct (at_longest S (i + k) Em Hin Hm) as (S2 & k2 & Hr2 & Hle).
        destruct (at_sound_uniform S2 k2 Hu Hr2) as [H1 H2]. specialize (Hmax S2 _ H1 H2).
        assert (k2 = k) as <- by lia. eauto.
    Qed.

    Lemma at_finals_exact : p_finals p <> [] <-> match_at tmatch gs toks starts i.
    Proof.
      rewrite at_finals. split.
      - intros (S & k & Hr). destruct (at_sound_uniform S k Hu Hr). exists S, (i + k). auto.
      - intros (S & j & Hin & Hm). apply match_match_nonempty in Hm; auto. destruct Hm as [_ Hm].
        assert (mf = true \/ mf = false) as [Em|Em] by (clear; destruct mf; auto).
        + destruct (at_longest S j Em Hin Hm) as (S2 & k2 & Hr2 & _). eauto.
        + destruct (at_complete S j Em Hin Hm) as (k2 & _ & Hr2). eauto.
    Qed.
  End Exact.
End Position.

Section Calls.
  Variable tmatch : term -> option token -> bool.
  Variable ords : nat -> order.
  Variable gs : list grammar_rules.
  Variable annotate : string -> string -> res (list token).
  Variable local_grammar : list token -> res (option grammar_rules).
  Variables (ctx text : string) (starts : list string) (toks : list token) (l : option grammar_rules).
  Hypothesis Hords : orders ords.
  Hypothesis Hproc : process annotate local_grammar ctx text = Ret (toks, l).
  Let G := with_local gs l.
  Hypothesis Hwf : well_formed (with_local gs l) starts.

  Lemma process_toks : toks <> [].
  Proof.
    unfold process in Hproc. destruct (String.eqb (trim_space text) ""); [discriminate|].
    destruct (annotate ctx (trim_space text)) as [doc| | |]; try discriminate. simpl in Hproc.
    destruct (filter _ doc) as [|k ks] eqn:E; [discriminate|].
    destruct (local_grammar doc); try discriminate. simpl in Hproc. injection Hproc as <- _. discriminate.
  Qed.

  Notation EPAny := (EarleyParseAny tmatch ords gs annotate local_grammar).
  Notation EPMax := (EarleyParseMaxAll tmatch ords gs annotate local_grammar).
  Notation EPAll := (EarleyParseAll tmatch ords gs annotate local_grammar).
  Notation EP := (EarleyParse tmatch ords gs annotate local_grammar).

  (** ** EarleyParseAny *)
  Lemma any_general fuel r : EPAny fuel ctx text starts = Ret r ->
    exists p i, r = Some p /\ i < length toks /\ parsed_tokens p (skipn i toks)
      /\ (forall S k, reports p S k -> In S starts /\ MatchLax tmatch G toks S i (i + k))
      /\ (forall S j, In S starts -> MatchNonempty tmatch G toks S i j -> exists S' k, reports p S' k /\ j <= i + k)
      /\ (forall i' S j, i' < i -> In S starts -> ~ MatchNonempty tmatch G toks S i' j)
      /\ (p_finals p = [] -> forall i' S j, i' < length toks -> In S starts -> ~ MatchNonempty tmatch G toks S i' j).
  Proof.
    unfold EarleyParseAny. rewrite Hproc. cbn [bind]. intros H.
    destruct (any_loop_spec tmatch ords Hords G text starts fuel toks 0 None r H process_toks)
      as (i & p & -> & Hi & R & Hb & Hl).
    assert (forall i' S j, i' < i -> In S starts -> ~ MatchNonempty tmatch G toks S i' j) as Hbefore.
    { intros i' S j Hi' Hin. destruct (Hb i' Hi') as (p' & R' & E').
      eapply at_none with (p := p') (i := i') (mf := true); eauto. lia. }
    exists p, i. split; [reflexivity|]. split; [exact Hi|]. split; [apply R|].
    split; [|split; [|split; [exact Hbefore|]]].
    - intros S k Hr. destruct (at_sound _ _ _ _ _ Hwf toks i p true ltac:(lia) R S k Hr) as (H1 & _ & H3). auto.
    - intros S j Hin Hm.
      apply (at_longest tmatch G text starts _ (Hords (0 + i)) Hwf toks i p true ltac:(lia) R S j eq_refl Hin Hm).
    - intros E i' S j Hi' Hin. destruct (Nat.lt_ge_cases i' i) as [Hlt|Hge]; [apply Hbefore; auto|].
      specialize (Hl E). assert (i' = i) as -> by lia.
      eapply at_none with (p := p) (mf := true); eauto. lia.
  Qed.

  Lemma any_leftmost fuel r : uniform_ranges G -> no_empty G -> EPAny fuel ctx text starts = Ret r ->
    exists p i, r = Some p /\ i < length toks /\ parsed_tokens p (skipn i toks)
      /\ (forall i', i' < i -> ~ match_at tmatch G toks starts i')
      /\ (forall k, (exists S, reports p S k) <-> longest_at tmatch G toks starts i k)
      /\ (p_finals p <> [] <-> exists i', i' < length toks /\ match_at tmatch G toks starts i').
  Proof.
    intros Hu Hne H. destruct (any_general fuel r H) as (p0 & i0 & E0 & H0 & _).
    unfold EarleyParseAny in H. rewrite Hproc in H. cbn [bind] in H.
    destruct (any_loop_spec tmatch ords Hords G text starts fuel toks 0 None r H process_toks)
      as (i & p & -> & Hi & R & Hb & Hl).
    assert (forall i', i' < i -> ~ match_at tmatch G toks starts i') as Hbefore.
    { intros i' Hi' Hm. destruct (Hb i' Hi') as (p' & R' & E').
      assert (i' <= length toks) as Hle by lia.
      apply (at_finals_exact tmatch G text starts _ (Hords _) Hwf toks i' p' true Hle R' Hu Hne) in Hm. congruence. }
    assert (i <= length toks) as Hle by lia.
    exists p, i. split; [reflexivity|]. split; [exact Hi|]. split; [apply R|]. split; [exact Hbefore|]. split.
    - intros k. apply (at_longest_exact tmatch G text starts _ (Hords (0 + i)) Hwf toks i p true Hle R Hu Hne k eq_refl).
    - pose proof (at_finals_exact tmatch G text starts _ (Hords _) Hwf toks i p true Hle R Hu Hne) as Hf. split.
      + intros Hne'. exists i. split; [exact Hi|]. apply Hf. exact Hne'.
      + intros (i' & Hi' & Hm) E. specialize (Hl E).
        destruct (Nat.lt_ge_cases i' i) as [Hlt|Hge]; [exact (Hbefore i' Hlt Hm)|].
        assert (i' = i) as -> by lia. apply Hf in Hm. congruence.
  Qed.

  (** ** EarleyParseAll *)
  Lemma all_general fuel ps : EPAll fuel ctx text starts = Ret ps ->
    exists is, StronglySorted lt is
      /\ Forall2 (fun i p => i < length toks /\ parsed_tokens p (skipn i toks) /\ p_finals p <> []
            /\ (forall S k, reports p S k -> In S starts /\ MatchLax tmatch G toks S i (i + k))
            /\ (forall S j, In S starts -> MatchNonempty tmatch G toks S i j -> exists k, j = i + k /\ reports p S k)) is ps
      /\ (forall i S j, i < length toks -> In S starts -> MatchNonempty tmatch G toks S i j -> In i is).
  Proof.
    unfold EarleyParseAll. rewrite Hproc. cbn [bind]. intros H.
    destruct (all_loop_spec tmatch ords Hords G text starts fuel toks 0 ps H) as (is & F & Hs & Hno).
    exists is. split; [exact Hs|]. split.
    - eapply Forall2_impl; [|exact F]. intros i p (Hi & R & Hf).
      assert (i <= length toks) as Hle by lia.
      split; [exact Hi|]. split; [apply R|]. split; [exact Hf|]. split.
      + intros S k Hr. destruct (at_sound _ _ _ _ _ Hwf toks i p false Hle R S k Hr) as (H1 & _ & H3). auto.
      + intros S j Hin Hm.
        exact (at_complete tmatch G text starts _ (Hords (0 + i)) Hwf toks i p false Hle R S j eq_refl Hin Hm).
    - intros i S j Hi Hin Hm. destruct (in_dec Nat.eq_dec i is) as [Hin'|Hn]; [exact Hin'|].
      destruct (Hno i Hi Hn) as (p & R & E). exfalso.
      eapply at_none with (p := p) (i := i) (mf := false); eauto. lia.
  Qed.

  Lemma all_exact fuel ps : uniform_ranges G -> no_empty G -> EPAll fuel ctx text starts = Ret ps ->
    exists is, StronglySorted lt is
      /\ Forall2 (fun i p => parsed_tokens p (skipn i toks)
            /\ forall S k, reports p S k <-> In S starts /\ Match tmatch G toks S i (i + k)) is ps
      /\ (forall i, In i is <-> i < length toks /\ match_at tmatch G toks starts i).
  Proof.
    intros Hu Hne. unfold EarleyParseAll. rewrite Hproc. cbn [bind]. intros H.
    destruct (all_loop_spec tmatch ords Hords G text starts fuel toks 0 ps H) as (is & F & Hs & Hno).
    exists is. split; [exact Hs|]. split.
    - eapply Forall2_impl; [|exact F]. intros i p (Hi & R & Hf).
      assert (i <= length toks) as Hle by lia. split; [apply R|]. intros S k.
      exact (at_exact tmatch G text starts _ (Hords (0 + i)) Hwf toks i p false Hle R Hu Hne S k eq_refl).
    - intros i. split.
      + intros Hin. clear Hs Hno H. induction F as [|i0 p is ps (Hi & R & Hf) F IH]; [destruct Hin|].
        destruct Hin as [<-|Hin]; [|auto]. split; [exact Hi|]. assert (i0 <= length toks) as Hle by lia.
        apply (at_finals_exact tmatch G text starts _ (Hords _) Hwf toks i0 p false Hle R Hu Hne). exact Hf.
      + intros [Hi Hm]. destruct (in_dec Nat.eq_dec i is) as [Hin'|Hn]; [exact Hin'|].
        destruct (Hno i Hi Hn) as (p & R & E). exfalso. assert (i <= length toks) as Hle by lia.
        apply (at_finals_exact tmatch G text starts _ (Hords _) Hwf toks i p false Hle R Hu Hne) in Hm. congruence.
  Qed.

  (** ** EarleyParseMaxAll *)
  Lemma max_general steps fuel ps : EPMax steps fuel ctx text starts = Ret ps ->
    exists spans, tiles 0 spans
      /\ Forall2 (fun im p => fst im < length toks /\ fst im + snd im <= length toks
            /\ parsed_tokens p (skipn (fst im) toks)
            /\ (exists S, reports p S (snd im) /\ In S starts /\ MatchLax tmatch G toks S (fst im) (fst im + snd im))
            /\ (forall S k, reports p S k -> k = snd im)
            /\ (forall S j, In S starts -> MatchNonempty tmatch G toks S (fst im) j -> j <= fst im + snd im)) spans ps
      /\ (forall x S j, x < length toks -> ~ covered spans x -> In S starts -> ~ MatchNonempty tmatch G toks S x j).
  Proof.
    unfold EarleyParseMaxAll. rewrite Hproc. cbn [bind]. intros H.
    destruct (max_all_spec tmatch ords Hords G text starts Hwf fuel steps toks 0 ps H) as (spans & F & T & Hno).
    exists spans. split; [exact T|]. split.
    - eapply Forall2_impl; [|exact F]. intros [i m] p (Hi & Him & (n' & R) & (S & HS) & Hall).
      cbn [fst snd] in *. assert (i <= length toks) as Hle by lia.
      split; [exact Hi|]. split; [exact Him|]. split; [apply R|]. split; [|split; [exact Hall|]].
      + exists S. split; [exact HS|].
        destruct (at_sound _ _ _ _ _ Hwf toks i p true Hle R S m HS) as (H1 & _ & H3). auto.
      + intros S' j Hin Hm.
        destruct (at_longest tmatch G text starts _ (Hords n') Hwf toks i p true Hle R S' j eq_refl Hin Hm)
          as (S2 & k & Hr & Hlt). rewrite (Hall S2 k Hr) in Hlt. exact Hlt.
    - intros x S j Hx Hc Hin. destruct (Hno x Hx Hc) as (n' & p' & R & E).
      eapply at_none with (p := p') (i := x) (mf := true); eauto. lia.
  Qed.

  Lemma max_exact steps fuel ps : uniform_ranges G -> no_empty G -> EPMax steps fuel ctx text starts = Ret ps ->
    exists spans, tiles 0 spans
      /\ Forall2 (fun im p => fst im < length toks /\ 0 < snd im /\ parsed_tokens p (skipn (fst im) toks)
            /\ longest_at tmatch G toks starts (fst im) (snd im)
            /\ (forall k, (exists S, reports p S k) <-> k = snd im)) spans ps
      /\ (forall x, x < length toks -> ~ covered spans x -> ~ match_at tmatch G toks starts x).
  Proof.
    intros Hu Hne. unfold EarleyParseMaxAll. rewrite Hproc. cbn [bind]. intros H.
    destruct (max_all_spec tmatch ords Hords G text starts Hwf fuel steps toks 0 ps H) as (spans & F & T & Hno).
    exists spans. split; [exact T|]. split.
    - eapply Forall2_impl; [|exact F]. intros [i m] p (Hi & Him & (n' & R) & (S & HS) & Hall).
      cbn [fst snd] in *. assert (i <= length toks) as Hle by lia.
      assert (longest_at tmatch G toks starts i m) as Hlong.
      { apply (at_longest_exact tmatch G text starts _ (Hords n') Hwf toks i p true Hle R Hu Hne m eq_refl). eauto. }
      split; [exact Hi|]. split.
      { destruct Hlong as [(S' & Hin & Hm) _]. apply match_match_nonempty in Hm; auto. lia. }
      split; [apply R|]. split; [exact Hlong|]. intros k. split.
      + intros (S' & Hr). eauto.
      + intros ->. eauto.
    - intros x Hx Hc Hm. destruct (Hno x Hx Hc) as (n' & p' & R & E). assert (x <= length toks) as Hle by lia.
      apply (at_finals_exact tmatch G text starts _ (Hords _) Hwf toks x p' true Hle R Hu Hne) in Hm. congruence.
  Qed.

  (** ** Termination *)
  Section Term.
    Hypothesis Hty : typed_args (with_local gs l).
    Hypothesis Hst : starts <> [].

    Lemma parse_call_terminates : exists p fuel0, forall fuel, fuel0 <= fuel -> EP fuel ctx text starts = Ret p.
    Proof.
      destruct (earley_parse_settles tmatch ords Hords G Hty text starts Hst 0 true toks process_toks) as (p & m & Hm).
      exists p, m. intros fuel Hf. unfold EarleyParse. rewrite Hproc. cbn [bind]. apply Hm. exact Hf.
    Qed.

    Lemma any_call_terminates : exists r fuel0, forall fuel, fuel0 <= fuel -> EPAny fuel ctx text starts = Ret r.
    Proof.
      destruct (any_loop_terminates tmatch ords Hords G Hty text starts Hst toks 0 None) as (r & m & Hm).
      exists r, m. intros fuel Hf. unfold EarleyParseAny. rewrite Hproc. cbn [bind]. apply Hm. exact Hf.
    Qed.

    Lemma all_call_terminates : exists ps fuel0, forall fuel, fuel0 <= fuel -> EPAll fuel ctx text starts = Ret ps.
    Proof.
      destruct (all_loop_terminates tmatch ords Hords G Hty text starts Hst toks 0) as (r & m & Hm).
      exists r, m. intros fuel Hf. unfold EarleyParseAll. rewrite Hproc. cbn [bind]. apply Hm. exact Hf.
    Qed.

    Lemma max_call_terminates :
      (forall S i, In S starts -> i <= length toks -> ~ MatchLax tmatch G toks S i i) ->
      exists ps fuel0, forall steps fuel, fuel0 <= fuel -> length toks < steps ->
        EPMax steps fuel ctx text starts = Ret ps.
    Proof.
      intros Hno. destruct (max_all_terminates tmatch ords Hords G Hty text starts Hst Hwf toks toks Hno) with (n := 0)
        as (ps & m & Hm).
      - exists 0. split; [lia|reflexivity].
      - exists ps, m. intros steps fuel H1 H2. unfold EarleyParseMaxAll. rewrite Hproc. cbn [bind]. apply Hm; auto.
    Qed.

    (** nothing in a grammar without empty constituents matches the empty sequence *)
    Lemma no_empty_lax : no_empty G -> forall S i, ~ MatchLax tmatch G toks S i i.
    Proof.
      intros [He Hc] S i H.
      assert ((forall t a b, derives (has_alt G) (accepts_by tmatch) toks (some_range G) (fun _ _ => True) t a b -> a < b)
        /\ (forall ts a b, derives_seq (has_alt G) (accepts_by tmatch) toks (some_range G) (fun _ _ => True) ts a b ->
              a <= b /\ (ts <> [] -> a < b))) as [Hd _].
      { apply derives_mutind.
        - intros; lia.
        - intros t a b ts Ht (bd & Hb & Hts) _ IH _. apply IH. intros E. apply (He _ _ Hb). congruence.
        - intros t a b Ht Hab (t' & Ho & H1 & H2 & H3) _. destruct (Nat.eq_dec a b) as [->|]; [|lia].
          exfalso. rewrite Nat.sub_diag in H3. apply (Hc t' Ho); [left; congruence|exact H3].
        - intros t a b m Ht (t' & Ho & H1 & H2 & H3) _ IH _. destruct m as [|m].
          + exfalso. apply (Hc t' Ho); [right; congruence|exact H3].
          + apply IH. discriminate.
        - intros; split; [lia|congruence].
        - intros t ts a b c _ IH1 _ [IH2 _]. split; intros; lia. }
      specialize (Hd _ _ _ H). lia.
    Qed.
  End Term.
End Calls.
