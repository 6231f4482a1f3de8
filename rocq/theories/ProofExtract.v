(** The calls returning trees (api_easy.go). *)
From Coq Require Import Permutation Sorted.
From Verif Require Import Base ModelTypes ModelText ModelEarley ModelTrees ModelApi
     SpecTypes SpecGrammar SpecTree SpecApi
     ProofEqual ProofChart ProofSound ProofComplete ProofTerm ProofOrder
     ProofTree ProofTreeOk ProofTreeSet ProofTreeDup ProofApi ProofApiLoops ProofTreeApi ProofMain ProofApiMain.

Lemma extract_finals_in fuel cols refs : forall outs, extract_finals fuel cols refs = Ret outs ->
  (forall t, In t outs <-> exists ref ts, In ref refs /\ get_trees cols fuel ref = Ret ts /\ In t ts)
  /\ (forall ref, In ref refs -> exists ts, get_trees cols fuel ref = Ret ts).
Proof.
  induction refs as [|ref refs IH]; simpl; intros outs H.
  - injection H as <-. split.
    + intros t. split; [intros []|]. intros (ref & ts & [] & _).
    + intros ref [].
  - destruct (get_trees cols fuel ref) as [ts| | |] eqn:E; try discriminate. simpl in H.
    destruct (extract_finals fuel cols refs) as [rest| | |] eqn:E2; try discriminate. simpl in H.
    injection H as <-. destruct (IH _ eq_refl) as [IH1 IH2]. split.
    + intros t. rewrite in_app_iff, IH1. split.
      * intros [Ht|(ref' & ts' & H1 & H2 & H3)]; [exists ref, ts; auto|exists ref', ts'; auto].
      * intros (ref' & ts' & [<-|H1] & H2 & H3).
        -- left. rewrite E in H2. injection H2 as <-. exact H3.
        -- right. eauto.
    + intros ref' [<-|Hr]; eauto.
Qed.

Lemma extract_parses_in fuel ps : forall outs, extract_parses fuel ps = Ret outs ->
  (forall p t, In (p, t) outs <->
     exists ref ts, In p ps /\ In ref (p_finals p) /\ get_trees (p_columns p) fuel ref = Ret ts /\ In t ts)
  /\ (forall p ref, In p ps -> In ref (p_finals p) -> exists ts, get_trees (p_columns p) fuel ref = Ret ts).
Proof.
  induction ps as [|q ps IH]; simpl; intros outs H.
  - injection H as <-. split.
    + intros p t. split; [intros []|]. intros (ref & ts & [] & _).
    + intros p ref [].
  - destruct (extract_finals fuel (p_columns q) (p_finals q)) as [ts| | |] eqn:E; try discriminate. simpl in H.
    destruct (extract_parses fuel ps) as [rest| | |] eqn:E2; try discriminate. simpl in H.
    injection H as <-. destruct (IH _ eq_refl) as [IH1 IH2].
    destruct (extract_finals_in _ _ _ _ E) as [F1 F2]. split.
    + intros p t. rewrite in_app_iff, IH1, in_map_iff. split.
      * intros [(t' & E' & Ht)|(ref & ts' & H1 & H2 & H3 & H4)].
        -- injection E' as -> ->. apply F1 in Ht. destruct Ht as (ref & ts' & H1 & H2 & H3). exists ref, ts'. auto.
        -- exists ref, ts'. auto.
      * intros (ref & ts' & [<-|H1] & H2 & H3 & H4).
        -- left. exists t. split; [reflexivity|]. apply F1. eauto.
        -- right. eauto 6.
    + intros p ref [<-|Hp] Hr; eauto.
Qed.

Lemma extract_finals_terminates cols refs :
  (forall ref, In ref refs -> terminates (fun m => get_trees cols m ref)) ->
  terminates (fun m => extract_finals m cols refs).
Proof.
  induction refs as [|ref refs IH]; intros H; simpl; [apply terminates_ret|].
  apply terminates_bind; [apply H; left; reflexivity|]. intros ts _.
  apply terminates_bind; [apply IH; intros; apply H; right; assumption|]. intros; apply terminates_ret.
Qed.

Lemma extract_parses_terminates ps :
  (forall p ref, In p ps -> In ref (p_finals p) -> terminates (fun m => get_trees (p_columns p) m ref)) ->
  terminates (fun m => extract_parses m ps).
Proof.
  induction ps as [|p ps IH]; intros H; simpl; [apply terminates_ret|].
  apply terminates_bind.
  - apply extract_finals_terminates. intros; apply H; [left; reflexivity|assumption].
  - intros ts _. apply terminates_bind; [apply IH; intros; apply H; [right; assumption|assumption]|].
    intros; apply terminates_ret.
Qed.

Section Extract.
  Variable tmatch : term -> option token -> bool.
  Variable ords : nat -> order.
  Variable gs : list grammar_rules.
  Variable annotate : string -> string -> res (list token).
  Variable local_grammar : list token -> res (option grammar_rules).
  Variables (ctx text : string) (starts : list string) (toks : list token) (l : option grammar_rules).
  Hypothesis Hords : orders ords.
  Hypothesis Hproc : process annotate local_grammar ctx text = Ret (toks, l).
  Let G := with_local gs l.
  Hypothesis Hwf : well_formed (with_local gs l) starts.
  Hypothesis Hsep : separated (with_local gs l).

  Notation tree_at := (tree_at tmatch (with_local gs l) toks).

  Lemma trees_at i p mf n ref fuel ts t : i <= length toks ->
    parse_result tmatch (ords n) G text (skipn i toks) starts mf p ->
    In ref (p_finals p) -> get_trees (p_columns p) fuel ref = Ret ts -> In t ts ->
    exists S k, In S starts /\ reports p S k /\ tree_at i k S p t.
  Proof.
    intros Hi R Hr Hg Ht.
    destruct (trees_valid _ _ _ _ _ Hwf Hsep _ _ _ R (some_range G) (lax_count G) ref fuel ts Hr Hg)
      as (s & S & H1 & H2 & F).
    destruct (final_reports _ _ _ _ _ Hwf _ _ _ _ R Hr) as (s' & S' & H1' & H2' & H3 & H4 & H5 & H6 & H7 & _).
    rewrite H1 in H1'. injection H1' as <-. rewrite H2 in H2'. injection H2' as <-.
    rewrite Forall_forall in F. destruct (F t Ht) as (kid & E & Hk). rewrite H5 in *.
    exists S, (fst ref). split; [exact H3|]. split; [exact H7|]. split; [apply R|]. eauto.
  Qed.

  Lemma reported_tree i p mf n fuel S k : any_named G -> i <= length toks ->
    parse_result tmatch (ords n) G text (skipn i toks) starts mf p -> reports p S k ->
    (forall ref, In ref (p_finals p) -> exists ts, get_trees (p_columns p) fuel ref = Ret ts) ->
    exists ref ts t, In ref (p_finals p) /\ get_trees (p_columns p) fuel ref = Ret ts /\ In t ts /\ tree_at i k S p t.
  Proof.
    intros Hany Hi R (ref & s & Hr & Hs & Htag & Hs0 & He) Hall.
    destruct (Hall ref Hr) as (ts & Hts).
    pose proof (trees_nonempty _ _ _ _ _ Hsep _ _ _ R ref fuel ts Hany Hr Hts) as Hne.
    destruct ts as [|t ts]; [congruence|]. exists ref, (t :: ts), t.
    split; [exact Hr|]. split; [exact Hts|]. split; [left; reflexivity|].
    destruct (trees_valid _ _ _ _ _ Hwf Hsep _ _ _ R (some_range G) (lax_count G) ref fuel _ Hr Hts)
      as (s' & S' & H1 & H2 & F). rewrite Hs in H1. injection H1 as <-. rewrite Htag in H2. injection H2 as <-.
    inversion F as [|? ? (kid & E & Hk) _]; subst. split; [apply R|]. eauto.
  Qed.

  Notation XAll := (ExtractAll tmatch ords gs annotate local_grammar).
  Notation XMax := (ExtractMaxAll tmatch ords gs annotate local_grammar).
  Notation XParse := (Parse tmatch ords gs annotate local_grammar).
  Notation XAny := (ParseAny tmatch ords gs annotate local_grammar).

  Lemma Forall2_in_r {A B} (P : A -> B -> Prop) la lb b : Forall2 P la lb -> In b lb -> exists a, In a la /\ P a b.
  Proof.
    intros F. induction F as [|a0 b0 la lb H F IH]; intros Hb; [destruct Hb|].
    destruct Hb as [<-|Hb]; [exists a0; split; [left; reflexivity|exact H]|].
    destruct (IH Hb) as (a & Ha & Hp). exists a. split; [right; exact Ha|exact Hp].
  Qed.
  Lemma Forall2_in_l {A B} (P : A -> B -> Prop) la lb a : Forall2 P la lb -> In a la -> exists b, In b lb /\ P a b.
  Proof.
    intros F. induction F as [|a0 b0 la lb H F IH]; intros Ha; [destruct Ha|].
    destruct Ha as [<-|Ha]; [exists b0; split; [left; reflexivity|exact H]|].
    destruct (IH Ha) as (b & Hb & Hp). exists b. split; [right; exact Hb|exact Hp].
  Qed.

  Lemma extract_all_sound fuel outs p t : XAll fuel ctx text starts = Ret outs -> In (p, t) outs ->
    exists i k S, i < length toks /\ In S starts /\ tree_at i k S p t.
  Proof.
    unfold ExtractAll. intros H Hin.
    destruct (EarleyParseAll tmatch ords gs annotate local_grammar fuel ctx text starts) as [ps| | |] eqn:E; try discriminate.
    cbn [bind] in H. destruct (extract_parses_in _ _ _ H) as [X _]. apply X in Hin.
    destruct Hin as (ref & ts & Hp & Hr & Hg & Ht).
    unfold EarleyParseAll in E. rewrite Hproc in E. cbn [bind] in E.
    destruct (all_loop_spec tmatch ords Hords G text starts fuel toks 0 ps E) as (is & F & _ & _).
    destruct (Forall2_in_r _ _ _ _ F Hp) as (i & Hi & Hlt & R & _).
    destruct (trees_at i p false (0 + i) ref fuel ts t ltac:(lia) R Hr Hg Ht) as (S & k & H1 & _ & H3).
    exists i, k, S. auto.
  Qed.

  Lemma extract_all_complete fuel outs S i j : any_named G -> XAll fuel ctx text starts = Ret outs ->
    i < length toks -> In S starts -> MatchNonempty tmatch G toks S i j ->
    exists p t, In (p, t) outs /\ tree_at i (j - i) S p t.
  Proof.
    unfold ExtractAll. intros Hany H Hi Hin Hm.
    destruct (EarleyParseAll tmatch ords gs annotate local_grammar fuel ctx text starts) as [ps| | |] eqn:E; try discriminate.
    cbn [bind] in H. destruct (extract_parses_in _ _ _ H) as [X Y].
    unfold EarleyParseAll in E. rewrite Hproc in E. cbn [bind] in E.
    destruct (all_loop_spec tmatch ords Hords G text starts fuel toks 0 ps E) as (is & F & _ & Hno).
    assert (i <= length toks) as Hle by lia.
    assert (In i is) as His.
    { destruct (in_dec Nat.eq_dec i is) as [Hin'|Hn]; [exact Hin'|].
      destruct (Hno i Hi Hn) as (p & R & E0). exfalso.
      eapply at_none with (p := p) (i := i) (mf := false); eauto. }
    destruct (Forall2_in_l _ _ _ _ F His) as (p & Hp & Hlt & R & _).
    destruct (at_complete tmatch G text starts _ (Hords (0 + i)) Hwf toks i p false Hle R S j eq_refl Hin Hm)
      as (k & -> & Hr).
    destruct (reported_tree i p false (0 + i) fuel S k Hany Hle R Hr) as (ref & ts & t & H1 & H2 & H3 & H4).
    { intros ref Href. apply Y with (p := p); auto. }
    exists p, t. replace (i + k - i) with k by lia. split; [apply X; eauto 6|exact H4].
  Qed.

  Lemma parse_call_trees fuel outs p t : XParse fuel ctx text starts = Ret outs -> In (p, t) outs ->
    exists k S, In S starts /\ tree_at 0 k S p t
      /\ (forall S' j, In S' starts -> MatchNonempty tmatch G toks S' 0 j -> j <= k).
  Proof.
    unfold Parse. intros H Hin.
    destruct (EarleyParse tmatch ords gs annotate local_grammar fuel ctx text starts) as [q| | |] eqn:E; try discriminate.
    cbn [bind] in H. destruct (extract_parses_in _ _ _ H) as [X _]. apply X in Hin.
    destruct Hin as (ref & ts & [<-|[]] & Hr & Hg & Ht).
    unfold EarleyParse in E. rewrite Hproc in E. cbn [bind] in E.
    destruct (earley_parse_result _ _ _ _ _ _ _ _ _ _ (Hords 0) E) as (_ & _ & R).
    destruct (trees_at 0 q true 0 ref fuel ts t (Nat.le_0_l _) R Hr Hg Ht) as (S & k & H1 & H2 & H3).
    exists k, S. split; [exact H1|]. split; [exact H3|]. intros S' j Hin Hm.
    destruct (at_longest tmatch G text starts _ (Hords 0) Hwf toks 0 q true (Nat.le_0_l _) R S' j eq_refl Hin Hm)
      as (S2 & k2 & Hr2 & Hle).
    rewrite (at_unique tmatch G text starts _ (Hords 0) Hwf toks 0 q true (Nat.le_0_l _) R _ _ _ _ eq_refl H2 Hr2). exact Hle.
  Qed.

  Lemma parse_call_nonempty fuel outs S j : any_named G -> XParse fuel ctx text starts = Ret outs ->
    In S starts -> MatchNonempty tmatch G toks S 0 j -> outs <> [].
  Proof.
    unfold Parse. intros Hany H Hin Hm.
    destruct (EarleyParse tmatch ords gs annotate local_grammar fuel ctx text starts) as [q| | |] eqn:E; try discriminate.
    cbn [bind] in H. destruct (extract_parses_in _ _ _ H) as [X Y].
    unfold EarleyParse in E. rewrite Hproc in E. cbn [bind] in E.
    destruct (earley_parse_result _ _ _ _ _ _ _ _ _ _ (Hords 0) E) as (_ & _ & R).
    destruct (at_longest tmatch G text starts _ (Hords 0) Hwf toks 0 q true (Nat.le_0_l _) R S j eq_refl Hin Hm)
      as (S2 & k2 & Hr2 & Hle).
    destruct (reported_tree 0 q true 0 fuel S2 k2 Hany (Nat.le_0_l _) R Hr2) as (ref & ts & t & H1 & H2 & H3 & H4).
    { intros ref Href. apply Y; [left; reflexivity|exact Href]. }
    intros ->. assert (In (q, t) []) as Hf; [|destruct Hf]. apply X. exists ref, ts. simpl; auto.
  Qed.

  (** ** Termination *)
  Hypothesis Hty : typed_args (with_local gs l).
  Hypothesis Hst : starts <> [].

  Lemma result_terminates i p mf n ref : parse_result tmatch (ords n) G text (skipn i toks) starts mf p ->
    In ref (p_finals p) -> terminates (fun m => get_trees (p_columns p) m ref).
  Proof. intros R Hr. eapply trees_terminate; eauto. Qed.

  Lemma settled_at {A} (f : nat -> res A) a : settles f (Ret a) -> exists m, f m = Ret a.
  Proof. intros (m & H). exists m. apply H. lia. Qed.

  Lemma extract_all_terminates : terminates (fun m => XAll m ctx text starts).
  Proof.
    unfold ExtractAll. apply terminates_bind.
    - destruct (all_call_terminates tmatch ords gs annotate local_grammar ctx text starts toks l Hords Hproc Hty Hst)
        as (ps & m & Hm). exists ps, m. exact Hm.
    - intros ps Hps. apply settled_at in Hps as (fuel & E). apply extract_parses_terminates. intros p ref Hp Hr.
      unfold EarleyParseAll in E. rewrite Hproc in E. cbn [bind] in E.
      destruct (all_loop_spec tmatch ords Hords G text starts fuel toks 0 ps E) as (is & F & _ & _).
      destruct (Forall2_in_r _ _ _ _ F Hp) as (i & Hi & Hlt & R & _). eapply result_terminates; eauto.
  Qed.

  Lemma parse_easy_terminates : terminates (fun m => XParse m ctx text starts).
  Proof.
    unfold Parse. apply terminates_bind.
    - destruct (parse_call_terminates tmatch ords gs annotate local_grammar ctx text starts toks l Hords Hproc Hty Hst)
        as (ps & m & Hm). exists ps, m. exact Hm.
    - intros q Hq. apply settled_at in Hq as (fuel & E). apply extract_parses_terminates. intros p ref [<-|[]] Hr.
      unfold EarleyParse in E. rewrite Hproc in E. cbn [bind] in E.
      destruct (earley_parse_result _ _ _ _ _ _ _ _ _ _ (Hords 0) E) as (_ & _ & R).
      apply (result_terminates 0 q true 0 ref R Hr).
  Qed.

  Lemma parse_any_terminates : terminates (fun m => XAny m ctx text starts).
  Proof.
    unfold ParseAny. apply terminates_bind.
    - destruct (any_call_terminates tmatch ords gs annotate local_grammar ctx text starts toks l Hords Hproc Hty Hst)
        as (ps & m & Hm). exists ps, m. exact Hm.
    - intros q Hq. apply settled_at in Hq as (fuel & E).
      unfold EarleyParseAny in E. rewrite Hproc in E. cbn [bind] in E.
      destruct (any_loop_spec tmatch ords Hords G text starts fuel toks 0 None q E
                  (process_toks annotate local_grammar ctx text toks l Hproc))
        as (i & p & -> & Hi & R & _). apply extract_parses_terminates. intros p' ref [<-|[]] Hr.
      eapply result_terminates; eauto.
  Qed.

  Lemma extract_max_terminates :
    (forall S i, In S starts -> i <= length toks -> ~ MatchLax tmatch G toks S i i) ->
    exists outs fuel0, forall steps fuel, fuel0 <= fuel -> length toks < steps ->
      XMax steps fuel ctx text starts = Ret outs.
  Proof.
    intros Hno.
    destruct (max_call_terminates tmatch ords gs annotate local_grammar ctx text starts toks l Hords Hproc Hwf Hty Hst Hno)
      as (ps & m & Hm).
    assert (terminates (fun m => extract_parses m ps)) as (outs & m2 & Hm2).
    { pose proof (Hm (S (length toks)) m (le_n _) (Nat.lt_succ_diag_r _)) as E.
      apply extract_parses_terminates. intros p ref Hp Hr.
      unfold EarleyParseMaxAll in E. rewrite Hproc in E. cbn [bind] in E.
      destruct (max_all_spec tmatch ords Hords G text starts Hwf m _ toks 0 ps E) as (spans & F & _ & _).
      destruct (Forall2_in_r _ _ _ _ F Hp) as ([i k] & _ & Hlt & _ & (n' & R) & _). eapply result_terminates; eauto. }
    exists outs, (m + m2). intros steps fuel H1 H2. unfold ExtractMaxAll. rewrite Hm by lia. cbn [bind].
    apply Hm2. lia.
  Qed.

  (** ** Matches returned by ExtractMaxAll and ParseAny *)
  Lemma extract_max_trees steps fuel outs p t : XMax steps fuel ctx text starts = Ret outs -> In (p, t) outs ->
    exists i k S, i < length toks /\ In S starts /\ tree_at i k S p t
      /\ (forall S' j, In S' starts -> MatchNonempty tmatch G toks S' i j -> j <= i + k).
  Proof.
    unfold ExtractMaxAll. intros H Hin.
    destruct (EarleyParseMaxAll tmatch ords gs annotate local_grammar steps fuel ctx text starts) as [ps| | |] eqn:E; try discriminate.
    cbn [bind] in H. destruct (extract_parses_in _ _ _ H) as [X _]. apply X in Hin.
    destruct Hin as (ref & ts & Hp & Hr & Hg & Ht).
    unfold EarleyParseMaxAll in E. rewrite Hproc in E. cbn [bind] in E.
    destruct (max_all_spec tmatch ords Hords G text starts Hwf fuel steps toks 0 ps E) as (spans & F & _ & _).
    destruct (Forall2_in_r _ _ _ _ F Hp) as ([i m] & _ & Hlt & Hle & (n' & R) & _ & Hall). cbn [fst snd] in *.
    assert (i <= length toks) as Hi by lia.
    destruct (trees_at i p true n' ref fuel ts t Hi R Hr Hg Ht) as (S & k & H1 & H2 & H3).
    exists i, k, S. split; [exact Hlt|]. split; [exact H1|]. split; [exact H3|]. intros S' j Hin' Hm.
    destruct (at_longest tmatch G text starts _ (Hords n') Hwf toks i p true Hi R S' j eq_refl Hin' Hm)
      as (S2 & k2 & Hr2 & Hle2). rewrite (Hall _ _ H2). rewrite (Hall _ _ Hr2) in Hle2. exact Hle2.
  Qed.

  Lemma parse_any_trees fuel outs p t : XAny fuel ctx text starts = Ret outs -> In (p, t) outs ->
    exists i k S, i < length toks /\ In S starts /\ tree_at i k S p t
      /\ (forall i' S' j, i' < i -> In S' starts -> ~ MatchNonempty tmatch G toks S' i' j)
      /\ (forall S' j, In S' starts -> MatchNonempty tmatch G toks S' i j -> j <= i + k).
  Proof.
    unfold ParseAny. intros H Hin.
    destruct (EarleyParseAny tmatch ords gs annotate local_grammar fuel ctx text starts) as [r| | |] eqn:E; try discriminate.
    cbn [bind] in H.
    unfold EarleyParseAny in E. rewrite Hproc in E. cbn [bind] in E.
    destruct (any_loop_spec tmatch ords Hords G text starts fuel toks 0 None r E
                (process_toks annotate local_grammar ctx text toks l Hproc))
      as (i & q & -> & Hi & R & Hb & _).
    destruct (extract_parses_in _ _ _ H) as [X _]. apply X in Hin.
    destruct Hin as (ref & ts & [<-|[]] & Hr & Hg & Ht).
    assert (i <= length toks) as Hle by lia.
    destruct (trees_at i q true (0 + i) ref fuel ts t Hle R Hr Hg Ht) as (S & k & H1 & H2 & H3).
    exists i, k, S. split; [exact Hi|]. split; [exact H1|]. split; [exact H3|]. split.
    - intros i' S' j Hi' Hin'. destruct (Hb i' Hi') as (p' & R' & E').
      eapply at_none with (p := p') (i := i') (mf := true); eauto. lia.
    - intros S' j Hin' Hm.
      destruct (at_longest tmatch G text starts _ (Hords (0 + i)) Hwf toks i q true Hle R S' j eq_refl Hin' Hm)
        as (S2 & k2 & Hr2 & Hle2).
      rewrite (at_unique tmatch G text starts _ (Hords (0 + i)) Hwf toks i q true Hle R _ _ _ _ eq_refl H2 Hr2). exact Hle2.
  Qed.
End Extract.
