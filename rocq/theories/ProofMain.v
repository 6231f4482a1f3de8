(** The property statements about one parse, assembled from the chart lemmas. *)
From Coq Require Import Permutation Sorted.
From Verif Require Import Base ModelTypes ModelText ModelEarley ModelTrees ModelApi
     SpecTypes SpecGrammar SpecTree SpecApi
     ProofEqual ProofChart ProofSound ProofComplete ProofTerm ProofOrder
     ProofTree ProofTreeOk ProofTreeSet ProofTreeDup ProofApi ProofApiLoops ProofTreeApi.

(** ** C01, C02 *)
Lemma chart_terminates tmatch ords gs text n toks starts :
  is_order (ords n) -> typed_args gs -> toks <> [] -> starts <> [] ->
  exists fuel0, forall fuel mf, fuel0 <= fuel ->
    exists p, earley_parse_n tmatch ords gs text fuel n mf toks starts = Ret p.
Proof.
  intros Ho Hty Ht Hs.
  destruct (earley_parse_settles tmatch (fun _ => ords n) (fun _ => Ho) gs Hty text starts Hs n true toks Ht)
    as (p1 & n1 & H1).
  destruct (earley_parse_settles tmatch (fun _ => ords n) (fun _ => Ho) gs Hty text starts Hs n false toks Ht)
    as (p2 & n2 & H2).
  exists (n1 + n2). intros fuel [|] Hf.
  - exists p1. rewrite <- (H1 fuel) by lia. reflexivity.
  - exists p2. rewrite <- (H2 fuel) by lia. reflexivity.
Qed.

Lemma chart_no_panic tmatch ords gs text fuel n mf toks starts :
  is_order (ords n) ->
  earley_parse_n tmatch ords gs text fuel n mf toks starts <> Panic
  /\ (earley_parse_n tmatch ords gs text fuel n mf toks starts = Err <-> toks = [] \/ starts = []).
Proof.
  intros Ho. unfold earley_parse_n, earley_parse. destruct starts as [|s ss].
  - simpl. split; [discriminate|]. split; auto.
  - destruct toks as [|k ks]; [simpl; split; [discriminate|split; auto]|].
    destruct (parse_no_panic tmatch (ords n) gs (k :: ks) (s :: ss) Ho fuel mf ltac:(discriminate)) as [E|[[c f] E]];
      rewrite E; simpl; split; try discriminate; split; intros H; try discriminate;
      destruct H; discriminate.
Qed.

Section One.
  Variable tmatch : term -> option token -> bool.
  Variable ords : nat -> order.
  Variable gs : list grammar_rules.
  Variable text : string.
  Variables (fuel n : nat) (mf : bool) (toks : list token) (starts : list string) (p : parse_t).
  Hypothesis Ho : is_order (ords n).
  Hypothesis Hp : earley_parse_n tmatch ords gs text fuel n mf toks starts = Ret p.

  Let Hres : parse_result tmatch (ords n) gs text toks starts mf p :=
    proj2 (proj2 (earley_parse_result tmatch gs text ords fuel n mf toks starts p Ho Hp)).

  (** ** C03 *)
  Lemma match_is_derivation S k : well_formed gs starts -> uniform_ranges gs ->
    reports p S k -> In S starts /\ k <= length toks /\ Match tmatch gs toks S 0 k.
  Proof.
    intros Hwf Hu Hr. destruct (reports_sound _ _ _ _ _ Hwf _ _ _ _ _ Hres Hr) as (H1 & H2 & H3).
    split; [exact H1|]. split; [exact H2|]. apply match_lax_match; auto.
  Qed.

  Lemma match_is_lax_derivation S k : well_formed gs starts ->
    reports p S k -> In S starts /\ k <= length toks /\ MatchLax tmatch gs toks S 0 k.
  Proof. intros Hwf Hr. exact (reports_sound _ _ _ _ _ Hwf _ _ _ _ _ Hres Hr). Qed.

  (** ** C04 *)
  Lemma derivation_found S k : mf = false -> well_formed gs starts ->
    In S starts -> MatchNonempty tmatch gs toks S 0 k -> reports p S k.
  Proof.
    intros Em Hwf Hin Hm. pose proof Hres as R. rewrite Em in R.
    eapply reports_complete; eauto.
  Qed.

  Lemma exact_matches S k : mf = false -> well_formed gs starts -> uniform_ranges gs -> no_empty gs ->
    (reports p S k <-> In S starts /\ Match tmatch gs toks S 0 k).
  Proof.
    intros Em Hwf Hu Hne. split.
    - intros Hr. destruct (match_is_derivation S k Hwf Hu Hr) as (H1 & _ & H3). auto.
    - intros [Hin Hm]. apply derivation_found; auto. apply match_match_nonempty; auto.
  Qed.

  (** ** C06, C07 *)
  Lemma completed_final c r s : mf = false -> p_state p (c, r) = Ret s ->
    t_value (s_term s) = GammaRule -> is_completed s = Ret true -> In (c, r) (p_finals p).
  Proof.
    intros Em Hs Hg Hc. pose proof Hres as (_ & Hfin & _ & fs0 & Hin & _ & ->). rewrite Em.
    apply Hin. apply p_state_at in Hs. exists s. split; [exact Hs|]. split; [exact Hg|].
    unfold completed. rewrite Hc. reflexivity.
  Qed.

  Lemma final_completed ref : In ref (p_finals p) ->
    exists s, p_state p ref = Ret s /\ t_value (s_term s) = GammaRule /\ is_completed s = Ret true
              /\ s_end s = fst ref.
  Proof.
    intros Hr. destruct (final_sound _ _ _ _ _ _ _ _ _ Hres Hr) as (s & Hs & Hg & Hc).
    pose proof Hres as (_ & ((_ & HJ & _) & _) & _).
    pose proof (st_at_shape _ _ _ _ (justified_shape _ _ _ _ _ HJ) Hs) as Hsh.
    exists s. destruct ref as [c r]. split; [apply p_state_at; exact Hs|]. split; [exact Hg|].
    split; [rewrite (is_completed_ret _ _ Hsh), Hc; reflexivity|]. apply Hsh.
  Qed.

  Lemma one_longest : mf = true ->
    length (p_finals p) <= 1
    /\ forall c r s, p_state p (c, r) = Ret s -> t_value (s_term s) = GammaRule -> is_completed s = Ret true ->
       exists ref s', p_finals p = [ref] /\ p_state p ref = Ret s'
                      /\ t_value (s_term s') = GammaRule /\ is_completed s' = Ret true
                      /\ s_end s <= s_end s'.
  Proof.
    intros Em. pose proof Hres as (_ & Hfin & _ & fs0 & Hin & Hsort & Hf). rewrite Em in Hf.
    pose proof Hfin as ((_ & HJ & _) & _). pose proof (justified_shape _ _ _ _ _ HJ) as Hsh.
    split.
    - rewrite Hf. destruct fs0; simpl; lia.
    - intros c r s Hs Hg Hc. apply p_state_at in Hs.
      assert (In (c, r) fs0) as Hcr.
      { apply Hin. exists s. split; [exact Hs|]. split; [exact Hg|]. unfold completed. rewrite Hc. reflexivity. }
      destruct fs0 as [|x fs0]; [destruct Hcr|]. simpl in Hf.
      destruct (final_completed x) as (s' & H1 & H2 & H3 & H4); [rewrite Hf; left; reflexivity|].
      exists x, s'. split; [exact Hf|]. split; [exact H1|]. split; [exact H2|]. split; [exact H3|].
      rewrite H4. destruct (st_at_shape _ _ _ _ Hsh Hs) as (He & _). rewrite He.
      change c with (fst (c, r)). eapply (desc_head fst); eauto.
  Qed.

  Lemma longest_match : mf = true -> well_formed gs starts ->
    forall S k, In S starts -> MatchNonempty tmatch gs toks S 0 k ->
    exists S' k', reports p S' k' /\ k <= k'.
  Proof.
    intros Em Hwf S k Hin Hm. pose proof Hres as R. rewrite Em in R.
    destruct (longest _ _ _ _ Ho _ Hwf _ _ R) as [_ H]. eauto.
  Qed.

  (** Longest mode, exactly: the reported length is the largest length of a match. *)
  Lemma longest_exact : mf = true -> well_formed gs starts -> uniform_ranges gs -> no_empty gs ->
    forall k, (exists S, reports p S k) <->
      ((exists S, In S starts /\ Match tmatch gs toks S 0 k)
       /\ forall S' k', In S' starts -> Match tmatch gs toks S' 0 k' -> k' <= k).
  Proof.
    intros Em Hwf Hu Hne k. pose proof Hres as R. rewrite Em in R. split.
    - intros (S & Hr). destruct (match_is_derivation S k Hwf Hu Hr) as (H1 & _ & H3).
      split; [eauto|]. intros S' k' Hin' Hm'.
      destruct (longest_match Em Hwf S' k' Hin') as (S2 & k2 & Hr2 & Hle); [apply match_match_nonempty; auto|].
      destruct Hr as (ref & s & Hi & Hs & _ & _ & He). destruct Hr2 as (ref2 & s2 & Hi2 & Hs2 & _ & _ & He2).
      rewrite (one_final _ _ _ _ Ho _ Hwf _ _ ref R Hi) in Hi2. destruct Hi2 as [<-|[]]. rewrite Hs in Hs2.
      injection Hs2 as <-. lia.
    - intros [(S & Hin & Hm) Hmax].
      destruct (longest_match Em Hwf S k Hin) as (S2 & k2 & Hr2 & Hle); [apply match_match_nonempty; auto|].
      destruct (match_is_derivation S2 k2 Hwf Hu Hr2) as (H1 & _ & H3).
      specialize (Hmax S2 k2 H1 H3). assert (k2 = k) as <- by lia. eauto.
  Qed.

  Lemma finals_anchored ref : well_formed gs starts -> In ref (p_finals p) ->
    exists s S, p_state p ref = Ret s /\ tag s = Ret S /\ In S starts /\ s_start s = 0
                /\ s_end s <= length toks /\ is_completed s = Ret true.
  Proof.
    intros Hwf Hr. destruct (final_reports _ _ _ _ _ Hwf _ _ _ _ Hres Hr)
      as (s & S & H1 & H2 & H3 & H4 & H5 & H6 & _).
    destruct (final_completed ref Hr) as (s' & H1' & _ & Hc & _). rewrite H1 in H1'. injection H1' as <-.
    exists s, S. rewrite H5. auto 10.
  Qed.

  Lemma finals_sorted l1 x y l2 sx sy : p_finals p = l1 ++ x :: y :: l2 ->
    p_state p x = Ret sx -> p_state p y = Ret sy -> s_end sy <= s_end sx.
  Proof.
    intros Hf Hx Hy. pose proof Hres as (_ & _ & _ & fs0 & Hin & Hsort & Hf').
    destruct (final_completed x) as (sx' & Ex & _ & _ & Ex'); [rewrite Hf; apply in_elt|].
    destruct (final_completed y) as (sy' & Ey & _ & _ & Ey').
    { rewrite Hf. apply in_or_app. right. right. left. reflexivity. }
    rewrite Hx in Ex. injection Ex as <-. rewrite Hy in Ey. injection Ey as <-. rewrite Ex', Ey'.
    rewrite Hf' in Hf. destruct mf.
    - assert (length (l1 ++ x :: y :: l2) <= 1) as Hl by (rewrite <- Hf, firstn_length; lia).
      rewrite app_length in Hl. simpl in Hl. lia.
    - eapply Hsort. exact Hf.
  Qed.

  (** ** C08 - C12 *)
  Section Tree.
    Hypothesis Hwf : well_formed gs starts.
    Hypothesis Hsep : separated gs.

    Lemma trees_are_parse_trees ref fuel' outs : uniform_ranges gs ->
      In ref (p_finals p) -> get_trees (p_columns p) fuel' ref = Ret outs ->
      exists s S, p_state p ref = Ret s /\ tag s = Ret S /\
      Forall (fun t => exists kid, erase t = PRule GammaRule (gamma_body S) 0 (s_end s) [kid]
                /\ tree_of gs (accepts_by tmatch) toks own_range (nonterm S) 0 (s_end s) kid) outs.
    Proof.
      intros Hu. eapply trees_valid; eauto. apply uniform_count; auto.
    Qed.

    Lemma lax_count : forall t t' m, occurs gs t -> occurs gs t' -> t_type t = t_type t' ->
      t_type t = TAny \/ (t_type t = TList /\ t_value t = t_value t') ->
      range_allows (t_meta t') m -> some_range gs t m.
    Proof.
      intros t t' m H1 H2 H3 H4 H5. exists t'. split; [exact H2|]. split; [congruence|]. split; auto.
      intros Et. destruct H4 as [E|[_ E]]; congruence.
    Qed.

    Lemma trees_are_lax_parse_trees ref fuel' outs :
      In ref (p_finals p) -> get_trees (p_columns p) fuel' ref = Ret outs ->
      exists s S, p_state p ref = Ret s /\ tag s = Ret S /\
      Forall (fun t => exists kid, erase t = PRule GammaRule (gamma_body S) 0 (s_end s) [kid]
                /\ tree_of gs (accepts_by tmatch) toks (some_range gs) (nonterm S) 0 (s_end s) kid) outs.
    Proof. eapply trees_valid; eauto. apply lax_count. Qed.

    (** every completed state of the chart *)
    Lemma state_trees_terminate ref s : p_state p ref = Ret s -> is_completed s = Ret true ->
      exists outs fuel0, forall fuel', fuel0 <= fuel' -> get_trees (p_columns p) fuel' ref = Ret outs.
    Proof.
      intros Hs Hc. destruct ref as [c r]. apply p_state_at in Hs. pose proof Hres as (_ & Hfin & _).
      assert (completed s = true) as Hc' by (unfold completed; rewrite Hc; reflexivity).
      pose proof Hfin as ((Hst & HJ & _) & _).
      destruct (trees_conv (p_columns p) (justified_shape _ _ _ _ _ HJ) c r s Hs) as (x & Hx & m & Hm).
      destruct Hwf as [Hnamed Hrsv].
      destruct (all_trees_good tmatch gs toks starts (some_range gs) Hnamed Hrsv lax_count Hsep _ HJ (proj1 Hst) m c r s Hs Hc')
        as [E|(outs & E & _)].
      - rewrite Hm in E by lia. congruence.
      - exists outs, m. intros m' Hm'. unfold get_trees. rewrite <- E. rewrite !Hm by lia. reflexivity.
    Qed.

    Lemma state_trees_nonempty ref s fuel' outs : any_named gs ->
      p_state p ref = Ret s -> is_completed s = Ret true ->
      get_trees (p_columns p) fuel' ref = Ret outs -> outs <> [].
    Proof.
      intros Hany Hs Hc. destruct ref as [c r]. apply p_state_at in Hs. pose proof Hres as (_ & Hfin & _).
      assert (completed s = true) as Hc' by (unfold completed; rewrite Hc; reflexivity).
      pose proof Hfin as ((Hst & HJ & _) & _).
      destruct (nonempty tmatch gs toks starts Hsep Hany _ HJ fuel') as [H _]. eapply H; eauto.
    Qed.

    Lemma trees_nodup ref s fuel' outs : typed_args gs ->
      p_state p ref = Ret s ->
      get_trees (p_columns p) fuel' ref = Ret outs -> NoDup outs.
    Proof.
      intros Hty Hs. destruct ref as [c r]. apply p_state_at in Hs. pose proof Hres as (_ & Hfin & _).
      eapply nodup_nodes; eauto.
    Qed.

    Lemma trees_nodup_erased ref s fuel' outs : typed_args gs -> uniform_ranges gs ->
      p_state p ref = Ret s ->
      get_trees (p_columns p) fuel' ref = Ret outs -> NoDup (map erase outs).
    Proof.
      intros Hty Hu Hs. destruct ref as [c r]. apply p_state_at in Hs. pose proof Hres as (_ & Hfin & _).
      eapply nodup_erased; eauto.
    Qed.

    Lemma unique_tree ref fuel' outs s S q : typed_args gs -> uniform_ranges gs -> any_named gs ->
      In ref (p_finals p) -> p_state p ref = Ret s -> tag s = Ret S ->
      get_trees (p_columns p) fuel' ref = Ret outs ->
      (forall q', tree_of gs (accepts_by tmatch) toks own_range (nonterm S) 0 (s_end s) q' -> q' = q) ->
      exists t, outs = [t] /\ erase t = PRule GammaRule (gamma_body S) 0 (s_end s) [q].
    Proof.
      intros Hty Hu Hany Hr Hs Ht Hg Hq.
      destruct (trees_unique _ _ _ _ _ Hwf Hsep _ _ _ Hres ref fuel' outs q Hty Hu Hany Hr Hg) as (t & s' & S' & E1 & E2 & E3 & E4).
      - intros s' S' q' Hs' Ht' Hq'. rewrite Hs in Hs'. injection Hs' as <-. rewrite Ht in Ht'. injection Ht' as <-. auto.
      - rewrite Hs in E2. injection E2 as <-. rewrite Ht in E3. injection E3 as <-. eauto.
    Qed.
  End Tree.
End One.

(** ** C05 *)
Lemma sim_tag s s' : sim s s' -> tag s = tag s'.
Proof.
  intros (_ & _ & _ & _ & E). unfold tag. destruct (s_rb s) as [b|], (s_rb s') as [b'|]; simpl in E; try discriminate; auto.
  injection E as ->. reflexivity.
Qed.

Lemma same_reports_half tmatch gs text toks starts ord1 ord2 p1 p2 :
  no_empty gs -> is_order ord1 -> is_order ord2 ->
  parse_result tmatch ord1 gs text toks starts false p1 ->
  parse_result tmatch ord2 gs text toks starts false p2 ->
  forall S k, reports p1 S k -> reports p2 S k.
Proof.
  intros Hne H1 H2 R1 R2 S k (ref & s & Hr & Hs & Ht & Hs0 & He).
  destruct (final_sound _ _ _ _ _ _ _ _ _ R1 Hr) as (s1 & Hs1 & Hg & Hc).
  destruct ref as [c r]. apply p_state_at in Hs. simpl in Hs1. rewrite Hs1 in Hs. injection Hs as ->.
  destruct R1 as (_ & F1 & _). destruct R2 as (_ & F2 & _ & fs0 & Hin & _ & Hf).
  destruct (charts_agree _ _ _ _ _ _ _ _ Hne H1 H2 F1 F2 c s) as (s' & Hs' & Hsim).
  { eapply nth_error_In; eauto. }
  apply In_nth_error in Hs' as [r' Hr'].
  exists (c, r'), s'. split.
  - rewrite Hf. apply Hin. exists s'. split; [exact Hr'|]. split.
    + destruct Hsim as (-> & _). exact Hg.
    + rewrite (sim_completed _ _ Hsim). exact Hc.
  - split; [apply p_state_at; exact Hr'|]. split; [rewrite (sim_tag _ _ Hsim); exact Ht|].
    destruct Hsim as (_ & -> & -> & _). auto.
Qed.

Lemma same_matches tmatch gs text ords1 ords2 fuel1 fuel2 n1 n2 toks starts p1 p2 :
  no_empty gs -> is_order (ords1 n1) -> is_order (ords2 n2) ->
  earley_parse_n tmatch ords1 gs text fuel1 n1 false toks starts = Ret p1 ->
  earley_parse_n tmatch ords2 gs text fuel2 n2 false toks starts = Ret p2 ->
  forall S k, reports p1 S k <-> reports p2 S k.
Proof.
  intros Hne H1 H2 E1 E2 S k.
  destruct (earley_parse_result _ _ _ _ _ _ _ _ _ _ H1 E1) as (_ & _ & R1).
  destruct (earley_parse_result _ _ _ _ _ _ _ _ _ _ H2 E2) as (_ & _ & R2).
  split.
  - exact (same_reports_half _ _ _ _ _ _ _ _ _ Hne H1 H2 R1 R2 S k).
  - exact (same_reports_half _ _ _ _ _ _ _ _ _ Hne H2 H1 R2 R1 S k).
Qed.

(** the finals of the longest mode within the chart *)
Lemma parse_result_all tmatch ord gs text toks starts p :
  parse_result tmatch ord gs text toks starts true p ->
  exists p', parse_result tmatch ord gs text toks starts false p' /\ p_columns p' = p_columns p
             /\ p_finals p = firstn 1 (p_finals p').
Proof.
  intros (H1 & H2 & H3 & fs0 & H4 & H5 & H6).
  exists (mkParse text (p_columns p) fs0). split; [|auto].
  split; [reflexivity|]. split; [exact H2|]. split; [exact H3|]. exists fs0. auto.
Qed.

Lemma same_length_half tmatch gs text toks starts ord1 ord2 p1 p2 :
  no_empty gs -> is_order ord1 -> is_order ord2 -> well_formed gs starts ->
  parse_result tmatch ord1 gs text toks starts true p1 ->
  parse_result tmatch ord2 gs text toks starts true p2 ->
  forall S k, reports p1 S k -> exists S' k', reports p2 S' k' /\ k <= k'.
Proof.
  intros Hne H1 H2 Hwf R1 R2 S k Hr.
  destruct (parse_result_all _ _ _ _ _ _ _ R1) as (q1 & Q1 & C1 & F1).
  destruct (parse_result_all _ _ _ _ _ _ _ R2) as (q2 & Q2 & C2 & F2).
  assert (reports q1 S k) as Hq1.
  { destruct Hr as (ref & s & Hi & Hs & Hrest). exists ref, s. split.
    - rewrite F1 in Hi. destruct (p_finals q1); [destruct Hi|]. destruct Hi as [<-|[]]. left; reflexivity.
    - split; [unfold p_state in *; rewrite C1; exact Hs|exact Hrest]. }
  pose proof (same_reports_half _ _ _ _ _ _ _ _ _ Hne H1 H2 Q1 Q2 S k Hq1) as (ref & s & Hi & Hs & Ht & H0 & He).
  pose proof Q2 as (_ & Hfin & _ & fs0 & Hin & Hsort & Hf0).
  destruct (final_reports _ _ _ _ _ Hwf _ _ _ _ Q2 Hi) as (s' & _ & Hs' & _ & _ & _ & He' & _).
  rewrite Hs in Hs'. injection Hs' as <-.
  rewrite Hf0 in *. destruct fs0 as [|x fs0]; [destruct Hi|]. simpl in F2.
  destruct (final_reports _ _ _ _ _ Hwf _ _ _ x R2) as (sx & T & _ & _ & _ & _ & _ & _ & Hx & _).
  { rewrite F2. left. reflexivity. }
  exists T, (fst x). split; [exact Hx|]. rewrite <- He, He'. eapply (desc_head fst); eauto.
Qed.

Lemma same_length tmatch gs text ords1 ords2 fuel1 fuel2 n1 n2 toks starts p1 p2 :
  no_empty gs -> is_order (ords1 n1) -> is_order (ords2 n2) -> well_formed gs starts ->
  earley_parse_n tmatch ords1 gs text fuel1 n1 true toks starts = Ret p1 ->
  earley_parse_n tmatch ords2 gs text fuel2 n2 true toks starts = Ret p2 ->
  forall k, (exists S, reports p1 S k) <-> (exists S, reports p2 S k).
Proof.
  intros Hne H1 H2 Hwf E1 E2 k.
  destruct (earley_parse_result _ _ _ _ _ _ _ _ _ _ H1 E1) as (_ & _ & R1).
  destruct (earley_parse_result _ _ _ _ _ _ _ _ _ _ H2 E2) as (_ & _ & R2).
  assert (forall ord p S S' k k', is_order ord -> parse_result tmatch ord gs text toks starts true p ->
            reports p S k -> reports p S' k' -> k = k') as Huniq.
  { intros ord p S S' a b Ho R (ref & s & Hi & Hs & _ & _ & He) (ref2 & s2 & Hi2 & Hs2 & _ & _ & He2).
    rewrite (one_final _ _ _ _ Ho _ Hwf _ _ ref R Hi) in Hi2. destruct Hi2 as [<-|[]].
    rewrite Hs in Hs2. injection Hs2 as <-. lia. }
  split; intros (S & Hr).
  - destruct (same_length_half _ _ _ _ _ _ _ _ _ Hne H1 H2 Hwf R1 R2 S k Hr) as (S' & k' & Hr' & Hle).
    destruct (same_length_half _ _ _ _ _ _ _ _ _ Hne H2 H1 Hwf R2 R1 S' k' Hr') as (S2 & k2 & Hr2 & Hle2).
    rewrite (Huniq _ _ _ _ _ _ H1 R1 Hr Hr2) in *. assert (k' = k2) as -> by lia. eauto.
  - destruct (same_length_half _ _ _ _ _ _ _ _ _ Hne H2 H1 Hwf R2 R1 S k Hr) as (S' & k' & Hr' & Hle).
    destruct (same_length_half _ _ _ _ _ _ _ _ _ Hne H1 H2 Hwf R1 R2 S' k' Hr') as (S2 & k2 & Hr2 & Hle2).
    rewrite (Huniq _ _ _ _ _ _ H2 R2 Hr Hr2) in *. assert (k' = k2) as -> by lia. eauto.
Qed.
