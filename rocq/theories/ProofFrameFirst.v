(** The tree FrameFMR takes for a rule: the leftmost match, and there the longest. *)
From Coq Require Import Lia Permutation Sorted.
From Verif Require Import Base ModelTypes ModelText ModelEarley ModelTrees ModelApi ModelQuote ModelSem
  ModelReader ModelGrammar ModelFrames SpecTypes SpecGrammar SpecTree SpecApi SpecSem SpecIndex SpecFrames SpecFrameFmr
  ProofEqual ProofSem ProofNodes ProofSemMain ProofTree ProofTreeApi ProofApi ProofMain ProofApiLoops ProofApiMain ProofIndex ProofFrames ProofSlots ProofFrameFmr.

Definition slots_in (fuel : nat) (p : parse_t) (x : string) (refs : list (nat * nat)) : list slot :=
  flat_map (fun ref => match final_slot fuel p ref with
                       | Ret (tg, s) => if String.eqb tg x then [s] else []
                       | _ => [] end) refs.

Lemma sorted_le (l : list (nat * nat)) : (forall l1 x y l2, l = l1 ++ x :: y :: l2 -> fst y <= fst x) ->
  forall l1 x l2, l = l1 ++ x :: l2 -> forall y, In y l2 -> fst y <= fst x.
Proof.
  intros H l1 x l2 E. revert l1 x E. induction l2 as [|z l2 IH]; intros l1 x E y Hy; [destruct Hy|].
  pose proof (H l1 x z l2 E) as Hz. destruct Hy as [<-|Hy]; [exact Hz|].
  etransitivity; [|exact Hz]. eapply (IH (l1 ++ [x]) z); [rewrite <- app_assoc; exact E|exact Hy].
Qed.

Section First.
  Variable tmatch : term -> option token -> bool.
  Variable ords : nat -> order.
  Variable gs : list grammar_rules.
  Variable annotate : string -> string -> res (list token).
  Variable local_grammar : list token -> res (option grammar_rules).
  Variables (ctx text : string) (starts : list string) (toks : list token) (l : option grammar_rules).
  Hypothesis Hords : orders ords.
  Hypothesis Hproc : process annotate local_grammar ctx text = Ret (toks, l).
  Let G := with_local gs l.
  Hypothesis Hwf : well_formed (with_local gs l) starts.
  Hypothesis Hsep : separated (with_local gs l).
  Hypothesis Hu : uniform_ranges (with_local gs l).
  Hypothesis Hne : no_empty (with_local gs l).
  Hypothesis Hany : any_named (with_local gs l).
  Variable fuel : nat.
  Variable ps : list parse_t.
  Hypothesis Hps : EarleyParseAll tmatch ords gs annotate local_grammar fuel ctx text starts = Ret ps.
  Hypothesis Hok : forall p, In p ps -> Forall (final_ok fuel p) (p_finals p).

  (** one parse *)
  Lemma parse_first p x : In p ps ->
    match slots_in fuel p x (p_finals p) with
    | [] => forall k, ~ reports p x k
    | s :: _ => exists n k, hd_error (sl_trees s) = Some (p, n) /\ tree_of_parse p n /\ reports p x k /\ (forall k', reports p x k' -> k' <= k) /\
        exists i q, i <= length toks /\ parsed_tokens p (skipn i toks) /\ erase n = PRule GammaRule (gamma_body x) 0 k [q] /\
          tree_of G (accepts_by tmatch) (skipn i toks) own_range (nonterm x) 0 k q
    end.
  Proof.
    intros Hp.
    destruct (calls_parse_suffixes tmatch ords gs annotate local_grammar ctx text starts toks l p Hproc) as (fuel' & m & mf & i & Hi & EE).
    { right. right. right. eauto. }
    destruct (earley_parse_result _ _ _ _ _ _ _ _ _ _ (Hords m) EE) as (_ & _ & R).
    assert (Hsort : forall l1 a l2, p_finals p = l1 ++ a :: l2 -> forall b, In b l2 -> fst b <= fst a).
    { destruct R as (_ & _ & _ & fs0 & _ & Hs & Hf). rewrite Hf. destruct mf; [|apply sorted_le; exact Hs].
      destruct fs0 as [|z fs0]; cbn [firstn]; intros l1 a l2 E b Hb.
      - destruct l1; discriminate.
      - destruct l1 as [|z1 l1]; injection E as ? E; [subst l2; destruct Hb|destruct l1; discriminate]. }
    assert (Hfin : forall ref s, In ref (p_finals p) -> p_state p ref = Ret s -> s_start s = 0 /\ s_end s = fst ref).
    { intros ref s Hr Hs. destruct (final_completed tmatch ords G text fuel' m mf (skipn i toks) starts p (Hords m) EE ref Hr) as (s' & H1 & H2 & H3 & H4).
      rewrite Hs in H1. injection H1 as <-. split; [|exact H4].
      apply (final_range _ _ _ _ _ _ _ _ _ _ (Hords m) EE Hwf ref s Hr Hs). }
    pose proof (proj1 (Forall_forall _ _) (Hok p Hp)) as Hfo.
    assert (Hrep : forall ref tg s, In ref (p_finals p) -> final_slot fuel p ref = Ret (tg, s) -> reports p tg (fst ref)).
    { intros ref tg s Hr Hf. unfold final_slot in Hf. destruct (p_state p ref) as [s0| | |] eqn:E1; cbn [bind] in Hf; try discriminate.
      destruct (tag s0) as [t0| | |] eqn:E2; cbn [bind] in Hf; try discriminate.
      destruct (boundary p s0) as [[a b]| | |]; cbn [bind] in Hf; try discriminate.
      destruct (get_trees (p_columns p) fuel ref) as [ts| | |]; cbn [bind] in Hf; try discriminate. injection Hf as <- _.
      destruct (Hfin ref s0 Hr E1). exists ref, s0. auto. }
    assert (Hrep2 : forall k, reports p x k -> exists ref s, In ref (p_finals p) /\ final_slot fuel p ref = Ret (x, s) /\ fst ref = k).
    { intros k (ref & s0 & Hr & Hs & Ht & _ & He). destruct (Hfo ref Hr) as (tg & s & Hf & _). exists ref, s.
      split; [exact Hr|]. split; [|destruct (Hfin ref s0 Hr Hs); congruence].
      pose proof Hf as Hf'. unfold final_slot in Hf'. rewrite Hs in Hf'. cbn [bind] in Hf'. rewrite Ht in Hf'. cbn [bind] in Hf'.
      destruct (boundary p s0) as [[a b]| | |]; cbn [bind] in Hf'; try discriminate.
      destruct (get_trees (p_columns p) fuel ref) as [ts| | |]; cbn [bind] in Hf'; try discriminate. injection Hf' as <- _. exact Hf. }
    assert (K : forall refs l1, p_finals p = l1 ++ refs -> (forall ref s, In ref l1 -> final_slot fuel p ref <> Ret (x, s)) ->
      match slots_in fuel p x refs with
      | [] => forall ref s, In ref (p_finals p) -> final_slot fuel p ref <> Ret (x, s)
      | s :: _ => exists ref, In ref (p_finals p) /\ final_slot fuel p ref = Ret (x, s) /\ forall k, reports p x k -> k <= fst ref
      end).
    { induction refs as [|ref refs IH]; intros l1 El Hl1.
      - cbn. intros ref s Hr. apply Hl1. rewrite El, app_nil_r in Hr. exact Hr.
      - assert (Hr : In ref (p_finals p)) by (rewrite El; apply in_or_app; right; left; reflexivity).
        destruct (Hfo ref Hr) as (tg & s & Hf & _). unfold slots_in. cbn [flat_map]. rewrite Hf.
        destruct (String.eqb_spec tg x) as [->|Hx].
        + cbn [app]. exists ref. split; [exact Hr|]. split; [exact Hf|]. intros k Hk. destruct (Hrep2 k Hk) as (ref' & s' & Hr' & Hf' & <-).
          rewrite El in Hr'. apply in_app_or in Hr'. destruct Hr' as [Hr'|[<-|Hr']]; [destruct (Hl1 ref' s' Hr' Hf')|lia|].
          eapply Hsort; [exact El|exact Hr'].
        + cbn [app]. apply (IH (l1 ++ [ref])); [rewrite <- app_assoc; exact El|].
          intros ref' s' Hr'. apply in_app_or in Hr'. destruct Hr' as [Hr'|[<-|[]]]; [apply Hl1; exact Hr'|]. rewrite Hf. congruence. }
    specialize (K (p_finals p) [] eq_refl (fun _ _ H => match H with end)).
    destruct (slots_in fuel p x (p_finals p)) as [|s sl].
    - intros k Hk. destruct (Hrep2 k Hk) as (ref & s & Hr & Hf & _). exact (K ref s Hr Hf).
    - destruct K as (ref & Hr & Hf & Hmax).
      pose proof (Hrep ref x s Hr Hf) as Hrp. unfold final_slot in Hf.
      destruct (p_state p ref) as [s0| | |] eqn:E1; cbn [bind] in Hf; try discriminate.
      destruct (tag s0) as [t0| | |] eqn:E2; cbn [bind] in Hf; try discriminate.
      destruct (boundary p s0) as [[a b]| | |]; cbn [bind] in Hf; try discriminate.
      destruct (get_trees (p_columns p) fuel ref) as [ts| | |] eqn:E4; cbn [bind] in Hf; try discriminate. injection Hf as -> <-.
      destruct (final_completed tmatch ords G text fuel' m mf (skipn i toks) starts p (Hords m) EE ref Hr) as (s' & H1 & H2 & H3 & H4).
      rewrite E1 in H1. injection H1 as <-.
      pose proof (state_trees_nonempty tmatch ords G text fuel' m mf (skipn i toks) starts p (Hords m) EE Hsep ref s0 fuel ts Hany E1 H3 E4) as Hts.
      destruct (trees_are_parse_trees tmatch ords G text fuel' m mf (skipn i toks) starts p (Hords m) EE Hwf Hsep ref fuel ts Hu Hr E4)
        as (s1 & S & Q1 & Q2 & Q3). rewrite E1 in Q1. injection Q1 as <-. rewrite E2 in Q2. injection Q2 as <-.
      destruct ts as [|n ts]; [congruence|]. inversion Q3 as [|? ? (q & Eq & Tq) _]; subst.
      exists n, (s_end s0). split; [reflexivity|]. split; [exists ref, fuel, (n :: ts); cbn; auto|]. rewrite H4.
      split; [exact Hrp|]. split; [exact Hmax|]. exists i, q. split; [exact Hi|]. split; [apply R|]. rewrite <- H4. auto.
  Qed.

  Lemma rule_slots_app q qs x : rule_slots fuel (q :: qs) x = slots_in fuel q x (p_finals q) ++ rule_slots fuel qs x.
  Proof. reflexivity. Qed.

  Lemma rule_first x :
    match first_tree (rule_slots fuel ps x) with
    | None => In x starts -> forall i j, i < length toks -> ~ Match tmatch G toks x i j
    | Some (p, n) => In x starts /\ tree_of_parse p n /\
        exists i k q, parsed_tokens p (skipn i toks) /\ Match tmatch G toks x i (i + k) /\
          (forall j, Match tmatch G toks x i j -> j <= i + k) /\ (forall i' j, i' < i -> ~ Match tmatch G toks x i' j) /\
          erase n = PRule GammaRule (gamma_body x) 0 k [q] /\
          tree_of G (accepts_by tmatch) (skipn i toks) own_range (nonterm x) 0 k q
    end.
  Proof.
    destruct (all_exact tmatch ords gs annotate local_grammar ctx text starts toks l Hords Hproc Hwf fuel ps Hu Hne Hps) as (is & Hs & F & Hin).
    fold G in F, Hin.
    assert (Hend : forall i j, Match tmatch G toks x i j -> i <= j).
    { intros i j. apply match_le. }
    assert (Hall : forall i j, In x starts -> i < length toks -> Match tmatch G toks x i j -> In i is).
    { intros i j Hx Hi Hm. apply Hin. split; [exact Hi|]. exists x, j. auto. }
    assert (K : forall is1 is2 qs, is = is1 ++ is2 -> Forall2 (fun i p => parsed_tokens p (skipn i toks)
                  /\ forall S k, reports p S k <-> In S starts /\ Match tmatch G toks S i (i + k)) is2 qs ->
        (forall q, In q qs -> In q ps) ->
        (In x starts -> forall i j, In i is1 -> ~ Match tmatch G toks x i j) ->
        match first_tree (rule_slots fuel qs x) with
        | None => In x starts -> forall i j, i < length toks -> ~ Match tmatch G toks x i j
        | Some (p, n) => In x starts /\ tree_of_parse p n /\
            exists i k q, parsed_tokens p (skipn i toks) /\ Match tmatch G toks x i (i + k) /\
              (forall j, Match tmatch G toks x i j -> j <= i + k) /\ (forall i' j, i' < i -> ~ Match tmatch G toks x i' j) /\
              erase n = PRule GammaRule (gamma_body x) 0 k [q] /\
              tree_of G (accepts_by tmatch) (skipn i toks) own_range (nonterm x) 0 k q
        end).
    { intros is1 is2 qs Eis F2. revert is1 Eis. induction F2 as [|i p is2 qs (Hpt & Hrp) F2 IH]; intros is1 Eis Hq H1.
      - cbn. intros Hx i j Hi Hm. apply (H1 Hx i j); [|exact Hm]. rewrite app_nil_r in Eis. rewrite <- Eis. eapply Hall; eassumption.
      - rewrite rule_slots_app. pose proof (parse_first p x (Hq p (or_introl eq_refl))) as P.
        assert (Hi : i < length toks) by (apply Hin; rewrite Eis; apply in_or_app; right; left; reflexivity).
        destruct (slots_in fuel p x (p_finals p)) as [|s sl]; cbn [app].
        + apply (IH (is1 ++ [i])); [rewrite <- app_assoc; exact Eis|intros; apply Hq; right; assumption|].
          intros Hx i' j Hi' Hm. apply in_app_or in Hi'. destruct Hi' as [Hi'|[<-|[]]]; [eapply H1; eassumption|].
          apply (P (j - i)). apply Hrp. split; [exact Hx|]. pose proof (Hend _ _ Hm). replace (i + (j - i)) with j by lia. exact Hm.
        + destruct P as (n & k & E & Ht & Hk & Hmax & i2 & q & Hi2 & Hpt2 & Eq & Tq). unfold first_tree. rewrite E.
          assert (i2 = i) as ->.
          { unfold parsed_tokens in Hpt, Hpt2. rewrite Hpt in Hpt2. apply (f_equal (@length _)) in Hpt2. rewrite !map_length, !skipn_length in Hpt2. lia. }
          pose proof (proj1 (Hrp x k) Hk) as (Hx & Hm). split; [exact Hx|]. split; [exact Ht|]. exists i, k, q.
          split; [exact Hpt|]. split; [exact Hm|]. split.
          { intros j Hj. pose proof (Hend _ _ Hj). assert (j - i <= k); [|lia]. apply Hmax, Hrp. split; [exact Hx|].
            replace (i + (j - i)) with j by lia. exact Hj. }
          split; [|auto]. intros i' j Hlt Hj.
          assert (Hi' : In i' is) by (eapply Hall; [exact Hx|lia|exact Hj]). rewrite Eis in Hi'. apply in_app_or in Hi'.
          destruct Hi' as [Hi'|Hi']; [eapply H1; eassumption|]. rewrite Eis in Hs. clear - Hs Hi' Hlt.
          induction is1 as [|a is1 IH]; cbn [app] in Hs; inversion Hs; subst; [|auto].
          destruct Hi' as [<-|Hi']; [lia|]. rewrite Forall_forall in H2. specialize (H2 i' Hi'). lia. }
    apply (K [] is ps eq_refl F); [auto|]. intros _ i j [].
  Qed.
End First.

Section Kids.
  Variable g : grammar.
  Variable rules : grammar_rules.
  Hypothesis Hix : index_exact g rules.
  Variable key : term -> N.
  Variable multi_match : list string -> string -> res (list (string * list (nat * nat))).
  Variable fo : frame_orders.
  Hypothesis Hfo : frame_orders_ok fo.
  Variable tmatch : term -> option token -> bool.
  Variable ords : nat -> order.
  Variable annotate : string -> string -> res (list token).
  Variable local_grammar : list token -> res (option grammar_rules).

  Lemma frame_kids fuel ctx text fs fs0 starts toks l : orders ords ->
    MatchFrames g key multi_match fo tmatch ords annotate local_grammar fuel ctx text = Ret fs ->
    (forall ms, multi_match (g_trie g) text = Ret ms -> NoDup (map fst ms)) ->
    get_candidates g key multi_match fo fuel text = Ret (fs0, starts) ->
    process annotate local_grammar ctx text = Ret (toks, l) ->
    let G := with_local (all_rules g) l in
    well_formed G starts -> separated G -> uniform_ranges G -> no_empty G -> any_named G ->
    forall v f b, In (v, f) fs -> frame_is g v b -> Forall plain_term (rb_terms b) -> NoDup (map key (rb_terms b)) ->
    forall t, In t (rb_terms b) ->
    match first_tree (slots_for key f t) with
    | None => t_type t = TNonterminal -> In (t_value t) starts -> forall i j, i < length toks -> ~ Match tmatch G toks (t_value t) i j
    | Some (p, n) => t_type t = TNonterminal /\ In (t_value t) starts /\ tree_of_parse p n /\
        exists i k q, parsed_tokens p (skipn i toks) /\ Match tmatch G toks (t_value t) i (i + k) /\
          (forall j, Match tmatch G toks (t_value t) i j -> j <= i + k) /\
          (forall i' j, i' < i -> ~ Match tmatch G toks (t_value t) i' j) /\
          erase n = PRule GammaRule (gamma_body (t_value t)) 0 k [q] /\
          tree_of G (accepts_by tmatch) (skipn i toks) own_range (nonterm (t_value t)) 0 k q
    end.
  Proof.
    intros Ho Hm Hnd EC Hpr G Hwf Hsep Hu Hne Hany v f b Hin Hb Hp Hk t Ht.
    destruct (match_frames_left g key multi_match fo tmatch ords annotate local_grammar fuel ctx text fs Hm)
      as (ms & fs1 & starts1 & ps & E1 & EC1 & EP & _ & Hok & L). rewrite EC in EC1. injection EC1 as <- <-.
    pose proof L as [N _]. assert (G1 : get_key fs v = Some f) by (apply get_key_in; assumption).
    destruct (frames_found g rules Hix key multi_match fo Hfo tmatch ords annotate local_grammar fuel ctx text fs Hm Hnd)
      as (ms' & fs2 & starts2 & ps' & E1' & EC2 & EP' & Hfound).
    rewrite E1 in E1'. injection E1' as <-. rewrite EC in EC2. injection EC2 as <- <-. rewrite EP in EP'. injection EP' as <-.
    destruct (Hfound v b Hb Hp Hk) as [Hf _]; [intros X; rewrite X in Ht; destruct Ht|]. specialize (Hf t Ht). rewrite G1 in Hf. rewrite Hf.
    unfold found. destruct (t_type t) eqn:Et; try (cbn [first_tree]; intros X; discriminate).
    - pose proof (rule_first tmatch ords (all_rules g) annotate local_grammar ctx text starts toks l Ho Hpr Hwf Hsep Hu Hne Hany fuel ps EP Hok (t_value t)) as R.
      destruct (first_tree (rule_slots fuel ps (t_value t))) as [[p n]|]; [|intros _; exact R].
      split; [reflexivity|]. exact R.
    - replace (first_tree (word_slots ms (t_value t))) with (@None (parse_t * node)); [intros X; discriminate|].
      unfold word_slots. destruct (lookup ms (t_value t)) as [[|h hs]|]; reflexivity.
  Qed.

  Lemma word_kid fuel ctx text fs :
    MatchFrames g key multi_match fo tmatch ords annotate local_grammar fuel ctx text = Ret fs ->
    (forall ms, multi_match (g_trie g) text = Ret ms -> NoDup (map fst ms)) ->
    forall v f b, In (v, f) fs -> frame_is g v b -> Forall plain_term (rb_terms b) -> NoDup (map key (rb_terms b)) ->
    forall t, In t (rb_terms b) -> t_type t <> TNonterminal -> first_tree (slots_for key f t) = None.
  Proof.
    intros Hm Hnd v f b Hin Hb Hp Hk t Ht Hty.
    destruct (match_frames_left g key multi_match fo tmatch ords annotate local_grammar fuel ctx text fs Hm)
      as (ms & fs1 & starts1 & ps & E1 & EC1 & EP & _ & Hok & [N _]).
    assert (G1 : get_key fs v = Some f) by (apply get_key_in; assumption).
    destruct (frames_found g rules Hix key multi_match fo Hfo tmatch ords annotate local_grammar fuel ctx text fs Hm Hnd)
      as (ms' & fs2 & starts2 & ps' & E1' & EC2 & EP' & Hfound).
    destruct (Hfound v b Hb Hp Hk) as [Hf _]; [intros X; rewrite X in Ht; destruct Ht|]. specialize (Hf t Ht). rewrite G1 in Hf. rewrite Hf.
    unfold found. destruct (t_type t) eqn:Et; try reflexivity; [congruence|].
    unfold word_slots. destruct (lookup ms' (t_value t)) as [[|h hs]|]; reflexivity.
  Qed.
End Kids.
