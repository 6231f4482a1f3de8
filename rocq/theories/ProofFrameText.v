(** Matching the frames of a grammar text: every rule and frame comes from the text. *)
From Coq Require Import Lia Permutation Sorted.
From Verif Require Import Base ModelTypes ModelText ModelEarley ModelTrees ModelApi ModelQuote ModelSem
  ModelReader ModelGrammar ModelFrames ModelLocal
  SpecTypes SpecGrammar SpecTree SpecNotation SpecRefine SpecConstruct SpecApi SpecSem SpecLocal SpecEnd SpecIndex SpecFrames SpecFrameText
  ProofEqual ProofChart ProofTree ProofTreeDup ProofTreeApi ProofApi ProofMain ProofApiLoops ProofApiMain ProofEmpty
  ProofNodes ProofSem ProofSemMain
  ProofRefine ProofConstruct ProofLocalApi ProofEnd ProofIndex ProofFrames ProofSlots ProofFrameFmr ProofFrameFirst.
Local Open Scope list_scope.

(** ** no final state is listed twice *)
Lemma col_finals_rows i sts : forall j fs, col_finals i j sts = Ret fs ->
  NoDup fs /\ forall ref, In ref fs -> fst ref = i /\ j <= snd ref.
Proof.
  induction sts as [|s sts IH]; intros j fs; cbn [col_finals].
  - intros E. injection E as <-. split; [constructor|intros ref []].
  - destruct (String.eqb _ _).
    + destruct (is_completed s) as [b| | |]; cbn [bind]; try discriminate.
      destruct (col_finals i (S j) sts) as [r| | |] eqn:E; cbn [bind]; try discriminate. intros H. injection H as <-.
      apply IH in E. destruct E as [N I]. assert (I' : forall ref, In ref r -> fst ref = i /\ j <= snd ref).
      { intros ref Hr. destruct (I ref Hr). split; [assumption|lia]. }
      destruct b; [|auto]. split.
      * constructor; [|exact N]. intros Hr. destruct (I _ Hr). cbn in *. lia.
      * intros ref [<-|Hr]; [cbn; auto|auto].
    + intros E. apply IH in E. destruct E as [N I]. split; [exact N|]. intros ref Hr. destruct (I ref Hr). split; [assumption|lia].
Qed.
Lemma all_finals_nodup cols n : forall fs, all_finals n cols = Ret fs -> NoDup fs /\ forall ref, In ref fs -> fst ref < n.
Proof.
  induction n as [|n IH]; intros fs; cbn [all_finals].
  - intros E. injection E as <-. split; [constructor|intros ref []].
  - destruct (idx cols n) as [col| | |]; cbn [bind]; try discriminate.
    destruct (col_finals n 0 (c_states col)) as [h| | |] eqn:E1; cbn [bind]; try discriminate.
    destruct (all_finals n cols) as [r| | |]; cbn [bind]; try discriminate. intros H. injection H as <-.
    destruct (IH r eq_refl) as [N I]. apply col_finals_rows in E1. destruct E1 as [N1 I1].
    split.
    + clear - N N1 I I1. induction N1 as [|a h Ha N1 IH]; [exact N|]. cbn. constructor.
      * intros H. apply in_app_or in H. destruct H as [H|H]; [contradiction|]. destruct (I1 a (or_introl eq_refl)). specialize (I a H). lia.
      * apply IH. intros ref Hr. apply I1. right. exact Hr.
    + intros ref Hr. apply in_app_or in Hr. destruct Hr as [Hr|Hr]; [destruct (I1 ref Hr); lia|specialize (I ref Hr); lia].
Qed.
Lemma finals_nodup tmatch ords gs text fuel n mf toks starts p : is_order (ords n) ->
  earley_parse_n tmatch ords gs text fuel n mf toks starts = Ret p -> NoDup (p_finals p).
Proof.
  unfold earley_parse_n, earley_parse. intros Ho H. destruct starts as [|S0 ss] eqn:Es; [discriminate|]. destruct toks as [|k0 ks]; [discriminate|].
  destruct (parse _ _ _ _ _ _ _) as [[cs fs]| | |] eqn:E; cbn [bind] in H; try discriminate. injection H as <-. cbn [p_finals].
  destruct (parse_finished tmatch (ords n) gs (k0 :: ks) (S0 :: ss) fuel mf cs fs Ho ltac:(discriminate) E) as (_ & fs0 & F & ->).
  apply all_finals_nodup in F. destruct F as [N _]. destruct mf; [|exact N].
  destruct fs0 as [|a fs0]; cbn [firstn]; [constructor|]. repeat constructor. intros [].
Qed.

(** ** and the final states of a rule have different ends *)
Lemma finals_distinct tmatch ords gs text fuel n mf toks starts p : is_order (ords n) ->
  earley_parse_n tmatch ords gs text fuel n mf toks starts = Ret p -> well_formed gs starts -> typed_args gs ->
  forall r1 r2 s1 s2 x, In r1 (p_finals p) -> In r2 (p_finals p) -> p_state p r1 = Ret s1 -> p_state p r2 = Ret s2 ->
  tag s1 = Ret x -> tag s2 = Ret x -> fst r1 = fst r2 -> r1 = r2.
Proof.
  intros Ho Hp Hwf Hty [c r1] [c2 r2] s1 s2 x H1 H2 E1 E2 T1 T2 Ec. cbn [fst] in Ec. subst c2.
  destruct (earley_parse_result _ _ _ _ _ _ _ _ _ _ Ho Hp) as (_ & _ & R). pose proof R as (_ & Hfin & _).
  destruct (final_sound _ _ _ _ _ _ _ _ _ R H1) as (s1' & A1 & G1 & C1). destruct (final_sound _ _ _ _ _ _ _ _ _ R H2) as (s2' & A2 & G2 & C2).
  cbn [fst snd] in A1, A2. apply p_state_at in E1, E2. rewrite E1 in A1. injection A1 as <-. rewrite E2 in A2. injection A2 as <-.
  destruct (final_facts tmatch (ords n) gs toks starts Hwf _ Hfin c r1 s1 E1 G1 C1) as (x1 & _ & T1' & B1 & D1 & _ & F1 & K1 & L1 & _).
  destruct (final_facts tmatch (ords n) gs toks starts Hwf _ Hfin c r2 s2 E2 G2 C2) as (x2 & _ & T2' & B2 & D2 & _ & F2 & K2 & L2 & _).
  rewrite T1 in T1'. injection T1' as <-. rewrite T2 in T2'. injection T2' as <-.
  pose proof (state_meta tmatch (ords n) gs toks starts _ Hfin _ _ _ _ E1 K1 F1) as M1.
  pose proof (state_meta tmatch (ords n) gs toks starts _ Hfin _ _ _ _ E2 K2 F2) as M2.
  rewrite L1 in M1. rewrite L2 in M2.
  assert (s1 = s2).
  { destruct s1 as [[] ? ? ? ?], s2 as [[] ? ? ? ?]; cbn in *; congruence. }
  subst s2. f_equal. eapply same_row; eauto.
Qed.

(** ** the loops return when every frame is there and every final state has trees *)
Section Returns.
  Variable g : grammar.
  Variable key : term -> N.
  Variable fo : frame_orders.
  Hypothesis Hfo : frame_orders_ok fo.
  Hypothesis Hfr : forall ix k i v, ix = g_index g \/ ix = g_rule_index g -> lookup ix k = Some i -> In v (ix_frames i) ->
    exists b, frame_body g v = Ret b.

  Lemma fill_all_ret k new vs : (forall v, In v vs -> exists b, frame_body g v = Ret b) ->
    forall fs, exists fs', fill_all g k new vs fs = Ret fs'.
  Proof.
    induction vs as [|v vs IH]; intros H fs; cbn [fill_all]; [eauto|]. unfold fill.
    destruct (H v (or_introl eq_refl)) as (b & ->). cbn [bind]. apply IH. intros u Hu. apply H. right. exact Hu.
  Qed.
  Lemma words_ret ms : (forall w, In w (map fst ms) -> lookup (g_index g) w <> None) ->
    forall fs rs, exists fs' rs', words_loop g key fo ms fs rs = Ret (fs', rs').
  Proof.
    destruct Hfo as (_ & HF & _). induction ms as [|[w h] ms IH]; intros H fs rs; cbn [words_loop]; [eauto|].
    destruct (lookup (g_index g) w) as [i|] eqn:L; [|destruct (H w (or_introl eq_refl) L)].
    destruct (fill_all_ret (key (mkTerm w TTerminal MNil)) (map (fun h => mkSlot (fst h) (snd h) []) h) (fo_frames fo w (ix_frames i)))
      with (fs := fs) as (fs' & ->).
    { intros v Hv. eapply (Hfr (g_index g)); [auto|exact L|]. eapply Permutation_in; [apply Permutation_sym, HF|exact Hv]. }
    cbn [bind]. apply IH. intros u Hu. apply H. right. exact Hu.
  Qed.
  Lemma finals_ret fuel i p refs : Forall (final_ok fuel p) refs -> forall j fs, exists fs', finals_loop g key fo fuel i j p refs fs = Ret fs'.
  Proof.
    destruct Hfo as (_ & _ & _ & _ & _ & _ & HT & _).
    induction 1 as [|ref refs (tg & s & Hf & Ht) _ IH]; intros j fs; cbn [finals_loop]; [eauto|]. unfold final_slot in Hf.
    destruct (p_state p ref) as [s0| | |]; cbn [bind] in *; try discriminate.
    destruct (tag s0) as [t0| | |]; cbn [bind] in *; try discriminate.
    destruct (boundary p s0) as [[a b]| | |]; cbn [bind] in *; try discriminate.
    destruct (get_trees (p_columns p) fuel ref) as [ts| | |]; cbn [bind] in *; try discriminate. injection Hf as -> <-.
    apply String.eqb_neq in Ht. rewrite Ht. destruct (lookup (g_rule_index g) tg) as [ix|] eqn:L; [|apply IH].
    destruct (fill_all_ret (key (mkTerm tg TNonterminal MNil)) [mkSlot a b (map (fun t => (p, t)) ts)] (fo_tag fo i j (ix_frames ix)))
      with (fs := fs) as (fs' & ->).
    { intros v Hv. eapply (Hfr (g_rule_index g)); [auto|exact L|]. eapply Permutation_in; [apply Permutation_sym, HT|exact Hv]. }
    cbn [bind]. apply IH.
  Qed.
  Lemma parses_ret fuel ps : (forall p, In p ps -> Forall (final_ok fuel p) (p_finals p)) ->
    forall i fs, exists fs', parses_loop g key fo fuel i ps fs = Ret fs'.
  Proof.
    induction ps as [|p ps IH]; intros H i fs; cbn [parses_loop]; [eauto|].
    destruct (finals_ret fuel i p (p_finals p) (H p (or_introl eq_refl)) 0 fs) as (fs' & ->). cbn [bind].
    apply IH. intros q Hq. apply H. right. exact Hq.
  Qed.
  (** the fuel does not matter *)
  Lemma finals_fuel fuel fuel' i p refs :
    (forall ref, In ref refs -> get_trees (p_columns p) fuel ref = get_trees (p_columns p) fuel' ref) ->
    forall j fs, finals_loop g key fo fuel i j p refs fs = finals_loop g key fo fuel' i j p refs fs.
  Proof.
    induction refs as [|ref refs IH]; intros H j fs; cbn [finals_loop]; [reflexivity|]. rewrite (H ref (or_introl eq_refl)).
    assert (IH' : forall j fs, finals_loop g key fo fuel i j p refs fs = finals_loop g key fo fuel' i j p refs fs).
    { apply IH. intros r Hr. apply H. right. exact Hr. }
    destruct (p_state p ref) as [s0| | |]; cbn [bind]; try reflexivity.
    destruct (tag s0) as [t0| | |]; cbn [bind]; try reflexivity.
    destruct (boundary p s0) as [[a b]| | |]; cbn [bind]; try reflexivity.
    destruct (get_trees (p_columns p) fuel' ref) as [ts| | |]; cbn [bind]; try reflexivity.
    destruct (String.eqb t0 ""); [reflexivity|]. destruct (lookup _ _); [|apply IH'].
    destruct (fill_all _ _ _ _ _); cbn [bind]; try reflexivity. apply IH'.
  Qed.
  Lemma parses_fuel fuel fuel' ps :
    (forall p ref, In p ps -> In ref (p_finals p) -> get_trees (p_columns p) fuel ref = get_trees (p_columns p) fuel' ref) ->
    forall i fs, parses_loop g key fo fuel i ps fs = parses_loop g key fo fuel' i ps fs.
  Proof.
    induction ps as [|p ps IH]; intros H i fs; cbn [parses_loop]; [reflexivity|].
    rewrite (finals_fuel fuel fuel'); [|intros ref Hr; apply H; [left; reflexivity|exact Hr]].
    destruct (finals_loop _ _ _ _ _ _ _ _ _); cbn [bind]; try reflexivity. apply IH. intros q ref Hq. apply H. right. exact Hq.
  Qed.
  Lemma closure_more fuel : forall fuel' queue rules out, fuel <= fuel' -> closure g fo fuel queue rules = Ret out ->
    closure g fo fuel' queue rules = Ret out.
  Proof.
    induction fuel as [|fuel IH]; intros fuel' queue rules out Hle; destruct queue as [|r queue]; cbn [closure].
    - intros E. destruct fuel'; exact E.
    - discriminate.
    - intros E. destruct fuel'; exact E.
    - intros E. destruct fuel' as [|fuel']; [lia|]. cbn [closure]. destruct (lookup _ _) as [i|].
      + destruct (fold_left enqueue (fo_uses fo r (ix_rules i)) (queue, rules)) as [q2 r2]. apply IH; [lia|exact E].
      + apply IH; [lia|exact E].
  Qed.
  Lemma closure_out fuel : forall queue rules, closure g fo fuel queue rules = Fuel \/ exists out, closure g fo fuel queue rules = Ret out.
  Proof.
    induction fuel as [|fuel IH]; intros queue rules; destruct queue as [|r queue]; cbn [closure]; eauto.
    destruct (lookup (g_rule_index g) r) as [i|]; [|apply IH].
    destruct (fold_left enqueue (fo_uses fo r (ix_rules i)) (queue, rules)) as [q2 r2]. apply IH.
  Qed.
End Returns.

(** ** the slots of one rule *)
Lemma slots_ordered fuel p x refs :
  StronglySorted (fun a b : nat * nat => fst b <= fst a) refs -> NoDup refs ->
  (forall r1 r2 s1 s2, In r1 refs -> In r2 refs -> final_slot fuel p r1 = Ret (x, s1) -> final_slot fuel p r2 = Ret (x, s2) -> fst r1 = fst r2 -> r1 = r2) ->
  exists ks, StronglySorted gt ks /\
    (forall k, In k ks <-> exists ref s, In ref refs /\ final_slot fuel p ref = Ret (x, s) /\ fst ref = k) /\
    Forall2 (fun k s => exists ref, In ref refs /\ final_slot fuel p ref = Ret (x, s) /\ fst ref = k) ks (slots_in fuel p x refs).
Proof.
  induction 1 as [|ref refs Hs IH Hall]; intros N Hinj.
  - exists []. split; [constructor|]. split; [|constructor]. intros k. split; [intros []|intros (ref & s & [] & _)].
  - inversion N as [|? ? Hni N']; subst. destruct IH as (ks & A & B & C); [exact N'| |].
    { intros r1 r2 s1 s2 H1 H2. apply Hinj; right; assumption. }
    unfold slots_in. cbn [flat_map]. fold (slots_in fuel p x refs).
    assert (C' : Forall2 (fun k s => exists ref0, In ref0 (ref :: refs) /\ final_slot fuel p ref0 = Ret (x, s) /\ fst ref0 = k) ks (slots_in fuel p x refs)).
    { eapply Forall2_impl; [|exact C]. intros k s (r & H1 & H2). exists r. split; [right; exact H1|exact H2]. }
    assert (Hdone : (forall s, final_slot fuel p ref <> Ret (x, s)) ->
      exists ks0, StronglySorted gt ks0 /\
      (forall k, In k ks0 <-> exists ref0 s, In ref0 (ref :: refs) /\ final_slot fuel p ref0 = Ret (x, s) /\ fst ref0 = k) /\
      Forall2 (fun k s => exists ref0, In ref0 (ref :: refs) /\ final_slot fuel p ref0 = Ret (x, s) /\ fst ref0 = k) ks0 (slots_in fuel p x refs)).
    { intros Hn. exists ks. split; [exact A|]. split; [|exact C']. intros k. rewrite B. split.
      - intros (r & s & H1 & H2). exists r, s. split; [right; exact H1|exact H2].
      - intros (r & s & [<-|H1] & H2 & H3); [destruct (Hn s H2)|eauto]. }
    destruct (final_slot fuel p ref) as [[tg s]| | |] eqn:Ef; cbn [app]; [|apply Hdone; intros s0; discriminate|apply Hdone; intros s0; discriminate|apply Hdone; intros s0; discriminate].
    destruct (String.eqb_spec tg x) as [->|Hx]; cbn [app]; [|apply Hdone; intros s' E; congruence].
    exists (fst ref :: ks). split; [|split].
    + constructor; [exact A|]. apply Forall_forall. intros k Hk. apply B in Hk. destruct Hk as (r & s' & H1 & H2 & <-).
      rewrite Forall_forall in Hall. specialize (Hall r H1). cbn in Hall. destruct (Nat.eq_dec (fst r) (fst ref)) as [E|E]; [|lia].
      exfalso. apply Hni. rewrite <- (Hinj r ref s' s (or_intror H1) (or_introl eq_refl) H2 Ef E). exact H1.
    + intros k. cbn [In]. rewrite B. split.
      * intros [<-|(r & s' & H1 & H2)]; [exists ref, s; auto|exists r, s'; split; [right; exact H1|exact H2]].
      * intros (r & s' & [<-|H1] & H2 & H3); [left; exact H3|right; eauto].
    + constructor; [exists ref; split; [left; reflexivity|auto]|exact C'].
Qed.

Lemma sorted_le_strong (l : list (nat * nat)) : (forall l1 x y l2, l = l1 ++ x :: y :: l2 -> fst y <= fst x) ->
  StronglySorted (fun a b => fst b <= fst a) l.
Proof.
  intros H. pose proof (sorted_le l H) as K. clear H. induction l as [|a l IH]; [constructor|]. constructor.
  - apply IH. intros l1 x l2 E. apply (K (a :: l1) x l2). cbn. rewrite E. reflexivity.
  - apply Forall_forall. intros y Hy. apply (K [] a l eq_refl y Hy).
Qed.

Section Slots.
  Variable tmatch : term -> option token -> bool.
  Variable ords : nat -> order.
  Variable gs : list grammar_rules.
  Variable annotate : string -> string -> res (list token).
  Variable local_grammar : list token -> res (option grammar_rules).
  Variables (ctx text : string) (starts : list string) (toks : list token) (l : option grammar_rules).
  Hypothesis Hords : orders ords.
  Hypothesis Hproc : process annotate local_grammar ctx text = Ret (toks, l).
  Let G := with_local gs l.
  Hypothesis Hwf : well_formed (with_local gs l) starts.
  Hypothesis Hsep : separated (with_local gs l).
  Hypothesis Hu : uniform_ranges (with_local gs l).
  Hypothesis Hne : no_empty (with_local gs l).
  Hypothesis Hany : any_named (with_local gs l).
  Hypothesis Hty : typed_args (with_local gs l).
  Hypothesis Hio : in_order toks.
  Hypothesis Hnames : ~ In ""%string starts.
  Variable fuel0 : nat.
  Variable ps : list parse_t.
  Hypothesis Hps : EarleyParseAll tmatch ords gs annotate local_grammar fuel0 ctx text starts = Ret ps.

  Lemma in_parse p : In p ps -> exists fuel' m mf i, i <= length toks /\
    earley_parse_n tmatch ords G text fuel' m mf (skipn i toks) starts = Ret p.
  Proof using Hproc Hps.
    intros Hp. eapply calls_parse_suffixes; [exact Hproc|]. right. right. right. eauto.
  Qed.

  (** a final state of a parse from token i on *)
  Lemma final_all p i : In p ps -> i < length toks -> parsed_tokens p (skipn i toks) ->
    (forall S k, reports p S k -> In S starts /\ Match tmatch G toks S i (i + k)) ->
    forall ref, In ref (p_finals p) -> exists s x a b, p_state p ref = Ret s /\ tag s = Ret x /\ In x starts /\
      reports p x (fst ref) /\ 0 < fst ref /\
      nth_error toks i = Some a /\ nth_error toks (i + fst ref - 1) = Some b /\ boundary p s = Ret (tok_start a, tok_end b) /\
      (exists ts n, forall fuel, n <= fuel -> get_trees (p_columns p) fuel ref = Ret ts) /\
      forall fuel ts, get_trees (p_columns p) fuel ref = Ret ts -> ts <> [] /\
        Forall (fun n => exists kid, erase n = PRule GammaRule (gamma_body x) 0 (fst ref) [kid] /\
          tree_of G (accepts_by tmatch) (skipn i toks) (some_range G) (nonterm x) 0 (fst ref) kid) ts.
  Proof using Hords Hproc Hwf Hsep Hne Hany Hio Hps.
    intros Hp Hi Hpt Hrep ref Hr. destruct (in_parse p Hp) as (fuel' & m & mf & i2 & Hi2 & EE).
    destruct (earley_parse_result _ _ _ _ _ _ _ _ _ _ (Hords m) EE) as (_ & _ & R).
    assert (i2 = i) as ->.
    { pose proof R as (_ & _ & Hpt2 & _). unfold parsed_tokens in Hpt, Hpt2. rewrite Hpt in Hpt2. apply (f_equal (@length _)) in Hpt2.
      rewrite !map_length, !skipn_length in Hpt2. lia. }
    destruct (final_completed tmatch ords G text fuel' m mf (skipn i toks) starts p (Hords m) EE ref Hr) as (s & H1 & H2 & H3 & H4).
    destruct (final_position tmatch ords G text fuel' m mf (skipn i toks) starts p (Hords m) EE Hwf ref s Hr H1 (in_order_skip _ _ Hio)) as (P0 & P1 & P2 & _).
    destruct (final_sound _ _ _ _ _ _ _ _ _ R Hr) as (s' & A1 & G1 & C1).
    destruct ref as [c r]. cbn [fst snd] in *. pose proof H1 as H1'. apply p_state_at in H1'. rewrite H1' in A1. injection A1 as <-.
    pose proof R as (_ & Hfin & _).
    destruct (final_facts tmatch (ords m) G (skipn i toks) starts Hwf _ Hfin c r s H1' G1 C1) as (x & Hx & Tx & _).
    assert (Rx : reports p x c) by (exists (c, r), s; auto).
    destruct (Hrep x c Rx) as (_ & HM). destruct (match_match_nonempty tmatch G toks Hne x i (i + c) HM) as [Hlt _].
    assert (Hc : 0 < c) by lia. rewrite skipn_length in P1.
    destruct (nth_error toks i) as [a|] eqn:Ea; [|apply nth_error_None in Ea; lia].
    destruct (nth_error toks (i + c - 1)) as [b|] eqn:Eb; [|apply nth_error_None in Eb; lia].
    exists s, x, a, b. split; [exact H1|]. split; [exact Tx|]. split; [exact Hx|]. split; [exact Rx|]. split; [exact Hc|].
    split; [reflexivity|]. split; [reflexivity|]. split.
    { apply P2; [rewrite nth_error_skipn, Nat.add_0_r; exact Ea| |lia].
      rewrite nth_error_skipn, H4. replace (i + (c - 1)) with (i + c - 1) by lia. exact Eb. }
    split; [eapply state_trees_terminate; eauto|].
    intros fuel ts Ets. split; [exact (state_trees_nonempty tmatch ords G text fuel' m mf (skipn i toks) starts p (Hords m) EE Hsep (c, r) s fuel ts Hany H1 H3 Ets)|].
    destruct (trees_are_lax_parse_trees tmatch ords G text fuel' m mf (skipn i toks) starts p (Hords m) EE Hwf Hsep (c, r) fuel ts Hr Ets)
      as (s1 & S & Q1 & Q2 & Q3). rewrite H1 in Q1. injection Q1 as <-. rewrite Tx in Q2. injection Q2 as <-. rewrite H4 in Q3. exact Q3.
  Qed.

  Lemma where_parses : exists is, StronglySorted lt is /\
    Forall2 (fun i p => In p ps /\ i < length toks /\ parsed_tokens p (skipn i toks)
                  /\ forall S k, reports p S k <-> In S starts /\ Match tmatch G toks S i (i + k)) is ps /\
    (forall i, In i is <-> i < length toks /\ match_at tmatch G toks starts i).
  Proof using Hords Hproc Hwf Hu Hne Hps.
    destruct (all_exact tmatch ords gs annotate local_grammar ctx text starts toks l Hords Hproc Hwf fuel0 ps Hu Hne Hps) as (is & Hs & F & Hin).
    fold G in F, Hin. exists is. split; [exact Hs|]. split; [|exact Hin].
    assert (Hlt : forall i, In i is -> i < length toks) by (intros i H; apply Hin; exact H).
    assert (K : forall l1 l2, Forall2 (fun i p => parsed_tokens p (skipn i toks) /\ forall S k, reports p S k <-> In S starts /\ Match tmatch G toks S i (i + k)) l1 l2 ->
      (forall i, In i l1 -> i < length toks) -> (forall p, In p l2 -> In p ps) ->
      Forall2 (fun i p => In p ps /\ i < length toks /\ parsed_tokens p (skipn i toks)
                  /\ forall S k, reports p S k <-> In S starts /\ Match tmatch G toks S i (i + k)) l1 l2).
    { clear. induction 1 as [|i p l1 l2 [A B] _ IH]; intros H1 H2; constructor.
      - split; [apply H2; left; reflexivity|]. split; [apply H1; left; reflexivity|]. auto.
      - apply IH; intros; [apply H1|apply H2]; right; assumption. }
    apply K; auto.
  Qed.

  Lemma all_final_ok : exists n, forall fuel, n <= fuel -> forall p, In p ps -> Forall (final_ok fuel p) (p_finals p) /\
    forall ref, In ref (p_finals p) -> get_trees (p_columns p) fuel ref = get_trees (p_columns p) n ref.
  Proof using Hords Hproc Hwf Hsep Hu Hne Hany Hio Hnames Hps.
    destruct where_parses as (is & _ & F & _).
    assert (K : forall refs p i, In p ps -> i < length toks -> parsed_tokens p (skipn i toks) ->
      (forall S k, reports p S k <-> In S starts /\ Match tmatch G toks S i (i + k)) -> (forall ref, In ref refs -> In ref (p_finals p)) ->
      exists n, forall fuel, n <= fuel -> Forall (final_ok fuel p) refs /\ forall ref, In ref refs -> exists ts, forall f, n <= f -> get_trees (p_columns p) f ref = Ret ts).
    { clear F. induction refs as [|ref refs IH]; intros p i Hp Hi Hpt Hrep Hin.
      - exists 0. intros fuel _. split; [constructor|intros ref []].
      - destruct (IH p i Hp Hi Hpt Hrep (fun r Hr => Hin r (or_intror Hr))) as (n1 & H1).
        destruct (final_all p i Hp Hi Hpt (fun S k => proj1 (Hrep S k)) ref (Hin ref (or_introl eq_refl)))
          as (s & x & a & b & E1 & E2 & Hx & _ & _ & _ & _ & E3 & (ts & n2 & E4) & _).
        exists (Nat.max n1 n2). intros fuel Hf. split.
        + constructor; [|apply H1; lia]. exists x, (mkSlot (tok_start a) (tok_end b) (map (fun t => (p, t)) ts)).
          split; [|intros ->; exact (Hnames Hx)]. unfold final_slot. rewrite E1. cbn [bind]. rewrite E2. cbn [bind]. rewrite E3. cbn [bind].
          rewrite (E4 fuel) by lia. reflexivity.
        + intros r [<-|Hr]; [exists ts; intros f Hf'; apply E4; lia|].
          destruct (proj2 (H1 n1 (le_n _)) r Hr) as (ts' & E5). exists ts'. intros f Hf'. apply E5. lia. }
    assert (K2 : forall l1 l2, Forall2 (fun i p => In p ps /\ i < length toks /\ parsed_tokens p (skipn i toks)
                  /\ forall S k, reports p S k <-> In S starts /\ Match tmatch G toks S i (i + k)) l1 l2 ->
      exists n, forall fuel, n <= fuel -> forall p, In p l2 -> Forall (final_ok fuel p) (p_finals p) /\ 
        forall ref, In ref (p_finals p) -> exists ts, forall f, n <= f -> get_trees (p_columns p) f ref = Ret ts).
    { induction 1 as [|i p l1 l2 (A & B & C & D) _ (n1 & IH)]; [exists 0; intros fuel _ p []|].
      destruct (K (p_finals p) p i A B C D (fun r Hr => Hr)) as (n2 & H2). exists (Nat.max n1 n2). intros fuel Hf q [<-|Hq].
      - destruct (H2 fuel) as [X1 X2]; [lia|]. split; [exact X1|]. intros ref Hr. destruct (X2 ref Hr) as (ts & E). exists ts. intros f Hf'. apply E. lia.
      - destruct (IH fuel ltac:(lia) q Hq) as [X1 X2]. split; [exact X1|]. intros ref Hr. destruct (X2 ref Hr) as (ts & E). exists ts. intros f Hf'. apply E. lia. }
    destruct (K2 is ps F) as (n & H). exists n. intros fuel Hf p Hp. destruct (H fuel Hf p Hp) as [X1 X2]. split; [exact X1|].
    intros ref Hr. destruct (X2 ref Hr) as (ts & E). rewrite (E fuel), (E n) by lia. reflexivity.
  Qed.

  Definition rule_slot (x : string) (ij : nat * nat) (s : slot) : Prop :=
    at_tokens toks ij s /\ sl_trees s <> [] /\
    forall p n, In (p, n) (sl_trees s) -> parsed_tokens p (skipn (fst ij) toks) /\
      exists kid, erase n = PRule GammaRule (gamma_body x) 0 (snd ij - fst ij) [kid] /\
        tree_of G (accepts_by tmatch) (skipn (fst ij) toks) (some_range G) (nonterm x) 0 (snd ij - fst ij) kid.

  Lemma rule_slots_exact fuel x : (forall p, In p ps -> Forall (final_ok fuel p) (p_finals p)) ->
    exists spans, StronglySorted before_span spans /\
      (forall i j, In (i, j) spans <-> In x starts /\ i < length toks /\ Match tmatch G toks x i j) /\
      Forall2 (rule_slot x) spans (rule_slots fuel ps x).
  Proof using Hords Hproc Hwf Hsep Hu Hne Hany Hty Hio Hps.
    intros Hok. destruct where_parses as (is & Hs & F & Hin).
    assert (K : forall is qs, StronglySorted lt is -> Forall2 (fun i p => In p ps /\ i < length toks /\ parsed_tokens p (skipn i toks)
                  /\ forall S k, reports p S k <-> In S starts /\ Match tmatch G toks S i (i + k)) is qs ->
      exists spans, StronglySorted before_span spans /\
        (forall i j, In (i, j) spans <-> In i is /\ In x starts /\ Match tmatch G toks x i j) /\
        Forall2 (rule_slot x) spans (rule_slots fuel qs x)).
    { clear is Hs F Hin. intros is qs Hs F. revert Hs. induction F as [|i p is qs (Hp & Hi & Hpt & Hrep) F IH]; intros Hs.
      - exists []. split; [constructor|]. split; [|constructor]. intros i j. split; [intros []|intros ([] & _)].
      - inversion Hs as [|? ? Hs' Hall]; subst. destruct (IH Hs') as (spans & A & B & C). clear IH.
        pose proof (final_all p i Hp Hi Hpt (fun S k => proj1 (Hrep S k))) as FA.
        pose proof (proj1 (Forall_forall _ _) (Hok p Hp)) as Hfo.
        destruct (in_parse p Hp) as (fuel' & m & mf & i2 & Hi2 & EE).
        destruct (earley_parse_result _ _ _ _ _ _ _ _ _ _ (Hords m) EE) as (_ & _ & R).
        assert (FS : forall ref s, In ref (p_finals p) -> final_slot fuel p ref = Ret (x, s) -> exists s0, p_state p ref = Ret s0 /\ tag s0 = Ret x).
        { intros ref s Hr Hf. unfold final_slot in Hf. destruct (p_state p ref) as [s0| | |] eqn:E1; cbn [bind] in Hf; try discriminate.
          destruct (tag s0) as [t0| | |] eqn:E2; cbn [bind] in Hf; try discriminate.
          destruct (boundary p s0) as [[a b]| | |]; cbn [bind] in Hf; try discriminate.
          destruct (get_trees (p_columns p) fuel ref) as [ts| | |]; cbn [bind] in Hf; try discriminate. injection Hf as <- _. eauto. }
        destruct (slots_ordered fuel p x (p_finals p)) as (ks & K1 & K2 & K3).
        { apply sorted_le_strong. destruct R as (_ & _ & _ & fs0 & _ & Hsd & Hf). rewrite Hf. destruct mf; [|exact Hsd].
          destruct fs0 as [|z fs0]; cbn [firstn]; intros l1 y1 y2 l2 E; destruct l1 as [|z1 l1]; try discriminate. destruct l1; discriminate. }
        { exact (finals_nodup _ _ _ _ _ _ _ _ _ _ (Hords m) EE). }
        { intros r1 r2 s1 s2 H1 H2 E1 E2. destruct (FS r1 s1 H1 E1) as (u1 & U1 & T1). destruct (FS r2 s2 H2 E2) as (u2 & U2 & T2).
          exact (finals_distinct _ _ _ _ _ _ _ _ _ _ (Hords m) EE Hwf Hty r1 r2 u1 u2 x H1 H2 U1 U2 T1 T2). }
        assert (K4 : forall k, In k ks <-> In x starts /\ Match tmatch G toks x i (i + k)).
        { intros k. rewrite <- (Hrep x k), K2. split.
          - intros (ref & s & Hr & Hf & <-). destruct (FS ref s Hr Hf) as (s0 & E1 & E2).
            destruct (FA ref Hr) as (s1 & x1 & a & b & E1' & E2' & _ & Rx & _). rewrite E1 in E1'. injection E1' as <-.
            rewrite E2 in E2'. injection E2' as <-. exact Rx.
          - intros (ref & s0 & Hr & E1 & E2 & _ & He). destruct (Hfo ref Hr) as (tg & s & Hf & _). exists ref, s. split; [exact Hr|].
            destruct (final_completed tmatch ords G text fuel' m mf (skipn i2 toks) starts p (Hords m) EE ref Hr) as (s' & H1 & _ & _ & H4).
            rewrite E1 in H1. injection H1 as <-. split; [|congruence].
            pose proof Hf as Hf'. unfold final_slot in Hf'. rewrite E1 in Hf'. cbn [bind] in Hf'. rewrite E2 in Hf'. cbn [bind] in Hf'.
            destruct (boundary p s0) as [[a b]| | |]; cbn [bind] in Hf'; try discriminate.
            destruct (get_trees (p_columns p) fuel ref) as [ts| | |]; cbn [bind] in Hf'; try discriminate. injection Hf' as <- _. exact Hf. }
        exists (map (fun k => (i, i + k)) ks ++ spans). split; [|split].
        + assert (X : forall a b, In (a, b) spans -> i < a).
          { intros a b H. apply B in H. rewrite Forall_forall in Hall. apply Hall. apply H. }
          clear - K1 A X. induction K1 as [|k ks K1 IH Hk]; cbn [map app]; [exact A|]. constructor; [exact IH|].
          apply Forall_forall. intros [a b] H. apply in_app_or in H. destruct H as [H|H]; [|left; apply (X a b H)].
          apply in_map_iff in H. destruct H as (k' & E & H). injection E as <- <-. right. cbn. split; [reflexivity|].
          rewrite Forall_forall in Hk. specialize (Hk k' H). lia.
        + intros a b. rewrite in_app_iff, in_map_iff, B. cbn [In]. split.
          * intros [(k & E & Hk)|(H1 & H2)]; [injection E as <- <-; apply K4 in Hk; auto|auto].
          * intros ([<-|H1] & H2 & H3); [left|auto]. exists (b - i). pose proof (match_le _ _ _ _ _ _ H3).
            assert (Eb : i + (b - i) = b) by lia. rewrite Eb. split; [reflexivity|]. apply K4. rewrite Eb. auto.
        + rewrite rule_slots_app. apply Forall2_app; [|exact C].
          assert (FS2 : forall k s, (exists ref, In ref (p_finals p) /\ final_slot fuel p ref = Ret (x, s) /\ fst ref = k) -> rule_slot x (i, i + k) s).
          { intros k s (ref & Hr & Hf & <-). destruct (FS ref s Hr Hf) as (s0 & E1 & E2).
            destruct (FA ref Hr) as (s1 & x1 & a & b & E1' & E2' & _ & _ & Hc & Ea & Eb & Ebd & _ & Ht). rewrite E1 in E1'. injection E1' as <-.
            rewrite E2 in E2'. injection E2' as <-. unfold final_slot in Hf. rewrite E1 in Hf. cbn [bind] in Hf. rewrite E2 in Hf. cbn [bind] in Hf.
            rewrite Ebd in Hf. cbn [bind] in Hf.
            destruct (get_trees (p_columns p) fuel ref) as [ts| | |] eqn:Ets; cbn [bind] in Hf; try discriminate. injection Hf as <-.
            destruct (Ht fuel ts Ets) as (Hn & Hft). unfold rule_slot. cbn [fst snd sl_trees]. split.
            - exists a, b. cbn [fst snd sl_start sl_end]. auto.
            - split; [intros E; apply Hn; destruct ts; [reflexivity|discriminate]|].
              intros q n Hq. apply in_map_iff in Hq. destruct Hq as (n' & E & Hq). injection E as <- <-. split; [exact Hpt|].
              rewrite Forall_forall in Hft. replace (i + fst ref - i) with (fst ref) by lia. apply Hft. exact Hq. }
          clear - K3 FS2. induction K3 as [|k s ks ss H _ IH]; cbn [map]; constructor; auto. }
    destruct (K is ps Hs F) as (spans & A & B & C). exists spans. split; [exact A|]. split; [|exact C].
    intros i j. rewrite B. split.
    - intros (H1 & H2 & H3). split; [exact H2|]. split; [apply Hin; exact H1|exact H3].
    - intros (H1 & H2 & H3). split; [|auto]. apply Hin. split; [exact H2|]. exists x, j. auto.
  Qed.
End Slots.

(** ** from the text *)
Section Written.
  Variables letter digit : rune -> bool.
  Variable scan_float : string -> res bigf.
  Variable regexp_ok : string -> bool.
  Variable md5 : string -> string.
  Lemma w_item_name it re w : w_item letter digit scan_float regexp_ok md5 it re w -> it_name it <> ""%string.
  Proof.
    intros H. assert (K : forall x, name_text letter digit x -> encode x <> ""%string).
    { intros [|c x]; [intros []|]. intros _. cbn [encode]. destruct (encode_rune c) eqn:E; [|discriminate].
      exfalso. revert E. unfold encode_rune. repeat match goal with |- context[if ?b then _ else _] => destruct b end; discriminate. }
    inversion H; subst; cbn [it_name]; eauto.
  Qed.
  Lemma w_items_name its re w : w_items letter digit scan_float regexp_ok md5 its re w -> forall it, In it its -> it_name it <> ""%string.
  Proof. induction 1 as [|g it re w l re' w' _ Hi _ IH]; intros i [<-|H] || intros i []; eauto using w_item_name. Qed.
  Lemma w_file_name ps its re w : w_file letter digit scan_float regexp_ok md5 ps its re w -> forall it, In it its -> it_name it <> ""%string.
  Proof. induction 1; eauto using w_items_name. Qed.
End Written.

Lemma denotes_named hash its fr m x r : denotes hash its fr m -> In (x, r) m ->
  r_name r = x /\ NoDup (map fst (r_body r)) /\ exists it, In it its /\ it_name it = x.
Proof.
  intros (D1 & D2 & D3) Hr. apply (in_lookup m x r D1) in Hr.
  destruct (written its fr x) as [|b bs] eqn:E; [rewrite (D2 x E) in Hr; discriminate|].
  destruct (D3 x) as (r' & Lr & En & N & _); [congruence|]. rewrite Hr in Lr. injection Lr as <-. split; [exact En|]. split; [exact N|].
  assert (Hin : In b (written its fr x)) by (rewrite E; left; reflexivity). unfold written in Hin. apply in_flat_map in Hin.
  destruct Hin as (it & Hit & Hb). exists it. split; [exact Hit|].
  destruct (Bool.eqb (it_frame it) fr && String.eqb (it_name it) x)%bool eqn:Eb; [|destruct Hb].
  apply Bool.andb_true_iff in Eb. destruct Eb as [_ Eb]. apply String.eqb_eq. exact Eb.
Qed.

Lemma get_N_in' {A} (l : list (N * A)) k a : NoDup (map fst l) -> In (k, a) l -> get_N l k = Some a.
Proof.
  induction l as [|[k' a'] l IH]; cbn [map fst get_N]; [intros _ []|]. intros N. inversion N; subst. intros [E|H].
  - injection E as -> ->. rewrite N.eqb_refl. reflexivity.
  - destruct (N.eqb_spec k' k) as [->|_]; [|auto]. exfalso. apply H1. apply (in_map fst) in H. exact H.
Qed.

Section FromText.
  Variable e : env.
  Variables (d0 : string) (g : grammar) (L : list refined).
  Hypothesis HP : e_parts e d0 g L.
  Hypothesis Hinc : g_includes g = [].
  Hypothesis Hidx : forall ps its re rules, e_text e d0 ps its re -> denotes (e_hash e) its false rules -> index_exact g rules.
  Hypothesis HS : sound_texts (e_tokenize e) L.
  Variable key : term -> N.
  Variable multi_match : list string -> string -> res (list (string * list (nat * nat))).
  Variable fo : frame_orders.
  Hypothesis Hfo : frame_orders_ok fo.
  Variable tmatch : term -> option token -> bool.
  Variable ords : nat -> order.
  Hypothesis Hords : orders ords.
  Variable find_all : string -> string -> option (list (nat * nat)).
  Variable span_text : document -> nat -> nat -> string.
  Variable ord : nat -> list (string * entry) -> list (string * entry).
  Hypothesis Hord : forall i l, Permutation l (ord i l).
  Variable annotate : string -> string -> res document.
  Variables (ctx text : string) (d : document).
  Hypothesis Ht : trim_space text <> ""%string.
  Hypothesis Ha : annotate ctx (trim_space text) = Ret d.
  Hypothesis Hfit : fit_document (e_hash e) find_all (g_regexps g) d.
  Hypothesis Hio : in_order (content d).
  Variable matches : list (string * list (nat * nat)).
  Hypothesis Hm : multi_match (g_trie g) text = Ret matches.
  Hypothesis Hmn : NoDup (map fst matches).
  Hypothesis Hmt : forall w, In w (map fst matches) -> In w (g_trie g).
  Notation before := (map rd_before L).
  Notation local_ := (doc_local (e_hash e) find_all span_text (g_regexps g) ord annotate ctx text).

  Lemma single : exists p its, L = [p] /\ index_exact g (rd_before p) /\ denotes (e_hash e) its true (g_frames g) /\
    denotes (e_hash e) its false (rd_before p) /\ (forall it, In it its -> it_name it <> ""%string) /\
    (forall it b, In it its -> In b (it_bodies it) -> written_body b).
  Proof using HP Hinc Hidx.
    destruct HP as (p & ps & EL & E & (qs & its & re & T1 & T2 & T3 & _) & HF). rewrite Hinc in HF. inversion HF as [Ei Ep|]. rewrite <- Ep in EL.
    exists p, its. split; [exact EL|]. split; [eapply Hidx; eauto|]. split; [exact T2|]. split; [exact T3|].
    destruct T1 as [(w & _ & _ & Hf)|(_ & _ & -> & _)]; [|split; [intros it []|intros it b []]]. split; [eapply w_file_name; eauto|].
    intros it b. eapply w_file_kind; eauto.
  Qed.

  Lemma wanted_own x : wanted before (map fst matches) x -> x <> ""%string /\ x <> GammaRule /\ own_name before x.
  Proof using HP Hinc Hidx HS.
    destruct single as (p & its & EL & _ & _ & D & Hn & _). rewrite EL. cbn [map].
    assert (K : forall ty k v, mentioned [rd_before p] ty k v -> exists r, In (fst v, r) (rd_before p)).
    { intros ty k v (m & y & r & b & [<-|[]] & Hr & En & _). destruct (denotes_named _ _ _ _ _ _ D Hr) as (E & _).
      exists r. rewrite <- En, E. exact Hr. }
    intros H. assert (exists r, In (x, r) (rd_before p)) as (r & Hr) by (inversion H; eauto).
    destruct (denotes_named _ _ _ _ _ _ D Hr) as (_ & _ & it & Hit & <-). split; [apply Hn; exact Hit|].
    pose proof D as (D1 & _). apply (in_lookup _ _ _ D1) in Hr. split.
    - intros E. destruct HS as (_ & _ & _ & _ & _ & _ & HG). rewrite EL in HG. specialize (HG (rd_before p) (or_introl eq_refl)). congruence.
    - left. exists (rd_before p). split; [left; reflexivity|]. congruence.
  Qed.

  Lemma listed_frame ix k i v : ix = g_index g \/ ix = g_rule_index g -> lookup ix k = Some i -> In v (ix_frames i) ->
    exists b, frame_body g v = Ret b.
  Proof using HP Hinc Hidx.
    intros Hix Lk Hv. destruct single as (p & its & EL & HI & D & _). destruct HI as (HI & _). rewrite Hinc in HI. cbn [map] in HI.
    assert (M : exists ty, mentioned [g_frames g] ty k v).
    { destruct (HI k v) as (I1 & _ & I3 & _). destruct Hix as [->| ->]; eexists; [apply I1|apply I3]; exists i; auto. }
    destruct M as (ty & m & y & r & b & [<-|[]] & Hr & En & Hb & _). destruct (denotes_named _ _ _ _ _ _ D Hr) as (E & N & _).
    pose proof D as (D1 & _). apply (in_lookup _ _ _ D1) in Hr. unfold frame_body. rewrite <- En, E, Hr.
    rewrite (get_N_in' _ _ _ N Hb). eauto.
  Qed.

  Lemma own_frame v b : frame_body g v = Ret b -> frame_is g v b /\ rb_terms b <> [].
  Proof using HP Hinc Hidx.
    destruct single as (p & its & EL & _ & D & _ & _ & Hw). intros H. unfold frame_body in H.
    destruct (lookup (g_frames g) (fst v)) as [r|] eqn:Lf; [|discriminate]. destruct (get_N (r_body r) (snd v)) as [b'|] eqn:Eb; [|discriminate].
    injection H as ->. pose proof Lf as Lf'. apply lookup_some_in in Lf'. destruct (denotes_named _ _ _ _ _ _ D Lf') as (E & N & _).
    apply get_N_some in Eb. split.
    - split; [unfold frame_body; rewrite Lf, (get_N_in' _ _ _ N Eb); reflexivity|]. split; [intros r' Hr'; congruence|].
      rewrite Hinc. cbn [map]. intros m y r' b' [<-|[]] Hr' En Hb'. destruct (denotes_named _ _ _ _ _ _ D Hr') as (E' & _).
      pose proof D as (D1 & _). apply (in_lookup _ _ _ D1) in Hr'. rewrite <- E', En, Lf in Hr'. injection Hr' as <-.
      apply (get_N_in' _ _ _ N) in Hb'. rewrite (get_N_in' _ _ _ N Eb) in Hb'. congruence.
    - destruct (denotes_written _ _ _ _ _ _ _ _ D Lf' Eb) as (Hin & _). apply in_written in Hin. destruct Hin as (it & Hit & Hb).
      apply (Hw it b Hit Hb).
  Qed.

  Lemma candidates_found : exists fs starts n, (forall fuel, n <= fuel -> get_candidates g key multi_match fo fuel text = Ret (fs, starts)) /\
    NoDup starts /\ forall x, In x starts <-> wanted before (map fst matches) x.
  Proof using HP Hinc Hidx Hfo Hm Hmt.
    destruct single as (p & its & EL & HI & _).
    destruct (candidates_stop g key (fun ws t => if String.eqb t text then multi_match ws t else Err)) as (n & Hn).
    { intros t. destruct (String.eqb_spec t text) as [->|_]; [congruence|discriminate]. }
    specialize (Hn fo n text Hfo (le_n _)). unfold get_candidates in Hn. rewrite String.eqb_refl, Hm in Hn. cbn [bind] in Hn.
    destruct (words_ret g key fo Hfo listed_frame (fo_matches fo matches)) with (fs := @nil (rbkey * frame)) (rs := @nil string) as (fs & rs & EW).
    { intros w Hw. destruct HI as (_ & HT & _). apply HT, Hmt. eapply Permutation_in; [apply Permutation_map, Permutation_sym, Hfo|exact Hw]. }
    rewrite EW in Hn. cbn [bind] in Hn. destruct (closure g fo n (fo_queue fo rs) rs) as [out| | |] eqn:EC; cbn [bind] in Hn; try (destruct Hn; reflexivity).
    2, 3: destruct (closure_out g fo n (fo_queue fo rs) rs) as [Ef|(o & Eo)]; congruence.
    assert (E : forall fuel, n <= fuel -> get_candidates g key multi_match fo fuel text = Ret (fs, fo_starts fo out)).
    { intros fuel Hf. unfold get_candidates. rewrite Hm. cbn [bind]. rewrite EW. cbn [bind].
      rewrite (closure_more g fo n fuel _ _ _ Hf EC). reflexivity. }
    exists fs, (fo_starts fo out), n. split; [exact E|].
    destruct (starts_exact g (rd_before p) HI key multi_match fo n text fs (fo_starts fo out) matches Hfo Hm (E n (le_n _))) as [N S].
    rewrite Hinc in S. rewrite EL. cbn [map] in *. auto.
  Qed.

  Notation means := (Means (e_tokenize e) tmatch before find_all (g_regexps g) d).
  Notation filled := (term_filled (e_tokenize e) tmatch before find_all (g_regexps g) d matches).
  Notation seen := (term_seen (e_tokenize e) tmatch before find_all (g_regexps g) d matches).
  Notation MFx := (MatchFrames g key multi_match fo tmatch ords (doc_tokens annotate) local_).

  Lemma nothing_wanted : (forall x, ~ wanted before (map fst matches) x) -> exists n, forall fuel, n <= fuel -> MFx fuel ctx text = Err.
  Proof using HP Hinc Hidx Hfo Hm Hmt Ht Ha Hfit.
    intros Hw. destruct candidates_found as (fs & starts & n & E & _ & S). exists n. intros fuel Hf.
    assert (starts = []) as -> by (destruct starts as [|x l]; [reflexivity|]; destruct (Hw x); apply S; left; reflexivity).
    unfold MatchFrames. rewrite (E fuel Hf). cbn [bind]. destruct Hfit as (F1 & F2 & F3 & _).
    destruct (local_process (e_hash e) find_all span_text (g_regexps g) ord annotate ctx text d Ht Ha F2) as (_ & _ & P).
    destruct (P F1 F3) as (l & P1 & _). unfold EarleyParseAll. rewrite P1. cbn [bind].
    clear Hio. destruct (content d) as [|k ks]; [congruence|]. reflexivity.
  Qed.

  Lemma frames_of_text : (exists x, wanted before (map fst matches) x) ->
    exists fs n, (forall fuel, n <= fuel -> MFx fuel ctx text = Ret fs) /\
      (forall v f, In (v, f) fs -> exists b, frame_body g v = Ret b) /\
      forall v b, frame_body g v = Ret b -> Forall plain_term (rb_terms b) -> NoDup (map key (rb_terms b)) ->
        (forall t, In t (rb_terms b) -> filled t (match get_key fs v with Some f => slots_for key f t | None => [] end)) /\
        ((exists f, In (v, f) fs /\ fr_complete f = true) <-> forall t, In t (rb_terms b) -> seen t).
  Proof using All.
    intros (x0 & Hx0). destruct candidates_found as (fs0 & starts & n1 & E1 & NS & S).
    assert (HU : usable (e_tokenize e) L starts).
    { destruct HS as (U1 & U2 & U3 & U4 & U5 & U6 & _). unfold usable. repeat (split; [assumption|]). split.
      - intros E. apply S in Hx0. rewrite E in Hx0. destruct Hx0.
      - intros y Hy. apply S in Hy. apply wanted_own in Hy. tauto. }
    assert (Hnm : ~ In ""%string starts).
    { intros H. apply S in H. apply wanted_own in H. destruct H as [H _]. apply H. reflexivity. }
    pose proof HU as (U1 & U2 & U3 & U4 & U5 & U6 & U7 & U8). destruct Hfit as (F1 & F2 & F3 & F4 & F5 & F6 & F7).
    destruct (local_process (e_hash e) find_all span_text (g_regexps g) ord annotate ctx text d Ht Ha F2) as (_ & _ & Pl).
    destruct (Pl F1 F3) as (l & P & P2).
    assert (H1 : well_formed (with_local (all_rules g) l) starts).
    { eapply call_hypotheses; eauto. intros H. destruct (U8 _ H) as [K _]. exact (K eq_refl). }
    assert (H2 : uniform_ranges (with_local (all_rules g) l)) by (eapply call_uniform; eauto).
    pose proof (call_nonempty e d0 g L HP (e_hash e) find_all span_text ord d Hord F2 l P2 U6 F5) as H3.
    pose proof (call_typed e d0 g L HP (e_hash e) find_all span_text ord d Hord F2 l P2 F4) as H4.
    destruct (call_separated e d0 g L HP (e_hash e) find_all span_text ord d Hord F2 l P2) as (H5 & H6).
    destruct (all_call_terminates tmatch ords (all_rules g) _ _ ctx text starts _ l Hords P H4 U7) as (ps & n2 & E2).
    pose proof (E2 n2 (le_n _)) as E2'.
    destruct (all_final_ok tmatch ords (all_rules g) _ _ ctx text starts _ l Hords P H1 H5 H2 H3 H6 Hio Hnm n2 ps E2') as (n3 & E3).
    destruct (parses_ret g key fo Hfo listed_frame n3 ps (fun p Hp => proj1 (E3 n3 (le_n _) p Hp)) 0 fs0) as (fs & E4).
    set (n := n1 + n2 + n3).
    assert (EM : forall fuel, n <= fuel -> MFx fuel ctx text = Ret fs).
    { intros fuel Hf. unfold MatchFrames. rewrite E1 by (unfold n in Hf; lia). cbn [bind]. rewrite E2 by (unfold n in Hf; lia). cbn [bind].
      rewrite (parses_fuel g key fo fuel n3 ps); [exact E4|]. intros p ref Hp Hr. apply (E3 fuel); [unfold n in Hf; lia|exact Hp|exact Hr]. }
    exists fs, n. split; [exact EM|]. destruct single as (p0 & its & EL & HI & _).
    split; [intros v f Hv; eapply result_own; [apply (EM n (le_n _))|exact Hv]|].
    destruct (frames_found g (rd_before p0) HI key multi_match fo Hfo tmatch ords (doc_tokens annotate) local_ n ctx text fs (EM n (le_n _)))
      as (ms & fs1 & sts & qs & Q1 & Q2 & Q3 & Q4).
    { intros ms E. rewrite Hm in E. injection E as <-. exact Hmn. }
    rewrite Hm in Q1. injection Q1 as <-. rewrite E1 in Q2 by (unfold n; lia). injection Q2 as <- <-.
    rewrite E2 in Q3 by (unfold n; lia). injection Q3 as <-.
    assert (RF : forall x, rule_filled (e_tokenize e) tmatch before find_all (g_regexps g) d matches x (rule_slots n ps x)).
    { intros x. destruct (rule_slots_exact tmatch ords (all_rules g) _ _ ctx text starts _ l Hords P H1 H5 H2 H3 H6 H4 Hio n2 ps E2' n x) as (spans & A & B & C).
      { intros p Hp. apply (E3 n); [unfold n; lia|exact Hp]. }
      exists spans. split; [exact A|]. split.
      - intros i j. rewrite B. unfold seen_rule. rewrite S. split; intros (W & I & M); (split; [exact W|]); (split; [exact I|]);
          (eapply (means_language e d0 g L HP U1 U2 U3 tmatch (e_hash e) find_all span_text ord d Hord F2 F6 F7 l P2 x i j); [apply U8, S; exact W|exact M]).
      - assert (W : forall ij, In ij spans -> In x starts) by (intros [i j] H; apply B in H; apply H).
        clear - C W HP U1 U2 U3 U5 U8 Hord F2 F7 P2. induction C as [|ij s spans ss (A1 & A2 & A3) C IH]; constructor.
        + split; [exact A1|]. split; [exact A2|]. intros p nd Hn. destruct (A3 p nd Hn) as (A4 & kid & A5 & A6). split; [exact A4|].
          exists kid. split; [exact A5|].
          eapply (proj1 (text_trees_of e d0 g L HP U1 U2 U3 U5 tmatch (e_hash e) find_all span_text ord d Hord F2 F7 l P2 _)); [exact A6|].
          right. split; [discriminate|]. split; [reflexivity|]. split; [|intros [H|H]; discriminate H].
          intros _. apply (own_not_generated e d0 g L HP x U1). apply U8. exact (W ij (or_introl eq_refl)).
        + apply IH. intros ij' H. exact (W ij' (or_intror H)). }
    intros v b Hb Hp Hk. destruct (own_frame v b Hb) as [Hfi Hbn]. destruct (Q4 v b Hfi Hp Hk Hbn) as [Q5 Q6].
    assert (FF : forall t, filled t (found matches n ps t)).
    { intros t. unfold term_filled, found. destruct (t_type t); auto. }
    split; [intros t Hin; rewrite (Q5 t Hin); apply FF|]. rewrite Q6.
    assert (FS : forall t, found matches n ps t <> [] <-> seen t).
    { intros t. specialize (FF t). unfold term_filled, term_seen, found, word_slots in *. destruct (t_type t); try (split; [congruence|intros []]).
      - destruct FF as (spans & _ & B & C). split.
        + intros Hn. inversion C as [E E'|[i j] s sp ss Hs C' E E']; [congruence|]. exists i, j. apply B. rewrite <- E. left. reflexivity.
        + intros (i & j & H) E. apply B in H. rewrite E in C. inversion C as [E'|]; subst. destruct H.
      - destruct (lookup matches (t_value t)) as [hits|].
        + split; [intros H; exists hits; split; [reflexivity|intros ->; apply H; reflexivity]|]. intros (h & E & Hn) E'. injection E as <-.
          destruct hits; [congruence|discriminate].
        + split; [congruence|]. intros (h & E & _). discriminate. }
    split; intros H t Hin; apply FS, H; exact Hin.
  Qed.
End FromText.
