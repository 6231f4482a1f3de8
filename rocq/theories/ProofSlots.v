(** What is in the slots of a frame, and when it is complete. *)
From Coq Require Import Lia Permutation.
From Verif Require Import Base ModelTypes ModelText ModelEarley ModelTrees ModelApi ModelSem
  ModelReader ModelGrammar ModelFrames SpecIndex SpecFrames ProofTerm ProofRefine ProofReaderMain ProofIndex ProofFrames.

(** A frame receives slots under a key. *)
Definition event := (rbkey * (N * list slot))%type.
Definition hit_of (v : rbkey) (k : N) (e : event) : bool := rbkey_eqb (fst e) v && N.eqb (fst (snd e)) k.
Definition sel (v : rbkey) (k : N) (evs : list event) : list slot :=
  concat (map (fun e => snd (snd e)) (filter (hit_of v k) evs)).
Lemma sel_app v k a b : sel v k (a ++ b) = sel v k a ++ sel v k b.
Proof. unfold sel. rewrite filter_app, map_app, concat_app. reflexivity. Qed.
Lemma sel_flat {A} v k (f : A -> list event) l : sel v k (flat_map f l) = flat_map (fun a => sel v k (f a)) l.
Proof. induction l as [|a l IH]; cbn [flat_map]; [reflexivity|]. rewrite sel_app, IH. reflexivity. Qed.
Lemma sel_one v k k' new vs : NoDup vs ->
  sel v k (map (fun v' => (v', (k', new))) vs) = if N.eqb k' k && existsb (rbkey_eqb v) vs then new else [].
Proof.
  induction vs as [|u vs IH]; intros N; [rewrite andb_false_r; reflexivity|]. inversion N; subst.
  cbn [map existsb]. change ((u, (k', new)) :: map (fun v' => (v', (k', new))) vs) with ([(u, (k', new))] ++ map (fun v' : rbkey => (v', (k', new))) vs).
  rewrite sel_app, (IH H2). unfold sel, hit_of. cbn [filter map fst snd concat].
  destruct (rbkey_eqb u v) eqn:E.
  - apply rbkey_eqb_eq in E. subst u. rewrite rbkey_eqb_refl.
    assert (X : existsb (rbkey_eqb v) vs = false).
    { destruct (existsb (rbkey_eqb v) vs) eqn:X; [|reflexivity]. apply existsb_exists in X. destruct X as (u & Hu & E).
      apply rbkey_eqb_eq in E. subst u. contradiction. }
    rewrite X. cbn [andb orb]. destruct (N.eqb k' k); cbn [andb map concat]; rewrite ?app_nil_r; reflexivity.
  - assert (E2 : rbkey_eqb v u = false) by (destruct (rbkey_eqb v u) eqn:E2; [apply rbkey_eqb_eq in E2; subst; rewrite rbkey_eqb_refl in E; discriminate|reflexivity]).
    rewrite E2. cbn [andb orb map concat app]. reflexivity.
Qed.
Lemma sel_none v k evs : (forall e, In e evs -> fst e = v -> fst (snd e) <> k) -> sel v k evs = [].
Proof.
  intros H. unfold sel. assert (K : filter (hit_of v k) evs = []); [|rewrite K; reflexivity].
  induction evs as [|e evs IH]; [reflexivity|]. cbn [filter]. destruct (hit_of v k e) eqn:E; [|apply IH; intros; apply H; [right|]; assumption].
  unfold hit_of in E. apply andb_true_iff in E. destruct E as [E1 E2]. apply rbkey_eqb_eq in E1. apply N.eqb_eq in E2.
  destruct (H e (or_introl eq_refl) E1 E2).
Qed.

Section Play.
  Variable g : grammar.
  Fixpoint play (evs : list event) (fs : frames) : res frames :=
    match evs with
    | [] => Ret fs
    | (v, (k, new)) :: evs' => fs' <- fill g k new fs v ;; play evs' fs'
    end.
  Lemma play_app a b fs : play (a ++ b) fs = (fs' <- play a fs ;; play b fs').
  Proof.
    revert fs. induction a as [|(v, (k, new)) a IH]; intros fs; cbn [app play bind]; [reflexivity|].
    destruct (fill g k new fs v) as [fs1| | |]; cbn [bind]; auto.
  Qed.
  Lemma fill_all_play k new vs : forall fs, fill_all g k new vs fs = play (map (fun v => (v, (k, new))) vs) fs.
  Proof. induction vs as [|v vs IH]; intros fs; cbn [fill_all map play]; [reflexivity|]. destruct (fill g k new fs v); cbn [bind]; auto. Qed.

  (** what the events leave behind *)
  Definition left_by (evs : list event) (fs : frames) : Prop :=
    NoDup (map fst fs) /\
    forall v, match get_key fs v with
      | None => ~ In v (map fst evs)
      | Some f => In v (map fst evs) /\ exists b, frame_body g v = Ret b /\
          fr_complete f = Nat.leb (length (rb_terms b)) (length (fr_slots f)) /\
          NoDup (map fst (fr_slots f)) /\
          (forall k, match get_N (fr_slots f) k with Some l => l | None => [] end = sel v k evs) /\
          (forall k, get_N (fr_slots f) k <> Some [])
      end.
  Lemma append_slots k new : forall m, NoDup (map fst m) -> (forall k', get_N m k' <> Some []) ->
    let m' := fold_left (append_slot k) new m in
    NoDup (map fst m') /\ (forall k', get_N m' k' <> Some []) /\ length m <= length m' /\
    forall k', match get_N m' k' with Some l => l | None => [] end
               = match get_N m k' with Some l => l | None => [] end ++ if N.eqb k k' then new else [].
  Proof.
    induction new as [|s new IH]; intros m N H; cbn [fold_left].
    - cbn zeta. split; [exact N|]. split; [exact H|]. split; [lia|]. intros k'. destruct (N.eqb k k'); rewrite app_nil_r; reflexivity.
    - destruct (IH (append_slot k m s)) as (I1 & I2 & I3 & I4).
      + apply put_N_nodup. exact N.
      + intros k'. unfold append_slot. rewrite get_put_N. destruct (N.eqb k k'); [|apply H]. intros E. inversion E. destruct (app_cons_not_nil _ _ _ (eq_sym H1)).
      + cbn zeta in *. split; [exact I1|]. split; [exact I2|]. split.
        * etransitivity; [|exact I3]. unfold append_slot. clear. induction m as [|[k1 a1] m IH]; cbn [put_N]; [cbn; lia|].
          assert (K : forall a, length m <= length (put_N m k a)).
          { clear. induction m as [|[k2 a2] m IH]; intros a; cbn [put_N length]; [lia|]. destruct (N.eqb k2 k); cbn [length]; [lia|]. specialize (IH a). lia. }
          destruct (N.eqb k1 k); cbn [length]; [lia|]. apply le_n_S, K.
        * intros k'. rewrite I4. unfold append_slot. rewrite get_put_N. destruct (N.eqb k k') eqn:E; [|reflexivity].
          apply N.eqb_eq in E. subst k'. rewrite <- app_assoc. reflexivity.
  Qed.
  Lemma fill_left v k new evs fs fs' : left_by evs fs -> fill g k new fs v = Ret fs' -> left_by (evs ++ [(v, (k, new))]) fs'.
  Proof.
    intros [N L]. unfold fill. set (f := match get_key fs v with Some f => f | None => mkFrame [] false end).
    destruct (frame_body g v) as [b| | |] eqn:Eb; cbn [bind]; try discriminate. intros E. inversion E; subst fs'. clear E.
    assert (Hf : NoDup (map fst (fr_slots f)) /\ (forall k', get_N (fr_slots f) k' <> Some []) /\
                 (fr_complete f = true -> length (rb_terms b) <= length (fr_slots f)) /\
                 forall k', match get_N (fr_slots f) k' with Some l => l | None => [] end = sel v k' evs).
    { specialize (L v). subst f. destruct (get_key fs v) as [f|].
      - destruct L as (_ & b' & Eb' & L1 & L2 & L3 & L4). rewrite Eb in Eb'. inversion Eb'; subst b'.
        split; [exact L2|]. split; [exact L4|]. split; [|exact L3]. rewrite L1. apply Nat.leb_le.
      - cbn [fr_slots fr_complete map get_N]. split; [constructor|]. split; [discriminate|]. split; [discriminate|].
        intros k'. symmetry. apply sel_none. intros e He Ev. destruct L. apply in_map_iff. exists e. auto. }
    destruct Hf as (F1 & F2 & F3 & F4). destruct (append_slots k new (fr_slots f) F1 F2) as (A1 & A2 & A3 & A4).
    split; [apply put_key_nodup; exact N|]. intros u. rewrite get_put_key, map_app. cbn [map fst].
    destruct (rbkey_eqb v u) eqn:Eu.
    - apply rbkey_eqb_eq in Eu. subst u. split; [apply in_or_app; right; left; reflexivity|].
      exists b. split; [exact Eb|]. cbn [fr_complete fr_slots]. split; [|split; [exact A1|split; [|exact A2]]].
      + destruct (fr_complete f); [|reflexivity]. symmetry. apply Nat.leb_le. etransitivity; [apply F3; reflexivity|exact A3].
      + intros k'. rewrite A4, sel_app, F4. f_equal. unfold sel, hit_of. cbn [filter fst snd].
        rewrite rbkey_eqb_refl. cbn [andb]. destruct (N.eqb k k'); cbn [map concat snd]; rewrite ?app_nil_r; reflexivity.
    - specialize (L u). assert (S1 : forall k', sel u k' (evs ++ [(v, (k, new))]) = sel u k' evs).
      { intros k'. rewrite sel_app. unfold sel at 2, hit_of. cbn [filter fst snd]. rewrite Eu. cbn [andb map concat]. apply app_nil_r. }
      assert (NE : v <> u) by (intros ->; rewrite rbkey_eqb_refl in Eu; discriminate).
      destruct (get_key fs u) as [f'|].
      + destruct L as (L0 & b' & L1 & L2 & L3 & L4 & L5). split; [apply in_or_app; auto|]. exists b'. repeat (split; [assumption|]).
        split; [|exact L5]. intros k'. rewrite S1. apply L4.
      + intros H. apply in_app_or in H. destruct H as [H|[H|[]]]; auto.
  Qed.
  Lemma play_left evs : forall done fs fs', left_by done fs -> play evs fs = Ret fs' -> left_by (done ++ evs) fs'.
  Proof.
    induction evs as [|(v, (k, new)) evs IH]; intros done fs fs' L; cbn [play].
    - intros E. inversion E; subst. rewrite app_nil_r. exact L.
    - destruct (fill g k new fs v) as [fs1| | |] eqn:F; cbn [bind]; try discriminate. intros E.
      change ((v, (k, new)) :: evs) with ([(v, (k, new))] ++ evs). rewrite app_assoc. eapply IH; [|exact E]. eapply fill_left; eassumption.
  Qed.
  Lemma left_start : left_by [] [].
  Proof. split; [constructor|]. intros v. cbn [get_key]. intros []. Qed.
End Play.

Section Events.
  Variable g : grammar.
  Variable key : term -> N.
  Variable fo : frame_orders.
  Definition word_event (wh : string * list (nat * nat)) : list event :=
    match lookup (g_index g) (fst wh) with
    | None => []
    | Some i => map (fun v => (v, (key (mkTerm (fst wh) TTerminal MNil), map (fun h => mkSlot (fst h) (snd h) []) (snd wh))))
                    (fo_frames fo (fst wh) (ix_frames i))
    end.
  Lemma words_play ms : forall fs rules fs' rules', words_loop g key fo ms fs rules = Ret (fs', rules') ->
    play g (flat_map word_event ms) fs = Ret fs' /\ forall w, In w (map fst ms) -> lookup (g_index g) w <> None.
  Proof.
    induction ms as [|[w hits] ms IH]; intros fs rules fs' rules'; cbn [words_loop flat_map map].
    - intros E. inversion E; subst. split; [reflexivity|]. intros w [].
    - unfold word_event at 1. cbn [fst snd]. destruct (lookup (g_index g) w) as [i|] eqn:L; [|discriminate].
      rewrite fill_all_play. destruct (play g _ fs) as [fs1| | |] eqn:P; cbn [bind]; try discriminate. intros E.
      apply IH in E. destruct E as [E H]. split; [rewrite play_app, P; exact E|]. intros w' [<-|Hw]; [cbn [fst]; congruence|auto].
  Qed.
  Definition final_event (fuel i j : nat) (p : parse_t) (ref : nat * nat) : list event :=
    match final_slot fuel p ref with
    | Ret (tg, s) =>
        match lookup (g_rule_index g) tg with
        | None => []
        | Some ix => map (fun v => (v, (key (mkTerm tg TNonterminal MNil), [s]))) (fo_tag fo i j (ix_frames ix))
        end
    | _ => []
    end.
  Fixpoint final_events (fuel i j : nat) (p : parse_t) (refs : list (nat * nat)) : list event :=
    match refs with [] => [] | ref :: refs' => final_event fuel i j p ref ++ final_events fuel i (S j) p refs' end.
  Fixpoint parse_events (fuel i : nat) (ps : list parse_t) : list event :=
    match ps with [] => [] | p :: ps' => final_events fuel i 0 p (p_finals p) ++ parse_events fuel (S i) ps' end.
  Definition final_ok (fuel : nat) (p : parse_t) (ref : nat * nat) : Prop :=
    exists tg s, final_slot fuel p ref = Ret (tg, s) /\ tg <> ""%string.
  Lemma finals_play fuel i p refs : forall j fs fs', finals_loop g key fo fuel i j p refs fs = Ret fs' ->
    play g (final_events fuel i j p refs) fs = Ret fs' /\ Forall (final_ok fuel p) refs.
  Proof.
    induction refs as [|ref refs IH]; intros j fs fs'; cbn [finals_loop final_events].
    - intros E. inversion E; subst. split; [reflexivity|constructor].
    - unfold final_event, final_ok at 1, final_slot. destruct (p_state p ref) as [s| | |] eqn:E1; cbn [bind]; try discriminate.
      destruct (tag s) as [tg| | |] eqn:E2; cbn [bind]; try discriminate.
      destruct (boundary p s) as [[a b]| | |] eqn:E3; cbn [bind]; try discriminate.
      destruct (get_trees (p_columns p) fuel ref) as [ts| | |] eqn:E4; cbn [bind]; try discriminate.
      destruct (String.eqb tg "") eqn:E5; [discriminate|]. apply String.eqb_neq in E5.
      assert (K : final_ok fuel p ref).
      { exists tg, (mkSlot a b (map (fun t => (p, t)) ts)). split; [|exact E5]. unfold final_slot. rewrite E1. cbn [bind]. rewrite E2. cbn [bind].
        rewrite E3. cbn [bind]. rewrite E4. reflexivity. }
      destruct (lookup (g_rule_index g) tg) as [ix|].
      + rewrite fill_all_play. destruct (play g _ fs) as [fs1| | |] eqn:P; cbn [bind]; try discriminate. intros E. apply IH in E.
        destruct E as [E F]. split; [rewrite play_app, P; exact E|]. constructor; assumption.
      + intros E. apply IH in E. destruct E as [E F]. split; [exact E|]. constructor; assumption.
  Qed.
  Lemma parses_play fuel ps : forall i fs fs', parses_loop g key fo fuel i ps fs = Ret fs' ->
    play g (parse_events fuel i ps) fs = Ret fs' /\ forall p, In p ps -> Forall (final_ok fuel p) (p_finals p).
  Proof.
    induction ps as [|p ps IH]; intros i fs fs'; cbn [parses_loop parse_events].
    - intros E. inversion E; subst. split; [reflexivity|]. intros p [].
    - destruct (finals_loop _ _ _ _ _ _ _ _ _) as [fs1| | |] eqn:F; cbn [bind]; try discriminate. intros E.
      apply finals_play in F. destruct F as [F1 F2]. apply IH in E. destruct E as [E1 E2].
      split; [rewrite play_app, F1; exact E1|]. intros q [<-|Hq]; auto.
  Qed.
End Events.

Section Slots.
  Variable g : grammar.
  Variable rules : grammar_rules.
  Hypothesis Hix : index_exact g rules.
  Variable key : term -> N.
  Variable fo : frame_orders.
  Hypothesis Hfo : frame_orders_ok fo.
  Variable fuel : nat.

  Lemma exact_frames ty ix k v : (ty = TTerminal /\ ix = g_index g \/ ty = TNonterminal /\ ix = g_rule_index g) ->
    (lists ix CFrame k v <-> mentioned (g_frames g :: map g_frames (g_includes g)) ty k v).
  Proof. intros [[-> ->]|[-> ->]]; destruct Hix as (H & _); destruct (H k v) as (H1 & H2 & H3 & H4); assumption. Qed.
  Lemma frames_nodup ix k i : (ix = g_index g \/ ix = g_rule_index g) -> lookup ix k = Some i -> NoDup (ix_frames i).
  Proof.
    intros Hi L. destruct Hix as (_ & _ & _ & (_ & W1) & (_ & W2)). destruct Hi; subst ix; [apply (W1 k)|apply (W2 k)]; exact L.
  Qed.

  (** every event is about a term of the frame *)
  Lemma word_event_term e wh : In e (word_event g key fo wh) ->
    fst (snd e) = key (mkTerm (fst wh) TTerminal MNil) /\ lists (g_index g) CFrame (fst wh) (fst e).
  Proof.
    unfold word_event. destruct (lookup (g_index g) (fst wh)) as [i|] eqn:L; [|intros []]. intros H. apply in_map_iff in H.
    destruct H as (v & <- & H). split; [reflexivity|]. exists i. split; [exact L|]. cbn [fst].
    destruct Hfo as (_ & HF & _). eapply Permutation_in; [apply Permutation_sym, HF|exact H].
  Qed.
  Lemma final_event_term e i j p ref : In e (final_event g key fo fuel i j p ref) ->
    exists tg s, final_slot fuel p ref = Ret (tg, s) /\ fst (snd e) = key (mkTerm tg TNonterminal MNil) /\
      lists (g_rule_index g) CFrame tg (fst e).
  Proof.
    unfold final_event. destruct (final_slot fuel p ref) as [[tg s]| | |]; try (intros []).
    destruct (lookup (g_rule_index g) tg) as [ix|] eqn:L; [|intros []]. intros H. apply in_map_iff in H.
    destruct H as (v & <- & H). exists tg, s. split; [reflexivity|]. split; [reflexivity|]. exists ix. split; [exact L|]. cbn [fst].
    destruct Hfo as (_ & _ & _ & _ & _ & _ & HT & _). eapply Permutation_in; [apply Permutation_sym, HT|exact H].
  Qed.
  Lemma final_events_in e i p refs : forall j, In e (final_events g key fo fuel i j p refs) ->
    exists j' ref, In ref refs /\ In e (final_event g key fo fuel i j' p ref).
  Proof.
    induction refs as [|ref refs IH]; intros j H; cbn [final_events] in H; [destruct H|]. apply in_app_or in H.
    destruct H as [H|H]; [exists j, ref; cbn; auto|]. apply IH in H. destruct H as (j' & r & H1 & H2). exists j', r. cbn; auto.
  Qed.
  Lemma parse_events_in e ps : forall i, In e (parse_events g key fo fuel i ps) ->
    exists tg, fst (snd e) = key (mkTerm tg TNonterminal MNil) /\ lists (g_rule_index g) CFrame tg (fst e).
  Proof.
    induction ps as [|p ps IH]; intros i H; cbn [parse_events] in H; [destruct H|]. apply in_app_or in H.
    destruct H as [H|H]; [|eauto]. apply final_events_in in H. destruct H as (j & ref & _ & H). apply final_event_term in H.
    destruct H as (tg & s & _ & H1 & H2). eauto.
  Qed.

  Section Frame.
    Variable v : rbkey.
    Variable b : rulebody.
    Hypothesis Hb : frame_is g v b.
    Hypothesis Hplain : Forall plain_term (rb_terms b).
    Lemma listed_term ty ix k : (ty = TTerminal /\ ix = g_index g \/ ty = TNonterminal /\ ix = g_rule_index g) ->
      (lists ix CFrame k v <-> k <> ""%string /\ In (mkTerm k ty MNil) (rb_terms b)).
    Proof.
      intros Ht. rewrite (exact_frames ty ix k v Ht). destruct Hb as (B1 & B2 & B3). split.
      - intros (m & x & r & b' & Hm & Hr & Hn & Hv & Hk & t & T1 & T2 & T3).
        rewrite (B3 m x r b' Hm Hr Hn Hv) in T1. split; [exact Hk|]. pose proof (proj1 (Forall_forall _ _) Hplain t T1) as Hpl.
        assert (P : t_meta t = MNil /\ trim_space (t_value t) = t_value t) by (apply Hpl; destruct Ht as [[-> _]|[-> _]]; auto).
        destruct t as [tv tt tm]. cbn [t_value t_type t_meta] in *. destruct P as [-> P]. rewrite P in T3. subst. exact T1.
      - intros [Hk H]. unfold frame_body in B1. destruct (lookup (g_frames g) (fst v)) as [r|] eqn:L; [|discriminate].
        destruct (get_N (r_body r) (snd v)) as [b'|] eqn:G; [|discriminate]. inversion B1; subst b'.
        exists (g_frames g), (fst v), r, b. split; [left; reflexivity|]. split; [apply lookup_in; exact L|].
        split; [apply B2; reflexivity|]. split; [apply get_N_some; exact G|]. split; [exact Hk|].
        eexists. split; [exact H|]. split; [reflexivity|]. destruct (proj1 (Forall_forall _ _) Hplain _ H) as [_ P]; [|exact P].
        destruct Ht as [[-> _]|[-> _]]; auto.
    Qed.
    Lemma event_keys e ms ps : In e (flat_map (word_event g key fo) ms ++ parse_events g key fo fuel 0 ps) -> fst e = v ->
      In (fst (snd e)) (map key (rb_terms b)).
    Proof.
      intros H Ev. apply in_app_or in H. destruct H as [H|H].
      - apply in_flat_map in H. destruct H as (wh & _ & H). apply word_event_term in H. destruct H as [-> H]. rewrite Ev in H.
        apply in_map. apply (listed_term TTerminal (g_index g)) in H; [apply H|auto].
      - apply parse_events_in in H. destruct H as (tg & -> & H). rewrite Ev in H.
        apply in_map. apply (listed_term TNonterminal (g_rule_index g)) in H; [apply H|auto].
    Qed.

    Lemma complete_iff ms ps fs f : left_by g (flat_map (word_event g key fo) ms ++ parse_events g key fo fuel 0 ps) fs ->
      get_key fs v = Some f ->
      (NoDup (map key (rb_terms b)) -> (fr_complete f = true <-> forall t, In t (rb_terms b) -> slots_for key f t <> [])) /\
      (~ NoDup (map key (rb_terms b)) -> fr_complete f = false).
    Proof.
      intros [_ L] Hf. specialize (L v). rewrite Hf in L. destruct L as (_ & b' & Eb & L1 & L2 & L3 & L4).
      destruct Hb as (B1 & _). rewrite B1 in Eb. inversion Eb; subst b'. clear Eb.
      assert (IN : incl (map fst (fr_slots f)) (map key (rb_terms b))).
      { intros k Hk. apply get_N_keys in Hk. specialize (L3 k). destruct (get_N (fr_slots f) k) as [l|] eqn:G; [|congruence].
        destruct l as [|s l]; [destruct (L4 k G)|]. unfold sel in L3.
        destruct (filter _ _) as [|e es] eqn:F; [discriminate|]. assert (He : In e (e :: es)) by (left; reflexivity). rewrite <- F in He.
        apply filter_In in He. destruct He as [He Hh]. unfold hit_of in Hh. apply andb_true_iff in Hh. destruct Hh as [H1 H2].
        apply rbkey_eqb_eq in H1. apply N.eqb_eq in H2. rewrite <- H2. eapply event_keys; eassumption. }
      assert (SF : forall t, slots_for key f t <> [] <-> In (key t) (map fst (fr_slots f))).
      { intros t. unfold slots_for. rewrite <- get_N_keys. pose proof (L4 (key t)). destruct (get_N (fr_slots f) (key t)) as [l|]; split; congruence. }
      rewrite L1. split.
      - intros N. rewrite Nat.leb_le. split.
        + intros Hle t Ht. apply SF. assert (I : incl (map key (rb_terms b)) (map fst (fr_slots f))).
          { apply NoDup_length_incl; [exact L2| |exact IN]. rewrite !map_length. exact Hle. }
          apply I, in_map, Ht.
        + intros H. rewrite <- (map_length key), <- (map_length fst (fr_slots f)). apply NoDup_incl_length; [exact N|].
          intros k Hk. apply in_map_iff in Hk. destruct Hk as (t & <- & Ht). apply SF, H, Ht.
      - intros N. destruct (Nat.leb _ _) eqn:E; [|reflexivity]. apply Nat.leb_le in E. destruct N.
        eapply NoDup_incl_NoDup; [exact L2| |exact IN]. rewrite !map_length. exact E.
    Qed.

    Hypothesis Hkeys : NoDup (map key (rb_terms b)).
    Lemma same_key t t' : In t (rb_terms b) -> In t' (rb_terms b) -> key t = key t' -> t = t'.
    Proof.
      revert Hkeys. generalize (rb_terms b). induction l as [|u l IH]; intros N H H' E; [destruct H|].
      cbn [map] in N. inversion N; subst. destruct H as [<-|H], H' as [<-|H']; auto.
      - destruct H2. rewrite E. apply in_map. exact H'.
      - destruct H2. rewrite <- E. apply in_map. exact H.
    Qed.
    Lemma existsb_listed l : NoDup l -> (existsb (rbkey_eqb v) l = true <-> In v l).
    Proof.
      intros _. rewrite existsb_exists. split.
      - intros (u & Hu & E). apply rbkey_eqb_eq in E. subst. exact Hu.
      - intros H. exists v. split; [exact H|apply rbkey_eqb_refl].
    Qed.
    Lemma word_sel t wh : In t (rb_terms b) -> (lookup (g_index g) (fst wh) <> None) ->
      sel v (key t) (word_event g key fo wh)
      = if ttype_eqb (t_type t) TTerminal && String.eqb (fst wh) (t_value t)
        then map (fun h => mkSlot (fst h) (snd h) []) (snd wh) else [].
    Proof.
      intros Ht Hw. destruct (ttype_eqb (t_type t) TTerminal && String.eqb (fst wh) (t_value t)) eqn:E.
      - apply andb_true_iff in E. destruct E as [E1 E2]. apply String.eqb_eq in E2.
        assert (Et : t_type t = TTerminal) by (destruct (t_type t); try discriminate E1; reflexivity).
        destruct (proj1 (Forall_forall _ _) Hplain t Ht (or_introl Et)) as [P1 P2].
        assert (T : t = mkTerm (fst wh) TTerminal MNil) by (destruct t; cbn in *; congruence).
        unfold word_event. destruct (lookup (g_index g) (fst wh)) as [i|] eqn:L; [|congruence].
        destruct Hfo as (_ & HF & _).
        assert (N : NoDup (fo_frames fo (fst wh) (ix_frames i))).
        { eapply Permutation_NoDup; [apply HF|]. eapply frames_nodup; [left; reflexivity|exact L]. }
        rewrite sel_one by exact N. rewrite <- T, N.eqb_refl. cbn [andb].
        assert (X : existsb (rbkey_eqb v) (fo_frames fo (fst wh) (ix_frames i)) = true).
        { apply existsb_listed; [exact N|]. eapply Permutation_in; [apply HF|].
          assert (LL : lists (g_index g) CFrame (fst wh) v).
          { apply (listed_term TTerminal); [auto|]. split; [|rewrite <- T; exact Ht].
            intros Ew. destruct Hix as (H0 & _ & H1 & _). destruct (proj1 (H1 (fst wh))) as (c & u & Hu); [rewrite L; discriminate|].
            destruct (H0 (fst wh) u) as (A1 & A2 & _). destruct c; [apply A1 in Hu|apply A2 in Hu];
              destruct Hu as (m & x & r & b' & _ & _ & _ & _ & Hk & _); contradiction. }
          destruct LL as (i' & L' & H). rewrite L in L'. inversion L'; subst i'. exact H. }
        rewrite X. reflexivity.
      - apply sel_none. intros e He Ev Ek. apply word_event_term in He. destruct He as [K LL]. rewrite Ev in LL.
        apply (listed_term TTerminal) in LL; [|auto]. destruct LL as [_ LL]. rewrite Ek in K.
        apply (same_key t _ Ht LL) in K. subst t. cbn [t_type t_value] in E. rewrite String.eqb_refl in E. discriminate.
    Qed.
    Lemma final_sel t i j p ref : In t (rb_terms b) -> final_ok fuel p ref ->
      sel v (key t) (final_event g key fo fuel i j p ref)
      = if ttype_eqb (t_type t) TNonterminal
        then match final_slot fuel p ref with Ret (tg, s) => if String.eqb tg (t_value t) then [s] else [] | _ => [] end
        else [].
    Proof.
      intros Ht (tg & s & Ef & Hne). rewrite Ef.
      destruct (ttype_eqb (t_type t) TNonterminal && String.eqb tg (t_value t)) eqn:E.
      - apply andb_true_iff in E. destruct E as [E1 E2]. rewrite E1, E2. apply String.eqb_eq in E2.
        assert (Et : t_type t = TNonterminal) by (destruct (t_type t); try discriminate E1; reflexivity).
        destruct (proj1 (Forall_forall _ _) Hplain t Ht (or_intror Et)) as [P1 P2].
        assert (T : t = mkTerm tg TNonterminal MNil) by (destruct t; cbn in *; congruence).
        assert (LL : lists (g_rule_index g) CFrame tg v).
        { apply (listed_term TNonterminal); [auto|]. split; [exact Hne|rewrite <- T; exact Ht]. }
        destruct LL as (ix & L & H). unfold final_event. rewrite Ef, L.
        destruct Hfo as (_ & _ & _ & _ & _ & _ & HT & _).
        assert (N : NoDup (fo_tag fo i j (ix_frames ix))).
        { eapply Permutation_NoDup; [apply HT|]. eapply frames_nodup; [right; reflexivity|exact L]. }
        rewrite sel_one by exact N. rewrite <- T, N.eqb_refl. cbn [andb].
        assert (X : existsb (rbkey_eqb v) (fo_tag fo i j (ix_frames ix)) = true).
        { apply existsb_listed; [exact N|]. eapply Permutation_in; [apply HT|exact H]. }
        rewrite X. reflexivity.
      - replace (if ttype_eqb (t_type t) TNonterminal then if String.eqb tg (t_value t) then [s] else [] else []) with (@nil slot)
          by (destruct (ttype_eqb _ _), (String.eqb _ _); try reflexivity; discriminate).
        apply sel_none. intros e He Ev Ek. apply final_event_term in He. destruct He as (tg' & s' & Ef' & K & LL).
        rewrite Ef in Ef'. inversion Ef'; subst tg' s'. rewrite Ev in LL.
        apply (listed_term TNonterminal) in LL; [|auto]. destruct LL as [_ LL]. rewrite Ek in K.
        apply (same_key t _ Ht LL) in K. subst t. cbn [t_type t_value] in E. rewrite String.eqb_refl in E. discriminate.
    Qed.

    Lemma words_sel t ms : In t (rb_terms b) -> NoDup (map fst ms) -> (forall w, In w (map fst ms) -> lookup (g_index g) w <> None) ->
      sel v (key t) (flat_map (word_event g key fo) ms) = if ttype_eqb (t_type t) TTerminal then word_slots ms (t_value t) else [].
    Proof.
      intros Ht. induction ms as [|[w h] ms IH]; intros N H; cbn [flat_map].
      - unfold word_slots. cbn [lookup]. destruct (ttype_eqb _ _); reflexivity.
      - cbn [map fst] in N. inversion N; subst. rewrite sel_app, (word_sel t (w, h) Ht (H w (or_introl eq_refl))).
        rewrite (IH H3 ltac:(intros; apply H; right; assumption)). cbn [fst snd]. unfold word_slots. cbn [lookup].
        destruct (ttype_eqb (t_type t) TTerminal); cbn [andb]; [|reflexivity].
        destruct (String.eqb w (t_value t)) eqn:E; [|reflexivity]. apply String.eqb_eq in E. subst w.
        destruct (lookup ms (t_value t)) as [h'|] eqn:L; [|apply app_nil_r].
        destruct H2. apply lookup_in in L. apply in_map_iff. exists (t_value t, h'). auto.
    Qed.
    Lemma finals_sel t i p refs : In t (rb_terms b) -> forall j, Forall (final_ok fuel p) refs ->
      sel v (key t) (final_events g key fo fuel i j p refs)
      = if ttype_eqb (t_type t) TNonterminal
        then flat_map (fun ref => match final_slot fuel p ref with Ret (tg, s) => if String.eqb tg (t_value t) then [s] else [] | _ => [] end) refs
        else [].
    Proof.
      intros Ht. induction refs as [|ref refs IH]; intros j F; cbn [final_events flat_map].
      - destruct (ttype_eqb _ _); reflexivity.
      - inversion F; subst. rewrite sel_app, (final_sel t i j p ref Ht H1), (IH (S j) H2). destruct (ttype_eqb _ _); reflexivity.
    Qed.
    Lemma parses_sel t ps : In t (rb_terms b) -> forall i, (forall p, In p ps -> Forall (final_ok fuel p) (p_finals p)) ->
      sel v (key t) (parse_events g key fo fuel i ps)
      = if ttype_eqb (t_type t) TNonterminal then rule_slots fuel ps (t_value t) else [].
    Proof.
      intros Ht. induction ps as [|p ps IH]; intros i F; cbn [parse_events].
      - destruct (ttype_eqb _ _); reflexivity.
      - rewrite sel_app, (finals_sel t i p (p_finals p) Ht 0 (F p (or_introl eq_refl))), (IH (S i)) by (intros; apply F; right; assumption).
        unfold rule_slots. cbn [flat_map]. destruct (ttype_eqb _ _); reflexivity.
    Qed.
    Lemma slots_found t ms ps fs : In t (rb_terms b) -> NoDup (map fst ms) ->
      (forall w, In w (map fst ms) -> lookup (g_index g) w <> None) ->
      (forall p, In p ps -> Forall (final_ok fuel p) (p_finals p)) ->
      left_by g (flat_map (word_event g key fo) ms ++ parse_events g key fo fuel 0 ps) fs ->
      match get_key fs v with Some f => slots_for key f t | None => [] end = found ms fuel ps t.
    Proof.
      intros Ht N W F [_ L]. specialize (L v).
      assert (S1 : sel v (key t) (flat_map (word_event g key fo) ms ++ parse_events g key fo fuel 0 ps) = found ms fuel ps t).
      { rewrite sel_app, words_sel, parses_sel by assumption. unfold found. destruct (t_type t); cbn; rewrite ?app_nil_r; reflexivity. }
      destruct (get_key fs v) as [f|].
      - destruct L as (_ & b' & _ & _ & _ & L3 & _). unfold slots_for. rewrite L3. exact S1.
      - rewrite <- S1. symmetry. apply sel_none. intros e He Ev. destruct L. rewrite <- Ev. apply in_map. exact He.
    Qed.
  End Frame.
End Slots.

(** ** The call *)
Section Call.
  Variable g : grammar.
  Variable rules : grammar_rules.
  Hypothesis Hix : index_exact g rules.
  Variable key : term -> N.
  Variable multi_match : list string -> string -> res (list (string * list (nat * nat))).
  Variable fo : frame_orders.
  Hypothesis Hfo : frame_orders_ok fo.
  Variable tmatch : term -> option token -> bool.
  Variable ords : nat -> order.
  Variable annotate : string -> string -> res (list token).
  Variable local_grammar : list token -> res (option grammar_rules).
  Local Notation MF := (MatchFrames g key multi_match fo tmatch ords annotate local_grammar).

  Lemma match_frames_left fuel ctx text fs : MF fuel ctx text = Ret fs ->
    exists matches fs0 starts ps, multi_match (g_trie g) text = Ret matches /\
      get_candidates g key multi_match fo fuel text = Ret (fs0, starts) /\
      EarleyParseAll tmatch ords (all_rules g) annotate local_grammar fuel ctx text starts = Ret ps /\
      (forall w, In w (map fst (fo_matches fo matches)) -> lookup (g_index g) w <> None) /\
      (forall p, In p ps -> Forall (final_ok fuel p) (p_finals p)) /\
      left_by g (flat_map (word_event g key fo) (fo_matches fo matches) ++ parse_events g key fo fuel 0 ps) fs.
  Proof.
    unfold MatchFrames. destruct (get_candidates _ _ _ _ _ _) as [[fs0 starts]| | |] eqn:EC; cbn [bind]; try discriminate.
    destruct (EarleyParseAll _ _ _ _ _ _ _ _ _) as [ps| | |] eqn:EP; cbn [bind]; try discriminate. intros E.
    unfold get_candidates in EC. destruct (multi_match (g_trie g) text) as [ms| | |]; cbn [bind] in EC; try discriminate.
    destruct (words_loop _ _ _ _ _ _) as [[fs1 rs]| | |] eqn:EW; cbn [bind] in EC; try discriminate.
    destruct (closure _ _ _ _ _) as [out| | |]; cbn [bind] in EC; try discriminate. inversion EC; subst. clear EC.
    apply words_play in EW. destruct EW as [EW W]. apply parses_play in E. destruct E as [E F].
    exists ms, fs0, (fo_starts fo out), ps. split; [reflexivity|]. split; [reflexivity|]. split; [exact EP|].
    split; [exact W|]. split; [exact F|]. eapply play_left; [|exact E].
    change (flat_map (word_event g key fo) (fo_matches fo ms)) with ([] ++ flat_map (word_event g key fo) (fo_matches fo ms)).
    eapply play_left; [apply left_start|exact EW].
  Qed.

  Lemma frames_complete fuel ctx text fs : MF fuel ctx text = Ret fs ->
    forall v f b, In (v, f) fs -> frame_is g v b -> Forall plain_term (rb_terms b) ->
    (NoDup (map key (rb_terms b)) ->
       (fr_complete f = true <-> forall t, In t (rb_terms b) -> slots_for key f t <> [])) /\
    (~ NoDup (map key (rb_terms b)) -> fr_complete f = false).
  Proof.
    intros E v f b Hv Hb Hp. destruct (match_frames_left _ _ _ _ E) as (ms & fs0 & starts & ps & _ & _ & _ & _ & _ & L).
    pose proof L as [N _]. eapply complete_iff; try eassumption. apply get_key_in; assumption.
  Qed.
  Lemma repeated_incomplete fuel ctx text fs : MF fuel ctx text = Ret fs ->
    forall v f b, In (v, f) fs -> frame_is g v b -> Forall plain_term (rb_terms b) -> ~ NoDup (rb_terms b) -> fr_complete f = false.
  Proof.
    intros E v f b Hv Hb Hp N. destruct (frames_complete _ _ _ _ E v f b Hv Hb Hp) as [_ H]. apply H.
    intros H'. apply N. eapply NoDup_map_inv. exact H'.
  Qed.

  Lemma lookup_perm {A} (l l' : list (string * A)) k : NoDup (map fst l) -> Permutation l l' -> lookup l k = lookup l' k.
  Proof.
    intros N P. assert (N' : NoDup (map fst l')) by (eapply Permutation_NoDup; [apply Permutation_map; exact P|exact N]).
    destruct (lookup l k) as [a|] eqn:L.
    - symmetry. apply in_lookup; [exact N'|]. eapply Permutation_in; [exact P|]. apply lookup_in. exact L.
    - destruct (lookup l' k) as [a|] eqn:L'; [|reflexivity]. apply lookup_in in L'.
      assert (H : In (k, a) l) by (eapply Permutation_in; [apply Permutation_sym; exact P|exact L']). apply in_lookup in H; [congruence|exact N].
  Qed.
  Lemma frames_found fuel ctx text fs : MF fuel ctx text = Ret fs ->
    (forall ms, multi_match (g_trie g) text = Ret ms -> NoDup (map fst ms)) ->
    exists matches fs0 starts ps, multi_match (g_trie g) text = Ret matches /\
      get_candidates g key multi_match fo fuel text = Ret (fs0, starts) /\
      EarleyParseAll tmatch ords (all_rules g) annotate local_grammar fuel ctx text starts = Ret ps /\
      forall v b, frame_is g v b -> Forall plain_term (rb_terms b) -> NoDup (map key (rb_terms b)) -> rb_terms b <> [] ->
        (forall t, In t (rb_terms b) ->
           match get_key fs v with Some f => slots_for key f t | None => [] end = found matches fuel ps t) /\
        ((exists f, In (v, f) fs /\ fr_complete f = true) <-> forall t, In t (rb_terms b) -> found matches fuel ps t <> []).
  Proof.
    intros E Hn. destruct (match_frames_left _ _ _ _ E) as (ms & fs0 & starts & ps & E1 & E2 & E3 & W & F & L).
    exists ms, fs0, starts, ps. split; [exact E1|]. split; [exact E2|]. split; [exact E3|]. intros v b Hb Hp Hk Hne.
    specialize (Hn ms E1). destruct Hfo as (HM & _).
    assert (N' : NoDup (map fst (fo_matches fo ms))) by (eapply Permutation_NoDup; [apply Permutation_map, HM|exact Hn]).
    assert (FF : forall t, found (fo_matches fo ms) fuel ps t = found ms fuel ps t).
    { intros t. unfold found, word_slots. rewrite <- (lookup_perm ms (fo_matches fo ms)) by auto. reflexivity. }
    assert (S1 : forall t, In t (rb_terms b) -> match get_key fs v with Some f => slots_for key f t | None => [] end = found ms fuel ps t).
    { intros t Ht. rewrite <- FF. eapply slots_found; eassumption. }
    split; [exact S1|]. pose proof L as [N _]. split.
    - intros (f & Hf & Hc) t Ht. rewrite <- (S1 t Ht). pose proof Hf as Hg. apply get_key_in in Hg; [|exact N]. rewrite Hg.
      apply (proj1 (frames_complete _ _ _ _ E v f b Hf Hb Hp) Hk); assumption.
    - intros H. destruct (rb_terms b) as [|t0 ts] eqn:Et; [congruence|].
      destruct (get_key fs v) as [f|] eqn:Hg.
      + exists f. assert (Hf : In (v, f) fs) by (apply get_key_in; assumption). split; [exact Hf|].
        rewrite <- Et in *. apply (proj1 (frames_complete _ _ _ _ E v f b Hf Hb Hp) Hk).
        intros t Ht. rewrite (S1 t Ht). auto.
      + destruct (H t0 (or_introl eq_refl)). symmetry. apply S1. left. reflexivity.
  Qed.

  (** every frame of the result is one of [g] itself *)
  Lemma result_own fuel ctx text fs : MF fuel ctx text = Ret fs ->
    forall v f, In (v, f) fs -> exists b, frame_body g v = Ret b.
  Proof.
    intros E v f Hv. destruct (match_frames_left _ _ _ _ E) as (ms & fs0 & starts & ps & _ & _ & _ & _ & _ & [N L]).
    apply get_key_in in Hv; [|exact N]. specialize (L v). rewrite Hv in L. destruct L as (_ & b & H & _). eauto.
  Qed.

  (** a matched word of a frame that is not one of [g] *)
  Lemma frame_body_out v : frame_body g v = Panic \/ exists b, frame_body g v = Ret b.
  Proof. unfold frame_body. destruct (lookup _ _) as [r|]; [|auto]. destruct (get_N _ _); eauto. Qed.
  Lemma fill_all_out k new vs : forall fs, fill_all g k new vs fs = Panic \/
    (exists fs', fill_all g k new vs fs = Ret fs') /\ forall v, In v vs -> frame_body g v <> Panic.
  Proof.
    induction vs as [|v vs IH]; intros fs; cbn [fill_all]; [right; split; [eauto|intros v []]|].
    unfold fill. destruct (frame_body_out v) as [Hv|(b & Hv)]; rewrite Hv; cbn [bind]; [auto|].
    destruct (IH (put_key fs v (mkFrame (fold_left (append_slot k) new (fr_slots match get_key fs v with Some f => f | None => mkFrame [] false end))
      (fr_complete match get_key fs v with Some f => f | None => mkFrame [] false end || Nat.leb (length (rb_terms b))
        (length (fold_left (append_slot k) new (fr_slots match get_key fs v with Some f => f | None => mkFrame [] false end))))))) as [H|[H1 H2]]; [auto|].
    right. split; [exact H1|]. intros u [<-|Hu]; [congruence|auto].
  Qed.
  Lemma words_out ms : (forall w, In w (map fst ms) -> lookup (g_index g) w <> None) ->
    forall fs rs, words_loop g key fo ms fs rs = Panic \/
      forall w i v, In w (map fst ms) -> lookup (g_index g) w = Some i -> In v (ix_frames i) -> frame_body g v <> Panic.
  Proof.
    destruct Hfo as (_ & HF & _). induction ms as [|[w h] ms IH]; intros H fs rs; cbn [words_loop]; [right; intros w i v []|].
    destruct (lookup (g_index g) w) as [i|] eqn:L; [|destruct (H w (or_introl eq_refl) L)].
    destruct (fill_all_out (key (mkTerm w TTerminal MNil)) (map (fun h => mkSlot (fst h) (snd h) []) h) (fo_frames fo w (ix_frames i)) fs)
      as [->|[(fs' & ->) HB]]; cbn [bind]; [auto|].
    edestruct IH as [->|HI]; [intros; apply H; right; assumption|left; reflexivity|]. right.
    intros w' i' v [<-|Hw] L' Hv; [|eapply HI; eassumption]. cbn [fst] in L'. rewrite L in L'. inversion L'; subst i'.
    apply HB. eapply Permutation_in; [apply HF|exact Hv].
  Qed.
  Lemma included_panics fuel ctx text matches w v :
    multi_match (g_trie g) text = Ret matches -> (forall w, In w (map fst matches) -> In w (g_trie g)) ->
    In w (map fst matches) -> mentioned (map g_frames (g_includes g)) TTerminal w v ->
    (forall r b, lookup (g_frames g) (fst v) = Some r -> ~ In (snd v, b) (r_body r)) ->
    MF fuel ctx text = Panic.
  Proof.
    intros Hm Ht Hw Hv Hno. unfold MatchFrames, get_candidates. rewrite Hm. cbn [bind]. destruct Hfo as (HM & _).
    assert (PM : forall w, In w (map fst (fo_matches fo matches)) <-> In w (map fst matches)).
    { intros u. split; apply Permutation_in; [apply Permutation_sym|]; apply Permutation_map, HM. }
    destruct (words_out (fo_matches fo matches)) with (fs := @nil (rbkey * frame)) (rs := @nil string) as [->|H]; [|reflexivity|].
    - intros u Hu. apply PM, Ht in Hu. destruct Hix as (_ & H & _). apply H. exact Hu.
    - exfalso. destruct Hix as (HI & _). destruct (HI w v) as (HI1 & _).
      assert (LL : lists (g_index g) CFrame w v).
      { apply HI1. destruct Hv as (m & x & r & b & Hm' & R). exists m, x, r, b. split; [right; exact Hm'|exact R]. }
      destruct LL as (i & L & Hi). apply (H w i v); [apply PM; exact Hw|exact L|exact Hi|].
      unfold frame_body. destruct (lookup (g_frames g) (fst v)) as [r|] eqn:LF; [|reflexivity].
      destruct (get_N (r_body r) (snd v)) as [b|] eqn:G; [|reflexivity]. destruct (Hno r b eq_refl). apply get_N_some. exact G.
  Qed.
  (** a rule found in the text that is mentioned by a frame not of [g] *)
  Lemma included_rule_fails fuel ctx text fs fs0 starts ps p ref tg s v :
    get_candidates g key multi_match fo fuel text = Ret (fs0, starts) ->
    EarleyParseAll tmatch ords (all_rules g) annotate local_grammar fuel ctx text starts = Ret ps ->
    In p ps -> In ref (p_finals p) -> final_slot fuel p ref = Ret (tg, s) ->
    mentioned (map g_frames (g_includes g)) TNonterminal tg v ->
    (forall r b, lookup (g_frames g) (fst v) = Some r -> ~ In (snd v, b) (r_body r)) ->
    MF fuel ctx text <> Ret fs.
  Proof.
    intros EC EP Hp Hr Ef Hv Hno E.
    destruct (match_frames_left _ _ _ _ E) as (ms & fs1 & starts' & ps' & _ & EC' & EP' & _ & F & [_ L]).
    rewrite EC in EC'. inversion EC'; subst fs1 starts'. rewrite EP in EP'. inversion EP'; subst ps'. clear EC' EP'.
    destruct Hix as (HI & _). destruct (HI tg v) as (_ & _ & HI3 & _).
    assert (LL : lists (g_rule_index g) CFrame tg v).
    { apply HI3. destruct Hv as (m & x & r & b & Hm' & R). exists m, x, r, b. split; [right; exact Hm'|exact R]. }
    destruct LL as (ix & Lx & Hx).
    assert (HE : exists i j, In (v, (key (mkTerm tg TNonterminal MNil), [s])) (final_event g key fo fuel i j p ref) /\ incl (final_event g key fo fuel i j p ref) (parse_events g key fo fuel 0 ps)).
    { assert (K : forall i j, In (v, (key (mkTerm tg TNonterminal MNil), [s])) (final_event g key fo fuel i j p ref)).
      { intros i j. unfold final_event. rewrite Ef, Lx. apply in_map_iff. exists v. split; [reflexivity|].
        destruct Hfo as (_ & _ & _ & _ & _ & _ & HT & _). eapply Permutation_in; [apply HT|exact Hx]. }
      assert (KF : forall refs j i, In ref refs -> exists j', incl (final_event g key fo fuel i j' p ref) (final_events g key fo fuel i j p refs)).
      { induction refs as [|r0 refs IH]; intros j i H; [destruct H|]. cbn [final_events]. destruct H as [->|H].
        - exists j. apply incl_appl, incl_refl.
        - destruct (IH (S j) i H) as (j' & H'). exists j'. apply incl_appr. exact H'. }
      assert (KP : forall l i, In p l -> exists i' j', incl (final_event g key fo fuel i' j' p ref) (parse_events g key fo fuel i l)).
      { induction l as [|q l IH]; intros i H; [destruct H|]. cbn [parse_events]. destruct H as [->|H].
        - destruct (KF (p_finals p) 0 i Hr) as (j & H). exists i, j. apply incl_appl. exact H.
        - destruct (IH (S i) H) as (i' & j' & H'). exists i', j'. apply incl_appr. exact H'. }
      destruct (KP ps 0 Hp) as (i & j & H). exists i, j. split; [apply K|exact H]. }
    destruct HE as (i & j & H1 & H2). apply (H2 _) in H1. specialize (L v).
    destruct (get_key fs v) as [f|].
    - destruct L as (_ & b & Hb & _). unfold frame_body in Hb. destruct (lookup (g_frames g) (fst v)) as [r|] eqn:LF; [|discriminate].
      destruct (get_N (r_body r) (snd v)) as [b'|] eqn:G; [|discriminate]. destruct (Hno r b' eq_refl). apply get_N_some. exact G.
    - destruct L. rewrite map_app. apply in_or_app. right. apply (in_map fst) in H1. exact H1.
  Qed.
End Call.
