(** The candidate rules and the slots of frames. *)
From Coq Require Import Lia Permutation.
From Verif Require Import Base ModelTypes ModelText ModelEarley ModelTrees ModelApi ModelSem
  ModelReader ModelGrammar ModelFrames SpecIndex SpecFrames ProofTerm ProofRefine ProofReaderMain ProofIndex.

(** ** Maps *)
Lemma get_put_key {A} (m : list (rbkey * A)) k a k' :
  get_key (put_key m k a) k' = if rbkey_eqb k k' then Some a else get_key m k'.
Proof.
  induction m as [|[k1 a1] m IH]; cbn [put_key get_key]; [destruct (rbkey_eqb k k'); reflexivity|].
  destruct (rbkey_eqb k1 k) eqn:E; cbn [get_key].
  - apply rbkey_eqb_eq in E. subst k1. destruct (rbkey_eqb k k'); reflexivity.
  - rewrite IH. destruct (rbkey_eqb k k') eqn:E'; [|reflexivity]. apply rbkey_eqb_eq in E'. subst k'. rewrite E. reflexivity.
Qed.
Lemma rbkey_eqb_refl k : rbkey_eqb k k = true.
Proof. apply rbkey_eqb_eq. reflexivity. Qed.
Lemma put_key_nodup {A} (m : list (rbkey * A)) k a : NoDup (map fst m) -> NoDup (map fst (put_key m k a)).
Proof.
  induction m as [|[k1 a1] m IH]; cbn [put_key map fst]; intros N; [repeat constructor; auto|].
  inversion N; subst. destruct (rbkey_eqb k1 k) eqn:E; cbn [map fst].
  - apply rbkey_eqb_eq in E. subst. exact N.
  - constructor; [|auto]. intros H. apply in_map_iff in H. destruct H as ([k2 a2] & Ek & H). cbn [fst] in Ek. subst k2.
    assert (K : forall m : list (rbkey * A), In (k1, a2) (put_key m k a) -> k1 = k \/ In k1 (map fst m)).
    { clear. induction m as [|[k3 a3] m IH]; cbn [put_key In map fst].
      - intros [H|[]]. inversion H. auto.
      - destruct (rbkey_eqb k3 k) eqn:E; cbn [In].
        + apply rbkey_eqb_eq in E. subst. intros [H|H]; [inversion H; auto|]. right. right. apply in_map_iff. exists (k1, a2). auto.
        + intros [H|H]; [inversion H; auto|]. destruct (IH H); auto. }
    destruct (K m H) as [->|K']; [rewrite rbkey_eqb_refl in E; discriminate|contradiction].
Qed.
Lemma get_key_in {A} (m : list (rbkey * A)) k a : NoDup (map fst m) -> (get_key m k = Some a <-> In (k, a) m).
Proof.
  induction m as [|[k1 a1] m IH]; cbn [get_key map fst In]; intros N; [split; [discriminate|tauto]|]. inversion N; subst.
  destruct (rbkey_eqb k1 k) eqn:E.
  - apply rbkey_eqb_eq in E. subst k1. split; [intros H; inversion H; auto|]. intros [H|H]; [inversion H; reflexivity|].
    destruct H1. apply in_map_iff. exists (k, a). auto.
  - rewrite (IH H2). split; [auto|]. intros [H|H]; [inversion H; subst; rewrite rbkey_eqb_refl in E; discriminate|exact H].
Qed.
Lemma get_put_N {A} (m : list (N * A)) k a k' :
  get_N (put_N m k a) k' = if N.eqb k k' then Some a else get_N m k'.
Proof.
  induction m as [|[k1 a1] m IH]; cbn [put_N get_N]; [destruct (N.eqb k k'); reflexivity|].
  destruct (N.eqb k1 k) eqn:E; cbn [get_N].
  - apply N.eqb_eq in E. subst k1. destruct (N.eqb k k'); reflexivity.
  - rewrite IH. destruct (N.eqb k k') eqn:E'; [|reflexivity]. apply N.eqb_eq in E'. subst k'. rewrite E. reflexivity.
Qed.
Lemma get_N_keys {A} (m : list (N * A)) k : get_N m k <> None <-> In k (map fst m).
Proof.
  induction m as [|[k1 a1] m IH]; cbn [get_N map fst In]; [split; [congruence|tauto]|].
  destruct (N.eqb k1 k) eqn:E.
  - apply N.eqb_eq in E. split; [auto|discriminate].
  - apply N.eqb_neq in E. rewrite IH. split; [auto|]. intros [H|H]; [contradiction|exact H].
Qed.
Lemma get_N_some {A} (m : list (N * A)) k a : get_N m k = Some a -> In (k, a) m.
Proof.
  induction m as [|[k1 a1] m IH]; cbn [get_N]; [discriminate|]. destruct (N.eqb k1 k) eqn:E.
  - apply N.eqb_eq in E. intros H. inversion H; subst. left. reflexivity.
  - intros H. right. auto.
Qed.

(** ** The candidate rules *)
Section Candidates.
  Variable g : grammar.
  Variable key : term -> N.
  Variable fo : frame_orders.
  Hypothesis Hfo : frame_orders_ok fo.

  Lemma names_in vs : forall rs x, In x (fold_left (fun rs v => set_add String.eqb rs (@fst string N v)) vs rs) <->
    In x rs \/ In x (map fst vs).
  Proof.
    induction vs as [|v vs IH]; intros rs x; cbn [fold_left map In]; [tauto|].
    rewrite IH, (in_set_add String.eqb String.eqb_eq). intuition.
  Qed.
  Lemma names_nodup vs : forall rs, NoDup rs -> NoDup (fold_left (fun rs v => set_add String.eqb rs (@fst string N v)) vs rs).
  Proof. induction vs as [|v vs IH]; intros rs N; cbn [fold_left]; [exact N|]. apply IH, nodup_set_add; auto using String.eqb_eq. Qed.

  Lemma words_rules ms : forall fs rules fs' rules', words_loop g key fo ms fs rules = Ret (fs', rules') ->
    (NoDup rules -> NoDup rules') /\
    forall x, In x rules' <-> In x rules \/ exists w v, In w (map fst ms) /\ lists (g_index g) CRule w v /\ fst v = x.
  Proof.
    destruct Hfo as (_ & _ & Hr & _).
    induction ms as [|[w hits] ms IH]; intros fs rules fs' rules'; cbn [words_loop].
    - intros E. inversion E; subst. split; [auto|]. intros x. split; [auto|]. intros [H|(w & v & [] & _)]. exact H.
    - destruct (lookup (g_index g) w) as [i|] eqn:L; [|discriminate].
      destruct (fill_all _ _ _ _ _) as [fs1| | |]; cbn [bind]; try discriminate. intros E.
      apply IH in E. destruct E as [N I]. split; [intros H; apply N, names_nodup, H|].
      intros x. rewrite I, names_in. split.
      + intros [[H|H]|(w' & v & H1 & H2 & H3)]; [auto| |].
        * apply in_map_iff in H. destruct H as (v & Ev & H). right. exists w, v. split; [left; reflexivity|]. split; [|exact Ev].
          exists i. split; [exact L|]. eapply Permutation_in; [apply Permutation_sym, Hr|exact H].
        * right. exists w', v. cbn [map In]. auto.
      + intros [H|(w' & v & [Ew|H1] & H2 & H3)]; [auto| |].
        * cbn [fst] in Ew. subst w'. left. right. destruct H2 as (i' & L' & H2). rewrite L in L'. inversion L'; subst i'. apply in_map_iff. exists v.
          split; [exact H3|]. eapply Permutation_in; [apply Hr|exact H2].
        * right. exists w', v. auto.
  Qed.

  Lemma enqueue_spec vs : forall q rs q' rs', fold_left enqueue vs (q, rs) = (q', rs') ->
    exists new, q' = q ++ new /\ rs' = rs ++ new /\ (NoDup rs -> NoDup rs') /\
      (forall x, In x rs' <-> In x rs \/ In x (map fst vs)) /\
      (forall x, In x new -> In x (map fst vs)).
  Proof.
    induction vs as [|v vs IH]; intros q rs q' rs'; cbn [fold_left].
    - intros E. inversion E; subst. exists []. rewrite !app_nil_r. cbn. intuition.
    - unfold enqueue at 2. destruct (existsb (String.eqb (fst v)) rs) eqn:Ex; intros E; apply IH in E;
        destruct E as (new & -> & -> & N & I & S).
      + exists new. split; [reflexivity|]. split; [reflexivity|]. split; [exact N|]. cbn [map In].
        apply existsb_exists in Ex. destruct Ex as (y & Hy & Ey). apply String.eqb_eq in Ey.
        split; [|auto]. intros x. rewrite I. split; [intros [H|H]; auto|]. intros [H|[H|H]]; auto. left. congruence.
      + assert (Hn : ~ In (fst v) rs).
        { intros H. assert (existsb (String.eqb (fst v)) rs = true) by (apply existsb_exists; exists (fst v); split; [exact H|apply String.eqb_refl]).
          congruence. }
        exists (fst v :: new). rewrite <- !app_assoc in *. cbn [app] in *. split; [reflexivity|]. split; [reflexivity|].
        split; [|split].
        * intros H. apply N. apply NoDup_snoc; assumption.
        * intros x. rewrite I, in_app_iff. cbn [map In]. tauto.
        * intros x [<-|H]; cbn [map In]; auto.
  Qed.

  (** names that can enter the queue *)
  Definition names_of (ix : indexes) : list string := flat_map (fun ki => map fst (ix_rules (snd ki))) ix.
  Lemma lists_names ix k v : lists ix CRule k v -> In (fst v) (names_of ix).
  Proof.
    intros (i & L & H). apply lookup_in in L. apply in_flat_map. exists (k, i). split; [exact L|]. apply in_map. exact H.
  Qed.

  Lemma closure_spec fuel : forall queue rules out, closure g fo fuel queue rules = Ret out ->
    NoDup rules -> (forall x, In x queue -> In x rules) ->
    NoDup out /\ (forall x, In x rules -> In x out) /\
    (forall P : string -> Prop, (forall x, In x rules -> P x) ->
       (forall x v, P x -> lists (g_rule_index g) CRule x v -> P (fst v)) -> forall x, In x out -> P x) /\
    ((forall x, In x rules -> In x queue \/ forall v, lists (g_rule_index g) CRule x v -> In (fst v) rules) ->
     forall x v, In x out -> lists (g_rule_index g) CRule x v -> In (fst v) out).
  Proof.
    destruct Hfo as (_ & _ & _ & _ & Hu & _).
    induction fuel as [|fuel IH]; intros queue rules out E N Q; destruct queue as [|r queue]; cbn [closure] in E;
      try discriminate; try (inversion E; subst out; split; [exact N|]; split; [auto|]; split; [auto|];
        intros H x v Hx Hl; destruct (H x Hx) as [[]|H']; auto).
    destruct (lookup (g_rule_index g) r) as [i|] eqn:L.
    - destruct (fold_left enqueue _ _) as [q2 rs2] eqn:F. apply enqueue_spec in F. destruct F as (new & -> & -> & N2 & I & S).
      assert (HV : forall v, lists (g_rule_index g) CRule r v <-> In v (fo_uses fo r (ix_rules i))).
      { intros v. split.
        - intros (i' & L' & H). rewrite L in L'. inversion L'; subst i'. eapply Permutation_in; [apply Hu|exact H].
        - intros H. exists i. split; [exact L|]. eapply Permutation_in; [apply Permutation_sym, Hu|exact H]. }
      destruct (IH _ _ _ E (N2 N)) as (O1 & O2 & O3 & O4).
      { intros x Hx. apply in_app_or in Hx. destruct Hx as [Hx|Hx]; apply in_or_app; [left; apply Q; right; exact Hx|auto]. }
      split; [exact O1|]. split; [intros x Hx; apply O2, in_or_app; auto|]. split.
      + intros P HP HC. apply O3; [|exact HC]. intros x Hx. apply in_app_or in Hx. destruct Hx as [Hx|Hx]; [auto|].
        apply S, in_map_iff in Hx. destruct Hx as (v & <- & Hv). apply (HC r v); [apply HP, Q; left; reflexivity|]. apply HV. exact Hv.
      + intros H. apply O4. intros x Hx. apply in_app_or in Hx. destruct Hx as [Hx|Hx].
        * destruct (H x Hx) as [[->|Hq]|Hc].
          -- right. intros v Hv. apply I. right. apply in_map, HV, Hv.
          -- left. apply in_or_app. auto.
          -- right. intros v Hv. apply in_or_app. auto.
        * left. apply in_or_app. auto.
    - destruct (IH _ _ _ E N ltac:(intros x Hx; apply Q; right; exact Hx)) as (O1 & O2 & O3 & O4).
      split; [exact O1|]. split; [exact O2|]. split; [exact O3|]. intros H. apply O4. intros x Hx.
      destruct (H x Hx) as [[->|Hq]|Hc]; auto. right. intros v (i & L' & _). congruence.
  Qed.

  Lemma closure_stops U fuel : forall queue rules, NoDup rules -> (forall x, In x rules -> In x U) ->
    (forall x v, lists (g_rule_index g) CRule x v -> In (fst v) U) ->
    length queue + (length U - length rules) <= fuel -> exists out, closure g fo fuel queue rules = Ret out.
  Proof.
    destruct Hfo as (_ & _ & _ & _ & Hu & _).
    induction fuel as [|fuel IH]; intros queue rules N S HU Hf; destruct queue as [|r queue]; cbn [closure]; try (eexists; reflexivity).
    { cbn [length] in Hf. lia. }
    cbn [length] in Hf. destruct (lookup (g_rule_index g) r) as [i|] eqn:L; [|apply IH; auto; lia].
    destruct (fold_left enqueue _ _) as [q2 rs2] eqn:F. apply enqueue_spec in F. destruct F as (new & -> & -> & N2 & I & Sn).
    assert (Hnew : forall x, In x new -> In x U).
    { intros x Hx. apply Sn, in_map_iff in Hx. destruct Hx as (v & <- & Hv). apply (HU r v). exists i. split; [exact L|].
      eapply Permutation_in; [apply Permutation_sym, Hu|exact Hv]. }
    assert (Hle : length (rules ++ new) <= length U).
    { apply NoDup_incl_length; [exact (N2 N)|]. intros x Hx. apply in_app_or in Hx. destruct Hx; auto. }
    apply IH; auto.
    - intros x Hx. apply in_app_or in Hx. destruct Hx; auto.
    - rewrite !app_length in *. lia.
  Qed.
End Candidates.

Section GetCandidates.
  Variable g : grammar.
  Variable rules : grammar_rules.
  Hypothesis Hix : index_exact g rules.
  Variable key : term -> N.
  Variable multi_match : list string -> string -> res (list (string * list (nat * nat))).

  Lemma starts_exact fo fuel text fs starts matches : frame_orders_ok fo ->
    multi_match (g_trie g) text = Ret matches ->
    get_candidates g key multi_match fo fuel text = Ret (fs, starts) ->
    NoDup starts /\ forall x, In x starts <-> wanted (rules :: map g_rules (g_includes g)) (map fst matches) x.
  Proof.
    intros Hfo Hm. unfold get_candidates. rewrite Hm. cbn [bind].
    destruct (words_loop _ _ _ _ _ _) as [[fs1 rs]| | |] eqn:EW; cbn [bind]; try discriminate.
    destruct (closure _ _ _ _ _) as [out| | |] eqn:EC; cbn [bind]; try discriminate. intros E. inversion E; subst. clear E.
    pose proof Hfo as (HM & _ & _ & HQ & _ & HS & _).
    apply (words_rules g key fo Hfo) in EW. destruct EW as [N I]. specialize (N (NoDup_nil _)).
    destruct (closure_spec g fo Hfo _ _ _ _ EC N) as (O1 & O2 & O3 & O4).
    { intros x. apply Permutation_in. apply Permutation_sym, HQ. }
    split; [eapply Permutation_NoDup; [apply HS|exact O1]|].
    assert (EX : forall c k v, lists (g_index g) c k v <-> mentioned (match c with CFrame => g_frames g :: map g_frames (g_includes g) | CRule => rules :: map g_rules (g_includes g) end) TTerminal k v).
    { intros c k v. destruct Hix as (H & _). destruct (H k v) as (H1 & H2 & _). destruct c; assumption. }
    assert (ER : forall k v, lists (g_rule_index g) CRule k v <-> mentioned (rules :: map g_rules (g_includes g)) TNonterminal k v).
    { intros k v. destruct Hix as (H & _). destruct (H k v) as (_ & _ & _ & H4). exact H4. }
    intros x. transitivity (In x out).
    { split; apply Permutation_in; [apply Permutation_sym|]; apply HS. }
    split.
    - apply O3.
      + intros y Hy. apply I in Hy. destruct Hy as [[]|(w & v & Hw & Hl & <-)]. apply (wanted_word _ _ w); [|apply (EX CRule); exact Hl].
        eapply Permutation_in; [|exact Hw]. apply Permutation_map, Permutation_sym, HM.
      + intros y v Hy Hl. eapply wanted_use; [exact Hy|]. apply ER. exact Hl.
    - intros H. induction H as [k v Hk Hm'|y v Hy IHy Hm'].
      + apply O2, I. right. exists k, v. split; [|split; [apply (EX CRule); exact Hm'|reflexivity]].
        eapply Permutation_in; [|exact Hk]. apply Permutation_map, HM.
      + eapply O4; [|exact IHy|apply ER; exact Hm']. intros z Hz. left. eapply Permutation_in; [apply HQ|exact Hz].
  Qed.

  Lemma candidates_stop : (forall text, multi_match (g_trie g) text <> Fuel) ->
    exists n, forall fo fuel text, frame_orders_ok fo -> n <= fuel ->
      get_candidates g key multi_match fo fuel text <> Fuel.
  Proof.
    intros Hm. set (U := names_of (g_index g) ++ names_of (g_rule_index g)). exists (length U). intros fo fuel text Hfo Hn.
    unfold get_candidates. destruct (multi_match (g_trie g) text) as [ms| | |] eqn:Em; cbn [bind]; try discriminate; [|destruct (Hm text Em)].
    assert (HW : forall ms fs rs, words_loop g key fo ms fs rs <> Fuel).
    { clear. induction ms as [|[w h] ms IH]; intros fs rs; cbn [words_loop]; [discriminate|].
      destruct (lookup (g_index g) w) as [i|]; [|discriminate].
      assert (HF : forall k new vs fs, fill_all g k new vs fs <> Fuel).
      { clear. induction vs as [|v vs IH]; intros fs; cbn [fill_all]; [discriminate|]. unfold fill, frame_body.
        destruct (lookup _ _) as [r|]; cbn [bind]; [|discriminate]. destruct (get_N _ _); cbn [bind]; [apply IH|discriminate]. }
      destruct (fill_all _ _ _ _ _) eqn:EF; cbn [bind]; try discriminate; [apply IH|]. destruct (HF _ _ _ _ EF). }
    destruct (words_loop _ _ _ _ _ _) as [[fs1 rs]| | |] eqn:EW; cbn [bind]; try discriminate; [|destruct (HW _ _ _ EW)].
    apply (words_rules g key fo Hfo) in EW. destruct EW as [N I]. specialize (N (NoDup_nil _)).
    assert (SU : forall x, In x rs -> In x U).
    { intros x Hx. apply I in Hx. destruct Hx as [[]|(w & v & _ & Hl & <-)]. apply in_or_app. left. eapply lists_names. exact Hl. }
    destruct (closure_stops g fo Hfo U fuel (fo_queue fo rs) rs N SU) as (out & ->); cbn [bind]; [| |discriminate].
    - intros x v Hl. apply in_or_app. right. eapply lists_names. exact Hl.
    - destruct Hfo as (_ & _ & _ & HQ & _). rewrite <- (Permutation_length (HQ rs)).
      pose proof (NoDup_incl_length N SU). lia.
  Qed.
End GetCandidates.
