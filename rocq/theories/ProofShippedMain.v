(** The statements about the shipped files, for every environment. *)
From Verif Require Import Base ModelTypes ModelText ModelEarley ModelReader ModelGrammar
  SpecNotation SpecRefine SpecConstruct SpecSem ModelShipped SpecShipped ProofLoads ProofShipped.

Lemma shipped_loads e : env_ok e -> tools_work e -> fractions_scan e -> e_regexp_ok e sf_pattern = true ->
  forall l dir, In l shipped -> installed e dir l ->
  forall name text, In (name, text) l -> name <> rejected -> forall gt,
  exists g w' n, forall fuel depth, n <= fuel -> n <= depth ->
    from_file e fuel depth (e_join e dir name) gt = Ret (Some g, w').
Proof.
  intros HE HT [(half & Hh) (cent & Hc)] HP l dir Hl Hi name text Hn Hr gt.
  exact (loads e HE half cent Hh Hc HP dir l Hl Hi name text Hn Hr HT gt).
Qed.
Lemma shipped_rejected e dir : installed e dir dir_builtin -> forall gt,
  exists n, forall fuel depth, n <= fuel -> n <= depth ->
    from_file e fuel depth (e_join e dir "any.grammar") gt = Err.
Proof.
  intros H gt. exists 600. intros fuel depth Hf Hd. destruct depth as [|depth]; [lia|].
  replace fuel with (600 + (fuel - 600)) by lia. exact (any_rejected e dir (fuel - 600) depth gt H).
Qed.
Lemma shipped_reached e : env_ok e -> fractions_scan e -> e_regexp_ok e sf_pattern = true ->
  forall l dir, In l shipped -> installed e dir l ->
  forall name text, In (name, text) l -> name <> rejected ->
  forall f, e_reached e text dir f <-> In f (map (e_join e dir) (below name)).
Proof.
  intros HE [(half & Hh) (cent & Hc)] HP l dir Hl Hi name text Hn Hr f. split.
  - intros H. destruct (reached_below e HE half cent Hh Hc HP dir l Hl Hi name text Hn Hr f H) as (q & t & H1 & _ & _ & ->).
    apply in_map. exact H1.
  - intros H. apply in_map_iff in H as (q & <- & H).
    exact (below_reached e HE half cent Hh Hc HP dir l Hl Hi _ name text (le_n _) Hn Hr q H).
Qed.
Lemma shipped_contained e : env_ok e -> fractions_scan e -> e_regexp_ok e sf_pattern = true ->
  forall l name text, In l shipped -> In (name, text) l -> name <> rejected -> self_contained e l name text.
Proof.
  intros HE [(half & Hh) (cent & Hc)] HP l name text Hl Hn Hr. exact (contained e HE half cent Hh Hc HP l name text Hl Hn Hr).
Qed.
