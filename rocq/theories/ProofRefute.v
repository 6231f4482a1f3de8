(** Executions that violate what one would expect: non-termination and
    dependence on the map order. *)
From Coq Require Import Permutation.
From Verif Require Import Base ModelTypes ModelText ModelEarley ModelTrees ModelApi
     SpecTypes SpecGrammar SpecTree SpecApi
     ProofEqual ProofChart ProofSound ProofComplete ProofTerm ProofOrder
     ProofTree ProofApi ProofApiLoops ProofMain Examples.

(** ** Rules with a single alternative leave no choice to the map order *)
Definition same_orders (o1 o2 : order) (gs : list grammar_rules) : Prop :=
  forall i j k g x r, In g gs -> lookup g x = Some r ->
    o1 i j k (map snd (r_body r)) = o2 i j k (map snd (r_body r)).

Section SameOrders.
  Variable tmatch : term -> option token -> bool.
  Variables o1 o2 : order.
  Variable gs : list grammar_rules.
  Hypothesis Hsame : same_orders o1 o2 gs.

  Lemma predict_gs_same l : (forall g, In g l -> In g gs) -> forall i j k col t,
    predict_gs o1 i j k l col t = predict_gs o2 i j k l col t.
  Proof.
    induction l as [|g l IH]; intros Hl i j k col t; [reflexivity|]. simpl.
    rewrite IH by (intros; apply Hl; right; auto). f_equal. unfold predict_g.
    destruct (lookup g (t_value t)) as [r|] eqn:E; [|reflexivity].
    rewrite (Hsame i j k g _ r (Hl g (or_introl eq_refl)) E). reflexivity.
  Qed.

  Lemma step_row_same cols i j st :
    step_row tmatch o1 gs cols i j st = step_row tmatch o2 gs cols i j st.
  Proof.
    unfold step_row. destruct (is_completed st) as [d| | |]; simpl; auto.
    match goal with |- bind ?a _ = _ => destruct a as [cols1| | |]; simpl; auto end.
    destruct (get_next_term st) as [[t|]| | |]; simpl; auto.
    unfold step_next, predict. destruct (t_type (s_term st)); auto;
      destruct (t_type t); auto; destruct (idx cols1 i); simpl; auto;
      rewrite predict_gs_same; auto.
  Qed.

  Lemma col_loop_same fuel : forall cols i j,
    col_loop tmatch o1 gs fuel cols i j = col_loop tmatch o2 gs fuel cols i j.
  Proof.
    induction fuel as [|fuel IH]; intros cols i j; [reflexivity|]. cbn [col_loop].
    destruct (idx cols i) as [col| | |]; cbn [bind]; auto.
    destruct (nth_error (c_states col) j); auto.
    rewrite step_row_same. destruct (step_row tmatch o2 gs cols i j t); cbn [bind]; auto.
  Qed.

  Lemma cols_loop_same fuel m : forall cols i,
    cols_loop tmatch o1 gs fuel m cols i = cols_loop tmatch o2 gs fuel m cols i.
  Proof.
    induction m as [|m IH]; intros cols i; [reflexivity|]. cbn [cols_loop].
    rewrite col_loop_same. destruct (col_loop tmatch o2 gs fuel cols i 0); cbn [bind]; auto.
  Qed.

  Lemma earley_parse_same fuel mf toks starts :
    earley_parse tmatch o1 gs fuel mf toks starts = earley_parse tmatch o2 gs fuel mf toks starts.
  Proof.
    unfold earley_parse. destruct starts; auto. destruct toks; auto.
    unfold parse. destruct (idx (init_columns (t :: toks)) 0); cbn [bind]; auto.
    rewrite cols_loop_same. reflexivity.
  Qed.
End SameOrders.

(** All rules have at most one alternative. *)
Definition single_b (gs : list grammar_rules) : bool :=
  forallb (fun g : grammar_rules => forallb (fun p => Nat.leb (length (r_body (snd p))) 1) g) gs.

Lemma single_same gs o1 o2 : single_b gs = true -> is_order o1 -> is_order o2 -> same_orders o1 o2 gs.
Proof.
  intros H H1 H2 i j k g x r Hg Hl. unfold single_b in H. rewrite forallb_forall in H.
  specialize (H g Hg). rewrite forallb_forall in H. specialize (H _ (lookup_in _ _ _ Hl)).
  simpl in H. apply Nat.leb_le in H.
  assert (forall l : list rulebody, length l <= 1 -> forall o, is_order o -> o i j k l = l) as Hid.
  { intros l Hlen o Ho. specialize (Ho i j k l). destruct l as [|a [|b l]]; simpl in Hlen; try lia.
    - apply Permutation_sym, Permutation_nil in Ho. exact Ho.
    - apply Permutation_sym, Permutation_length_1_inv in Ho. exact Ho. }
  rewrite !Hid; auto; rewrite map_length; exact H.
Qed.

(** ** C01: an argument that is not of the announced kind makes the parser loop *)
Definition untyped_body : rulebody := mkRb [xN "s"] (Some (FMR "f" [Arg "int" (VOther 0)])).
Definition untyped_state : tstate := mkSt (xN "s") (Some untyped_body) 0 0 0.

Lemma find_untyped n : find_state (begin_state "s" :: repeat untyped_state n) untyped_state = None.
Proof.
  apply find_state_none. intros s [<-|Hs]; [reflexivity|]. apply repeat_spec in Hs. subst s. reflexivity.
Qed.

Lemma untyped_col_loop tmatch fuel : forall j rest,
  col_loop tmatch id_ord g_untyped fuel
    (mkCol None 0 (begin_state "s" :: repeat untyped_state j) :: rest) 0 j = Fuel.
Proof.
  induction fuel as [|fuel IH]; intros j rest; [reflexivity|].
  cbn [col_loop idx nth_error bind c_states].
  assert (nth_error (begin_state "s" :: repeat untyped_state j) j
          = Some (if Nat.eqb j 0 then begin_state "s" else untyped_state)) as E.
  { destruct j as [|j]; [reflexivity|]. cbn [nth_error Nat.eqb]. apply nth_error_repeat. lia. }
  rewrite E.
  assert (step_row tmatch id_ord g_untyped (mkCol None 0 (begin_state "s" :: repeat untyped_state j) :: rest) 0 j
            (if Nat.eqb j 0 then begin_state "s" else untyped_state)
          = Ret (mkCol None 0 (begin_state "s" :: repeat untyped_state (S j)) :: rest)) as ->.
  { assert (forall st, st = begin_state "s" \/ st = untyped_state ->
      step_row tmatch id_ord g_untyped (mkCol None 0 (begin_state "s" :: repeat untyped_state j) :: rest) 0 j st
      = Ret (mkCol None 0 (begin_state "s" :: repeat untyped_state (S j)) :: rest)) as H.
    { intros st [-> | ->]; unfold step_row; cbn;
        change (mkSt (mkTerm "s" TNonterminal MNil) (Some _) 0 0 0) with untyped_state;
        unfold insert, insert_to_end; cbn [c_states c_index s_term s_rb s_start s_dot t_type c_token xN untyped_state];
        fold untyped_state; rewrite find_untyped; do 3 f_equal; simpl; f_equal;
        rewrite repeat_cons; reflexivity. }
    apply H. destruct (Nat.eqb j 0); auto. }
  cbn [bind]. apply IH.
Qed.

Lemma untyped_diverges tmatch ords text fuel n mf toks : is_order (ords n) -> toks <> [] ->
  earley_parse_n tmatch ords g_untyped text fuel n mf toks ["s"] = Fuel.
Proof.
  intros Ho Ht. unfold earley_parse_n.
  rewrite (earley_parse_same tmatch (ords n) id_ord g_untyped (single_same g_untyped _ _ eq_refl Ho id_ord_ok)).
  unfold earley_parse. destruct toks as [|k ks]; [congruence|]. unfold parse. cbn [idx init_columns nth_error bind].
  cbn [length init_columns cols_loop update c_token c_index c_states app map].
  rewrite (untyped_col_loop tmatch fuel 0). reflexivity.
Qed.

(** ** C13: a longest match that is empty stops the progress of EarleyParseMaxAll *)
Lemma max_all_diverges tmatch ords gs text fuel toks starts :
  toks <> [] ->
  (forall n, earley_parse_n tmatch ords gs text fuel n true toks starts = Fuel
    \/ exists p, earley_parse_n tmatch ords gs text fuel n true toks starts = Ret p
              /\ p_finals p <> [] /\ max_end p (p_finals p) 0 = Ret 0) ->
  forall steps n, max_all_loop tmatch ords gs text steps fuel n toks starts = Fuel.
Proof.
  intros Ht H steps. induction steps as [|steps IH]; intros n; [reflexivity|].
  cbn [max_all_loop]. destruct toks as [|k ks]; [congruence|].
  destruct (H n) as [E|(p & E & Hf & Hm)]; rewrite E; cbn [bind]; [reflexivity|].
  unfold has_finals. destruct (p_finals p) as [|x l] eqn:El; [congruence|].
  rewrite Hm. cbn [bind skipn]. rewrite IH. reflexivity.
Qed.

(** One position at which every run finds a match but only empty ones. *)
Lemma max_all_diverges_reports tmatch ords gs text fuel toks starts :
  orders ords -> well_formed gs starts -> toks <> [] -> starts <> [] ->
  (forall n p, earley_parse_n tmatch ords gs text fuel n true toks starts = Ret p ->
     (exists S k, reports p S k) /\ forall S k, reports p S k -> k = 0) ->
  forall steps n, max_all_loop tmatch ords gs text steps fuel n toks starts = Fuel.
Proof.
  intros Ho Hwf Ht Hs H. apply max_all_diverges; auto. intros n.
  destruct (earley_parse_n tmatch ords gs text fuel n true toks starts) as [p| | |] eqn:E; auto; right.
  - exists p. split; [reflexivity|]. destruct (H n p E) as [(S & k & Hr) H0].
    assert (p_finals p <> []) as Hne.
    { destruct Hr as (ref & s & Hi & _). destruct (p_finals p); [destruct Hi|discriminate]. }
    split; [exact Hne|].
    destruct (earley_parse_result _ _ _ _ _ _ _ _ _ _ (Ho n) E) as (_ & _ & R).
    destruct (max_end_one tmatch ords Ho gs text starts Hwf p n toks R Hne) as (S' & m & Hr' & Hm & _).
    rewrite (H0 S' m Hr') in Hm. exact Hm.
  - destruct (chart_no_panic tmatch ords gs text fuel n true toks starts (Ho n)) as [_ H1].
    apply H1 in E. destruct E; congruence.
  - destruct (chart_no_panic tmatch ords gs text fuel n true toks starts (Ho n)) as [H1 _]. congruence.
Qed.

(** A result found with some fuel is found with any larger one. *)
Lemma earley_parse_n_fuel tmatch ords gs text fuel k n mf toks starts p :
  earley_parse_n tmatch ords gs text fuel n mf toks starts = Ret p ->
  earley_parse_n tmatch ords gs text (fuel + k) n mf toks starts = Ret p.
Proof.
  unfold earley_parse_n, earley_parse. destruct starts; [discriminate|]. destruct toks; [discriminate|].
  destruct (parse tmatch (ords n) gs fuel mf (s :: starts) (init_columns (t :: toks))) as [x| | |] eqn:E; try discriminate.
  assert (s :: starts <> []) as Hne by discriminate.
  rewrite (parse_fuel _ _ _ _ _ _ k _ _ Hne E). auto.
Qed.

Lemma earley_parse_n_unique tmatch ords gs text f1 f2 n mf toks starts p1 p2 :
  earley_parse_n tmatch ords gs text f1 n mf toks starts = Ret p1 ->
  earley_parse_n tmatch ords gs text f2 n mf toks starts = Ret p2 -> p1 = p2.
Proof.
  intros H1 H2. apply (earley_parse_n_fuel _ _ _ _ _ f2) in H1. apply (earley_parse_n_fuel _ _ _ _ _ f1) in H2.
  rewrite Nat.add_comm in H2. congruence.
Qed.

Definition one_word (w : string) : string -> string -> res (list token) := fun _ _ => Ret (xtoks [w]).
Definition no_local : list token -> res (option grammar_rules) := fun _ => Ret None.

Lemma nullable_diverges ords steps fuel : orders ords ->
  EarleyParseMaxAll xmatch ords g_nullable (one_word "x") no_local steps fuel "" "x" ["s"] = Fuel.
Proof.
  intros Ho. unfold EarleyParseMaxAll.
  assert (process (one_word "x") no_local "" "x" = Ret (xtoks ["x"], None)) as -> by reflexivity.
  cbn [bind with_local]. apply max_all_diverges; [discriminate|].
  intros n.
  assert (forall f, earley_parse_n xmatch ords g_nullable "x" f n true (xtoks ["x"]) ["s"]
            = earley_parse_n xmatch (fun _ => id_ord) g_nullable "x" f n true (xtoks ["x"]) ["s"]) as Esame.
  { intros f. unfold earley_parse_n.
    rewrite (earley_parse_same xmatch (ords n) id_ord g_nullable (single_same g_nullable _ _ eq_refl (Ho n) id_ord_ok)).
    reflexivity. }
  rewrite Esame.
  assert (exists p0, earley_parse_n xmatch (fun _ => id_ord) g_nullable "x" 50 n true (xtoks ["x"]) ["s"] = Ret p0
            /\ p_finals p0 <> [] /\ max_end p0 (p_finals p0) 0 = Ret 0) as (p0 & E0 & H0).
  { eexists. split; [vm_compute; reflexivity|]. split; [discriminate|reflexivity]. }
  destruct (earley_parse_n xmatch (fun _ => id_ord) g_nullable "x" fuel n true (xtoks ["x"]) ["s"]) as [p| | |] eqn:E; auto; right.
  - exists p. split; [reflexivity|]. rewrite <- (earley_parse_n_unique _ _ _ _ _ _ _ _ _ _ _ _ E0 E). exact H0.
  - destruct (chart_no_panic xmatch (fun _ => id_ord) g_nullable "x" fuel n true (xtoks ["x"]) ["s"] id_ord_ok) as [_ H1].
    apply H1 in E. destruct E; discriminate.
  - destruct (chart_no_panic xmatch (fun _ => id_ord) g_nullable "x" fuel n true (xtoks ["x"]) ["s"] id_ord_ok) as [H1 _]. congruence.
Qed.
