(** The nodes of the returned trees: shape, ranges, positions, texts. *)
From Verif Require Import Base ModelTypes ModelText ModelEarley ModelTrees ModelApi ModelQuote ModelSem
     SpecTypes SpecGrammar SpecTree SpecApi SpecSem
     ProofEqual ProofChart ProofSound ProofComplete ProofTerm ProofTree ProofTreeOk ProofTreeSet ProofTreeDup ProofApi ProofApiLoops
     ProofTreeApi ProofMain ProofSem.

(** ** Shape of the nodes the tree builder makes *)
Inductive built : node -> Prop :=
| bu_leaf t i : t_type t = TTerminal -> built (Node (mkSt t None i (i + 1) 0) [])
| bu_any t i j d : t_type t = TAny -> built (Node (mkSt t None i j d) [])
| bu_rule s rb ch : t_type (s_term s) = TNonterminal -> s_rb s = Some rb -> length ch = length (rb_terms rb) ->
    Forall built ch -> built (Node s ch)
| bu_list s ch : t_type (s_term s) = TList -> s_rb s = Some (list_rb s) -> length ch = s_dot s ->
    Forall built ch -> built (Node s ch).

Lemma over_subtrees_inv k subs : forall outs o, over_subtrees k subs = Ret outs -> In o outs ->
  exists sub os, In sub subs /\ k sub = Ret os /\ In o os.
Proof.
  induction subs as [|s subs IH]; simpl; intros outs o H Hin.
  - injection H as <-. destruct Hin.
  - destruct (k s) as [os| | |] eqn:E; try discriminate. simpl in H.
    destruct (over_subtrees k subs) as [rest| | |] eqn:E2; try discriminate. simpl in H. injection H as <-.
    apply in_app_or in Hin as [Hin|Hin]; [eauto 6|].
    destruct (IH _ _ eq_refl Hin) as (sub & os' & H1 & H2 & H3). eauto 6.
Qed.

Lemma over_states_inv body ref t start e sts : forall r outs o,
  over_states body ref t start e r sts = Ret outs -> In o outs ->
  exists r' st os, body r' st = Ret os /\ In o os.
Proof.
  induction sts as [|s sts IH]; simpl; intros r outs o H Hin.
  - injection H as <-. destruct Hin.
  - destruct (Nat.eqb e (fst ref) && Nat.eqb r (snd ref)); [injection H as <-; destruct Hin|].
    destruct (is_completed s) as [d| | |]; try discriminate. cbn [bind] in H.
    destruct (_ || _); [eauto|].
    destruct (match start with Some n => _ | None => _ end); [eauto|].
    destruct (body r s) as [os| | |] eqn:E; try discriminate. cbn [bind] in H.
    destruct (over_states body ref t start e (S r) sts) as [rest| | |] eqn:E2; try discriminate. simpl in H.
    injection H as <-. apply in_app_or in Hin as [Hin|Hin]; eauto.
Qed.

Section Built.
  Variable cols : list column.
  Hypothesis Hkind : forall c col s, nth_error cols c = Some col -> In s (c_states col) ->
    t_type (s_term s) = TNonterminal \/ t_type (s_term s) = TAny \/ t_type (s_term s) = TList.

  Lemma built_helper fuel : (forall f, f <= fuel -> forall ref outs, build_trees cols f ref = Ret outs -> Forall built outs) ->
    forall f children ref st terms k e outs, f <= fuel ->
    (forall ch, Forall built ch -> length ch = length terms -> built (Node st ch)) ->
    Forall built children -> k + length children = length terms ->
    build_helper cols f children ref st terms k e = Ret outs -> Forall built outs.
  Proof.
    intros Hb. induction f as [|f IH]; intros children ref st terms k e outs Hf Hst Hch Hk H; [discriminate|].
    simpl in H. destruct k as [|k].
    - injection H as <-. constructor; [|constructor]. apply Hst; auto.
    - destruct (idx terms k) as [t| | |] eqn:Et; try discriminate. cbn [bind] in H.
      assert (forall x, (if Z.ltb e 0 then Panic else x) = Ret outs -> x = Ret outs) as Hz.
      { intros x. destruct (Z.ltb e 0); [discriminate|auto]. }
      assert (forall o, In o outs -> (col <- idx cols (Z.to_nat e) ;;
                over_states
                  (fun r sub_st =>
                     subs <- build_trees cols f (Z.to_nat e, r) ;;
                     over_subtrees
                       (fun sub => build_helper cols f (sub :: children) ref st terms k
                                                (Z.of_nat (s_start sub_st))) subs)
                  ref t (if Nat.eqb k 0 then Some (s_start st) else None) (Z.to_nat e) 0 (c_states col)) = Ret outs -> built o) as Hgen.
      { intros o Hin Ho. destruct (idx cols (Z.to_nat e)) as [col| | |]; try discriminate. cbn [bind] in Ho.
        destruct (over_states_inv _ _ _ _ _ _ _ _ _ Ho Hin) as (r & d & os & Hos & Ho').
        destruct (build_trees cols f (Z.to_nat e, r)) as [subs| | |] eqn:Es; try discriminate. cbn [bind] in Hos.
        destruct (over_subtrees_inv _ _ _ _ Hos Ho') as (sub & os' & H1 & H2 & H3).
        assert (Forall built os') as F.
        { eapply IH; [| |constructor; [|exact Hch]| |exact H2]; auto; [lia| |simpl; lia].
          specialize (Hb f ltac:(lia) _ _ Es). rewrite Forall_forall in Hb. auto. }
        rewrite Forall_forall in F. auto. }
      destruct (t_type t) eqn:Ety; try (apply Forall_forall; intros o Hin; apply Hgen; auto; fail).
      eapply IH; [| |constructor; [|exact Hch]| |exact H]; auto; [lia|constructor; exact Ety|simpl; lia].
  Qed.

  Lemma all_built fuel : forall ref outs, build_trees cols fuel ref = Ret outs -> Forall built outs.
  Proof.
    induction fuel as [fuel IH] using (well_founded_induction lt_wf). intros ref outs H.
    destruct fuel as [|fuel]; [discriminate|]. simpl in H. unfold idx in H at 1.
    destruct (nth_error cols (fst ref)) as [col|] eqn:Ec; [|discriminate]. cbn [bind] in H. unfold idx in H.
    destruct (nth_error (c_states col) (snd ref)) as [s|] eqn:Es; [|discriminate]. cbn [bind] in H.
    pose proof (Hkind _ _ _ Ec (nth_error_In _ _ Es)) as Hk.
    unfold with_list_rb in H. destruct (t_type (s_term s)) eqn:Et; try (destruct Hk as [E|[E|E]]; discriminate).
    - destruct (s_rb s) as [rb|] eqn:Erb; [|discriminate].
      eapply (built_helper fuel) with (f := fuel) (children := []) (terms := rb_terms rb); eauto.
      + intros f Hf. apply IH. lia.
      + intros ch Hch Hl. eapply bu_rule; eauto.
    - injection H as <-. repeat constructor. exact Et.
    - cbn [s_rb] in H.
      eapply (built_helper fuel) with (f := fuel) (children := []); [| |  |constructor| |exact H]; auto.
      + intros f Hf. apply IH. lia.
      + intros ch Hch Hl. cbn [list_rb rb_terms] in Hl. rewrite repeat_length in Hl. apply bu_list; auto.
  Qed.
End Built.

(** ** Ranges *)
Section Ranges.
  Variable gs : list grammar_rules.
  Variable accepts : term -> token -> Prop.
  Variable toks : list token.
  Variable count_ok : term -> nat -> Prop.
  Notation T := (tree_of gs accepts toks count_ok).
  Notation TS := (trees_of gs accepts toks count_ok).

  Lemma tree_range :
    (forall t i j q, T t i j q -> i <= j) /\ (forall ts i j qs, TS ts i j qs -> i <= j).
  Proof. apply tree_of_mutind; intros; lia. Qed.

  Lemma trees_bound :
    (forall t i j q, T t i j q -> i <= length toks -> j <= length toks) /\
    (forall ts i j qs, TS ts i j qs -> i <= length toks -> j <= length toks).
  Proof.
    apply tree_of_mutind; intros; auto; try lia.
    assert (i < length toks); [apply nth_error_Some; congruence|lia].
  Qed.

  (** the parts of a list of trees *)
  Lemma trees_kids ts i j qs : TS ts i j qs -> forall q, In q qs ->
    exists t i' j', T t i' j' q /\ i <= i' /\ j' <= j.
  Proof.
    induction 1 as [|t ts i j k q qs Hq Hqs IH]; intros q' Hin; [destruct Hin|].
    pose proof (proj1 tree_range _ _ _ _ Hq). pose proof (proj2 tree_range _ _ _ _ Hqs).
    destruct Hin as [<-|Hin].
    - exists t, i, j. auto.
    - destruct (IH _ Hin) as (t' & i' & j' & H1 & H2 & H3). exists t', i', j'. repeat split; auto; lia.
  Qed.

  (** a body of the grammar, or a list, or none *)
  Definition node_kind (m : node) : Prop :=
    match s_rb (n_value m) with
    | None => n_children m = []
    | Some b => length (n_children m) = length (rb_terms b)
        /\ (has_body gs (t_value (s_term (n_value m))) b \/ b = list_rb (n_value m))
    end.

  Lemma node_ranges n : forall t i j, built n -> T t i j (erase n) ->
    forall m, part_of n m -> i <= s_start (n_value m) <= s_end (n_value m) /\ s_end (n_value m) <= j /\ node_kind m
      /\ exists t', T t' (s_start (n_value m)) (s_end (n_value m)) (erase m).
  Proof.
    induction n as [v ch IH] using node_ind'. intros t i j Hb Ht m Hm.
    rewrite Forall_forall in IH.
    assert (i = s_start v /\ j = s_end v /\ node_kind (Node v ch) /\
            (ch <> [] -> exists ts, TS ts i j (map erase ch)) /\ Forall built ch) as (Hi & Hj & Hk & Hkids & Hbs).
    { inversion Hb; subst; simpl in Ht; unfold node_kind; cbn [n_value n_children s_rb s_start s_end].
      - match goal with E : t_type _ = _ |- _ => rewrite E in Ht end. inversion Ht; subst.
        split; [auto|]. split; [lia|]. split; [auto|]. split; [congruence|auto].
      - match goal with E : t_type _ = _ |- _ => rewrite E in Ht end. inversion Ht; subst.
        split; [auto|]. split; [auto|]. split; [auto|]. split; [congruence|auto].
      - match goal with E : t_type _ = _ |- _ => rewrite E in Ht end.
        match goal with E : s_rb v = _ |- _ => rewrite E in *; clear E end. inversion Ht; subst.
        split; [auto|]. split; [auto|]. split; [split; [auto|left; congruence]|]. split; [eauto|auto].
      - match goal with E : t_type _ = _ |- _ => rewrite E in Ht end.
        match goal with E : s_rb v = _ |- _ => rewrite E end. inversion Ht; subst.
        split; [auto|]. split; [auto|]. split; [split; [|right; reflexivity]|].
        + cbn [list_rb rb_terms]. rewrite repeat_length. auto.
        + split; [eauto|auto]. }
    subst i j. inversion Hm as [|v' ch' c m' Hin Hpart]; subst.
    - cbn [n_value]. pose proof (proj1 tree_range _ _ _ _ Ht). eauto 6.
    - destruct Hkids as [ts Hts]; [intros ->; contradiction|].
      destruct (trees_kids _ _ _ _ Hts (erase c)) as (t' & i' & j' & Hx & Hy & Hz); [apply in_map; auto|].
      rewrite Forall_forall in Hbs.
      destruct (IH c Hin t' i' j' (Hbs _ Hin) Hx m Hpart) as (Ha & Hb' & Hc' & Hd').
      split; [lia|]. split; [lia|]. auto.
  Qed.
End Ranges.

(** ** Positions *)
Lemma column_token p ks i t : parsed_tokens p ks -> nth_error ks i = Some t ->
  exists c, nth_error (p_columns p) (S i) = Some c /\ c_token c = Some t.
Proof.
  unfold parsed_tokens. intros H Hi. destruct (p_columns p) as [|c0 cs]; simpl in *.
  - destruct ks; [destruct i; discriminate|discriminate].
  - assert (nth_error (map c_token cs) i = Some (Some t)) as E.
    { rewrite H. rewrite nth_error_map, Hi. reflexivity. }
    rewrite nth_error_map in E. destruct (nth_error cs i) as [c|]; [|discriminate].
    exists c. split; auto. simpl in E. congruence.
Qed.

Lemma column_count p ks : parsed_tokens p ks -> ks <> [] -> length (p_columns p) = S (length ks).
Proof.
  unfold parsed_tokens. intros H Hk. apply (f_equal (@length _)) in H. rewrite !map_length in H.
  destruct (p_columns p); simpl in *; [destruct ks; [congruence|discriminate]|lia].
Qed.

Lemma position_of p ks s a b : parsed_tokens p ks ->
  nth_error ks (s_start s) = Some a -> s_start s < s_end s -> nth_error ks (s_end s - 1) = Some b ->
  boundary p s = Ret (tok_start a, Nat.max (tok_start a) (tok_end b)).
Proof.
  intros Hp Ha Hlt Hb. unfold boundary, idx.
  destruct (column_token _ _ _ _ Hp Ha) as (ca & Eca & Ta).
  destruct (column_token _ _ _ _ Hp Hb) as (cb & Ecb & Tb).
  replace (s_start s + 1) with (S (s_start s)) by lia. rewrite Eca. cbn [bind]. rewrite Ta.
  replace (S (s_end s - 1)) with (s_end s) in Ecb by lia. rewrite Ecb. cbn [bind]. rewrite Tb.
  destruct (Nat.ltb_spec (tok_end b) (tok_start a)).
  - replace (Nat.max (tok_start a) (tok_end b)) with (tok_start a) by lia. reflexivity.
  - replace (Nat.max (tok_start a) (tok_end b)) with (tok_end b) by lia. reflexivity.
Qed.

Lemma position_end p ks s : parsed_tokens p ks -> ks <> [] -> length ks <= s_start s -> boundary p s = Panic.
Proof.
  intros Hp Hk Hs. unfold boundary, idx.
  assert (nth_error (p_columns p) (s_start s + 1) = None) as ->; [|reflexivity].
  apply nth_error_None. rewrite (column_count _ _ Hp Hk). lia.
Qed.

Lemma position_start p ks s : parsed_tokens p ks -> (forall c, nth_error (p_columns p) 0 = Some c -> c_token c = None) ->
  s_end s = 0 -> boundary p s = Panic.
Proof.
  intros Hp H0 Hs. unfold boundary, idx.
  destruct (nth_error (p_columns p) (s_start s + 1)) as [c|]; [|reflexivity]. cbn [bind].
  destruct (c_token c); [|reflexivity]. rewrite Hs.
  destruct (nth_error (p_columns p) 0) as [c0|]; [|reflexivity]. cbn [bind]. rewrite (H0 _ eq_refl). reflexivity.
Qed.

Lemma position_inside p ks s a b : parsed_tokens p ks ->
  s_start s = s_end s -> nth_error ks (s_start s - 1) = Some a -> nth_error ks (s_start s) = Some b ->
  0 < s_start s -> tok_end a <= tok_start b -> boundary p s = Ret (tok_start b, tok_start b).
Proof.
  intros Hp Heq Ha Hb H0 Hle. unfold boundary, idx.
  destruct (column_token _ _ _ _ Hp Ha) as (ca & Eca & Ta).
  destruct (column_token _ _ _ _ Hp Hb) as (cb & Ecb & Tb).
  replace (s_start s + 1) with (S (s_start s)) by lia. rewrite Ecb. cbn [bind]. rewrite Tb.
  replace (S (s_start s - 1)) with (s_start s) in Eca by lia. rewrite <- Heq, Eca. cbn [bind]. rewrite Ta.
  destruct (Nat.ltb_spec (tok_end a) (tok_start b)); [reflexivity|].
  replace (tok_end a) with (tok_start b) by lia. reflexivity.
Qed.

Lemma column_texts_ret p ks : parsed_tokens p ks -> forall k i, i + k <= length ks ->
  column_texts p (S i) k = Ret (map tok_text (firstn k (skipn i ks))).
Proof.
  intros Hp. induction k as [|k IH]; intros i Hk; [reflexivity|].
  destruct (nth_error ks i) as [t|] eqn:E; [|apply nth_error_None in E; lia].
  destruct (column_token _ _ _ _ Hp E) as (c & Ec & Tc).
  cbn [column_texts]. unfold idx. rewrite Ec. cbn [bind]. rewrite Tc. rewrite IH by lia. cbn [bind].
  rewrite (skipn_nth _ _ _ E). reflexivity.
Qed.

Lemma nl_ret p jw ks n : parsed_tokens p ks -> s_start (n_value n) <= s_end (n_value n) -> s_end (n_value n) <= length ks ->
  node_nl p jw n = Ret (jw (map tok_text (firstn (s_end (n_value n) - s_start (n_value n)) (skipn (s_start (n_value n)) ks)))).
Proof.
  intros Hp H1 H2. unfold node_nl. replace (s_start (n_value n) + 1) with (S (s_start (n_value n))) by lia.
  rewrite (column_texts_ret p ks Hp) by lia. reflexivity.
Qed.

(** ** All nodes of all trees of a parse *)
Section OneParse.
  Variable tmatch : term -> option token -> bool.
  Variable ords : nat -> order.
  Variable gs : list grammar_rules.
  Variable text : string.
  Variables (fuel n : nat) (mf : bool) (toks : list token) (starts : list string) (p : parse_t).
  Hypothesis Ho : is_order (ords n).
  Hypothesis Hp : earley_parse_n tmatch ords gs text fuel n mf toks starts = Ret p.

  Lemma parse_facts : toks <> [] /\ parsed_tokens p toks /\ p_text p = text
    /\ (forall c, nth_error (p_columns p) 0 = Some c -> c_token c = None)
    /\ parse_result tmatch (ords n) gs text toks starts mf p.
  Proof.
    destruct (earley_parse_result tmatch gs text ords fuel n mf toks starts p Ho Hp) as (_ & Ht & R).
    pose proof R as (Htext & Hfin & Htok & _). split; [exact Ht|]. split; [exact Htok|]. split; [exact Htext|].
    split; [|exact R]. destruct Hfin as (((_ & Hst) & _) & _). intros c Hc. apply Hst in Hc. apply Hc.
  Qed.

  Hypothesis Hwf : well_formed gs starts.

  Lemma final_range ref s : In ref (p_finals p) -> p_state p ref = Ret s ->
    s_start s = 0 /\ s_end s <= length toks.
  Proof.
    intros Hr Hs. destruct parse_facts as (_ & _ & _ & _ & R).
    destruct (final_sound _ _ _ _ _ _ _ _ _ R Hr) as (s' & Hs' & Hg & Hc). destruct ref as [c r].
    cbn [fst snd] in Hs'. apply p_state_at in Hs. rewrite Hs in Hs'. injection Hs' as <-. rename Hs into Hs'.
    pose proof R as (_ & Hfin & _).
    destruct (final_facts tmatch (ords n) gs toks starts Hwf _ Hfin c r s Hs' Hg Hc)
        as (S & _ & _ & H3 & H4 & H5 & _). split; auto. rewrite H4. auto.
  Qed.

  Hypothesis Hsep : separated gs.

  Lemma parse_nodes ref fuel' outs t m : In ref (p_finals p) -> get_trees (p_columns p) fuel' ref = Ret outs ->
    In t outs -> part_of t m ->
    s_start (n_value m) <= s_end (n_value m) /\ s_end (n_value m) <= length toks
    /\ match s_rb (n_value m) with
       | None => n_children m = []
       | Some b => length (n_children m) = length (rb_terms b)
           /\ (has_body gs (t_value (s_term (n_value m))) b \/ b = list_rb (n_value m)
               \/ exists S, b = gamma_body S)
       end
    /\ exists t' q, tree_of gs (accepts_by tmatch) toks (some_range gs) t' (s_start (n_value m)) (s_end (n_value m)) q.
  Proof.
    intros Hr Hg Ht Hm. destruct parse_facts as (_ & _ & _ & _ & R).
    destruct (trees_valid tmatch gs text (ords n) starts Hwf Hsep toks mf p R (some_range gs) (lax_count gs) ref fuel' outs Hr Hg)
      as (s & S & Hs & _ & F).
    destruct (final_range _ _ Hr Hs) as [_ Hlen].
    rewrite Forall_forall in F. destruct (F t Ht) as (kid & He & Hkid).
    assert (built t) as Hb.
    { pose proof R as (_ & ((_ & HJ & _) & _) & _).
      assert (Forall built outs) as Fb.
      { eapply all_built; [|exact Hg]. intros c col s' Hc Hin. apply In_nth_error in Hin as [r Hin].
        assert (st_at (p_columns p) c r = Some s') as Hat.
        { unfold st_at, states_of. rewrite Hc. exact Hin. }
        pose proof (justified_origin _ _ _ _ _ HJ _ _ _ Hat) as Hor. unfold origin in Hor.
        destruct (t_type (s_term s')); auto; contradiction. }
      rewrite Forall_forall in Fb. auto. }
    assert (forall m, part_of t m -> m = t \/ exists c, In c (n_children t) /\ part_of c m) as Hpart.
    { intros m' Hm'. destruct Hm'; [left; reflexivity|right; eauto]. }
    destruct t as [v ch]. inversion Hb as [? ? Ety|? ? ? ? Ety|? rb ? Ety Erb Elen Ekids|? ? Ety Erb Elen Ekids]; subst;
      simpl in He; rewrite Ety in He; try discriminate.
    injection He as Hv Hrb H1 H2 Hch. rewrite Erb in Hrb. subst rb.
    destruct ch as [|c [|? ?]]; try discriminate. injection Hch as Hch.
    destruct (Hpart m Hm) as [->|(c' & [<-|[]] & Hm')]; cbn [n_value n_children].
    - rewrite Erb. split; [lia|]. split; [lia|]. split; [split; [auto|]; right; right; exists S; auto|].
      rewrite H1, H2. eauto.
    - inversion Ekids; subst. destruct (node_ranges gs (accepts_by tmatch) toks (some_range gs) c (nonterm S) 0 (s_end s)) with (m := m)
        as (Ha & Hb' & Hk & t' & Ht'); auto.
      split; [lia|]. split; [lia|]. split; [|eauto]. unfold node_kind in Hk. destruct (s_rb (n_value m)); auto.
      destruct Hk as [? [?|?]]; auto.
  Qed.
End OneParse.
