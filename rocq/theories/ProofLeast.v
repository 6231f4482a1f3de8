(** Readings nested as little as possible have trees with shortest right edges. *)
From Coq Require Import Permutation.
From Verif Require Import Base ModelTypes ModelText ModelEarley ModelTrees ModelApi ModelReader ModelGrammar ModelLocal
     SpecTypes SpecGrammar SpecTree SpecNotation SpecRefine SpecConstruct SpecSem SpecApi SpecLocal SpecFuncs SpecEnd SpecMath SpecMeaning SpecTreeOrder SpecTreeEdge
     ProofRefine ProofConstruct ProofLocal ProofLocalMatch ProofLocalApi ProofApi ProofEmpty ProofEnd ProofMeaning ProofTreeEdge SpecFrameText SpecArith ProofArithLeft SpecWorth ProofWorth SpecLeast.
Local Open Scope list_scope.

Section Trees.
  Variable e : env.
  Variables (d0 : string) (g : grammar) (L : list refined).
  Hypothesis HP : e_parts e d0 g L.
  Hypothesis HC : compatible L.
  Hypothesis HU : uniform_flags (map rd_before L).
  Hypothesis HD : no_dangling "g_t" (map rd_before L).
  Hypothesis HG : uniform_ranges (map rd_before L).
  Hypothesis HE : texts_nonempty (e_tokenize e) (map rd_before L).
  Variable tmatch : term -> option token -> bool.
  Variable hash : rulebody -> N.
  Variable find_all : string -> string -> option (list (nat * nat)).
  Variable span_text : document -> nat -> nat -> string.
  Variable ord : nat -> list (string * entry) -> list (string * entry).
  Variable d : document.
  Hypothesis Hord : forall i l, Permutation l (ord i l).
  Hypothesis Hok : doc_ok d.
  Hypothesis Hnames : local_names find_all (g_regexps g) d.
  Variable l : option grammar_rules.
  Hypothesis Hl : local_grammar hash find_all span_text (g_regexps g) ord d = Ret l.
  Variable toks : list token.
  Notation before := (map rd_before L).
  Notation G := (with_local (all_rules g) l).
  Notation TT := (text_tree (e_tokenize e) tmatch before find_all (g_regexps g) d toks).
  Notation TTs := (text_trees (e_tokenize e) tmatch before find_all (g_regexps g) d toks).
  Notation TO := (tree_of G (accepts_by tmatch) toks own_range).
  Notation TS := (trees_of G (accepts_by tmatch) toks own_range).
  Notation Short := (shortest G (accepts_by tmatch) toks own_range).
  Notation At := (SpecWorth.text_at (e_tokenize e) tmatch toks).
  Notation Reach := (reach (e_tokenize e) tmatch before toks).
  Notation Reaches := (reaches (e_tokenize e) tmatch before toks).
  Notation Least := (least (e_tokenize e) tmatch before toks).
  Notation Leasts := (leasts (e_tokenize e) tmatch before toks).
  Variable N : string -> Prop.
  Hypothesis HN : calculates (e_tokenize e) tmatch before toks N.
  Hypothesis Hloc : forall x, N x -> text_only find_all (g_regexps g) d x.
  Definition plain_term (t : term) : Prop := t_type t = TTerminal \/ t_type t = TNonterminal /\ N (t_value t).

  (** ** trees against the text *)
  Lemma own_some : (forall t i j q, TO t i j q -> (t_type t = TAny \/ t_type t = TList -> occurs G t) -> tree_of G (accepts_by tmatch) toks (some_range G) t i j q) /\
    (forall ts i j qs, TS ts i j qs -> (forall t, In t ts -> t_type t = TAny \/ t_type t = TList -> occurs G t) -> trees_of G (accepts_by tmatch) toks (some_range G) ts i j qs).
  Proof using.
    apply tree_of_mutind.
    - intros t i tok H1 H2 H3 _. eapply to_tok; eauto.
    - intros t i j H1 H2 H3 Ho. apply to_any; auto. exists t. auto.
    - intros t i j b kids H1 H2 _ IH _. apply to_rule; auto. apply IH. intros u Hu _. exists (t_value t), b. auto.
    - intros t i j n kids H1 H2 _ IH Ho. apply (to_list _ _ _ _ t i j n kids); [exact H1|exists t; auto|]. apply IH.
      intros u Hu Et. apply repeat_spec in Hu as ->. destruct Et; discriminate.
    - intros i _. constructor.
    - intros t ts i j k q qs _ IH1 _ IH2 Ho. econstructor; [apply IH1; apply Ho; left; reflexivity|]. apply IH2. intros u Hu. apply Ho. right. exact Hu.
  Qed.
  Lemma replaced_fits q us us' : In q L -> (forall u, In u us -> occurs before u) -> Forall2 (replaced (rd_table q)) us us' -> Forall2 (fits_text L) us us'.
  Proof using HP HC HD.
    intros Hq Hocc HF. induction HF as [|u u' us us' Hr _ IHF]; constructor.
    - assert (Hu : occurs before u) by (apply Hocc; left; reflexivity).
      destruct Hr as [(Et & y & Hy & ->)|(Et & ->)]; [left|right].
      + split; [exact Et|]. split; [exact Hu|]. exists q, y. auto.
      + split; [exact Et|]. split; [reflexivity|]. split; [|auto]. apply dangling_free; auto.
        intros p y Hp Hy. apply (part_refined e d0 g L HP p Hp). exact Hy.
    - apply IHF. intros v Hv. apply Hocc. right. exact Hv.
  Qed.

  Lemma of_last_cons (ts : list term) (k : ptree) ks : length ts = length ks -> of_last ts (edge k) (last_edge ks) = last_edge (k :: ks).
  Proof using. destruct ts, ks; cbn; intros H; try discriminate H; reflexivity. Qed.
  Lemma words_leaves us i j kids : words_at tmatch toks us i j kids -> last_edge kids = 0.
  Proof using.
    intros H. apply last_tok. induction H; constructor; eauto.
  Qed.
  Lemma trees_length ts i j qs : TTs ts i j qs -> length ts = length qs.
  Proof using. induction 1; cbn; auto. Qed.

  Lemma tree_reach : (forall t i j q, TT t i j q -> (t_type t = TTerminal -> At t i j /\ edge q = 1) /\ (t_type t = TNonterminal -> N (t_value t) -> Reach (t_value t) i j (edge q))) /\
    (forall ts i j qs, TTs ts i j qs -> Forall plain_term ts -> Reaches ts i j (last_edge qs)).
  Proof using HN Hloc.
    apply text_tree_mutind.
    - intros t i j x ks kids Et Ek Hk. split; [|congruence]. intros _. split.
      + split; [exact Et|]. exists ks. split; [exact Ek|]. eapply words_at_match; eauto.
      + rewrite edge_eq. cbn [p_kids]. rewrite (words_leaves _ _ _ _ Hk). reflexivity.
    - intros t i j Et _ _. split; congruence.
    - intros t i j b b' kids Et Hb _ Hk IH. split; [congruence|]. intros _ Hn. rewrite edge_eq. cbn [p_kids].
      destruct (HN _ _ Hn Hb) as [Hi|(Hp & _)]; [|eapply re_body; [exact Hb|auto]].
      exfalso. exact (idle_none toks (e_tokenize e) tmatch before find_all (g_regexps g) d N Hloc b i j kids Hi Hk).
    - intros t i j b kids Et Hb _. split; [congruence|]. intros _ Hn. exfalso. exact (Hloc _ Hn _ Hb).
    - intros t i j n kids Et _ _ _. split; congruence.
    - intros i _. constructor.
    - intros t ts i j k q qs Hq [IH1 IH2] Hqs IHs HF. inversion HF as [|? ? Ht HF']; subst. specialize (IHs HF').
      rewrite <- (of_last_cons ts q qs (trees_length _ _ _ _ Hqs)).
      destruct Ht as [Et|[Et Hn]].
      + destruct (IH1 Et) as [A ->]. eapply rs_text; eauto.
      + eapply rs_rule; eauto.
  Qed.

  (** ** the alternatives after refinement *)
  Lemma text_reach q b b' x i j kids : In q L -> has_body before x b -> replaced_body (rd_table q) b b' -> TS (rb_terms b') i j kids -> has_body G x b' ->
    Forall plain_term (rb_terms b) -> Reaches (rb_terms b) i j (last_edge kids).
  Proof using HP HC HU HD HG Hord Hok Hnames Hl HN Hloc.
    intros Hq Hb (_ & HF) HT Hb' Hp. apply (proj2 tree_reach _ _ _ _); [|exact Hp].
    apply (proj2 (text_trees_of e d0 g L HP HC HU HD HG tmatch hash find_all span_text ord d Hord Hok Hnames l Hl toks) (rb_terms b') i j kids).
    - apply (proj2 own_some _ _ _ _ HT). intros t Hin _. exists x, b'. auto.
    - apply (replaced_fits q); auto. intros u Hu. exists x, b. auto.
  Qed.
  Lemma all_bodies x b : has_body (map rd_after L) x b -> has_body G x b.
  Proof using HP.
    intros H. rewrite with_local_app, <- (parts_after _ _ _ _ _ _ _ _ _ _ g L HP). apply has_body_app. left. exact H.
  Qed.
  Lemma body_after x b : has_body before x b -> exists q b', In q L /\ written_body b /\ replaced_body (rd_table q) b b' /\ has_body G x b'.
  Proof using HP.
    intros (m & r & h & Hm & Lx & Hb). apply in_map_iff in Hm as (q & <- & Hq).
    destruct (part_refined e d0 g L HP q Hq) as ((R1 & R2 & R3 & R4 & R5 & R6 & R7) & Rg).
    destruct (R5 _ _ Lx) as (r' & L3 & _ & L4 & _). destruct (L4 h b Hb) as (b' & L5 & L6). exists q, b'. split; [exact Hq|].
    split; [eapply (proj2 (before_written e d0 g L HP q x r Hq Lx)); eauto|]. split; [exact L6|].
    apply all_bodies. exists (rd_after q), r', h. split; [apply in_map; exact Hq|auto].
  Qed.

  Definition good (q : ptree) : Prop := p_start q < p_end q /\ nowhere_empty q /\ forall m, subtree q m -> p_inner m = true -> Short m.
  Lemma text_node q t y i j : In q L -> In (t_value t, y) (rd_table q) -> occurs before t -> At t i j ->
    exists p, TO (mkTerm y TNonterminal (t_meta t)) i j p /\ i < j /\ good p /\ edge p = 1.
  Proof using HP HU HE.
    intros Hq Hy Ho (Et & ks & Ek & W).
    destruct (part_refined e d0 g L HP q Hq) as ((R1 & R2 & R3 & R4 & R5 & R6 & R7) & Rg).
    destruct (R6 _ _ Hy) as (ks' & m & Ek' & Ho' & Lk). cbv zeta in Lk. rewrite Ek in Ek'. injection Ek' as <-.
    destruct (occurs_part L q _ m Hq Ho') as (t' & O1 & O2 & O3 & O4).
    assert (m = t_meta t) as -> by (rewrite <- O4; apply HU; auto).
    destruct (words_tree tmatch toks G _ _ _ W) as (kids & Hk & F).
    assert (Hij : i < j).
    { destruct W as [-> _]. destruct (proj1 HE t ks Ho Et Ek) as (k & K1 & K2). unfold token_terms. rewrite map_length.
      enough (0 < length (filter (fun k => negb (is_space_token k)) ks)) by lia.
      assert (K : In k (filter (fun k => negb (is_space_token k)) ks)).
      { apply filter_In. split; [exact K1|]. unfold is_space_token. destruct (tok_type k); try reflexivity. contradiction K2; reflexivity. }
      destruct (filter _ ks); [destruct K|cbn; lia]. }
    exists (PRule y (mkRb (token_terms (t_meta t) ks) None) i j kids).
    assert (Sub : forall m, subtree (PRule y (mkRb (token_terms (t_meta t) ks) None) i j kids) m ->
              m = PRule y (mkRb (token_terms (t_meta t) ks) None) i j kids \/ exists t a, m = PTok t a).
    { intros m Hm. inversion Hm as [|? k ? Hk' Hm']; subst; [auto|right]. cbn [p_kids] in Hk'. rewrite Forall_forall in F.
      destruct (F k Hk') as (u & a & ->). inversion Hm' as [|? k' ? C]; subst; [eauto|destruct C]. }
    split; [|split; [exact Hij|split; [split; [exact Hij|split]|]]].
    - apply (to_rule _ _ _ _ (mkTerm y TNonterminal (t_meta t))); [reflexivity| |exact Hk]. cbn [t_value]. apply all_bodies.
      eexists (rd_after q), _, _. split; [apply in_map; exact Hq|]. split; [exact Lk|left; reflexivity].
    - intros m Hm. destruct (Sub m Hm) as [->|(u & a & ->)]; cbn; lia.
    - intros m Hm Hi. destruct (Sub m Hm) as [->|(u & a & ->)]; [|discriminate Hi]. intros n' Hr _.
      destruct n'; try contradiction. rewrite !edge_eq. cbn [p_kids]. rewrite (last_tok kids F). lia.
    - rewrite edge_eq. cbn [p_kids]. rewrite last_tok; auto.
  Qed.

  Lemma plain_body x b i j vs n : N x -> has_body before x b -> Leasts (rb_terms b) i j vs n -> Forall plain_term (rb_terms b).
  Proof using HN.
    intros Hx Hb Hk. destruct (HN _ _ Hx Hb) as [(t & Ht & Hno)|(Hp & _)]; [|exact Hp]. exfalso.
    remember (rb_terms b) as ts eqn:E. clear E Hb. induction Hk as [i|t' ts i j k vs n A _ IH|t' ts i j k v m vs n A B _ IH]; [destruct Ht|..]; (destruct Ht as [->|Ht]; [|auto]).
    - destruct Hno as [[Et Hno]|(Et & _)]; [exact (Hno _ _ A)|]. destruct A as [A _]. congruence.
    - destruct Hno as [[Et Hno]|(Et & _ & Hno)]; [congruence|]. inversion B; subst. eapply Hno; eauto.
  Qed.

  Lemma least_tree : (forall x i j v n, Least x i j v n -> N x ->
      exists q, TO (nonterm x) i j q /\ i < j /\ good q /\ worthy q v /\ edge q = n) /\
    (forall ts i j vs n, Leasts ts i j vs n -> forall q ts', In q L -> Forall2 (replaced (rd_table q)) ts ts' -> (forall t, In t ts -> occurs before t /\ written_term t) -> Forall plain_term ts ->
      exists kids, TS ts' i j kids /\ Forall good kids /\ worthies kids vs /\ last_edge kids = n /\ length kids = length ts /\ i <= j /\ (ts <> [] -> i < j)).
  Proof using HP HC HU HD HG HE Hord Hok Hnames Hl HN Hloc.
    apply least_mutind.
    - intros x i j b f vs v n Hb Hf Hls IH Hv Hmin Hx. destruct (body_after x b Hb) as (q & b' & Hq & (W1 & W2 & _) & Hr & Hb').
      pose proof (plain_body _ _ _ _ _ _ Hx Hb Hls) as Hp.
      destruct (IH q (rb_terms b') Hq (proj2 Hr)) as (kids & K1 & K2 & K3 & K4 & _ & _ & K5); [|exact Hp|].
      { intros t Hin. split; [exists x, b; auto|]. rewrite Forall_forall in W2. auto. }
      exists (PRule x b' i j kids). specialize (K5 W1). rewrite Forall_forall in K2.
      split; [apply (to_rule _ _ _ _ (nonterm x)); [reflexivity|exact Hb'|exact K1]|]. split; [exact K5|]. split; [split; [exact K5|split]|split].
      + intros m Hm. destruct (below _ _ _ _ _ _ Hm) as [->|(k & Hk & Hm')]; [exact K5|]. destruct (K2 k Hk) as (_ & A & _). auto.
      + intros m Hm Hi. destruct (below _ _ _ _ _ _ Hm) as [->|(k & Hk & Hm')]; [|destruct (K2 k Hk) as (_ & _ & A); auto].
        intros n' Hs Hn. destruct n'; cbn [same_root] in Hs; try contradiction. destruct Hs as (<- & <- & <- & <-). cbn in Hn.
        rewrite !edge_eq. cbn [p_kids]. rewrite K4. apply le_n_S. apply Hmin. eapply text_reach; eauto.
      + eapply wy_rule; [rewrite (proj1 Hr); exact Hf|exact K3|exact Hv].
      + rewrite edge_eq. cbn [p_kids]. rewrite K4. reflexivity.
    - intros i q ts' _ HF _ _. inversion HF; subst. exists []. split; [constructor|]. split; [constructor|]. split; [constructor|]. split; [reflexivity|]. split; [reflexivity|].
      split; [lia|]. intros C. contradiction C; reflexivity.
    - intros t ts i j k vs n HA _ IH q ts' Hq HF Ho Hp. inversion HF as [|? t' ? ts1 Hr HF']; subst. inversion Hp as [|? ? Ht Hp']; subst.
      destruct (IH q ts1 Hq HF' (fun u Hu => Ho u (or_intror Hu)) Hp') as (kids & K1 & K2 & K3 & K4 & K5 & K6 & K7).
      destruct Hr as [(Et & y & Hy & ->)|(Et & _)]; [|destruct HA as [HA _]; contradiction].
      destruct (text_node q t y i j Hq Hy (proj1 (Ho t (or_introl eq_refl))) HA) as (p & P1 & P2 & P3 & P4).
      exists (p :: kids). split; [econstructor; eauto|]. split; [constructor; auto|]. split; [apply wys_none; exact K3|].
      split; [rewrite <- (of_last_cons ts p kids) by (symmetry; exact K5); rewrite P4, K4; reflexivity|]. split; [cbn [length]; f_equal; exact K5|]. split; [lia|]. intros _. lia.
    - intros t ts i j k v m vs n Et _ IH1 _ IH2 q ts' Hq HF Ho Hp. inversion HF as [|? t' ? ts1 Hr HF']; subst. inversion Hp as [|? ? Ht Hp']; subst.
      destruct (IH2 q ts1 Hq HF' (fun u Hu => Ho u (or_intror Hu)) Hp') as (kids & K1 & K2 & K3 & K4 & K5 & K6 & K7).
      destruct Hr as [(C & _)|(_ & ->)]; [congruence|]. destruct Ht as [C|[_ Hn]]; [congruence|].
      destruct (IH1 Hn) as (p & P1 & P2 & P3 & P4 & P5).
      assert (t = nonterm (t_value t)) as Eq.
      { destruct (Ho t (or_introl eq_refl)) as [_ W]. destruct t as [u ty me]. cbn [t_type t_value] in *. destruct W as [W|[[_ W]|[[W _]|W]]]; cbn in W; try congruence. subst. reflexivity. }
      exists (p :: kids). split; [econstructor; [rewrite Eq; exact P1|exact K1]|]. split; [constructor; auto|]. split; [apply wys_some; assumption|].
      split; [rewrite <- (of_last_cons ts p kids) by (symmetry; exact K5); rewrite P5, K4; reflexivity|]. split; [cbn [length]; f_equal; exact K5|]. split; [lia|]. intros _. lia.
  Qed.

  (** the root *)
  Lemma least_root x j v n b : rb_terms b = [nonterm x] -> N x -> ~ generated L x -> Least x 0 j v n -> (forall n', Reach x 0 j n' -> n <= n') ->
    exists q, TO (nonterm x) 0 j q /\ nowhere_empty q /\ worthy q v /\ forall m, subtree (PRule GammaRule b 0 j [q]) m -> p_inner m = true -> Short m.
  Proof using HP HC HU HD HG HE Hord Hok Hnames Hl HN Hloc.
    intros E Hx Hg Hle Hmin. destruct (proj1 least_tree _ _ _ _ _ Hle Hx) as (q & Q1 & Q2 & (Q3 & Q4 & Q5) & Q6 & Q7). exists q. split; [exact Q1|]. split; [exact Q4|]. split; [exact Q6|].
    intros m Hm Hi. destruct (below _ _ _ _ _ _ Hm) as [->|(? & [<-|[]] & Hm')]; [|auto].
    intros n' Hs Hn. destruct n'; cbn [same_root] in Hs; try contradiction. destruct Hs as (<- & <- & <- & <-). cbn in Hn. rewrite E in Hn.
    apply one_of in Hn as (q' & -> & Hq'). rewrite !edge_eq. cbn [p_kids last_edge]. rewrite Q7. apply le_n_S. apply Hmin.
    refine (proj2 (proj1 tree_reach (nonterm x) 0 j q' _) eq_refl Hx).
    apply (proj1 (text_trees_of e d0 g L HP HC HU HD HG tmatch hash find_all span_text ord d Hord Hok Hnames l Hl toks) (nonterm x) 0 j q').
    - apply (proj1 own_some _ _ _ _ Hq'). intros [C|C]; discriminate C.
    - right. split; [discriminate|]. split; [reflexivity|]. split; [intros _; exact Hg|]. intros [C|C]; discriminate C.
  Qed.
End Trees.
