(** Trees of grammars that calculate. *)
From Coq Require Import Permutation.
From Verif Require Import Base ModelTypes ModelText ModelEarley ModelTrees ModelApi ModelQuote ModelSem ModelReader ModelGrammar ModelLocal
     SpecTypes SpecGrammar SpecTree SpecNotation SpecRefine SpecConstruct SpecSem SpecNode SpecApi SpecLocal SpecFuncs SpecEnd SpecMath SpecMeaning
     ProofEqual ProofTree ProofTreeOk ProofApi ProofSem ProofNodes ProofSemMain ProofNode ProofFuncs ProofMath
     ProofMeaning ProofMeaningCalls ProofArith SpecFrameText SpecArith SpecWorth.
Local Open Scope list_scope.

Lemma name_inj o o' : function_name o = function_name o' -> o = o'.
Proof. destruct o, o'; intros H; try reflexivity; discriminate H. Qed.
Lemma name_call o : function_name o <> "nf.I"%string.
Proof. destruct o; discriminate. Qed.

(** what a tree of such a grammar is worth *)
Inductive worthy : ptree -> expression -> Prop :=
| wy_rule x b i j kids f vs e : rb_f b = Some f -> worthies kids vs -> f_worth vs f e -> worthy (PRule x b i j kids) e
with worthies : list ptree -> list (option expression) -> Prop :=
| wys_nil : worthies [] []
| wys_none k ks vs : worthies ks vs -> worthies (k :: ks) (None :: vs)
| wys_some k ks x vs : worthy k x -> worthies ks vs -> worthies (k :: ks) (Some x :: vs).
Scheme worthy_m := Minimality for worthy Sort Prop with worthies_m := Minimality for worthies Sort Prop.
Combined Scheme worthy_mutind from worthy_m, worthies_m.
Lemma f_worth_one vs vs' : (forall k x x', nth_error vs k = Some (Some x) -> nth_error vs' k = Some (Some x') -> x = x') ->
  (forall f x, f_worth vs f x -> forall x', f_worth vs' f x' -> x = x') /\ (forall a x, a_worth vs a x -> forall x', a_worth vs' a x' -> x = x').
Proof.
  intros H. apply f_worth_mutind.
  - intros a x _ IH x' H'. inversion H' as [? ? H1|o ? ? ? ? H1 H2 E|]; subst; auto.
  - intros o a b x y _ IH1 _ IH2 x' H'. inversion H' as [? ? H1 E|o' ? ? x1 y1 H1 H2 E|? ? H1 E]; subst.
    apply name_inj in E as ->. rewrite (IH1 _ H1), (IH2 _ H2). reflexivity.
  - intros a x _ IH x' H'. inversion H' as [? ? H1 E|o' ? ? x1 y1 H1 H2 E|? ? H1 E]; subst. rewrite (IH _ H1). reflexivity.
  - intros z x' H'. inversion H'; reflexivity.
  - intros f x _ IH x' H'. inversion H'; subst. auto.
  - intros k x Hk x' H'. inversion H' as [| |k' ? K1 K2]; subst. assert (k' = k) by lia. subst k'. eauto.
Qed.
Lemma worthy_one : (forall q x, worthy q x -> forall x', worthy q x' -> x = x') /\
  (forall qs vs, worthies qs vs -> forall vs', worthies qs vs' -> forall k x x', nth_error vs k = Some (Some x) -> nth_error vs' k = Some (Some x') -> x = x').
Proof.
  apply worthy_mutind.
  - intros x b i j kids f vs e Hf _ IH He x' H'. inversion H' as [? ? ? ? ? f' vs' ? Hf' Hk He']; subst. rewrite Hf in Hf'. injection Hf' as <-.
    exact (proj1 (f_worth_one vs vs' (IH vs' Hk)) f e He x' He').
  - intros vs' _ [|k] x x' H; discriminate.
  - intros q qs vs _ IH vs' H' [|k] x x' H1 H2; [discriminate|]. inversion H'; subst; eapply IH; eauto.
  - intros q qs y vs _ IH1 _ IH2 vs' H' [|k] x x' H1 H2.
    + injection H1 as ->. inversion H' as [|? ? ? K|? ? y' ? K1 K2]; subst; [discriminate|]. injection H2 as ->. auto.
    + inversion H'; subst; eapply IH2; eauto.
Qed.

Section Trees.
  Variable p : parse_t.
  Variable toks : list token.
  Hypothesis Htoks : parsed_tokens p toks.
  Variable join_words : list string -> string.
  Variable float_string : bigf -> string.
  Variable json : dval -> string.
  Variable is_print_hi : rune -> bool.
  Variable call : string -> list dval -> res dval.
  Notation sem := (semantic p join_words float_string json is_print_hi call).
  Variable tokenize : string -> res (list token).
  Variable tmatch : term -> option token -> bool.
  Variable gs : list grammar_rules.
  Hypothesis HF : functions_fit gs.
  Variable find_all : string -> string -> option (list (nat * nat)).
  Variable regexps : list (string * string).
  Variable d : document.
  Hypothesis Hitems : string_items d.
  Notation TT := (text_tree tokenize tmatch gs find_all regexps d toks).
  Notation TTs := (text_trees tokenize tmatch gs find_all regexps d toks).
  Notation W := (worth tokenize tmatch gs toks).
  Notation Ws := (worths tokenize tmatch gs toks).
  Notation At := (SpecWorth.text_at tokenize tmatch toks).
  Variable N : string -> Prop.
  Hypothesis HN : calculates tokenize tmatch gs toks N.
  Hypothesis Hloc : forall x, N x -> text_only find_all regexps d x.

  (** ** Functions *)
  Section Function.
    Variables (n : node) (ts : list term) (vs : list (option expression)) (ss : list string) (z : string).
    Hypothesis Hpart : forall k t, nth_error ts k = Some t -> t_type t = TNonterminal ->
      exists x c, nth_error vs k = Some (Some x) /\ nth_error ss k = Some (formula x) /\ nth_error (n_children n) k = Some c /\
        (modest x -> Arith p c (value x)).
    Lemma calculated : (forall f, f_calculates ts f -> exists x, f_worth vs f x /\ (forall s, f_says float_string is_print_hi z ss f s -> s = formula x) /\
          (modest x -> FArith p n f (value x))) /\
      (forall a, a_calculates ts a -> exists x, a_worth vs a x /\ (forall s, a_says float_string is_print_hi z ss a s -> s = formula x) /\
          (modest x -> AArith p n a (value x))).
    Proof using Hpart.
      apply f_calculates_mutind.
      - intros a _ (x & A & B & C). exists x. split; [constructor; exact A|]. split.
        + intros s H. inversion H as [? ? H1|? ? ? H1]; subst; [auto|contradiction H1; reflexivity].
        + intros M. constructor. auto.
      - intros o a b _ (x & A & B & C) _ (y & A' & B' & C'). exists (Binary o x y). split; [constructor; assumption|]. split.
        + intros s H. inversion H as [? ? H1 E|fn args l H1 H2]; subst.
          inversion H2 as [|? s1 ? l1 K1 H3]; subst. inversion H3 as [|? s2 ? l2 K2 H4]; subst. inversion H4; subst.
          cbn [formula]. rewrite (B _ K1), (B' _ K2). reflexivity.
        + cbn [modest]. intros (M1 & M2 & M3 & M4). destruct o; cbn [value function_name] in *; constructor; auto.
      - intros a _ (x & A & B & C). exists (Negative x). split; [constructor; assumption|]. split.
        + intros s H. inversion H as [? ? H1 E|fn args l H1 H2]; subst.
          inversion H2 as [|? s1 ? l1 K1 H3]; subst. inversion H3; subst. cbn [formula]. rewrite (B _ K1). reflexivity.
        + cbn [modest value]. intros (M1 & M2). constructor; auto.
      - intros u. exists (Number u). split; [constructor|]. split; [intros s H; inversion H; reflexivity|]. cbn [modest value]. intros M. constructor. exact M.
      - intros f _ (x & A & B & C). exists x. split; [constructor; exact A|]. split; [|intros M; constructor; auto].
        intros s H. inversion H; subst. auto.
      - intros k t Hk Et. destruct (Hpart k t Hk Et) as (x & c & V & S & Ch & Ar). exists x. split; [constructor; exact V|]. split.
        + intros s H. inversion H as [| | | | |k' ? K1 K2]; subst. assert (k' = k) by lia. subst k'. rewrite S in K1. injection K1 as <-. reflexivity.
        + intros M. eapply AA_child; eauto.
    Qed.
  End Function.

  Lemma idle_none b i j kids : idle tokenize tmatch gs toks N b -> TTs (rb_terms b) i j kids -> False.
  Proof using Hloc.
    intros (t & Ht & Hno) H. induction H as [i|u us i j k q qs Hq _ IH]; [destruct Ht|]. destruct Ht as [->|Ht]; [|exact (IH Ht)].
    destruct Hno as [[Et Hno]|(Et & Hn & Hno)]; inversion Hq; subst; try congruence.
    - apply (Hno i j). split; [exact Et|]. eexists. split; [eassumption|]. eapply words_at_match; eauto.
    - eapply Hno. eassumption.
    - eapply Hloc; eauto.
  Qed.

  Lemma worthy_tree n : forall x i j, built n -> TT (nonterm x) i j (erase n) -> j <= length toks -> N x ->
    exists e, W x i j e /\ sem n = Ret (formula e) /\ (modest e -> Arith p n (value e)) /\ worthy (erase n) e.
  Proof using Htoks HF HN Hitems Hloc.
    induction n as [v ch IH] using node_ind'. intros x i j Hb Ht Hj Hx.
    pose proof (proj1 (text_range toks tokenize tmatch gs find_all regexps d) _ _ _ _ Ht) as Hij.
    inversion Hb as [t' i' Et|t' i' j' d' Et|s rb ch' Et Erb El Eb|s ch' Et Erb El Eb]; subst; cbn [erase s_term s_start s_end] in Ht; rewrite Et in Ht.
    - inversion Ht.
    - inversion Ht; discriminate.
    - rewrite Erb in Ht. assert (Hval : t_value (s_term v) = x) by (inversion Ht; subst; cbn in *; try discriminate; congruence).
      inversion Ht as [? ? ? ? ? ? T1|? ? ? T1|t' i' j' b b' kids T1 T2 T3 T4|t' i' j' b kids T1 T2 T3|? ? ? ? ? T1]; subst; try discriminate T1.
      2: { exfalso. cbn [t_value nonterm] in T2. exact (Hloc _ Hx _ T2). }
      cbn [nonterm t_value] in *.
      destruct (HN _ _ Hx T2) as [Hid|(Hts & f & Hf & Hc)]; [exfalso; eapply idle_none; eauto|].
      assert (HNL : node_nl p join_words (Node v ch) = Ret (join_words (map tok_text (firstn (s_end v - s_start v) (skipn (s_start v) toks)))))
        by (apply (nl_ret p join_words toks (Node v ch) Htoks); auto).
      assert (Hfn : function_of (Node v ch) = rb_f b) by (unfold function_of; cbn [n_value]; rewrite Erb; exact T3).
      assert (Hl : length ch = length (rb_terms b)).
      { clear - T4. remember (map erase ch) as qs eqn:E. revert ch E.
        induction T4; intros ch E; destruct ch; try discriminate; [reflexivity|]. cbn [map] in E. injection E as -> ->. cbn [length]. f_equal. auto. }
      assert (K : exists vs ss, Ws (rb_terms b) (s_start v) (s_end v) vs /\ Forall2 (fun c s => sem c = Ret s) ch ss /\ worthies (map erase ch) vs /\
                forall k t, nth_error (rb_terms b) k = Some t -> t_type t = TNonterminal ->
                  exists x c, nth_error vs k = Some (Some x) /\ nth_error ss k = Some (formula x) /\ nth_error ch k = Some c /\ (modest x -> Arith p c (value x))).
      { clear Ht Hb El T2 Hc Hfn HNL Hl Hij Hf T3 Erb Et. revert T4 Hts Hj. generalize (rb_terms b) as ts, (s_start v) as i, (s_end v) as j. intros ts i j T4.
        remember (map erase ch) as qs eqn:E. revert ch E IH Eb.
        induction T4 as [i|t ts i j k q qs Hq Hqs IHq]; intros ch E IH Eb Hts Hj; destruct ch as [|c ch]; try discriminate.
        - exists [], []. split; [constructor|]. split; [constructor|]. split; [constructor|]. intros [|k] t H; discriminate.
        - cbn [map] in E. injection E as E1 E2. subst q. inversion IH as [|? ? I1 I2]; subst. inversion Eb as [|? ? B1 B2]; subst.
          inversion Hts as [|? ? Ht Hts']; subst.
          pose proof (proj2 (text_range toks tokenize tmatch gs find_all regexps d) _ _ _ _ Hqs) as Hjk.
          destruct (IHq ch eq_refl I2 B2 Hts' Hj) as (vs & ss & V & S & Y & P).
          destruct Ht as [Ht|[Ht Hn]].
          + destruct (node_says p toks Htoks join_words float_string json is_print_hi call tokenize tmatch gs HF find_all regexps d Hitems
                        c t i j B1 Hq ltac:(lia)) as (s & S1 & _).
            exists (None :: vs), (s :: ss). split; [|split; [constructor; auto|split; [apply wys_none; exact Y|]]].
            * eapply ws_text; [|exact V]. split; [exact Ht|]. inversion Hq; subst; try congruence. eexists. split; [eassumption|]. eapply words_at_match; eauto.
            * intros [|m] t' Hm Et'; cbn [nth_error] in *; [injection Hm as <-; congruence|]. exact (P m t' Hm Et').
          + assert (Hq' : TT (nonterm (t_value t)) i j (erase c)).
            { inversion Hq as [| |? ? ? b0 b1 kids G1 G2 G3 G4|? ? ? b0 kids G1 G2 G3|]; subst; try congruence.
              - eapply (tt_rule _ _ _ _ _ _ _ (nonterm (t_value t))); eauto.
              - eapply (tt_local _ _ _ _ _ _ _ (nonterm (t_value t))); eauto. }
            destruct (I1 (t_value t) i j B1 Hq' ltac:(lia) Hn) as (x & X1 & X2 & X3 & X4).
            exists (Some x :: vs), (formula x :: ss). split; [|split; [constructor; auto|split; [apply wys_some; assumption|]]].
            * eapply ws_rule; eauto.
            * intros [|m] t' Hm Et'; cbn [nth_error] in *; [|exact (P m t' Hm Et')]. exists x, c. auto. }
      destruct K as (vs & ss & V & S & Y & P).
      destruct (function_says p join_words float_string json is_print_hi call (Node v ch) _ ss HNL S f) as (s & A & B).
      { cbn [n_children]. rewrite Hl. eapply HF; eauto. }
      match type of B with f_says _ _ ?z _ _ _ => destruct (proj1 (calculated (Node v ch) (rb_terms b) vs ss z P) f Hc) as (e & C1 & C2 & C3) end.
      exists e. split; [eapply wo_body; eauto|]. split.
      + rewrite semantic_eq, HNL. cbn [Base.bind]. rewrite Hfn, Hf, A, (C2 _ B). reflexivity.
      + split; [intros M; eapply Ar_fun; [rewrite Hfn; exact Hf|]; auto|].
        cbn [erase]. rewrite Et, Erb. eapply wy_rule; [|exact Y|exact C1]. rewrite T3. exact Hf.
    - inversion Ht; discriminate.
  Qed.
  Lemma worth_tree n : forall x i j, built n -> TT (nonterm x) i j (erase n) -> j <= length toks -> N x ->
    exists e, W x i j e /\ sem n = Ret (formula e) /\ (modest e -> Arith p n (value e)).
  Proof using Htoks HF HN Hitems Hloc.
    intros x i j H1 H2 H3 H4. destruct (worthy_tree n x i j H1 H2 H3 H4) as (e & E1 & E2 & E3 & _). eauto.
  Qed.

  (** ** Readings are matches *)
  Notation D := (derives (doc_alt tokenize gs find_all regexps d) (accepts_by tmatch) toks own_range (fun _ _ => True)).
  Notation Ds := (derives_seq (doc_alt tokenize gs find_all regexps d) (accepts_by tmatch) toks own_range (fun _ _ => True)).
  Lemma words_derives us : forall i j ts k, words_match tmatch toks us i j -> Ds ts j k -> Ds (us ++ ts) i k.
  Proof using.
    induction us as [|u us IH]; intros i j ts k [-> H] Hs; cbn [app length] in *; [rewrite Nat.add_0_r in Hs; exact Hs|].
    destruct (H 0 u eq_refl) as (H1 & tok & H2 & H3). rewrite Nat.add_0_r in H2.
    apply (ds_cons _ _ _ _ _ u (us ++ ts) i (S i) k); [apply (d_terminal _ _ _ _ _ u i tok); auto; exact H3|]. apply (IH (S i) (S i + length us) ts k).
    - split; [reflexivity|]. intros k' t Hk. specialize (H (S k') t Hk). replace (S i + k') with (i + S k') by lia. exact H.
    - replace (S i + length us) with (i + S (length us)) by lia. exact Hs.
  Qed.
  Lemma worth_derives : (forall x i j e, W x i j e -> forall t, t_type t = TNonterminal -> t_value t = x -> D t i j) /\
    (forall ts i j vs, Ws ts i j vs -> exists ts', split_terms tokenize ts ts' /\ Ds ts' i j).
  Proof using.
    apply worth_mutind.
    - intros x i j b f vs e Hb _ _ (ts' & S & H) _ t Et Ev. apply (d_rule _ _ _ _ _ t i j ts'); auto. left. exists (rb_terms b). split; [|exact S].
      exists b. rewrite Ev. auto.
    - intros i. exists []. split; constructor.
    - intros t ts i j k vs (Et & ks & Ek & Wm) _ (ts' & S & H). exists (token_terms (t_meta t) ks ++ ts'). split; [apply sp_text; auto|].
      eapply words_derives; eauto.
    - intros t ts i j k e vs Et _ IH _ (ts' & S & H). exists (t :: ts'). split; [apply sp_other; [congruence|exact S]|]. econstructor; [|exact H]. apply IH; auto.
  Qed.

End Trees.

(** ** Shifted tokens *)
Section Shift.
  Variable tokenize : string -> res (list token).
  Variable tmatch : term -> option token -> bool.
  Variable gs : list grammar_rules.
  Variables (toks : list token) (a : nat).
  Lemma worth_shift : (forall x i j e, worth tokenize tmatch gs (skipn a toks) x i j e -> worth tokenize tmatch gs toks x (a + i) (a + j) e) /\
    (forall ts i j vs, worths tokenize tmatch gs (skipn a toks) ts i j vs -> worths tokenize tmatch gs toks ts (a + i) (a + j) vs).
  Proof using.
    apply worth_mutind.
    - intros x i j b f vs e H1 H2 _ H3 H4. eapply wo_body; eauto.
    - intros i. constructor.
    - intros t ts i j k vs (Et & ks & Ek & Wm) _ IH. eapply ws_text; [|exact IH]. split; [exact Et|]. exists ks. split; [exact Ek|]. apply words_shift. exact Wm.
    - intros t ts i j k e vs Et _ IH1 _ IH2. eapply ws_rule; eauto.
  Qed.
  Lemma calculates_shift N : calculates tokenize tmatch gs toks N -> calculates tokenize tmatch gs (skipn a toks) N.
  Proof using.
    intros H x b Hx Hb. destruct (H x b Hx Hb) as [(t & T1 & [[T2 T3]|T2])|K]; [left|left; exists t; auto|right; exact K]. exists t. split; [exact T1|]. left. split; [exact T2|].
    intros i j (Et & ks & Ek & Wm). apply (T3 (a + i) (a + j)). split; [exact Et|]. exists ks. split; [exact Ek|]. apply words_shift. exact Wm.
  Qed.
End Shift.
