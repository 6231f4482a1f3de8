(** What can be read has a reading nested as little as possible on the right. *)
From Verif Require Import Base ModelTypes ModelText ModelEarley ModelTrees ModelApi ModelLocal
     SpecTypes SpecGrammar SpecTree SpecRefine SpecLocal SpecFuncs SpecEnd SpecMath SpecMeaning SpecArith SpecWorth SpecLeast ProofWorth.
Local Open Scope list_scope.

(** least numbers, as far as they can be found without deciding *)
Lemma not_not_least (P : nat -> Prop) n : P n -> ~ ~ (exists m, P m /\ forall k, P k -> m <= k).
Proof.
  revert P. induction n as [n IH] using (well_founded_induction Wf_nat.lt_wf). intros P Hn C.
  apply C. exists n. split; [exact Hn|]. intros k Hk. destruct (le_lt_dec n k) as [H|H]; [exact H|]. exfalso. exact (IH k H P Hk C).
Qed.

Section Exists.
  Variable tokenize : string -> res (list token).
  Variable tmatch : term -> option token -> bool.
  Variable gs : list grammar_rules.
  Variable toks : list token.
  Variable N : string -> Prop.
  Hypothesis HN : calculates tokenize tmatch gs toks N.
  Notation At := (SpecWorth.text_at tokenize tmatch toks).
  Notation Reach := (reach tokenize tmatch gs toks).
  Notation Reaches := (reaches tokenize tmatch gs toks).
  Notation W := (worth tokenize tmatch gs toks).
  Notation Ws := (worths tokenize tmatch gs toks).
  Notation Least := (least tokenize tmatch gs toks).
  Notation Leasts := (leasts tokenize tmatch gs toks).
  Hypothesis Hpos : forall x b t i j, N x -> has_body gs x b -> In t (rb_terms b) -> At t i j -> i < j.
  Hypothesis Hne : forall x b, N x -> has_body gs x b -> rb_terms b <> [].
  Notation plain := (fun t => t_type t = TTerminal \/ t_type t = TNonterminal /\ N (t_value t)).

  Lemma function_exists ts vs : (forall k t, nth_error ts k = Some t -> t_type t = TNonterminal -> exists x, nth_error vs k = Some (Some x)) ->
    (forall f, f_calculates ts f -> exists x, f_worth vs f x) /\ (forall a, a_calculates ts a -> exists x, a_worth vs a x).
  Proof using.
    intros H. apply f_calculates_mutind.
    - intros a _ (x & A). exists x. constructor. exact A.
    - intros o a b _ (x & A) _ (y & B). exists (Binary o x y). constructor; assumption.
    - intros a _ (x & A). exists (Negative x). constructor. exact A.
    - intros z. exists (Number z). constructor.
    - intros f _ (x & A). exists x. constructor. exact A.
    - intros k t Hk Et. destruct (H k t Hk Et) as (x & Hx). exists x. constructor. exact Hx.
  Qed.

  Lemma reach_idle b i j n : Reaches (rb_terms b) i j n -> idle tokenize tmatch gs toks N b -> False.
  Proof using.
    intros H (t & Ht & Hno). induction H as [i|t' ts i j k n A _ IH|t' ts i j k m n A B _ IH]; [destruct Ht|..]; (destruct Ht as [->|Ht]; [|auto]).
    - destruct Hno as [[Et Hno]|(Et & _)]; [exact (Hno _ _ A)|]. destruct A as [A _]. congruence.
    - destruct Hno as [[Et Hno]|(Et & _ & Hno)]; [congruence|]. inversion B; subst. eapply Hno; eauto.
  Qed.
  Lemma reach_body x b i j n : N x -> has_body gs x b -> Reaches (rb_terms b) i j n ->
    Forall plain (rb_terms b) /\ exists f, rb_f b = Some f /\ f_calculates (rb_terms b) f.
  Proof using HN. intros Hx Hb H. destruct (HN _ _ Hx Hb) as [Hi|K]; [exfalso; exact (reach_idle _ _ _ _ H Hi)|exact K]. Qed.

  (** readings *)
  Lemma reach_worth : (forall x i j n, Reach x i j n -> N x -> exists v, W x i j v) /\
    (forall ts i j n, Reaches ts i j n -> Forall plain ts -> exists vs, Ws ts i j vs /\
       forall k t, nth_error ts k = Some t -> t_type t = TNonterminal -> exists x, nth_error vs k = Some (Some x)).
  Proof using HN.
    apply reach_mutind.
    - intros x i j b n Hb H IH Hx. destruct (reach_body _ _ _ _ _ Hx Hb H) as (Hp & f & Hf & Hc). destruct (IH Hp) as (vs & V & Hv).
      destruct (proj1 (function_exists _ _ Hv) f Hc) as (v & Hw). exists v. eapply wo_body; eauto.
    - intros i _. exists []. split; [constructor|]. intros [|k] t H; discriminate H.
    - intros t ts i j k n A _ IH F. inversion F; subst. destruct (IH ltac:(assumption)) as (vs & V & Hv). exists (None :: vs). split; [eapply ws_text; eauto|].
      intros [|m] u Hu Eu; cbn [nth_error] in *; [injection Hu as <-; destruct A; congruence|eauto].
    - intros t ts i j k m n Et _ IH1 _ IH2 F. inversion F as [|? ? [C|[_ Hn]] F']; subst; [congruence|]. destruct (IH1 Hn) as (v & Hv1). destruct (IH2 F') as (vs & V & Hv).
      exists (Some v :: vs). split; [eapply ws_rule; eauto|]. intros [|p] u Hu Eu; cbn [nth_error] in *; [exists v; reflexivity|eauto].
  Qed.
  Lemma worth_reach : (forall x i j v, W x i j v -> exists n, Reach x i j n) /\ (forall ts i j vs, Ws ts i j vs -> exists n, Reaches ts i j n).
  Proof using.
    apply worth_mutind.
    - intros x i j b f vs e Hb _ _ (n & IH) _. exists (S n). eapply re_body; eauto.
    - intros i. exists 0. constructor.
    - intros t ts i j k vs A _ (n & IH). eexists. eapply rs_text; eauto.
    - intros t ts i j k e vs Et _ (m & IH1) _ (n & IH2). eexists. eapply rs_rule; eauto.
  Qed.
  Lemma least_worth : (forall x i j v n, Least x i j v n -> W x i j v) /\ (forall ts i j vs n, Leasts ts i j vs n -> Ws ts i j vs).
  Proof using.
    apply least_mutind.
    - intros. eapply wo_body; eauto.
    - intros. constructor.
    - intros. eapply ws_text; eauto.
    - intros. eapply ws_rule; eauto.
  Qed.
  Lemma least_reach : (forall x i j v n, Least x i j v n -> Reach x i j n) /\ (forall ts i j vs n, Leasts ts i j vs n -> Reaches ts i j n).
  Proof using.
    apply least_mutind.
    - intros. eapply re_body; eauto.
    - intros. constructor.
    - intros. eapply rs_text; eauto.
    - intros. eapply rs_rule; eauto.
  Qed.
  Lemma reach_pos : (forall x i j n, Reach x i j n -> N x -> i < j) /\
    (forall ts i j n, Reaches ts i j n -> Forall plain ts -> (exists x b pre, N x /\ has_body gs x b /\ rb_terms b = pre ++ ts) -> i <= j /\ (ts <> [] -> i < j)).
  Proof using HN Hpos Hne.
    apply reach_mutind.
    - intros x i j b n Hb H IH Hx. destruct (reach_body _ _ _ _ _ Hx Hb H) as (Hp & _). destruct (IH Hp) as [_ K]; [exists x, b, []; auto|]. apply K. eapply Hne; eauto.
    - intros i _ _. split; [lia|]. intros C. contradiction C; reflexivity.
    - intros t ts i j k n A _ IH F (x & b & pre & Hx & Hb & E). inversion F; subst. destruct (IH ltac:(assumption)) as [L _]; [exists x, b, (pre ++ [t]); rewrite <- app_assoc; auto|].
      assert (i < j) by (eapply Hpos; [exact Hx|exact Hb| |exact A]; rewrite E; apply in_app_iff; right; left; reflexivity). split; [lia|]. intros _. lia.
    - intros t ts i j k m n Et _ IH1 _ IH2 F (x & b & pre & Hx & Hb & E). inversion F as [|? ? [C|[_ Hn]] F']; subst; [congruence|].
      destruct (IH2 F') as [L _]; [exists x, b, (pre ++ [t]); rewrite <- app_assoc; auto|]. specialize (IH1 Hn). split; [lia|]. intros _. lia.
  Qed.

  Lemma least_exists_upto s : forall n x i j, j - i <= s -> N x -> Reach x i j n -> (forall n', Reach x i j n' -> n <= n') -> ~ ~ exists v, Least x i j v n.
  Proof using HN Hpos Hne.
    induction s as [|s IHs]; [intros n x i j Hs Hx H; pose proof (proj1 reach_pos _ _ _ _ H Hx); lia|].
    induction n as [n IHn] using (well_founded_induction Wf_nat.lt_wf). intros x i j Hs Hx H Hmin C.
    inversion H as [? ? ? b m Hb Hr]; subst. destruct (reach_body _ _ _ _ _ Hx Hb Hr) as (Hp & f & Hf & Hc).
    assert (Hmin' : forall n', Reaches (rb_terms b) i j n' -> m <= n') by (intros n' H'; apply le_S_n; apply Hmin; eapply re_body; eauto).
    assert (K : forall ts i' k n', Reaches ts i' k n' -> forall pre, rb_terms b = pre ++ ts -> i <= i' -> k = j -> (pre <> [] -> i < i') ->
              Forall plain ts -> (ts <> [] -> n' = m) -> (forall n2, Reaches ts i' k n2 -> n' <= n2) ->
              ~ ~ exists vs, Leasts ts i' k vs n' /\ forall q t, nth_error ts q = Some t -> t_type t = TNonterminal -> exists x, nth_error vs q = Some (Some x)).
    { intros ts i' k n' HR. clear C. induction HR as [i'|t ts i' q k n' A HR IH|t ts i' q k m' n' Et A HR IH]; intros pre E Hi Hk Hpre F Hm' Hmn D.
      - apply D. exists []. split; [constructor|]. intros [|q] t Hq; discriminate Hq.
      - inversion F as [|? ? F1 F2]; subst.
        assert (i' < q) by (eapply Hpos; [exact Hx|exact Hb| |exact A]; rewrite E; apply in_app_iff; right; left; reflexivity).
        apply (IH (pre ++ [t])); [rewrite <- app_assoc; exact E|lia|reflexivity|lia|exact F2| | |].
        + intros Hts. destruct ts; [contradiction Hts; reflexivity|]. exact (Hm' ltac:(discriminate)).
        + intros n2 H2. destruct ts as [|u ts]; [inversion H2; subst; inversion HR; subst; lia|]. apply (Hmn (of_last (u :: ts) 1 n2)). eapply rs_text; eauto.
        + intros (vs & V & Hv). apply D. exists (None :: vs). split; [eapply ls_text; eauto|].
          intros [|p] u Hu Eu; cbn [nth_error] in *; [injection Hu as <-; destruct A; congruence|eauto].
      - inversion F as [|? ? [F1|[_ F1]] F2]; subst; [congruence|]. pose proof (proj1 reach_pos _ _ _ _ A F1) as Lq.
        pose proof (proj2 reach_pos _ _ _ _ HR F2) as Lr. destruct Lr as [Lr Lr']; [exists x, b, (pre ++ [t]); rewrite <- app_assoc; auto|].
        assert (T1 : ~ ~ exists vs, Leasts ts q j vs n' /\ forall r t, nth_error ts r = Some t -> t_type t = TNonterminal -> exists x, nth_error vs r = Some (Some x)).
        { apply (IH (pre ++ [t])); [rewrite <- app_assoc; exact E|lia|reflexivity|lia|exact F2| |].
          - intros Hts. destruct ts; [contradiction Hts; reflexivity|]. exact (Hm' ltac:(discriminate)).
          - intros n2 H2. destruct ts as [|u ts]; [inversion H2; subst; inversion HR; subst; lia|]. apply (Hmn (of_last (u :: ts) m' n2)). eapply rs_rule; eauto. }
        assert (T2 : ~ ~ exists v m2, Least (t_value t) i' q v m2 /\ (ts = [] -> m2 = m')).
        { destruct ts as [|u ts].
          - inversion HR; subst. cbn [of_last] in *. specialize (Hm' ltac:(discriminate)). subst m'. intros D2.
            apply (IHn m ltac:(lia) (t_value t) i' j); [lia|exact F1|exact A| |].
            + intros n2 H2. apply (Hmn (of_last (@nil term) n2 0)). eapply rs_rule; [exact Et|exact H2|constructor].
            + intros (v & Hv). apply D2. exists v, m. auto.
          - intros D2. apply (not_not_least (fun n2 => Reach (t_value t) i' q n2) m' A). intros (m2 & M1 & M2).
            specialize (Lr' ltac:(discriminate)).
            apply (IHs m2 (t_value t) i' q ltac:(lia) F1 M1 M2). intros (v & Hv). apply D2. exists v, m2. split; [exact Hv|discriminate]. }
        apply T1. intros (vs & V & Hv). apply T2. intros (v & m2 & V2 & Em). apply D. exists (Some v :: vs). split.
        + replace (of_last ts m' n') with (of_last ts m2 n') by (destruct ts; [cbn; auto|reflexivity]). eapply ls_rule; eauto.
        + intros [|p] u Hu Eu; cbn [nth_error] in *; [exists v; reflexivity|eauto]. }
    apply (K _ _ _ _ Hr []); [reflexivity|lia|reflexivity|intros D; contradiction D; reflexivity|exact Hp|reflexivity|exact Hmin'|].
    intros (vs & V & Hv). destruct (proj1 (function_exists _ _ Hv) f Hc) as (v & Hw). apply C. exists v. eapply le_body; eauto.
  Qed.
  Lemma least_exists x i j v : N x -> W x i j v -> ~ ~ exists v n, Least x i j v n /\ forall n', Reach x i j n' -> n <= n'.
  Proof using HN Hpos Hne.
    intros Hx H C. destruct (proj1 worth_reach _ _ _ _ H) as (n0 & H0). apply (not_not_least (fun n => Reach x i j n) n0 H0). intros (n & M1 & M2).
    apply (least_exists_upto (j - i) n x i j (le_n _) Hx M1 M2). intros (v' & Hv). apply C. exists v', n. auto.
  Qed.
End Exists.
