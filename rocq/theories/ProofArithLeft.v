(** Readings from left to right have trees with shortest right edges. *)
From Coq Require Import Permutation.
From Verif Require Import Base ModelTypes ModelText ModelEarley ModelTrees ModelApi ModelLocal
     SpecTypes SpecGrammar SpecTree SpecRefine SpecTreeOrder SpecTreeEdge SpecEnd SpecMeaning ProofTreeEdge SpecArith ProofArith.
Local Open Scope list_scope.

Section Left.
  Variable tokenize : string -> res (list token).
  Variable tmatch : term -> option token -> bool.
  Variable toks : list token.
  Variable gs : list grammar_rules.
  Variable T : list (string * string).
  Hypothesis Hwords : words_have_tokens tokenize.
  Hypothesis H1 : forall b, In b bodies -> exists b', has_body gs "number" b' /\ replaced_body T b b'.
  Hypothesis H2 : forall w y, In w vocabulary -> In (w, y) T ->
    exists ks, tokenize w = Ret ks /\ forall b, has_body gs y b <-> b = mkRb (token_terms MNil ks) None.
  Hypothesis H3 : forall b', has_body gs "number" b' -> exists b, In b bodies /\ replaced_body T b b'.
  Notation TO := (tree_of gs (accepts_by tmatch) toks own_range).
  Notation TS := (trees_of gs (accepts_by tmatch) toks own_range).
  Notation Short := (shortest gs (accepts_by tmatch) toks own_range).
  Notation Reads := (reads tokenize tmatch toks).
  Notation Phrase := (phrase tokenize tmatch toks).

  Lemma rule_of y i j q : TO (nonterm y) i j q -> exists b kids, q = PRule y b i j kids /\ has_body gs y b /\ TS (rb_terms b) i j kids.
  Proof using. intros H. inversion H; subst; try discriminate. eauto. Qed.
  Lemma one_of t i j qs : TS [t] i j qs -> exists q, qs = [q] /\ TO t i j q.
  Proof using. intros H. inversion H as [|? ? ? ? ? q ps K1 K2]; subst. inversion K2; subst. eauto. Qed.
  Lemma two_of t u i j qs : TS [t; u] i j qs -> exists q q' m, qs = [q; q'] /\ TO t i m q /\ TO u m j q'.
  Proof using. intros H. inversion H as [|? ? ? m ? q ps K1 K2]; subst. apply one_of in K2 as (q' & -> & K2). eauto 6. Qed.
  Lemma three_of t u v i j qs : TS [t; u; v] i j qs -> exists q q' q'' m m', qs = [q; q'; q''] /\ TO t i m q /\ TO u m m' q' /\ TO v m' j q''.
  Proof using. intros H. inversion H as [|? ? ? m ? q ps K1 K2]; subst. apply two_of in K2 as (q' & q'' & m' & -> & K2 & K3). exists q, q', q'', m, m'. auto. Qed.

  Lemma below x b i j kids m : subtree (PRule x b i j kids) m -> m = PRule x b i j kids \/ exists k, In k kids /\ subtree k m.
  Proof using. intros H. inversion H as [|? k ? Hk Hm]; subst; [auto|right; exists k; auto]. Qed.
  Lemma rule_edge y i j q : TO (nonterm y) i j q -> 1 <= edge q.
  Proof using. intros H. apply rule_of in H as (b & kids & -> & _). rewrite edge_eq. lia. Qed.

  (** the alternatives of the rule after refinement *)
  Lemma one_term w t' : replaced T (word w) t' -> exists y, In (w, y) T /\ t' = nonterm y.
  Proof using. intros [(_ & y & Hy & ->)|(C & _)]; [exists y; auto|contradiction C; reflexivity]. Qed.
  Lemma same_term t' : replaced T (nonterm "number") t' -> t' = nonterm "number".
  Proof using. intros [(C & _)|(_ & ->)]; [discriminate|reflexivity]. Qed.
  Lemma number_shape w z b' : replaced_body T (number_body (w, z)) b' -> exists y, In (w, y) T /\ rb_terms b' = [nonterm y].
  Proof using.
    intros (_ & F). cbn [number_body rb_terms fst] in F. inversion F as [|? t' ? ts' R F']; subst. inversion F'; subst.
    apply one_term in R as (y & Hy & ->). eauto.
  Qed.
  Lemma operator_shape w o b' : replaced_body T (operator_body (w, o)) b' ->
    exists y, In (w, y) T /\ rb_terms b' = [nonterm "number"; nonterm y; nonterm "number"].
  Proof using.
    intros (_ & F). cbn [operator_body rb_terms fst] in F. inversion F as [|? t1 ? ts1 R1 F1]; subst. inversion F1 as [|? t2 ? ts2 R2 F2]; subst.
    inversion F2 as [|? t3 ? ts3 R3 F3]; subst. inversion F3; subst.
    apply one_term in R2 as (y & Hy & ->). apply same_term in R1 as ->. apply same_term in R3 as ->. eauto.
  Qed.
  Lemma sign_shape w b' : replaced_body T (sign_body w) b' -> exists y, In (w, y) T /\ rb_terms b' = [nonterm y; nonterm "number"].
  Proof using.
    intros (_ & F). cbn [sign_body rb_terms fst] in F. inversion F as [|? t1 ? ts1 R1 F1]; subst. inversion F1 as [|? t2 ? ts2 R2 F2]; subst.
    inversion F2; subst. apply one_term in R1 as (y & Hy & ->). apply same_term in R2 as ->. eauto.
  Qed.
  Lemma number_word w z : In (w, z) numbers -> In w vocabulary.
  Proof using. intros H. apply in_app_iff. left. exact (in_map fst _ _ H). Qed.
  Lemma operator_word w o : In (w, o) operators -> In w vocabulary.
  Proof using. intros H. apply in_app_iff. right. apply in_app_iff. left. exact (in_map fst _ _ H). Qed.
  Lemma sign_word w : In w signs -> In w vocabulary.
  Proof using. intros H. apply in_app_iff. right. apply in_app_iff. right. exact H. Qed.

  Lemma tokens_match us : forall i j kids, TS us i j kids -> Forall (fun t => t_type t = TTerminal) us -> words_match tmatch toks us i j.
  Proof using.
    induction us as [|u us IH]; intros i j kids H F; inversion H as [|? ? ? m ? q ps K1 K2]; subst.
    - apply words_none. reflexivity.
    - inversion F as [|? ? Fu F']; subst. inversion K1; subst; try congruence. eapply words_cons; eauto.
  Qed.
  Lemma phrase_of w y i j q : In w vocabulary -> In (w, y) T -> TO (nonterm y) i j q -> Phrase w i j.
  Proof using H2.
    intros Hv Hy H. apply rule_of in H as (b & kids & -> & Hb & Hk). destruct (H2 w y Hv Hy) as (ks & Ek & Hall).
    apply Hall in Hb as ->. exists ks. split; [exact Ek|]. eapply tokens_match; [exact Hk|].
    apply Forall_forall. intros t Ht. cbn [rb_terms] in Ht. apply in_map_iff in Ht as (k & <- & _). reflexivity.
  Qed.

  Lemma number_edge i j q : TO (nonterm "number") i j q -> 2 <= edge q /\ (edge q = 2 -> exists z, Reads (Number z) i j).
  Proof using H2 H3.
    revert i j. induction q as [q IH] using (well_founded_induction (Wf_nat.well_founded_ltof _ edge)). unfold Wf_nat.ltof in IH. intros i j H.
    apply rule_of in H as (b' & kids & -> & Hb & Hk). destruct (H3 _ Hb) as (b & Hin & Hr).
    destruct (bodies_cases b Hin) as [(w & z & Hw & ->)|[(w & o & Hw & ->)|(w & Hw & ->)]].
    - destruct (number_shape _ _ _ Hr) as (y & Hy & E). rewrite E in Hk. apply one_of in Hk as (q & -> & Hq).
      pose proof (rule_edge _ _ _ _ Hq) as L. rewrite edge_eq. cbn [p_kids last_edge] in *. split; [lia|]. intros _. exists z.
      eapply rd_number; [exact Hw|]. eapply phrase_of; eauto. eapply number_word; exact Hw.
    - destruct (operator_shape _ _ _ Hr) as (y & Hy & E). rewrite E in Hk. apply three_of in Hk as (q1 & q2 & q3 & m & m' & -> & _ & _ & Hq).
      rewrite edge_eq. cbn [p_kids last_edge]. destruct (IH q3 ltac:(rewrite (edge_eq (PRule _ _ _ _ _)); cbn; lia) _ _ Hq) as [L _]. split; lia.
    - destruct (sign_shape _ _ Hr) as (y & Hy & E). rewrite E in Hk. apply two_of in Hk as (q1 & q2 & m & -> & _ & Hq).
      rewrite edge_eq. cbn [p_kids last_edge]. destruct (IH q2 ltac:(rewrite (edge_eq (PRule _ _ _ _ _)); cbn; lia) _ _ Hq) as [L _]. split; lia.
  Qed.

  Lemma words_tree us : forall i j, words_match tmatch toks us i j -> exists kids, TS us i j kids /\ Forall (fun k => exists t a, k = PTok t a) kids.
  Proof using.
    induction us as [|u us IH]; intros i j [-> H]; cbn [length].
    - rewrite Nat.add_0_r. exists []. split; constructor.
    - destruct (H 0 u eq_refl) as (K1 & tok & K2 & K3). rewrite Nat.add_0_r in K2.
      destruct (IH (S i) (S i + length us)) as (kids & Hk & F).
      { split; [reflexivity|]. intros k t Hk. specialize (H (S k) t Hk). replace (S i + k) with (i + S k) by lia. exact H. }
      exists (PTok u i :: kids). split; [|constructor; [eauto|exact F]].
      replace (i + S (length us)) with (S i + length us) by lia. econstructor; [eapply to_tok; eauto; exact K3|exact Hk].
  Qed.
  Lemma last_tok kids : Forall (fun k => exists t a, k = PTok t a) kids -> last_edge kids = 0.
  Proof using.
    induction 1 as [|k kids (t & a & ->) F IH]; [reflexivity|]. cbn [last_edge]. destruct kids; [reflexivity|exact IH].
  Qed.

  Lemma phrase_node w y i j : In w vocabulary -> In (w, y) T -> Phrase w i j ->
    exists q, TO (nonterm y) i j q /\ i < j /\ nowhere_empty q /\ edge q = 1 /\ forall m, subtree q m -> p_inner m = true -> Short m.
  Proof using Hwords H2.
    intros Hv Hy (ks & Ek & W). destruct (H2 w y Hv Hy) as (ks' & Ek' & Hall). rewrite Ek in Ek'. injection Ek' as <-.
    destruct (words_tree _ _ _ W) as (kids & Hk & F).
    assert (Hij : i < j).
    { destruct W as [-> _]. destruct (Hwords w ks Hv Ek) as (k & K1 & K2). unfold token_terms. rewrite map_length.
      enough (0 < length (filter (fun k => negb (is_space_token k)) ks)) by lia.
      assert (K : In k (filter (fun k => negb (is_space_token k)) ks)).
      { apply filter_In. split; [exact K1|]. unfold is_space_token. destruct (tok_type k); try reflexivity. contradiction K2; reflexivity. }
      destruct (filter _ ks); [destruct K|cbn; lia]. }
    exists (PRule y (mkRb (token_terms MNil ks) None) i j kids).
    assert (Sub : forall m, subtree (PRule y (mkRb (token_terms MNil ks) None) i j kids) m ->
              m = PRule y (mkRb (token_terms MNil ks) None) i j kids \/ exists t a, m = PTok t a).
    { intros m Hm. inversion Hm as [|? k ? Hk' Hm']; subst; [auto|right]. cbn [p_kids] in Hk'. rewrite Forall_forall in F.
      destruct (F k Hk') as (t & a & ->). inversion Hm' as [|? k' ? C]; subst; [eauto|destruct C]. }
    split; [|split; [exact Hij|split; [|split]]].
    - apply (to_rule _ _ _ _ (nonterm y)); [reflexivity| |exact Hk]. apply Hall. reflexivity.
    - intros m Hm. destruct (Sub m Hm) as [->|(t & a & ->)]; cbn; lia.
    - rewrite edge_eq. cbn [p_kids]. rewrite last_tok; auto.
    - intros m Hm Hi. destruct (Sub m Hm) as [->|(t & a & ->)]; [|discriminate Hi]. intros n' Hr _.
      destruct n'; try contradiction. rewrite !edge_eq. cbn [p_kids]. rewrite (last_tok kids F). lia.
  Qed.

  Definition side (x : expression) : nat := match x with Number _ => 2 | _ => 3 end.
  Lemma left_tree x i j : Reads x i j -> left_to_right x ->
    exists q, TO (nonterm "number") i j q /\ i < j /\ nowhere_empty q /\ pictures q x /\ edge q = side x /\
      forall m, subtree q m -> p_inner m = true -> Short m.
  Proof using Hwords H1 H2 H3.
    induction 1 as [w z i j Hw Hp|w o x y i j k l Hw Hx IHx Hp Hy IHy|w x i j k Hw Hp Hx IHx]; cbn [left_to_right].
    - intros _. destruct (H1 (number_body (w, z))) as (b' & Hb & Hr); [apply in_app_iff; left; apply in_map; exact Hw|].
      destruct (number_shape _ _ _ Hr) as (v & Hv & E). destruct (phrase_node w v i j (number_word _ _ Hw) Hv Hp) as (q & Q1 & Q2 & Q3 & Q4 & Q5).
      exists (PRule "number" b' i j [q]). split.
      { apply (to_rule _ _ _ _ (nonterm "number")); [reflexivity|exact Hb|]. rewrite E. econstructor; [exact Q1|constructor]. }
      split; [exact Q2|]. split; [|split; [apply pc_number; exact (proj1 Hr)|split; [rewrite edge_eq; cbn; lia|]]].
      + intros m Hm. destruct (below _ _ _ _ _ _ Hm) as [->|(? & [<-|[]] & Hm')]; [exact Q2|auto].
      + intros m Hm Hi. destruct (below _ _ _ _ _ _ Hm) as [->|(? & [<-|[]] & Hm')]; [|auto]. intros n' Hs Hn.
        destruct n'; cbn [same_root] in Hs; try contradiction. destruct Hs as (<- & <- & <- & <-). cbn in Hn. rewrite E in Hn. apply one_of in Hn as (q' & -> & Hq').
        apply rule_edge in Hq'. rewrite !edge_eq. cbn. lia.
    - intros (Lx & z & ->). destruct (IHx Lx) as (q1 & A1 & A2 & A3 & A4 & A5 & A6). destruct (IHy I) as (q3 & B1 & B2 & B3 & B4 & B5 & B6).
      destruct (H1 (operator_body (w, o))) as (b' & Hb & Hr); [apply in_app_iff; right; apply in_app_iff; left; apply in_map; exact Hw|].
      destruct (operator_shape _ _ _ Hr) as (v & Hv & E). destruct (phrase_node w v j k (operator_word _ _ Hw) Hv Hp) as (q2 & Q1 & Q2 & Q3 & Q4 & Q5).
      exists (PRule "number" b' i l [q1; q2; q3]). split.
      { apply (to_rule _ _ _ _ (nonterm "number")); [reflexivity|exact Hb|]. rewrite E. econstructor; [exact A1|]. econstructor; [exact Q1|]. econstructor; [exact B1|constructor]. }
      split; [lia|]. split; [|split; [apply pc_binary; [exact (proj1 Hr)|exact A4|exact B4]|split; [rewrite edge_eq; cbn in *; lia|]]].
      + intros m Hm. destruct (below _ _ _ _ _ _ Hm) as [->|(? & [<-|[<-|[<-|[]]]] & Hm')]; [cbn; lia|auto..].
      + intros m Hm Hi. destruct (below _ _ _ _ _ _ Hm) as [->|(? & [<-|[<-|[<-|[]]]] & Hm')]; [|auto..]. intros n' Hs Hn.
        destruct n'; cbn [same_root] in Hs; try contradiction. destruct Hs as (<- & <- & <- & <-). cbn in Hn. rewrite E in Hn. apply three_of in Hn as (p1 & p2 & p3 & m1 & m2 & -> & _ & _ & Hq').
        apply number_edge in Hq' as [Hq' _]. rewrite !edge_eq. cbn in *. lia.
    - intros (z & ->). destruct (IHx I) as (q3 & B1 & B2 & B3 & B4 & B5 & B6).
      destruct (H1 (sign_body w)) as (b' & Hb & Hr); [apply in_app_iff; right; apply in_app_iff; right; apply in_map; exact Hw|].
      destruct (sign_shape _ _ Hr) as (v & Hv & E). destruct (phrase_node w v i j (sign_word _ Hw) Hv Hp) as (q2 & Q1 & Q2 & Q3 & Q4 & Q5).
      exists (PRule "number" b' i k [q2; q3]). split.
      { apply (to_rule _ _ _ _ (nonterm "number")); [reflexivity|exact Hb|]. rewrite E. econstructor; [exact Q1|]. econstructor; [exact B1|constructor]. }
      split; [lia|]. split; [|split; [apply pc_negative; [exact (proj1 Hr)|exact B4]|split; [rewrite edge_eq; cbn in *; lia|]]].
      + intros m Hm. destruct (below _ _ _ _ _ _ Hm) as [->|(? & [<-|[<-|[]]] & Hm')]; [cbn; lia|auto..].
      + intros m Hm Hi. destruct (below _ _ _ _ _ _ Hm) as [->|(? & [<-|[<-|[]]] & Hm')]; [|auto..]. intros n' Hs Hn.
        destruct n'; cbn [same_root] in Hs; try contradiction. destruct Hs as (<- & <- & <- & <-). cbn in Hn. rewrite E in Hn. apply two_of in Hn as (p1 & p2 & m1 & -> & _ & Hq').
        apply number_edge in Hq' as [Hq' _]. rewrite !edge_eq. cbn in *. lia.
  Qed.

  (** the whole text, unless it is also a number word *)
  Lemma left_root x j b : rb_terms b = [nonterm "number"] -> Reads x 0 j -> left_to_right x ->
    (forall z, Reads (Number z) 0 j -> exists z', x = Number z') ->
    exists q, TO (nonterm "number") 0 j q /\ nowhere_empty q /\ pictures q x /\
      forall m, subtree (PRule GammaRule b 0 j [q]) m -> p_inner m = true -> Short m.
  Proof using Hwords H1 H2 H3.
    intros E Hx Lx Hz. destruct (left_tree x 0 j Hx Lx) as (q & Q1 & Q2 & Q3 & Q4 & Q5 & Q6). exists q.
    split; [exact Q1|]. split; [exact Q3|]. split; [exact Q4|]. intros m Hm Hi. destruct (below _ _ _ _ _ _ Hm) as [->|(? & [<-|[]] & Hm')]; [|auto].
    intros n' Hs Hn. destruct n'; cbn [same_root] in Hs; try contradiction. destruct Hs as (<- & <- & <- & <-). cbn in Hn. rewrite E in Hn. apply one_of in Hn as (q' & -> & Hq').
    apply number_edge in Hq' as [L1 L2]. rewrite !edge_eq. cbn [p_kids last_edge]. rewrite Q5. destruct x as [z|o x y|x]; cbn [side]; [lia|..];
      (destruct (Nat.eq_dec (edge q') 2) as [E2|]; [|lia]; destruct (L2 E2) as (z & Hr); destruct (Hz z Hr) as (z' & C); discriminate C).
  Qed.
End Left.
