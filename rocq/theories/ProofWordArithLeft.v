(** Texts of numerals and operations: the brackets from left to right are nested least on the right. *)
From Coq Require Import Permutation.
From Verif Require Import Base ModelTypes ModelText ModelEarley ModelTrees ModelApi ModelReader ModelGrammar ModelMatch ModelLocal
     SpecTypes SpecGrammar SpecTree SpecNotation SpecRefine SpecConstruct SpecLocal SpecFuncs SpecMath SpecMeaning ModelShipped SpecShipped SpecNames
     ProofShipped ProofNames SpecArith SpecWorth ProofWorth ProofReadings SpecEnglish ProofEnglish ProofEnglishRules ProofEnglishCalls SpecWordArith ProofWordArith ProofWordArithRules
     SpecLeast ProofLeastExists.
Local Open Scope list_scope.

Lemma sl_here (ws pre q r : list string) : ws = pre ++ q ++ r -> sl ws (length pre) (length pre + length q) = q.
Proof.
  intros ->. unfold sl. replace (length pre + length q - length pre) with (length q) by lia.
  rewrite skipn_app, skipn_all, Nat.sub_diag. cbn [skipn app]. rewrite firstn_app, firstn_all, Nat.sub_diag. cbn [firstn]. apply app_nil_r.
Qed.
Lemma sl_in (ws : list string) i j k w : nth_error ws k = Some w -> i <= k < j -> In w (sl ws i j).
Proof.
  intros H Hk. rewrite (sl_app ws i k j), (sl_app ws k (S k) j) by lia. apply in_app_iff. right. apply in_app_iff. left. rewrite (sl_one ws k w H). left. reflexivity.
Qed.
Lemma flat_snoc u l o u' : flat u (l ++ [(o, u')]) = flat u l ++ opw o :: u'.
Proof. rewrite <- flat_app. replace (flat u' []) with u' by (unfold flat; cbn [flat_map]; rewrite app_nil_r; reflexivity). reflexivity. Qed.
Lemma from_left_snoc n l o m : from_left n (l ++ [(o, m)]) = Binary o (from_left n l) (Number m).
Proof. unfold from_left. rewrite fold_left_app. reflexivity. Qed.

Section Left.
  Variable tokenize : string -> res (list token).
  Variable tmatch : term -> option token -> bool.
  Variables gs gsE : list grammar_rules.
  Variable d : document.
  Variable ws : list string.
  Hypothesis Hws : in_words tokenize tmatch sum_words d ws.
  Hypothesis Hpoint : ~ In "point"%string ws.
  Hypothesis Hother : forall v i j, In v other_texts -> ~ phrase tokenize tmatch (content d) v i j.
  Hypothesis HB : forall x b, has_body gs x b -> math_class x b \/ In b (alternatives x).
  Hypothesis HE : forall x b, has_body gsE x b <-> In b (alternatives x).
  Hypothesis HEB : forall x b, has_body gsE x b -> has_body gs x b.
  Hypothesis Hop : forall w o, In (w, o) operator_words -> has_body gs "number" (operator_body w o).
  Hypothesis Hpos : forall x b t i j, In x sum_counting -> has_body gs x b -> In t (rb_terms b) -> SpecWorth.text_at tokenize tmatch (content d) t i j -> i < j.
  Hypothesis Hne : forall x b, In x sum_counting -> has_body gs x b -> rb_terms b <> [].
  Notation W := (worth tokenize tmatch gs (content d)).
  Notation Reach := (reach tokenize tmatch gs (content d)).
  Notation Reaches := (reaches tokenize tmatch gs (content d)).
  Notation Least := (least tokenize tmatch gs (content d)).
  Notation sl := (sl ws).
  Let HN := sum_calculates tokenize tmatch gs gsE d ws Hws Hpoint Hother HB HE.
  Lemma number_counts : In "number"%string sum_counting.
  Proof using. vm_compute. tauto. Qed.

  Lemma operator_reach w o i j n : In (w, o) operator_words -> Reaches (rb_terms (operator_body w o)) i j n ->
    exists k m, nth_error ws k = Some (opw o) /\ Reach "number" i k m /\ Reach "number" (S k) j n.
  Proof using Hws.
    intros Ho H. cbn [operator_body rb_terms] in H.
    inversion H as [|? ? ? ? ? ? [C _]|? ? ? k ? m1 ? _ R1 H1]; subst; [discriminate C|].
    inversion H1 as [|? ? ? k' ? ? [_ A] H2|? ? ? ? ? ? ? C]; subst; [|discriminate C].
    inversion H2 as [|? ? ? ? ? ? [C _]|? ? ? k2 ? m2 ? _ R2 H3]; subst; [discriminate C|]. inversion H3; subst. cbn [of_last t_value nonterm] in *.
    change (phrase tokenize tmatch (content d) w k k') in A. apply (proj2 Hws w) in A as [-> A]; [|apply in_app_iff; right; apply (in_map fst) in Ho; exact Ho].
    rewrite (opw_of _ _ Ho) in A. exists k, m1. auto.
  Qed.
  Lemma reach_span i j n : Reach "number" i j n -> i < j.
  Proof using Hws Hpoint Hother HB HE Hpos Hne. intros H. exact (proj1 (reach_pos _ _ _ _ _ HN Hpos Hne) _ _ _ _ H number_counts). Qed.
  Lemma number_reach i j n : Reach "number" i j n -> plain (sl i j) \/
    exists k o n', nth_error ws k = Some (opw o) /\ i <= k < j /\ Reach "number" (S k) j n' /\ n = S n'.
  Proof using Hws Hpoint Hother HB HE Hpos Hne.
    intros H. inversion H as [? ? ? b m Hb Hr]; subst.
    destruct (reach_body _ _ _ _ _ HN _ _ _ _ _ number_counts Hb Hr) as (Hp & _).
    destruct (proj2 (reach_worth _ _ _ _ _ HN) _ _ _ _ Hr Hp) as (vs & Hv & _).
    apply HB in Hb as [C|C].
    - inversion C as [|? ? _ E|w o' Ho|f'| |]; subst; cbn [rb_terms] in *.
      + exfalso. exact (other_none tokenize tmatch gs d Hother _ _ _ _ E Hv).
      + right. destruct (operator_reach w o' i j m Ho Hr) as (k & m1 & A & R1 & R2). exists k, o', m. split; [exact A|].
        apply reach_span in R1. pose proof (reach_span _ _ _ R2). split; [lia|]. auto.
      + exfalso. destruct (rule_inv tokenize tmatch gs d _ _ _ _ _ Hv) as (k & a & vs' & -> & W1 & Hv'). inversion W1; subst. eapply no_numeric; eassumption.
      + exfalso. destruct (rule_inv tokenize tmatch gs d _ _ _ _ _ Hv) as (k & a & vs' & -> & W1 & Hv'). eapply no_special; eassumption.
      + exfalso. destruct (rule_inv tokenize tmatch gs d _ _ _ _ _ Hv) as (k & a & vs' & -> & W1 & Hv').
        destruct (rule_inv tokenize tmatch gs d _ _ _ _ _ Hv') as (k' & a' & vs'' & -> & W2 & _). eapply no_special; eassumption.
    - destruct C as [<-|[<-|[<-|[<-|[]]]]]; cbn [rb_terms] in *; destruct (rule_inv tokenize tmatch gs d _ _ _ _ _ Hv) as (k & a & vs' & -> & W1 & Hv').
      all: try (exfalso; eapply no_decimals; eassumption).
      all: try (exfalso; destruct (rule_inv tokenize tmatch gs d _ _ _ _ _ Hv') as (k' & a' & vs'' & -> & W2 & _); eapply no_decimals; eassumption).
      all: try (exfalso; destruct (word_inv tokenize tmatch gs d _ _ _ _ _ Hv') as (k' & vs'' & _ & _ & Hv'');
                destruct (rule_inv tokenize tmatch gs d _ _ _ _ _ Hv'') as (k'' & a' & vs3 & _ & W2 & _); eapply no_decimals; eassumption).
      left. apply nil_inv in Hv' as [-> ->].
      destruct (leaf_reading tokenize tmatch gs gsE d ws Hws HB HE _ _ _ W1) as (_ & L & _). exact (level_plain _ _ L).
  Qed.

  (** after the last operation *)
  Section Last.
    Variables (k0 j n0 : nat) (o0 : operation).
    Hypothesis H0 : nth_error ws k0 = Some (opw o0).
    Hypothesis Hj : k0 < j.
    Hypothesis Hplain : plain (sl (S k0) j).
    Hypothesis Hmin : forall n, Reach "number" (S k0) j n -> n0 <= n.
    Lemma last_reach n : (forall i, i <= k0 -> Reach "number" i j n -> S n0 <= n) /\
      (forall m o, nth_error ws m = Some (opw o) -> m < j -> Reach "number" (S m) j n -> n0 <= n).
    Proof using Hws Hpoint Hother HB HE Hpos Hne H0 Hj Hplain Hmin.
      induction n as [n IH] using (well_founded_induction Wf_nat.lt_wf).
      assert (A : forall i, i <= k0 -> Reach "number" i j n -> S n0 <= n).
      { intros i Hi H. apply number_reach in H as [H|(k & o & n' & A & B & C & ->)].
        - exfalso. apply (H o0). apply (sl_in ws i j k0); [exact H0|lia].
        - apply le_n_S. exact (proj2 (IH n' ltac:(lia)) k o A ltac:(lia) C). }
      split; [exact A|]. intros m o Hm Hmj H. destruct (lt_eq_lt_dec m k0) as [[L| ->]|L].
      - specialize (A (S m) L H). lia.
      - apply Hmin. exact H.
      - exfalso. apply (Hplain o). apply (sl_in ws (S k0) j m); [exact Hm|lia].
    Qed.
  End Last.

  Lemma numeral_least u n pre post : english u n -> ws = pre ++ u ++ post ->
    ~ ~ exists v k, Least "number" (length pre) (length pre + length u) v k /\ (forall n', Reach "number" (length pre) (length pre + length u) n' -> k <= n') /\
          value v = n /\ (small n -> modest v).
  Proof using Hws Hpoint Hother HB HE HEB Hop Hpos Hne.
    intros Hu E C. destruct (chain_readable tokenize tmatch gs gsE d ws Hws HE HEB Hop u n [] (ch_one _ _ Hu) pre post E) as (e & He).
    apply (least_exists _ _ _ _ _ HN Hpos Hne _ _ _ _ number_counts He). intros (v & k & V & M). apply C. exists v, k. split; [exact V|]. split; [exact M|].
    destruct (sum_reading tokenize tmatch gs gsE d ws Hws Hpoint Hother HB HE _ _ _ (proj1 (least_worth _ _ _ _) _ _ _ _ _ V)) as (_ & u' & l & Es & Hb).
    rewrite (sl_here ws pre u post E) in Es. destruct (read_plain _ _ _ Hb) as [P1 P2].
    assert (Pu : plain u) by (apply english_level in Hu as (Hu & _); exact (level_plain _ _ Hu)).
    destruct (flat_unique [] u u' l) as [<- <-]; auto. { unfold flat at 1. cbn [flat_map]. rewrite app_nil_r. exact Es. }
    destruct (read_meant _ _ _ Hb n [] Hu ltac:(constructor)) as (b & B1 & B2 & B3).
    assert (b = Number n) as ->.
    { clear - B1. unfold meant in B1. remember [] as l eqn:E. destruct B1 as [c z H|c l o b r x y _ _]; [exact H|destruct l; discriminate E]. }
    split; [exact B2|exact B3].
  Qed.

  Lemma left_least l : forall rest u n pre post, english u n -> Forall2 spelled l rest -> ws = pre ++ flat u l ++ post ->
    ~ ~ exists v k, Least "number" (length pre) (length pre + length (flat u l)) v k /\
          (forall n', Reach "number" (length pre) (length pre + length (flat u l)) n' -> k <= n') /\
          value v = value (from_left n rest) /\ (modest (from_left n rest) -> modest v).
  Proof using Hws Hpoint Hother HB HE HEB Hop Hpos Hne.
    induction l as [|[o u'] l IH] using rev_ind; intros rest u n pre post Hu Hr E C.
    - revert E. inversion Hr; subst. intros E. replace (flat u []) with u in * by (unfold flat; cbn [flat_map]; rewrite app_nil_r; reflexivity).
      exact (numeral_least u n pre post Hu E C).
    - apply Forall2_app_inv_l in Hr as (r1 & r2 & R1 & R2 & ->). revert E. inversion R2 as [|? [o' m] ? r3 [Eo Hm] R3]; subst. inversion R3; subst. cbn [fst snd] in *. subst o'. clear R2 R3. intros E.
      rewrite flat_snoc in *. rewrite <- app_assoc in E. cbn [app] in E.
      apply (IH r1 u n pre (opw o :: u' ++ post) Hu R1 E). intros (v1 & k1 & V1 & _ & E1 & M1).
      assert (E2 : ws = (pre ++ flat u l ++ [opw o]) ++ u' ++ post) by (rewrite <- !app_assoc; exact E).
      apply (numeral_least u' m _ post Hm E2). intros (v2 & k2 & V2 & Min2 & E3 & M2). apply C. clear C IH.
      assert (E4 : ws = (pre ++ flat u l) ++ opw o :: u' ++ post) by (rewrite <- app_assoc; exact E).
      pose proof (word_at tokenize tmatch d ws sum_words Hws (opw o) _ _ ltac:(apply in_app_iff; right; apply (in_map fst _ _ (opw_in o))) E4) as P.
      assert (P0 : nth_error ws (length (pre ++ flat u l)) = Some (opw o)) by (rewrite E4, nth_error_app2, Nat.sub_diag by lia; reflexivity).
      pose proof (sl_here ws _ u' post E2) as Es.
      replace (length (pre ++ flat u l ++ [opw o])) with (S (length pre + length (flat u l))) in * by (rewrite !app_length; cbn [length]; lia).
      rewrite app_length in P, P0.
      replace (length pre + length (flat u l ++ opw o :: u')) with (S (length pre + length (flat u l)) + length u') by (rewrite app_length; cbn [length]; lia).
      set (i := length pre) in *. set (k0 := i + length (flat u l)) in *. set (j := S k0 + length u') in *.
      assert (Pl : plain (sl (S k0) j)) by (rewrite Es; apply english_level in Hm as (Hm & _); exact (level_plain _ _ Hm)).
      assert (Hi : i <= k0) by (unfold k0; lia). assert (Hj : k0 < j) by (unfold j; lia).
      pose proof (fun n => last_reach k0 j k2 o P0 Hj Pl Min2 n) as LR.
      exists (Binary o v1 v2), (S k2). split; [|split; [|split]].
      + eapply (le_body _ _ _ _ "number" _ _ (operator_body (opw o) o) _ [Some v1; None; Some v2]); [apply Hop, opw_in|reflexivity| | |].
        * change k2 with (of_last [word (opw o); nonterm "number"] k1 (of_last [nonterm "number"] 1 (of_last (@nil term) k2 0))).
          eapply (ls_rule _ _ _ _ (nonterm "number")); [reflexivity|exact V1|]. eapply ls_text; [split; [reflexivity|exact P]|].
          eapply (ls_rule _ _ _ _ (nonterm "number")); [reflexivity|exact V2|constructor].
        * apply (fw_binary _ o); [apply (aw_part _ 0)|apply (aw_part _ 2)]; reflexivity.
        * intros n' H'. destruct (operator_reach _ _ _ _ _ (opw_in o) H') as (q & m' & A & _ & R). pose proof (reach_span _ _ _ R). exact (proj2 (LR n') q o A ltac:(lia) R).
      + intros n' H'. exact (proj1 (LR n') i Hi H').
      + rewrite from_left_snoc. destruct o; cbn [value]; rewrite E1, E3; reflexivity.
      + rewrite from_left_snoc. cbn [modest]. intros (A1 & A2 & A3 & A4). split; [auto|]. split; [auto|]. rewrite E1, E3. cbn [value] in A4. split; [|exact A4].
        destruct o; cbn [value] in *; rewrite E1, E3; exact A3.
  Qed.
End Left.

Lemma modest_dec x : {modest x} + {~ modest x}.
Proof.
  assert (S : forall z, {small z} + {~ small z}).
  { intros z. unfold small. destruct (Z_lt_dec (Z.abs z) (10 ^ 10)); [left|right]; assumption. }
  induction x as [z|o x IHx y IHy|x IHx]; cbn [modest].
  - apply S.
  - destruct IHx as [A|A]; [|right; tauto]. destruct IHy as [B|B]; [|right; tauto]. destruct (S (value (Binary o x y))) as [C|C]; [|right; tauto].
    assert (D : {(o = Times -> (value x * value y = 0 -> 0 <= value x /\ 0 <= value y)%Z)} + {~ (o = Times -> (value x * value y = 0 -> 0 <= value x /\ 0 <= value y)%Z)}).
    { destruct o; [left; intros; discriminate|left; intros; discriminate|].
      destruct (Z.eq_dec (value x * value y) 0) as [E|E]; [|left; intros; contradiction].
      destruct (Z_le_dec 0 (value x)) as [F|F]; [|right; intros K; destruct (K eq_refl E); contradiction].
      destruct (Z_le_dec 0 (value y)) as [G|G]; [|right; intros K; destruct (K eq_refl E); contradiction]. left. auto. }
    destruct D as [D|D]; [left; tauto|right; tauto].
  - destruct IHx as [A|A]; [|right; tauto]. destruct (Z.eq_dec (value x) 0) as [E|E]; [right; tauto|left; tauto].
Qed.
