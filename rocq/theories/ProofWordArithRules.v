(** What the rules of math.en.grammar and number.en.grammar read in a text of numerals and operations. *)
From Coq Require Import Permutation.
From Verif Require Import Base ModelTypes ModelText ModelEarley ModelTrees ModelApi ModelReader ModelGrammar ModelMatch ModelLocal
     SpecTypes SpecGrammar SpecTree SpecNotation SpecRefine SpecConstruct SpecLocal SpecFuncs SpecMath SpecMeaning ModelShipped SpecShipped SpecNames
     ProofShipped ProofNames SpecArith SpecWorth ProofWorth ProofReadings SpecEnglish ProofEnglish ProofEnglishRules ProofEnglishCalls SpecWordArith ProofWordArith.
Local Open Scope list_scope.

Definition operator_body (w : string) (o : operation) : rulebody := mkRb [nonterm "number"; word w; nonterm "number"] (call2 o (part 1) (part 3)).
Definition is_other (t : term) : bool :=
  match t_type t, t_meta t with TTerminal, MNil => existsb (String.eqb (t_value t)) other_texts | _, _ => false end.
Inductive math_class : string -> rulebody -> Prop :=
| mc_equ b : math_class "equ" b
| mc_other x b : x = "number"%string \/ x = "special_number"%string -> existsb is_other (rb_terms b) = true -> math_class x b
| mc_operator w o : In (w, o) operator_words -> math_class "number" (operator_body w o)
| mc_numeric f : math_class "number" (mkRb [nonterm "numeric"] f)
| mc_special : math_class "number" (mkRb [nonterm "special_number"] (call1 (part 1)))
| mc_times : math_class "number" (mkRb [nonterm "number"; nonterm "special_number"] (call2 Times (part 1) (part 2))).

Lemma math_classes e half cent : all (fun it => it_frame it = false /\ all (math_class (it_name it)) (it_bodies it)) (items_of e half cent math_math_en).
Proof.
  vm_compute. repeat split;
    first [apply mc_equ|apply mc_numeric|exact mc_special|exact mc_times
          |apply (mc_operator "plus" Plus); vm_compute; tauto|apply (mc_operator "minus" Minus); vm_compute; tauto|apply (mc_operator "times" Times); vm_compute; tauto
          |apply mc_other; [tauto|vm_compute; reflexivity]].
Qed.
Lemma math_operators e half cent w o : In (w, o) operator_words ->
  exists it, In it (items_of e half cent math_math_en) /\ it_frame it = false /\ it_name it = "number"%string /\ In (operator_body w o) (it_bodies it).
Proof.
  assert (K : forall k w o, option_map (fun it => (it_frame it, it_name it, hd_error (it_bodies it))) (nth_error (items_of e half cent math_math_en) k)
                = Some (false, "number"%string, Some (operator_body w o)) ->
              exists it, In it (items_of e half cent math_math_en) /\ it_frame it = false /\ it_name it = "number"%string /\ In (operator_body w o) (it_bodies it)).
  { intros k w' o' H. destruct (nth_error _ k) as [it|] eqn:E; [|discriminate H]. cbn [option_map] in H. injection H as H1 H2 H3.
    exists it. split; [eapply nth_error_In; exact E|]. split; [exact H1|]. split; [exact H2|]. destruct (it_bodies it); [discriminate H3|]. injection H3 as ->. left. reflexivity. }
  intros [[= <- <-]|[[= <- <-]|[[= <- <-]|[]]]]; [apply (K 3)|apply (K 4)|apply (K 6)]; vm_compute; reflexivity.
Qed.

Definition number_rules : list string := filter (fun x => negb (String.eqb x "number")) english_names.
Lemma rules_closed x b : In x number_rules -> In b (alternatives x) -> Forall (fun t => t_type t = TNonterminal -> In (t_value t) number_rules) (rb_terms b).
Proof.
  assert (K : forallb (fun x => forallb (fun b => forallb (fun t => match t_type t with TNonterminal => existsb (String.eqb (t_value t)) number_rules | _ => true end) (rb_terms b))
                (alternatives x)) number_rules = true) by (vm_compute; reflexivity).
  intros Hx Hb. rewrite forallb_forall in K. specialize (K x Hx). rewrite forallb_forall in K. specialize (K b Hb). rewrite forallb_forall in K.
  apply Forall_forall. intros t Ht Et. specialize (K t Ht). rewrite Et in K. apply existsb_exists in K as (y & Hy & E). apply String.eqb_eq in E. subst y. exact Hy.
Qed.
Lemma class_names x b : math_class x b -> ~ In x number_rules /\ x <> "numeric"%string.
Proof.
  assert (K : forall y, existsb (String.eqb y) number_rules = false -> ~ In y number_rules) by (intros y; apply not_mem).
  intros H. destruct H as [b|x b [->| ->] _|w o _|f| |]; (split; [apply K; vm_compute; reflexivity|discriminate]).
Qed.
Lemma english_has x b : In b (alternatives x) -> In x english_names.
Proof.
  unfold alternatives, written. intros H. apply in_flat_map in H as (it & Hit & H). unfold english_items in Hit. apply in_map_iff in Hit as ((n & bs) & <- & Hn).
  cbn [it_frame it_name it_bodies fst snd] in H. cbn [Bool.eqb andb] in H. destruct (String.eqb n x) eqn:E; [|destruct H]. apply String.eqb_eq in E. subst n.
  apply (in_map fst) in Hn. exact Hn.
Qed.

Section Read.
  Variable tokenize : string -> res (list token).
  Variable tmatch : term -> option token -> bool.
  Variables gs gsE : list grammar_rules.
  Variable d : document.
  Variable ws : list string.
  Hypothesis Hws : in_words tokenize tmatch sum_words d ws.
  Hypothesis Hpoint : ~ In "point"%string ws.
  Hypothesis Hother : forall v i j, In v other_texts -> ~ phrase tokenize tmatch (content d) v i j.
  (** the rules of both files, and those of number.en.grammar *)
  Hypothesis HB : forall x b, has_body gs x b -> math_class x b \/ In b (alternatives x).
  Hypothesis HE : forall x b, has_body gsE x b <-> In b (alternatives x).
  Hypothesis HEB : forall x b, has_body gsE x b -> has_body gs x b.
  Hypothesis Hop : forall w o, In (w, o) operator_words -> has_body gs "number" (operator_body w o).
  Notation W := (worth tokenize tmatch gs (content d)).
  Notation sl := (sl ws).

  Lemma words_numbers : in_words tokenize tmatch number_words d ws.
  Proof using Hws. split; [exact (proj1 Hws)|]. intros w Hw. apply (proj2 Hws). apply in_app_iff. left. exact Hw. Qed.
  Lemma down x i j e : In x number_rules -> W x i j e -> worth tokenize tmatch gsE (content d) x i j e.
  Proof using HB HE.
    intros Hx Hw. refine (proj1 (transfer tokenize tmatch gs gsE (content d) (fun x => In x number_rules) _) x i j e Hw Hx).
    intros y b Hy Hb. destruct (HB _ _ Hb) as [C|C]; [exfalso; apply class_names in C; tauto|]. split; [apply HE; exact C|exact (rules_closed y b Hy C)].
  Qed.
  Lemma other_none b i j vs : existsb is_other (rb_terms b) = true -> worths tokenize tmatch gs (content d) (rb_terms b) i j vs -> False.
  Proof using Hother.
    intros H Hv. induction Hv as [i|t ts i j k vs [Et Ht] _ IH|t ts i j k e vs Et _ _ IH]; cbn [existsb] in H; [discriminate H| |];
      apply orb_true_iff in H as [H|H]; try exact (IH H); unfold is_other in H; rewrite Et in H; [|discriminate H].
    destruct t as [v ty m]. cbn [t_type t_meta t_value] in *. destruct m; try discriminate H. apply existsb_exists in H as (v' & Hv' & E). apply String.eqb_eq in E. subst v'.
    exact (Hother v i j Hv' Ht).
  Qed.
  Lemma no_special i j e : ~ W "special_number" i j e.
  Proof using HB Hother.
    intros H. inversion H as [? ? ? b f vs ? Hb Hf Hv Hw]; subst. apply HB in Hb as [C|C]; [|apply english_has in C; revert C; apply not_mem; vm_compute; reflexivity].
    inversion C as [|? ? _ E| | | |]; subst. exact (other_none _ _ _ _ E Hv).
  Qed.
  Lemma no_numeric b : ~ has_body gs "numeric" b.
  Proof using HB.
    intros H. apply HB in H as [C|C]; [apply class_names in C; tauto|]. apply english_has in C. revert C. apply not_mem. vm_compute. reflexivity.
  Qed.
  Lemma leaf_reading i j e : W "en_number" i j e -> i <= j /\ read_leaf (sl i j) e.
  Proof using Hws HB HE.
    intros H. apply down in H; [|vm_compute; tauto].
    destruct (worth_inv tokenize tmatch gsE d (fun x b => proj1 (HE x b)) _ _ _ _ H) as (b & f & vs & [<-|[]] & Hf & Hv & Hw). cbn [rb_terms rb_f] in *.
    destruct (rule_inv tokenize tmatch gsE d _ _ _ _ _ Hv) as (k & a & vs' & -> & W1 & Hn). apply nil_inv in Hn as [-> ->].
    apply (f_call1 _ _ _ _ Hf), (a_part _ 0) in Hw. injection Hw as ->.
    destruct (reading12 tokenize tmatch gsE d ws words_numbers (fun x b => proj1 (HE x b)) _ _ _ W1) as (H1 & H2 & H3). split; [exact H1|]. split; assumption.
  Qed.
  Lemma no_decimals i j e : ~ W "en_decimal" i j e.
  Proof using Hws HB HE Hpoint.
    intros H. apply down in H; [|vm_compute; tauto]. exact (no_decimal tokenize tmatch gsE d ws words_numbers (fun x b => proj1 (HE x b)) Hpoint _ _ _ H).
  Qed.
  Lemma sum_reading e : forall i j, W "number" i j e -> i <= j /\ exists u l, sl i j = flat u l /\ bracketing read_leaf u l e.
  Proof using Hws HB HE Hpoint Hother.
    induction e as [z|o x IHx y IHy|x IHx]; intros i j H; inversion H as [? ? ? b f vs ? Hb Hf Hv Hw]; subst; apply HB in Hb as [C|C].
    1, 3, 5: inversion C as [|? ? _ E|w o' Ho|f'| |]; subst; cbn [rb_terms rb_f] in *.
    all: try (exfalso; exact (other_none _ _ _ _ E Hv)).
    all: try (destruct (rule_inv tokenize tmatch gs d _ _ _ _ _ Hv) as (k & a & vs' & -> & W1 & Hv')).
    all: try (exfalso; exact (no_special _ _ _ W1)).
    all: try (exfalso; inversion W1; subst; eapply no_numeric; eassumption).
    all: try (exfalso; destruct (rule_inv tokenize tmatch gs d _ _ _ _ _ Hv') as (k' & a' & vs'' & -> & W2 & _); exact (no_special _ _ _ W2)).
    all: try (destruct C as [<-|[<-|[<-|[<-|[]]]]]; cbn [rb_terms rb_f] in *; destruct (rule_inv tokenize tmatch gs d _ _ _ _ _ Hv) as (k & a & vs' & -> & W1 & Hv')).
    all: try (exfalso; exact (no_decimals _ _ _ W1)).
    all: try (exfalso; destruct (rule_inv tokenize tmatch gs d _ _ _ _ _ Hv') as (k' & a' & vs'' & -> & W2 & _); exact (no_decimals _ _ _ W2)).
    all: try (exfalso; destruct (word_inv tokenize tmatch gs d _ _ _ _ _ Hv') as (k' & vs'' & _ & _ & Hv'');
              destruct (rule_inv tokenize tmatch gs d _ _ _ _ _ Hv'') as (k'' & a' & vs3 & _ & W2 & _); exact (no_decimals _ _ _ W2)).
    all: try (apply nil_inv in Hv' as [-> ->]; apply (f_call1 _ _ _ _ Hf), (a_part _ 0) in Hw; injection Hw as ->;
              destruct (leaf_reading _ _ _ W1) as [L1 L2]; split; [exact L1|]; exists (sl i k), []; split; [unfold flat; rewrite app_nil_r; reflexivity|constructor; exact L2]).
    all: destruct (word_inv tokenize tmatch gs d _ _ _ _ _ Hv') as (k' & vs'' & -> & P & Hv'');
      apply (phrase_word tokenize tmatch d ws sum_words Hws) in P as [-> P]; [|apply in_app_iff; right; apply (in_map fst) in Ho; exact Ho];
      destruct (rule_inv tokenize tmatch gs d _ _ _ _ _ Hv'') as (k'' & a' & vs3 & -> & W2 & Hn); apply nil_inv in Hn as [-> ->];
      destruct (f_call2 _ _ _ _ _ _ Hf Hw) as (x1 & y1 & E & A1 & A2); try discriminate E.
    injection E as -> -> ->. apply (a_part _ 0) in A1. apply (a_part _ 2) in A2. injection A1 as ->. injection A2 as ->.
    destruct (IHx _ _ W1) as (L1 & u & l & E1 & B1). destruct (IHy _ _ W2) as (L2 & u' & l' & E2 & B2). apply opw_of in Ho. subst w.
    split; [lia|]. exists u, (l ++ (o', u') :: l'). split; [|apply br_split; assumption].
    rewrite (sl_app ws i k k''), (sl_app ws k (S k) k'') by lia. rewrite P, E1, E2. cbn [app]. apply flat_app.
  Qed.

  Lemma chain_readable ws' n rest : chain ws' n rest -> forall pre post, ws = pre ++ ws' ++ post -> exists e, W "number" (length pre) (length pre + length ws') e.
  Proof using Hws HE HEB Hop.
    assert (K : forall u m, english u m -> forall pre post, ws = pre ++ u ++ post -> exists e, W "number" (length pre) (length pre + length u) e).
    { intros u m Hu pre post E. destruct (english_level _ _ Hu) as (Hl & _).
      destruct (readable12 tokenize tmatch gsE d ws words_numbers (fun x b => proj2 (HE x b)) _ _ Hl _ _ E) as (e & He). exists e.
      apply (worth_more tokenize tmatch gsE gs (content d) HEB).
      eapply (ProofEnglishRules.read_up tokenize tmatch gsE d (fun x b => proj2 (HE x b))); [left; reflexivity|reflexivity|].
      eapply (ProofEnglishRules.read_up tokenize tmatch gsE d (fun x b => proj2 (HE x b))); [left; reflexivity|reflexivity|exact He]. }
    induction 1 as [u m H|u m w o ws' m' rest H Hw _ IH]; intros pre post E; [exact (K u m H pre post E)|].
    rewrite <- app_assoc in E. cbn [app] in E. destruct (K u m H pre _ E) as (e1 & W1).
    assert (E2 : ws = (pre ++ u) ++ w :: ws' ++ post) by (rewrite <- app_assoc; exact E).
    pose proof (word_at tokenize tmatch d ws sum_words Hws w _ _ ltac:(apply in_app_iff; right; apply (in_map fst) in Hw; exact Hw) E2) as P.
    destruct (IH (pre ++ u ++ [w]) post) as (e2 & W2); [rewrite <- !app_assoc; exact E|].
    rewrite !app_length in *. cbn [length] in *. replace (length pre + (length u + 1)) with (S (length pre + length u)) in W2 by lia.
    replace (length pre + (length u + S (length ws'))) with (S (length pre + length u) + length ws') by lia.
    exists (Binary o e1 e2). eapply (wo_body _ _ _ _ "number" _ _ (operator_body w o) _ [Some e1; None; Some e2]); [apply Hop; exact Hw|reflexivity| |].
    - eapply (ws_rule _ _ _ _ (nonterm "number")); [reflexivity|exact W1|]. eapply ws_text; [split; [reflexivity|exact P]|].
      eapply (ws_rule _ _ _ _ (nonterm "number")); [reflexivity|exact W2|constructor].
    - apply (fw_binary _ o); [apply (aw_part _ 0)|apply (aw_part _ 2)]; reflexivity.
  Qed.

  Definition sum_counting : list string := "special_number"%string :: "numeric"%string :: counting.
  Lemma sum_calculates : calculates tokenize tmatch gs (content d) (fun x => In x sum_counting).
  Proof using Hws HB HE Hpoint Hother.
    pose proof (english_calculates tokenize tmatch gsE d ws words_numbers Hpoint (fun x b => proj1 (HE x b))) as K.
    intros x b Hx Hb. destruct (HB _ _ Hb) as [C|C].
    - destruct C as [b|x b _ E|w o Ho|f| |].
      + exfalso. revert Hx. apply not_mem. vm_compute. reflexivity.
      + left. apply existsb_exists in E as (t & Ht & E). exists t. split; [exact Ht|]. left. unfold is_other in E. destruct t as [v ty m]. cbn [t_type t_meta t_value] in *.
        destruct ty; try discriminate E. destruct m; try discriminate E. apply existsb_exists in E as (v' & Hv & E). apply String.eqb_eq in E. subst v'.
        split; [reflexivity|]. intros i j [_ H]. exact (Hother v i j Hv H).
      + right. split; [repeat (constructor; [first [left; reflexivity|right; split; [reflexivity|vm_compute; tauto]]|]); constructor|]. eexists. split; [reflexivity|].
        apply (fc_binary _ o); [apply (ac_part _ 0 (nonterm "number"))|apply (ac_part _ 2 (nonterm "number"))]; reflexivity.
      + left. exists (nonterm "numeric"). split; [left; reflexivity|]. right. split; [reflexivity|]. split; [right; left; reflexivity|]. intros b' H. exact (no_numeric _ H).
      + right. split; [constructor; [right; split; [reflexivity|left; reflexivity]|constructor]|]. eexists. split; [reflexivity|].
        constructor. apply (ac_part _ 0 (nonterm "special_number")); reflexivity.
      + right. split; [repeat (constructor; [right; split; [reflexivity|vm_compute; tauto]|]); constructor|]. eexists. split; [reflexivity|].
        apply (fc_binary _ Times); [apply (ac_part _ 0 (nonterm "number"))|apply (ac_part _ 1 (nonterm "special_number"))]; reflexivity.
    - pose proof (english_has _ _ C) as Hn.
      assert (Hx' : In x counting).
      { destruct Hx as [<-|[<-|Hx]]; [exfalso; revert Hn; apply not_mem; vm_compute; reflexivity|exfalso; revert Hn; apply not_mem; vm_compute; reflexivity|exact Hx]. }
      destruct (K x b Hx' (proj2 (HE x b) C)) as [(t & Ht & [I|(I1 & I2 & I3)])|(F & Hf)].
      + left. exists t. split; [exact Ht|]. left. exact I.
      + exfalso. destruct (alternatives (t_value t)) as [|b' bs] eqn:E.
        * clear - I2 E. assert (A : forallb (fun x => negb (match alternatives x with [] => true | _ => false end)) counting = true) by (vm_compute; reflexivity).
          rewrite forallb_forall in A. specialize (A _ I2). rewrite E in A. discriminate A.
        * apply (I3 b'). apply HE. rewrite E. left. reflexivity.
      + right. split; [|exact Hf]. eapply Forall_impl; [|exact F]. intros t [H|[H1 H2]]; [left; exact H|right; split; [exact H1|right; right; exact H2]].
  Qed.
End Read.
