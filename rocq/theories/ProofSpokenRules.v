(** What the rules of builtin.grammar read as numbers: the spoken amounts. *)
From Coq Require Import Permutation.
From Verif Require Import Base ModelTypes ModelText ModelEarley ModelTrees ModelApi ModelReader ModelLocal
     SpecTypes SpecGrammar SpecTree SpecNotation SpecRefine SpecLocal SpecFuncs SpecMath SpecMeaning
     SpecArith SpecWorth ProofWorth ProofReadings SpecEnglish SpecChinese SpecSpoken ProofSpoken.
Local Open Scope list_scope.

Definition b_alternatives (x : string) : list rulebody := written builtin_items false x.

Lemma worth_le tokenize tmatch gs toks :
  (forall x i j e, worth tokenize tmatch gs toks x i j e -> i <= j) /\ (forall ts i j vs, worths tokenize tmatch gs toks ts i j vs -> i <= j).
Proof.
  apply worth_mutind.
  - intros x i j b f vs e _ _ _ H _. exact H.
  - intros i. lia.
  - intros t ts i j k vs (_ & ks & _ & H & _) _ IH. lia.
  - intros t ts i j k e vs _ _ H _ IH. lia.
Qed.
Lemma vast_app a b : not_vast (a ++ b) -> not_vast a /\ not_vast b.
Proof. unfold not_vast. intros H. apply Forall_app. exact H. Qed.

Section Read.
  Variable tokenize : string -> res (list token).
  Variable tmatch : term -> option token -> bool.
  Variable gs : list grammar_rules.
  Variable d : document.
  Variable ws : list string.
  Hypothesis Hws : in_words tokenize tmatch b_words d ws.
  Notation W := (worth tokenize tmatch gs (content d)).
  Notation Ws := (worths tokenize tmatch gs (content d)).
  Notation sl := (ProofReadings.sl ws).
  Notation sl_app := (ProofReadings.sl_app ws).
  Notation single := (ProofReadings.single tokenize tmatch gs d ws).
  Notation rule_inv := (ProofReadings.rule_inv tokenize tmatch gs d).
  Notation word_inv := (ProofReadings.word_inv tokenize tmatch gs d).
  Notation nil_inv := (ProofReadings.nil_inv tokenize tmatch gs d).
  Notation phrase_word := (ProofReadings.phrase_word tokenize tmatch d ws b_words Hws).
  Hypothesis HB : forall x b, has_body gs x b -> In b (b_alternatives x).
  Lemma b_worth_inv x i j e : W x i j e -> exists b f vs, In b (b_alternatives x) /\ rb_f b = Some f /\ Ws (rb_terms b) i j vs /\ f_worth vs f e.
  Proof using HB. exact (ProofReadings.worth_inv tokenize tmatch gs d builtin_items HB x i j e). Qed.
  (** Rule [x] reads the phrases [P], with their values. *)
  Definition reads (x : string) (P : list string -> Z -> Prop) : Prop := forall i j e, W x i j e ->
    i < j /\ P (sl i j) (value e) /\ (0 <= value e)%Z /\ ((value e < 10 ^ 10)%Z -> not_vast (sl i j) -> modest e).
  Definition entry (l : list (string * Z)) (ws : list string) (z : Z) : Prop := exists w, ws = [w] /\ In (w, z) l.

  Lemma in_words_b l w : forallb (fun w => existsb (String.eqb w) b_words) l = true -> In w l -> In w b_words.
  Proof using.
    intros H Hw. rewrite forallb_forall in H. apply H in Hw. apply existsb_exists in Hw as (w' & Hw & Ew). apply String.eqb_eq in Ew. subst w'. exact Hw.
  Qed.
  Lemma entry_reads x l : b_alternatives x = map number_body l -> forallb (fun w => existsb (String.eqb w) b_words) (map fst l) = true ->
    forallb (fun p => Z.leb 0 (snd p) && (Z.ltb (snd p) (10 ^ 10) || known vast_magnitudes (fst p))) l = true -> reads x (entry l).
  Proof using HB Hws.
    intros E H B i j e He.
    destruct (single_table tokenize tmatch gs d ws b_words builtin_items Hws HB x l E (fun w Hw => in_words_b _ w H Hw) i j e He) as (w & z & Hin & -> & -> & ->).
    split; [lia|]. split; [exists w; auto|]. rewrite forallb_forall in B. pose proof (B _ Hin) as Bz. cbn [fst snd] in Bz. apply Bool.andb_true_iff in Bz as [B1 B2].
    apply Z.leb_le in B1. cbn [value]. split; [exact B1|]. intros Hz _. cbn [modest]. unfold small. lia.
  Qed.
  Lemma up_reads (x : string) y P i j e f : rb_f (up y) = Some f -> reads y P -> forall vs, Ws (rb_terms (up y)) i j vs -> f_worth vs f e ->
    i < j /\ P (sl i j) (value e) /\ (0 <= value e)%Z /\ ((value e < 10 ^ 10)%Z -> not_vast (sl i j) -> modest e).
  Proof using.
    intros Hf R vs Hv Hw. destruct (rule_inv _ _ _ _ _ Hv) as (k & a & vs' & -> & W1 & Hv'). apply nil_inv in Hv' as [-> ->].
    apply (f_call1 _ _ _ _ Hf), (a_part _ 0) in Hw. injection Hw as ->. exact (R _ _ _ W1).
  Qed.
  Lemma two_inv o x y f i j vs e : rb_f (b_two o x y) = Some f -> Ws (rb_terms (b_two o x y)) i j vs -> f_worth vs f e ->
    exists k a b, e = Binary o a b /\ W x i k a /\ W y k j b.
  Proof using.
    intros Hf Hv Hw. destruct (rule_inv _ _ _ _ _ Hv) as (k & a & vs' & -> & W1 & Hv'). destruct (rule_inv _ _ _ _ _ Hv') as (k' & a' & vs'' & -> & W2 & Hn). apply nil_inv in Hn as [-> ->].
    destruct (f_call2 _ _ _ _ _ _ Hf Hw) as (x1 & y1 & -> & A1 & A2). apply (a_part _ 0) in A1. apply (a_part _ 1) in A2. injection A1 as ->. injection A2 as ->. eauto 6.
  Qed.
  Lemma joined_inv o x w y f i j vs e : In w b_words -> rb_f (b_joined o x w y) = Some f -> Ws (rb_terms (b_joined o x w y)) i j vs -> f_worth vs f e ->
    exists k a b, e = Binary o a b /\ W x i k a /\ sl k (S k) = [w] /\ W y (S k) j b.
  Proof using Hws.
    intros Hin Hf Hv Hw. destruct (rule_inv _ _ _ _ _ Hv) as (k & a & vs' & -> & W1 & Hv'). destruct (word_inv _ _ _ _ _ Hv') as (k' & vs'' & -> & P & Hv'').
    destruct (rule_inv _ _ _ _ _ Hv'') as (k3 & a3 & vs3 & -> & W2 & Hn). apply nil_inv in Hn as [-> ->]. apply phrase_word in P as [-> P]; [|exact Hin].
    destruct (f_call2 _ _ _ _ _ _ Hf Hw) as (x1 & y1 & -> & A1 & A2). apply (a_part _ 0) in A1. apply (a_part _ 2) in A2. injection A1 as ->. injection A2 as ->. eauto 8.
  Qed.
  Lemma units_read : reads "cardinal_unit" (entry b_units). Proof using HB Hws. apply entry_reads; vm_compute; reflexivity. Qed.
  Lemma teens_read : reads "cardinal_ten" (entry teens). Proof using HB Hws. apply entry_reads; vm_compute; reflexivity. Qed.
  Lemma tens_read : reads "cardinal_tens" (entry tens). Proof using HB Hws. apply entry_reads; vm_compute; reflexivity. Qed.
  (** magnitudes: positive, and small if not vast *)
  Lemma magnitude_read i j e : W "magnitude" i j e -> exists m s, In (m, s) magnitudes /\ e = Number s /\ j = S i /\ sl i j = [m] /\ (1 <= s)%Z /\ (not_vast [m] -> (s < 10 ^ 10)%Z).
  Proof using HB Hws.
    intros He.
    destruct (single_table tokenize tmatch gs d ws b_words builtin_items Hws HB "magnitude" magnitudes ltac:(vm_compute; reflexivity)
                (fun w Hw => in_words_b (map fst magnitudes) w ltac:(vm_compute; reflexivity) Hw) i j e He) as (w & z & Hin & -> & -> & E).
    exists w, z. split; [exact Hin|]. split; [reflexivity|]. split; [reflexivity|]. split; [exact E|].
    assert (B : forallb (fun p => Z.leb 1 (snd p) && (Z.ltb (snd p) (10 ^ 10) || known vast_magnitudes (fst p))) magnitudes = true) by (vm_compute; reflexivity).
    rewrite forallb_forall in B. apply B in Hin. cbn [fst snd] in Hin. apply Bool.andb_true_iff in Hin as [B1 B2]. apply Z.leb_le in B1. split; [exact B1|].
    intros N. apply Bool.orb_true_iff in B2 as [B2|B2]; [apply Z.ltb_lt in B2; exact B2|]. apply known_in in B2. inversion N; subst. contradiction.
  Qed.
  Lemma sum_modest a b : (0 <= value a)%Z -> (0 <= value b)%Z -> (value (Binary Plus a b) < 10 ^ 10)%Z -> ((value a < 10 ^ 10)%Z -> modest a) -> ((value b < 10 ^ 10)%Z -> modest b) -> modest (Binary Plus a b).
  Proof using.
    cbn [value modest]. intros Ha Hb H Ma Mb. split; [apply Ma; lia|]. split; [apply Mb; lia|]. split; [unfold small; lia|]. discriminate.
  Qed.
  Lemma product_modest a s : (0 <= value a)%Z -> (1 <= s < 10 ^ 10)%Z -> (value (Binary Times a (Number s)) < 10 ^ 10)%Z -> ((value a < 10 ^ 10)%Z -> modest a) -> modest (Binary Times a (Number s)).
  Proof using.
    cbn [value modest]. intros Ha Hs H Ma. assert (K : (value a * 1 <= value a * s)%Z) by (apply Z.mul_le_mono_nonneg_l; lia).
    split; [apply Ma; lia|]. split; [unfold small; lia|]. split; [unfold small; lia|]. intros _ _. lia.
  Qed.

  Lemma count_both i k k' j a b l : W "cardinal_tens" i k a -> k <= k' -> sl k k' = l -> In l [[]; ["and"]; ["-"]; [","]]%string -> W "cardinal_unit" k' j b ->
    i < j /\ count (sl i j) (value (Binary Plus a b)) /\ (0 <= value (Binary Plus a b))%Z /\ ((value (Binary Plus a b) < 10 ^ 10)%Z -> not_vast (sl i j) -> modest (Binary Plus a b)).
  Proof using HB Hws.
    intros W1 Hk El Hl W2. destruct (tens_read _ _ _ W1) as (I1 & (w & E1 & H1) & P1 & M1). destruct (units_read _ _ _ W2) as (I2 & (u & E2 & H2) & P2 & M2).
    split; [lia|]. rewrite (sl_app i k j), (sl_app k k' j) by lia. split; [|split].
    - rewrite El, E1, E2. cbn [value app]. apply co_both; assumption.
    - cbn [value]. lia.
    - intros Hz Hn. apply vast_app in Hn as [N1 Hn]. apply vast_app in Hn as [_ N2]. apply sum_modest; auto.
  Qed.
  Lemma sl_nil k : sl k k = [].
  Proof using. unfold ProofReadings.sl. rewrite Nat.sub_diag. reflexivity. Qed.
  Lemma count_reads : reads "base_number" count.
  Proof using HB Hws.
    assert (A : In "and"%string b_words) by (vm_compute; tauto). assert (D : In "-"%string b_words) by (vm_compute; tauto). assert (C : In ","%string b_words) by (vm_compute; tauto).
    intros i j e H. destruct (b_worth_inv _ _ _ _ H) as (b & f & vs & Hb & Hf & Hv & Hw).
    destruct Hb as [<-|[<-|[<-|[<-|[<-|[<-|[<-|[]]]]]]]].
    - destruct (up_reads "base_number" _ _ _ _ _ _ Hf units_read _ Hv Hw) as (H1 & (w & E & H2) & H3). split; [exact H1|]. split; [rewrite E; apply co_unit; exact H2|exact H3].
    - destruct (up_reads "base_number" _ _ _ _ _ _ Hf teens_read _ Hv Hw) as (H1 & (w & E & H2) & H3). split; [exact H1|]. split; [rewrite E; apply co_teen; exact H2|exact H3].
    - destruct (up_reads "base_number" _ _ _ _ _ _ Hf tens_read _ Hv Hw) as (H1 & (w & E & H2) & H3). split; [exact H1|]. split; [rewrite E; apply co_tens; exact H2|exact H3].
    - destruct (two_inv _ _ _ _ _ _ _ _ Hf Hv Hw) as (k & a & b & -> & W1 & W2). apply (count_both _ _ k _ _ _ [] W1 (le_n _) (sl_nil k)); [left; reflexivity|exact W2].
    - destruct (joined_inv _ _ _ _ _ _ _ _ _ A Hf Hv Hw) as (k & a & b & -> & W1 & E & W2). apply (count_both _ _ (S k) _ _ _ _ W1 (le_S _ _ (le_n _)) E); [right; left; reflexivity|exact W2].
    - destruct (joined_inv _ _ _ _ _ _ _ _ _ D Hf Hv Hw) as (k & a & b & -> & W1 & E & W2). apply (count_both _ _ (S k) _ _ _ _ W1 (le_S _ _ (le_n _)) E); [do 2 right; left; reflexivity|exact W2].
    - destruct (joined_inv _ _ _ _ _ _ _ _ _ C Hf Hv Hw) as (k & a & b & -> & W1 & E & W2). apply (count_both _ _ (S k) _ _ _ _ W1 (le_S _ _ (le_n _)) E); [do 3 right; left; reflexivity|exact W2].
  Qed.
  (** times a magnitude *)
  Lemma times_reads x (P Q : list string -> Z -> Prop) l i k k' j a b :
    (i < k /\ P (sl i k) (value a) /\ (0 <= value a)%Z /\ ((value a < 10 ^ 10)%Z -> not_vast (sl i k) -> modest a)) -> k <= k' -> sl k k' = l -> W "magnitude" k' j b ->
    (forall v z m s, P v z -> In (m, s) magnitudes -> Q (v ++ l ++ [m]) (z * s)%Z) -> x = Binary Times a b ->
    i < j /\ Q (sl i j) (value x) /\ (0 <= value x)%Z /\ ((value x < 10 ^ 10)%Z -> not_vast (sl i j) -> modest x).
  Proof using HB Hws.
    intros (I1 & R1 & P1 & M1) Hk El W2 HQ ->. destruct (magnitude_read _ _ _ W2) as (m & s & Hin & -> & -> & E & B1 & B2).
    split; [lia|]. rewrite (sl_app i k (S k')), (sl_app k k' (S k')) by lia. rewrite El, E. split; [|split].
    - cbn [value]. apply HQ; assumption.
    - cbn [value]. apply Z.mul_nonneg_nonneg; lia.
    - intros Hz Hn. apply vast_app in Hn as [N1 Hn]. apply vast_app in Hn as [_ N2]. specialize (B2 N2). apply product_modest; [exact P1|lia|exact Hz|auto].
  Qed.
  Lemma multiple_reads : reads "magnitude_number" multiple.
  Proof using HB Hws.
    assert (D : In "-"%string b_words) by (vm_compute; tauto).
    intros i j. revert i. induction j as [j IH] using lt_wf_ind. intros i e H. destruct (b_worth_inv _ _ _ _ H) as (b & f & vs & Hb & Hf & Hv & Hw).
    destruct Hb as [<-|[<-|[<-|[]]]].
    - destruct (two_inv _ _ _ _ _ _ _ _ Hf Hv Hw) as (k & a & b & E & W1 & W2).
      apply (times_reads e count multiple [] i k k j a b (count_reads _ _ _ W1) (le_n _) (sl_nil k) W2); [|exact E]. intros v z m s Hv' Hm. apply mu_one; [exact Hv'|left; reflexivity|exact Hm].
    - destruct (joined_inv _ _ _ _ _ _ _ _ _ D Hf Hv Hw) as (k & a & b & E & W1 & Ed & W2).
      apply (times_reads e count multiple ["-"%string] i k (S k) j a b (count_reads _ _ _ W1) (le_S _ _ (le_n _)) Ed W2); [|exact E]. intros v z m s Hv' Hm. apply mu_one; [exact Hv'|right; reflexivity|exact Hm].
    - destruct (two_inv _ _ _ _ _ _ _ _ Hf Hv Hw) as (k & a & b & E & W1 & W2).
      assert (Hk : k < j) by (destruct (magnitude_read _ _ _ W2) as (m & s & _ & _ & -> & _); lia).
      apply (times_reads e multiple multiple [] i k k j a b (IH k Hk i a W1) (le_n _) (sl_nil k) W2); [|exact E]. intros v z m s Hv' Hm. apply mu_more; assumption.
  Qed.
  Definition section (ws : list string) (z : Z) : Prop := count ws z \/ multiple ws z.
  Lemma section_reads : reads "section" section.
  Proof using HB Hws.
    intros i j e H. destruct (b_worth_inv _ _ _ _ H) as (b & f & vs & Hb & Hf & Hv & Hw). destruct Hb as [<-|[<-|[]]].
    - destruct (up_reads "section" _ _ _ _ _ _ Hf multiple_reads _ Hv Hw) as (H1 & H2 & H3). split; [exact H1|]. split; [right; exact H2|exact H3].
    - destruct (up_reads "section" _ _ _ _ _ _ Hf count_reads _ Hv Hw) as (H1 & H2 & H3). split; [exact H1|]. split; [left; exact H2|exact H3].
  Qed.
  Lemma sum_reads i k k' j a b l : k <= k' -> sl k k' = l -> joint l ->
    (i < k /\ section (sl i k) (value a) /\ (0 <= value a)%Z /\ ((value a < 10 ^ 10)%Z -> not_vast (sl i k) -> modest a)) ->
    (k' < j /\ spoken (sl k' j) (value b) /\ (0 <= value b)%Z /\ ((value b < 10 ^ 10)%Z -> not_vast (sl k' j) -> modest b)) ->
    i < j /\ spoken (sl i j) (value (Binary Plus a b)) /\ (0 <= value (Binary Plus a b))%Z /\ ((value (Binary Plus a b) < 10 ^ 10)%Z -> not_vast (sl i j) -> modest (Binary Plus a b)).
  Proof using.
    intros Hk El Hl (I1 & R1 & P1 & M1) (I2 & R2 & P2 & M2). split; [lia|]. rewrite (sl_app i k j), (sl_app k k' j) by lia. split; [|split].
    - rewrite El. cbn [value]. apply sp_more; assumption.
    - cbn [value]. lia.
    - intros Hz Hn. apply vast_app in Hn as [N1 Hn]. apply vast_app in Hn as [_ N2]. apply sum_modest; auto.
  Qed.
  Lemma spoken_reads : reads "number" spoken.
  Proof using HB Hws.
    assert (A : In "and"%string b_words) by (vm_compute; tauto).
    assert (K : forall n i j e, j - i < n -> W "number" i j e ->
      i < j /\ spoken (sl i j) (value e) /\ (0 <= value e)%Z /\ ((value e < 10 ^ 10)%Z -> not_vast (sl i j) -> modest e)).
    { induction n as [|n IH]; intros i j e Hn H; [lia|]. destruct (b_worth_inv _ _ _ _ H) as (b & f & vs & Hb & Hf & Hv & Hw).
      destruct Hb as [<-|[<-|[<-|[]]]].
      - destruct (up_reads "number" _ _ _ _ _ _ Hf section_reads _ Hv Hw) as (H1 & H2 & H3). split; [exact H1|]. split; [apply sp_one; exact H2|exact H3].
      - destruct (two_inv _ _ _ _ _ _ _ _ Hf Hv Hw) as (k & a & b & -> & W1 & W2). pose proof (section_reads _ _ _ W1) as S1. pose proof (proj1 (worth_le _ _ _ _) _ _ _ _ W2) as L2.
        apply (sum_reads i k k j a b [] (le_n _) (sl_nil k) (or_introl eq_refl) S1). apply IH; [lia|exact W2].
      - destruct (joined_inv _ _ _ _ _ _ _ _ _ A Hf Hv Hw) as (k & a & b & -> & W1 & E & W2). pose proof (section_reads _ _ _ W1) as S1. pose proof (proj1 (worth_le _ _ _ _) _ _ _ _ W2) as L2.
        apply (sum_reads i k (S k) j a b _ (le_S _ _ (le_n _)) E (or_intror eq_refl) S1). apply IH; [lia|exact W2]. }
    intros i j e H. exact (K (S (j - i)) i j e (Nat.lt_succ_diag_r _) H).
  Qed.

  (** ** Putting readings together *)
  Hypothesis HB' : forall x b, In b (b_alternatives x) -> has_body gs x b.
  (** with the value *)
  Definition says (x : string) (L : list string -> Z -> Prop) : Prop :=
    forall mid z, L mid z -> forall pre post, ws = pre ++ mid ++ post -> exists e, W x (length pre) (length pre + length mid) e /\ value e = z.
  Lemma says_entry x l : b_alternatives x = map number_body l -> forallb (fun w => existsb (String.eqb w) b_words) (map fst l) = true -> says x (entry l).
  Proof using Hws HB'.
    intros E H mid z (w & -> & Hin) pre post Ew. cbn [app length] in *. rewrite Nat.add_1_r. exists (Number z). split; [|reflexivity].
    exact (read_single tokenize tmatch gs d ws b_words builtin_items Hws HB' x l E (fun w Hw => in_words_b _ w H Hw) w z Hin pre post Ew).
  Qed.
  Lemma says_up x y (L : list string -> Z -> Prop) : In (up y) (b_alternatives x) -> says y L -> forall mid z, L mid z -> forall pre post, ws = pre ++ mid ++ post ->
    exists e, W x (length pre) (length pre + length mid) e /\ value e = z.
  Proof using HB'.
    intros Hin R mid z H pre post E. destruct (R mid z H pre post E) as (e & He & Hv). exists e. split; [|exact Hv].
    exact (ProofReadings.read_up tokenize tmatch gs d builtin_items HB' x y (up y) _ _ e Hin eq_refl He).
  Qed.
  Lemma says_two o x y y' (L L' : list string -> Z -> Prop) a z b z' : In (b_two o y y') (b_alternatives x) -> says y L -> says y' L' -> L a z -> L' b z' ->
    forall pre post, ws = pre ++ (a ++ b) ++ post -> exists e, W x (length pre) (length pre + length (a ++ b)) e /\ value e = value (Binary o (Number z) (Number z')).
  Proof using HB'.
    intros Hin R R' H H' pre post E. rewrite <- app_assoc in E. destruct (R a z H _ _ E) as (e1 & W1 & V1). rewrite app_assoc in E. destruct (R' b z' H' _ _ E) as (e2 & W2 & V2).
    rewrite app_length in *. rewrite <- (Nat.add_assoc _ _ (length b)) in W2. exists (Binary o e1 e2). split.
    - eapply (wo_body _ _ _ _ x _ _ (b_two o y y') _ [Some e1; Some e2]); [apply HB'; exact Hin|reflexivity| |].
      + eapply (ws_rule _ _ _ _ (nonterm y)); [reflexivity|exact W1|]. eapply (ws_rule _ _ _ _ (nonterm y')); [reflexivity|exact W2|constructor].
      + apply (fw_binary _ o); [apply (aw_part _ 0)|apply (aw_part _ 1)]; reflexivity.
    - destruct o; cbn [value]; congruence.
  Qed.
  Lemma says_joined o x y w y' (L L' : list string -> Z -> Prop) a z b z' : In w b_words -> In (b_joined o y w y') (b_alternatives x) -> says y L -> says y' L' -> L a z -> L' b z' ->
    forall pre post, ws = pre ++ (a ++ [w] ++ b) ++ post -> exists e, W x (length pre) (length pre + length (a ++ [w] ++ b)) e /\ value e = value (Binary o (Number z) (Number z')).
  Proof using Hws HB'.
    intros Hw Hin R R' H H' pre post E. rewrite <- !app_assoc in E. destruct (R a z H _ _ E) as (e1 & W1 & V1).
    assert (E2 : ws = (pre ++ a) ++ w :: b ++ post) by (rewrite <- app_assoc; exact E). pose proof (word_at tokenize tmatch d ws b_words Hws w _ _ Hw E2) as T2.
    assert (E3 : ws = (pre ++ a ++ [w]) ++ b ++ post) by (rewrite <- !app_assoc; exact E). destruct (R' b z' H' _ _ E3) as (e2 & W2 & V2).
    rewrite !app_length in *. cbn [length] in *.
    replace (length pre + (length a + 1)) with (S (length pre + length a)) in W2 by lia.
    replace (S (length pre + length a) + length b) with (length pre + (length a + (1 + length b))) in W2 by lia. exists (Binary o e1 e2). split.
    - eapply (wo_body _ _ _ _ x _ _ (b_joined o y w y') _ [Some e1; None; Some e2]); [apply HB'; exact Hin|reflexivity| |].
      + eapply (ws_rule _ _ _ _ (nonterm y)); [reflexivity|exact W1|]. eapply (ws_text _ _ _ _ (word w)); [split; [reflexivity|exact T2]|].
        eapply (ws_rule _ _ _ _ (nonterm y')); [reflexivity|exact W2|constructor].
      + apply (fw_binary _ o); [apply (aw_part _ 0)|apply (aw_part _ 2)]; reflexivity.
    - destruct o; cbn [value]; congruence.
  Qed.
  Lemma says_units : says "cardinal_unit" (entry b_units). Proof using Hws HB'. apply says_entry; vm_compute; reflexivity. Qed.
  Lemma says_teens : says "cardinal_ten" (entry teens). Proof using Hws HB'. apply says_entry; vm_compute; reflexivity. Qed.
  Lemma says_tens : says "cardinal_tens" (entry tens). Proof using Hws HB'. apply says_entry; vm_compute; reflexivity. Qed.
  Lemma says_magnitude : says "magnitude" (entry magnitudes). Proof using Hws HB'. apply says_entry; vm_compute; reflexivity. Qed.
  Lemma an_entry l w z : In (w, z) l -> entry l [w] z. Proof using. intros H. exists w. auto. Qed.
  Lemma b_nth x k b : nth_error (b_alternatives x) k = Some b -> In b (b_alternatives x). Proof using. apply nth_error_In. Qed.
  Lemma says_count : says "base_number" count.
  Proof using Hws HB'.
    assert (A : In "and"%string b_words) by (vm_compute; tauto). assert (D : In "-"%string b_words) by (vm_compute; tauto). assert (C : In ","%string b_words) by (vm_compute; tauto).
    intros mid z H. destruct H as [w z H|w z H|w z H|w z l u k H Hl Hu].
    - exact (says_up "base_number" _ (entry b_units) (b_nth "base_number" 0 _ eq_refl) says_units _ _ (an_entry _ _ _ H)).
    - exact (says_up "base_number" _ (entry teens) (b_nth "base_number" 1 _ eq_refl) says_teens _ _ (an_entry _ _ _ H)).
    - exact (says_up "base_number" _ (entry tens) (b_nth "base_number" 2 _ eq_refl) says_tens _ _ (an_entry _ _ _ H)).
    - pose proof (an_entry _ _ _ H) as E1. pose proof (an_entry _ _ _ Hu) as E2. destruct Hl as [<-|[<-|[<-|[<-|[]]]]].
      + exact (says_two Plus "base_number" _ _ _ _ _ _ _ _ (b_nth "base_number" 3 _ eq_refl) says_tens says_units E1 E2).
      + exact (says_joined Plus "base_number" _ _ _ _ _ _ _ _ _ A (b_nth "base_number" 4 _ eq_refl) says_tens says_units E1 E2).
      + exact (says_joined Plus "base_number" _ _ _ _ _ _ _ _ _ D (b_nth "base_number" 5 _ eq_refl) says_tens says_units E1 E2).
      + exact (says_joined Plus "base_number" _ _ _ _ _ _ _ _ _ C (b_nth "base_number" 6 _ eq_refl) says_tens says_units E1 E2).
  Qed.
  Lemma says_multiple : says "magnitude_number" multiple.
  Proof using Hws HB'.
    assert (D : In "-"%string b_words) by (vm_compute; tauto).
    intros mid z H. induction H as [v z l m s H Hl Hm|v z m s H IH Hm].
    - apply an_entry in Hm. destruct Hl as [->| ->].
      + exact (says_two Times "magnitude_number" _ _ _ _ _ _ _ _ (b_nth "magnitude_number" 0 _ eq_refl) says_count says_magnitude H Hm).
      + exact (says_joined Times "magnitude_number" _ _ _ _ _ _ _ _ _ D (b_nth "magnitude_number" 1 _ eq_refl) says_count says_magnitude H Hm).
    - apply an_entry in Hm. refine (says_two Times "magnitude_number" _ _ (fun v' z' => v' = v /\ z' = z) _ _ _ _ _ (b_nth "magnitude_number" 2 _ eq_refl) _ says_magnitude (conj eq_refl eq_refl) Hm).
      intros mid' z' [-> ->]. exact IH.
  Qed.
  Lemma says_section : says "section" section.
  Proof using Hws HB'.
    intros mid z [H|H].
    - exact (says_up "section" _ count (b_nth "section" 1 _ eq_refl) says_count _ _ H).
    - exact (says_up "section" _ multiple (b_nth "section" 0 _ eq_refl) says_multiple _ _ H).
  Qed.
  Lemma says_spoken : says "number" spoken.
  Proof using Hws HB'.
    assert (A : In "and"%string b_words) by (vm_compute; tauto).
    intros mid z H. induction H as [v z H|v z l v' z' H Hl H' IH].
    - exact (says_up "number" _ section (b_nth "number" 0 _ eq_refl) says_section _ _ H).
    - assert (R : says "number" (fun a n => a = v' /\ n = z')) by (intros mid' n [-> ->]; exact IH).
      destruct Hl as [->| ->].
      + exact (says_two Plus "number" _ _ section _ _ _ _ _ (b_nth "number" 1 _ eq_refl) says_section R H (conj eq_refl eq_refl)).
      + exact (says_joined Plus "number" _ _ _ section _ _ _ _ _ A (b_nth "number" 2 _ eq_refl) says_section R H (conj eq_refl eq_refl)).
  Qed.
End Read.
