(** What the rules of cn_num.grammar read: the simple numerals. *)
From Coq Require Import Permutation.
From Verif Require Import Base ModelTypes ModelText ModelEarley ModelTrees ModelApi ModelReader ModelLocal
     SpecTypes SpecGrammar SpecTree SpecNotation SpecRefine SpecLocal SpecFuncs SpecMath SpecMeaning
     SpecArith SpecWorth ProofWorth ProofReadings SpecChinese ProofChinese ProofChineseRules SpecCnNum ProofCnNum.
Local Open Scope list_scope.

Definition s_alternatives (x : string) : list rulebody := written cn_num_items false x.

Section Read.
  Variable tokenize : string -> res (list token).
  Variable tmatch : term -> option token -> bool.
  Variable gs : list grammar_rules.
  Variable d : document.
  Variable ws : list string.
  Hypothesis Hws : in_words tokenize tmatch s_words d ws.
  Notation W := (worth tokenize tmatch gs (content d)).
  Notation sl := (ProofReadings.sl ws).
  Notation sl_app := (ProofReadings.sl_app ws).
  Notation single := (ProofReadings.single tokenize tmatch gs d ws).
  Notation rule_inv := (ProofReadings.rule_inv tokenize tmatch gs d).
  Notation nil_inv := (ProofReadings.nil_inv tokenize tmatch gs d).
  Hypothesis HB : forall x b, has_body gs x b -> In b (s_alternatives x).
  Lemma s_worth_inv x i j e : W x i j e -> exists b f vs, In b (s_alternatives x) /\ rb_f b = Some f /\
    worths tokenize tmatch gs (content d) (rb_terms b) i j vs /\ f_worth vs f e.
  Proof using HB. exact (ProofReadings.worth_inv tokenize tmatch gs d cn_num_items HB x i j e). Qed.
  Notation reading := (ProofChineseRules.reading tokenize tmatch gs d ws).

  Lemma s_table x l : s_alternatives x = map number_body l -> forallb (fun w => existsb (String.eqb w) s_words) (map fst l) = true -> single x l.
  Proof using HB Hws.
    intros E H. apply (single_table tokenize tmatch gs d ws s_words cn_num_items Hws HB); [exact E|]. rewrite forallb_forall in H. intros w Hw.
    apply H in Hw. apply existsb_exists in Hw as (w' & Hw & Ew). apply String.eqb_eq in Ew. subst w'. exact Hw.
  Qed.
  Lemma s_scale_inv sc s w : s_alternatives sc = all_worth s [w] -> existsb (String.eqb w) s_words = true ->
    forall i j e, W sc i j e -> e = Number s /\ j = S i /\ sl i j = [w].
  Proof using HB Hws.
    intros E Hw i j e He. destruct (s_table sc (sized s [w]) E ltac:(cbn [sized map fst forallb]; rewrite Hw; reflexivity) _ _ _ He) as (w' & z & [[= <- <-]|[]] & -> & -> & E1). auto.
  Qed.
  Lemma s_zero_inv i j e : W "cn_zero" i j e -> e = Number 0 /\ j = S i /\ exists o, In o zeros /\ sl i j = [o].
  Proof using HB Hws.
    intros He. destruct (s_table "cn_zero" (sized 0 zeros) ltac:(vm_compute; reflexivity) ltac:(vm_compute; reflexivity) _ _ _ He) as (w' & z & H & -> & -> & E1).
    apply in_map_iff in H as (o & [= -> ->] & H). eauto.
  Qed.
  Lemma s_unit_inv i j e : W "cn_num_unit" i j e -> exists w z, In (w, z) s_units /\ e = Number z /\ j = S i /\ sl i j = [w] /\ (1 <= z <= 9)%Z.
  Proof using HB Hws.
    intros He. destruct (s_table "cn_num_unit" s_units ltac:(vm_compute; reflexivity) ltac:(vm_compute; reflexivity) _ _ _ He) as (w & z & H & -> & -> & E1).
    pose proof (unit_bounds _ _ (s_units_units _ _ H)). exists w, z. auto.
  Qed.
  Lemma s_unit_reading : reading "cn_num_unit" s_one.
  Proof using HB Hws.
    intros i j e H. destruct (s_unit_inv _ _ _ H) as (w & z & Hin & -> & -> & -> & B). split; [lia|]. split; [constructor; exact Hin|].
    intros _. cbn [modest]. unfold small. lia.
  Qed.
  Lemma s_tens_reading : reading "cn_num_10s" s_tens.
  Proof using HB Hws.
    assert (T : forall i j e, W "cn_num_10" i j e -> e = Number 10 /\ j = S i /\ sl i j = ["十"%string]) by (apply s_scale_inv; vm_compute; reflexivity).
    pose proof s_unit_inv as U.
    intros i j e H. destruct (s_worth_inv _ _ _ _ H) as (b & f & vs & Hb & Hf & Hv & Hw).
    destruct Hb as [<-|[<-|[<-|[<-|[]]]]]; cbn [up b_exact b_next rb_terms rb_f] in *; destruct (rule_inv _ _ _ _ _ Hv) as (k & a & vs' & -> & W1 & Hv').
    - apply nil_inv in Hv' as [-> ->]. apply (f_call1 _ _ _ _ Hf), (a_part _ 0) in Hw. injection Hw as ->.
      destruct (T _ _ _ W1) as (-> & -> & ->). split; [lia|]. split; [apply st_ten|]. intros _. cbn. unfold small. lia.
    - destruct (rule_inv _ _ _ _ _ Hv') as (k' & a' & vs'' & -> & W2 & Hn). apply nil_inv in Hn as [-> ->].
      destruct (f_call2 _ _ _ _ _ _ Hf Hw) as (x1 & y1 & -> & A1 & A2). apply (a_part _ 0) in A1. apply (a_part _ 1) in A2. injection A1 as ->. injection A2 as ->.
      destruct (U _ _ _ W1) as (u & z & Hu & -> & -> & E2 & B). destruct (T _ _ _ W2) as (-> & -> & E1).
      split; [lia|]. rewrite (sl_app i (S i) (S (S i))) by lia. rewrite E1, E2. split; [apply st_tens; assumption|].
      intros _. cbn [modest value]. unfold small. repeat split; try lia; try discriminate.
    - destruct (rule_inv _ _ _ _ _ Hv') as (k' & a' & vs'' & -> & W2 & Hv''). destruct (rule_inv _ _ _ _ _ Hv'') as (k'' & a'' & vs3 & -> & W3 & Hn). apply nil_inv in Hn as [-> ->].
      destruct (f_call2 _ _ _ _ _ _ Hf Hw) as (x1 & y1 & -> & A1 & A2). apply a_product in A1 as (x2 & y2 & -> & A1 & A3).
      apply (a_part _ 2) in A2. apply (a_part _ 0) in A1. apply (a_part _ 1) in A3. injection A1 as ->. injection A2 as ->. injection A3 as ->.
      destruct (U _ _ _ W1) as (u & z & Hu & -> & -> & E1 & B). destruct (T _ _ _ W2) as (-> & -> & E2). destruct (U _ _ _ W3) as (u' & z' & Hu' & -> & -> & E3 & B').
      split; [lia|]. rewrite (sl_app i (S i) (S (S (S i)))), (sl_app (S i) (S (S i)) (S (S (S i)))) by lia. rewrite E1, E2, E3. split; [apply st_both; assumption|].
      intros _. cbn [modest value]. unfold small. repeat split; try lia; try discriminate.
    - apply nil_inv in Hv' as [-> ->]. apply (f_call1 _ _ _ _ Hf), (a_part _ 0) in Hw. injection Hw as ->.
      destruct (s_unit_reading _ _ _ W1) as (H1 & H2 & H3). split; [exact H1|]. split; [|exact H3]. apply s_one_tens. exact H2.
  Qed.

  Definition nonneg (K : list string -> Z -> Prop) : Prop := forall ws z, K ws z -> (0 <= z)%Z.
  Lemma s_level_reading p sc lo hi gaps P L G w s : nonneg P -> nonneg L -> nonneg G -> reading p P -> reading lo L -> (forall x, In x gaps -> reading x G) ->
    s_alternatives sc = all_worth s [w] -> existsb (String.eqb w) s_words = true ->
    (forall b, In b (s_alternatives hi) -> b = b_exact p sc \/ b = b_next p sc lo \/ (exists x, In x gaps /\ b = b_gap p sc x) \/ b = up lo) ->
    (0 < s < 10 ^ 10)%Z -> reading hi (s_scale P L G w s).
  Proof using HB Hws.
    intros NP NL NG RP RL RG Esc Ew Hhi Hs i j e H.
    pose proof (s_scale_inv sc s w Esc Ew) as Sc.
    destruct (s_worth_inv _ _ _ _ H) as (b & f & vs & Hb & Hf & Hv & Hw).
    apply Hhi in Hb. destruct Hb as [->|[->|[(zr & Hzr & ->)| ->]]]; cbn [b_exact b_next b_gap up rb_terms rb_f] in *; destruct (rule_inv _ _ _ _ _ Hv) as (k & a & vs' & -> & W1 & Hv').
    - destruct (rule_inv _ _ _ _ _ Hv') as (k' & a' & vs'' & -> & W2 & Hn). apply nil_inv in Hn as [-> ->].
      destruct (f_call2 _ _ _ _ _ _ Hf Hw) as (x1 & y1 & -> & A1 & A2). apply (a_part _ 0) in A1. apply (a_part _ 1) in A2. injection A1 as ->. injection A2 as ->.
      destruct (RP _ _ _ W1) as (H1 & H2 & H3). pose proof (NP _ _ H2) as P1. destruct (Sc _ _ _ W2) as (-> & -> & E1).
      split; [lia|]. rewrite (sl_app i k (S k)) by lia. rewrite E1. split; [apply ss_exact; assumption|].
      cbn [value modest]. intros Hz. unfold small in *. split; [apply H3; nia|]. repeat split; try lia; intros; lia.
    - destruct (rule_inv _ _ _ _ _ Hv') as (k' & a' & vs'' & -> & W2 & Hv''). destruct (rule_inv _ _ _ _ _ Hv'') as (k'' & a'' & vs3 & -> & W3 & Hn). apply nil_inv in Hn as [-> ->].
      destruct (f_call2 _ _ _ _ _ _ Hf Hw) as (x1 & y1 & -> & A1 & A2). apply a_product in A1 as (x2 & y2 & -> & A1 & A3).
      apply (a_part _ 2) in A2. apply (a_part _ 0) in A1. apply (a_part _ 1) in A3. injection A1 as ->. injection A2 as ->. injection A3 as ->.
      destruct (RP _ _ _ W1) as (H1 & H2 & H3). pose proof (NP _ _ H2) as P1. destruct (Sc _ _ _ W2) as (-> & -> & E1).
      destruct (RL _ _ _ W3) as (H1' & H2' & H3'). pose proof (NL _ _ H2') as P3.
      split; [lia|]. rewrite (sl_app i k k''), (sl_app k (S k) k'') by lia. rewrite E1. split; [apply (ss_next _ _ _ _ _ _ _ _ _ H2 H2')|].
      cbn [value modest]. intros Hz. unfold small in *. repeat split; try (apply H3); try (apply H3'); try nia; try discriminate.
    - destruct (rule_inv _ _ _ _ _ Hv') as (k' & a' & vs'' & -> & W2 & Hv''). destruct (rule_inv _ _ _ _ _ Hv'') as (k'' & a'' & vs3 & -> & W3 & Hv3).
      destruct (rule_inv _ _ _ _ _ Hv3) as (k3 & a3 & vs4 & -> & W4 & Hn). apply nil_inv in Hn as [-> ->].
      destruct (f_call2 _ _ _ _ _ _ Hf Hw) as (x1 & y1 & -> & A1 & A2). apply a_product in A1 as (x2 & y2 & -> & A1 & A3).
      apply (a_part _ 3) in A2. apply (a_part _ 0) in A1. apply (a_part _ 1) in A3. injection A1 as ->. injection A2 as ->. injection A3 as ->.
      destruct (RP _ _ _ W1) as (H1 & H2 & H3). pose proof (NP _ _ H2) as P1. destruct (Sc _ _ _ W2) as (-> & -> & E1).
      destruct (s_zero_inv _ _ _ W3) as (-> & -> & o & Ho & E2). destruct (RG _ Hzr _ _ _ W4) as (H1' & H2' & H3'). pose proof (NG _ _ H2') as P3.
      split; [lia|]. rewrite (sl_app i k k3), (sl_app k (S k) k3), (sl_app (S k) (S (S k)) k3) by lia. rewrite E1, E2. split; [apply (ss_gap _ _ _ _ _ _ _ _ _ _ H2 Ho H2')|].
      cbn [value modest]. intros Hz. unfold small in *. repeat split; try (apply H3); try (apply H3'); try nia; try discriminate.
    - apply nil_inv in Hv' as [-> ->]. apply (f_call1 _ _ _ _ Hf), (a_part _ 0) in Hw. injection Hw as ->.
      destruct (RL _ _ _ W1) as (H1 & H2 & H3). split; [exact H1|]. split; [apply ss_up; exact H2|exact H3].
  Qed.
  Lemma g_nonneg A K K' : g_clean A K' -> within K K' -> nonneg K.
  Proof using. intros C I v z H. apply I in H. apply C in H. tauto. Qed.
  Lemma simple_reading : reading "number" simple.
  Proof using HB Hws.
    assert (N1 : nonneg s_one) by exact (g_nonneg _ _ _ one_clean s_one_one).
    assert (N2 : nonneg s_tens) by exact (g_nonneg _ _ _ tens_clean s_tens_tens).
    assert (N3 : nonneg s_hundreds) by exact (g_nonneg _ _ _ (fits_clean _ _ _ fits2) s_hundreds_g).
    assert (N4 : nonneg s_thousands) by exact (g_nonneg _ _ _ (fits_clean _ _ _ fits3) s_thousands_g).
    assert (N5 : nonneg s_myriads) by exact (g_nonneg _ _ _ (fits_clean _ _ _ fits4) s_myriads_g).
    assert (R2 : reading "cn_num_100s" s_hundreds).
    { apply (s_level_reading "cn_num_unit" "cn_num_100" "cn_num_10s" "cn_num_100s" ["cn_num_unit"%string]); [exact N1|exact N2|exact N1|exact s_unit_reading|exact s_tens_reading| |vm_compute; reflexivity|vm_compute; reflexivity| |lia].
      - intros x [<-|[]]. exact s_unit_reading.
      - intros b [<-|[<-|[<-|[<-|[]]]]]; auto. do 2 right. left. eexists. split; [left|]; reflexivity. }
    assert (R3 : reading "cn_num_1000s" s_thousands).
    { apply (s_level_reading "cn_num_unit" "cn_num_1000" "cn_num_100s" "cn_num_1000s" ["cn_num_unit"; "cn_num_10s"]%string); [exact N1|exact N3|exact N2|exact s_unit_reading|exact R2| |vm_compute; reflexivity|vm_compute; reflexivity| |lia].
      - intros x [<-|[<-|[]]]; [|exact s_tens_reading]. intros i j e H. destruct (s_unit_reading _ _ _ H) as (H1 & H2 & H3). auto using s_one_tens.
      - intros b [<-|[<-|[<-|[<-|[<-|[]]]]]]; auto; do 2 right; left; eexists; (split; [|reflexivity]); [left|right; left]; reflexivity. }
    assert (R4 : reading "cn_num_10000s" s_myriads).
    { apply (s_level_reading "cn_num_1000s" "cn_num_10000" "cn_num_1000s" "cn_num_10000s" []); [exact N4|exact N4| |exact R3|exact R3| |vm_compute; reflexivity|vm_compute; reflexivity| |lia].
      - intros v z [].
      - intros x [].
      - intros b [<-|[<-|[<-|[]]]]; auto. }
    assert (R8 : reading "cn_num_yi" simple).
    { apply (s_level_reading "cn_num_10000s" "cn_num_100000000" "cn_num_10000s" "cn_num_yi" ["cn_num_10000s"%string]); [exact N5|exact N5|exact N5|exact R4|exact R4| |vm_compute; reflexivity|vm_compute; reflexivity| |lia].
      - intros x [<-|[]]. exact R4.
      - intros b [<-|[<-|[<-|[<-|[]]]]]; auto. do 2 right. left. eexists. split; [left|]; reflexivity. }
    intros i j e H. destruct (s_worth_inv _ _ _ _ H) as (b & f & vs & [<-|[]] & Hf & Hv & Hw). cbn [up rb_terms rb_f] in *.
    destruct (rule_inv _ _ _ _ _ Hv) as (k & a & vs' & -> & W1 & Hv'). apply nil_inv in Hv' as [-> ->].
    apply (f_call1 _ _ _ _ Hf), (a_part _ 0) in Hw. injection Hw as ->. exact (R8 _ _ _ W1).
  Qed.

  (** ** Putting readings together *)
  Hypothesis HB' : forall x b, In b (s_alternatives x) -> has_body gs x b.
  Notation readable := (ProofReadings.readable tokenize tmatch gs d ws).
  Notation at_word := (ProofChineseRules.at_word tokenize tmatch gs d ws).
  Lemma s_read_up x y b i j e : In b (s_alternatives x) -> b = up y -> W y i j e -> W x i j e.
  Proof using HB'. exact (ProofReadings.read_up tokenize tmatch gs d cn_num_items HB' x y b i j e). Qed.
  Lemma s_at x l : s_alternatives x = map number_body l -> forallb (fun w => existsb (String.eqb w) s_words) (map fst l) = true -> at_word x l.
  Proof using Hws HB'.
    intros E H. refine (read_single tokenize tmatch gs d ws s_words cn_num_items Hws HB' x l E _). rewrite forallb_forall in H. intros w Hw.
    apply H in Hw. apply existsb_exists in Hw as (w' & Hw & Ew). apply String.eqb_eq in Ew. subst w'. exact Hw.
  Qed.
  Lemma s_unit_at : at_word "cn_num_unit" s_units.
  Proof using Hws HB'. apply s_at; vm_compute; reflexivity. Qed.
  Lemma s_readable_unit : readable "cn_num_unit" s_one.
  Proof using Hws HB'. intros mid z [w k H] pre post E. cbn [app length] in *. rewrite Nat.add_1_r. eexists. exact (s_unit_at _ _ H _ _ E). Qed.
  Lemma s_readable_tens : readable "cn_num_10s" s_tens.
  Proof using Hws HB'.
    pose proof s_unit_at as U.
    assert (T : at_word "cn_num_10" [("十"%string, 10%Z)]) by (apply s_at; vm_compute; reflexivity).
    assert (T' : forall pre post, ws = pre ++ "十"%string :: post -> W "cn_num_10" (length pre) (S (length pre)) (Number 10)) by (intros pre post; apply T; left; reflexivity).
    assert (Hi : forall k b, nth_error (s_alternatives "cn_num_10s") k = Some b -> has_body gs "cn_num_10s" b) by (intros k b Hb; apply HB'; eapply nth_error_In; exact Hb).
    intros mid z H. destruct H as [w z H| |w z H|w z u k H H'']; intros pre post E; cbn [app length] in *; rewrite ?Nat.add_1_r.
    - eexists. eapply s_read_up; [do 3 right; left; reflexivity|reflexivity|exact (U _ _ H _ _ E)].
    - eexists. eapply s_read_up; [left; reflexivity|reflexivity|exact (T' _ _ E)].
    - pose proof (U _ _ H _ _ E) as H1. assert (E2 : ws = (pre ++ [w]) ++ "十"%string :: post) by (rewrite <- app_assoc; exact E). pose proof (T' _ _ E2) as H2.
      rewrite app_length, Nat.add_1_r in H2. replace (length pre + 2) with (S (S (length pre))) by lia.
      eexists. eapply (wo_body _ _ _ _ _ _ _ _ _ [Some _; Some _]); [apply (Hi 1); reflexivity|reflexivity| |].
      + eapply (ws_rule _ _ _ _ (nonterm "cn_num_unit")); [reflexivity|exact H1|]. eapply (ws_rule _ _ _ _ (nonterm "cn_num_10")); [reflexivity|exact H2|constructor].
      + apply (fw_binary _ Times); [apply (aw_part _ 0)|apply (aw_part _ 1)]; reflexivity.
    - pose proof (U _ _ H _ _ E) as H1. assert (E2 : ws = (pre ++ [w]) ++ "十"%string :: u :: post) by (rewrite <- app_assoc; exact E). pose proof (T' _ _ E2) as H2.
      assert (E3 : ws = (pre ++ [w; "十"%string]) ++ u :: post) by (rewrite <- app_assoc; exact E). pose proof (U _ _ H'' _ _ E3) as H3.
      rewrite app_length in H2, H3. cbn [length] in H2, H3. replace (length pre + 1) with (S (length pre)) in H2 by lia. replace (length pre + 2) with (S (S (length pre))) in H3 by lia.
      replace (length pre + 3) with (S (S (S (length pre)))) by lia.
      eexists. eapply (wo_body _ _ _ _ _ _ _ _ _ [Some _; Some _; Some _]); [apply (Hi 2); reflexivity|reflexivity| |].
      + eapply (ws_rule _ _ _ _ (nonterm "cn_num_unit")); [reflexivity|exact H1|]. eapply (ws_rule _ _ _ _ (nonterm "cn_num_10")); [reflexivity|exact H2|].
        eapply (ws_rule _ _ _ _ (nonterm "cn_num_unit")); [reflexivity|exact H3|constructor].
      + apply (fw_binary _ Plus); [constructor; apply (fw_binary _ Times); [apply (aw_part _ 0)|apply (aw_part _ 1)]|apply (aw_part _ 2)]; reflexivity.
  Qed.
  Lemma s_readable_level p sc lo hi (P L G : list string -> Z -> Prop) w s : readable p P -> readable lo L -> s_alternatives sc = all_worth s [w] -> existsb (String.eqb w) s_words = true ->
    In (b_exact p sc) (s_alternatives hi) -> In (b_next p sc lo) (s_alternatives hi) -> In (up lo) (s_alternatives hi) ->
    (forall q b, G q b -> exists x, In (b_gap p sc x) (s_alternatives hi) /\ readable x G) ->
    readable hi (s_scale P L G w s).
  Proof using Hws HB'.
    intros RP RL Esc Ew I1 I2 I3 RG.
    assert (O : at_word "cn_zero" (sized 0 zeros)) by (apply s_at; vm_compute; reflexivity).
    assert (Sc : at_word sc (sized s [w])) by (apply s_at; [exact Esc|cbn [sized map fst forallb]; rewrite Ew; reflexivity]).
    assert (Sc' : forall pre post, ws = pre ++ w :: post -> W sc (length pre) (S (length pre)) (Number s)) by (intros pre post; apply Sc; left; reflexivity).
    intros mid z H. destruct H as [mid z H|mid z H|mid z mid' z' H H'|mid z o mid' z' H Ho H']; intros pre post E.
    - destruct (RL _ _ H _ _ E) as (e & He). exists e. eapply s_read_up; [exact I3|reflexivity|exact He].
    - rewrite <- app_assoc in E. destruct (RP _ _ H _ _ E) as (e & He).
      assert (E2 : ws = (pre ++ mid) ++ w :: post) by (rewrite <- app_assoc; exact E). pose proof (Sc' _ _ E2) as H2. rewrite app_length in *. cbn [length].
      replace (length pre + (length mid + 1)) with (S (length pre + length mid)) by lia.
      eexists. eapply (wo_body _ _ _ _ hi _ _ _ _ [Some _; Some _]); [apply HB'; exact I1|reflexivity| |].
      + eapply (ws_rule _ _ _ _ (nonterm p)); [reflexivity|exact He|]. eapply (ws_rule _ _ _ _ (nonterm sc)); [reflexivity|exact H2|constructor].
      + apply (fw_binary _ Times); [apply (aw_part _ 0)|apply (aw_part _ 1)]; reflexivity.
    - rewrite <- app_assoc in E. cbn [app] in E. destruct (RP _ _ H _ _ E) as (e & He).
      assert (E2 : ws = (pre ++ mid) ++ w :: mid' ++ post) by (rewrite <- app_assoc; exact E). pose proof (Sc' _ _ E2) as H2.
      assert (E3 : ws = (pre ++ mid ++ [w]) ++ mid' ++ post) by (rewrite <- !app_assoc; cbn [app]; exact E). destruct (RL _ _ H' _ _ E3) as (e' & He').
      rewrite !app_length in *. cbn [length] in *. replace (length pre + (length mid + 1)) with (S (length pre + length mid)) in He' by lia.
      replace (length pre + (length mid + S (length mid'))) with (S (length pre + length mid) + length mid') by lia.
      eexists. eapply (wo_body _ _ _ _ hi _ _ _ _ [Some _; Some _; Some _]); [apply HB'; exact I2|reflexivity| |].
      + eapply (ws_rule _ _ _ _ (nonterm p)); [reflexivity|exact He|]. eapply (ws_rule _ _ _ _ (nonterm sc)); [reflexivity|exact H2|].
        eapply (ws_rule _ _ _ _ (nonterm lo)); [reflexivity|exact He'|constructor].
      + apply (fw_binary _ Plus); [constructor; apply (fw_binary _ Times); [apply (aw_part _ 0)|apply (aw_part _ 1)]|apply (aw_part _ 2)]; reflexivity.
    - rewrite <- app_assoc in E. cbn [app] in E. destruct (RP _ _ H _ _ E) as (e & He). destruct (RG _ _ H') as (x & I4 & Rx).
      assert (E2 : ws = (pre ++ mid) ++ w :: o :: mid' ++ post) by (rewrite <- app_assoc; exact E). pose proof (Sc' _ _ E2) as H2.
      assert (E4 : ws = (pre ++ mid ++ [w]) ++ o :: mid' ++ post) by (rewrite <- !app_assoc; cbn [app]; exact E). pose proof (O _ _ (sized_in _ _ _ Ho) _ _ E4) as H4.
      assert (E3 : ws = (pre ++ mid ++ [w; o]) ++ mid' ++ post) by (rewrite <- !app_assoc; cbn [app]; exact E). destruct (Rx _ _ H' _ _ E3) as (e' & He').
      rewrite !app_length in *. cbn [length] in *. replace (length pre + (length mid + 1)) with (S (length pre + length mid)) in H4 by lia.
      replace (length pre + (length mid + 2)) with (S (S (length pre + length mid))) in He' by lia.
      replace (length pre + (length mid + S (S (length mid')))) with (S (S (length pre + length mid)) + length mid') by lia.
      eexists. eapply (wo_body _ _ _ _ hi _ _ _ _ [Some _; Some _; Some _; Some _]); [apply HB'; exact I4|reflexivity| |].
      + eapply (ws_rule _ _ _ _ (nonterm p)); [reflexivity|exact He|]. eapply (ws_rule _ _ _ _ (nonterm sc)); [reflexivity|exact H2|].
        eapply (ws_rule _ _ _ _ (nonterm "cn_zero")); [reflexivity|exact H4|]. eapply (ws_rule _ _ _ _ (nonterm x)); [reflexivity|exact He'|constructor].
      + apply (fw_binary _ Plus); [constructor; apply (fw_binary _ Times); [apply (aw_part _ 0)|apply (aw_part _ 1)]|apply (aw_part _ 3)]; reflexivity.
  Qed.
  Lemma simple_readable : readable "number" simple.
  Proof using Hws HB'.
    assert (R2 : readable "cn_num_100s" s_hundreds).
    { apply (s_readable_level "cn_num_unit" "cn_num_100" "cn_num_10s"); [exact s_readable_unit|exact s_readable_tens|vm_compute; reflexivity|vm_compute; reflexivity|vm_compute; tauto|vm_compute; tauto|vm_compute; tauto|].
      intros q b _. exists "cn_num_unit"%string. split; [vm_compute; tauto|exact s_readable_unit]. }
    assert (R3 : readable "cn_num_1000s" s_thousands).
    { apply (s_readable_level "cn_num_unit" "cn_num_1000" "cn_num_100s"); [exact s_readable_unit|exact R2|vm_compute; reflexivity|vm_compute; reflexivity|vm_compute; tauto|vm_compute; tauto|vm_compute; tauto|].
      intros q b _. exists "cn_num_10s"%string. split; [vm_compute; tauto|exact s_readable_tens]. }
    assert (R4 : readable "cn_num_10000s" s_myriads).
    { apply (s_readable_level "cn_num_1000s" "cn_num_10000" "cn_num_1000s"); [exact R3|exact R3|vm_compute; reflexivity|vm_compute; reflexivity|vm_compute; tauto|vm_compute; tauto|vm_compute; tauto|]. intros q b []. }
    assert (R8 : readable "cn_num_yi" simple).
    { apply (s_readable_level "cn_num_10000s" "cn_num_100000000" "cn_num_10000s"); [exact R4|exact R4|vm_compute; reflexivity|vm_compute; reflexivity|vm_compute; tauto|vm_compute; tauto|vm_compute; tauto|].
      intros q b _. exists "cn_num_10000s"%string. split; [vm_compute; tauto|exact R4]. }
    intros mid z H pre post E. destruct (R8 _ _ H _ _ E) as (e & He). exists e. eapply s_read_up; [left; reflexivity|reflexivity|exact He].
  Qed.
End Read.
