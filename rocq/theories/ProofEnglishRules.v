(** What the rules of number.en.grammar read in a text of number words. *)
From Coq Require Import Permutation.
From Verif Require Import Base ModelTypes ModelText ModelEarley ModelTrees ModelApi ModelReader ModelLocal
     SpecTypes SpecGrammar SpecTree SpecNotation SpecRefine SpecLocal SpecFuncs SpecMath SpecMeaning
     SpecArith SpecWorth ProofWorth ProofReadings SpecEnglish ProofEnglish.
Local Open Scope list_scope.

Definition alternatives (x : string) : list rulebody := written english_items false x.

Section Read.
  Variable tokenize : string -> res (list token).
  Variable tmatch : term -> option token -> bool.
  Variable gs : list grammar_rules.
  Variable d : document.
  Variable ws : list string.
  Hypothesis Hws : in_words tokenize tmatch number_words d ws.
  Notation W := (worth tokenize tmatch gs (content d)).
  Notation sl := (sl ws).
  Notation sl_app := (sl_app ws).
  Notation single := (single tokenize tmatch gs d ws).
  Notation phrase_word := (phrase_word tokenize tmatch d ws number_words Hws).
  Notation rule_inv := (rule_inv tokenize tmatch gs d).
  Notation word_inv := (word_inv tokenize tmatch gs d).
  Notation nil_inv := (nil_inv tokenize tmatch gs d).
  Notation single_simple := (single_simple tokenize tmatch gs d ws).
  Hypothesis HB : forall x b, has_body gs x b -> In b (alternatives x).
  Lemma worth_inv x i j e : W x i j e -> exists b f vs, In b (alternatives x) /\ rb_f b = Some f /\
    worths tokenize tmatch gs (content d) (rb_terms b) i j vs /\ f_worth vs f e.
  Proof using HB. exact (ProofReadings.worth_inv tokenize tmatch gs d english_items HB x i j e). Qed.

  Definition reading (x : string) (L : list string -> Z -> Prop) : Prop :=
    forall i j e, W x i j e -> i <= j /\ L (sl i j) (value e) /\
      (~ In "trillion"%string (sl i j) -> (value e < 10 ^ 10)%Z -> modest e).
  Lemma simple_reading x u t s : single u units -> single t teens -> single s tens ->
    alternatives x = [mkRb [nonterm u] (call1 (part 1)); mkRb [nonterm t] (call1 (part 1)); mkRb [nonterm s] (call1 (part 1));
           mkRb [nonterm s; nonterm u] (call2 Plus (part 1) (part 2)); mkRb [nonterm s; word "-"; nonterm u] (call2 Plus (part 1) (part 3))] ->
    reading x simple.
  Proof using HB Hws.
    intros Hu Ht Hs E i j e H.
    assert (U : forall w z, In (w, z) units -> (0 <= z <= 90)%Z) by (intros w z K; apply (table_facts w), in_app_iff; auto).
    assert (T : forall w z, In (w, z) teens -> (0 <= z <= 90)%Z) by (intros w z K; apply (table_facts w), in_app_iff; right; apply in_app_iff; auto).
    assert (X : forall w z, In (w, z) tens -> (0 <= z <= 90)%Z) by (intros w z K; apply (table_facts w), in_app_iff; right; apply in_app_iff; auto).
    destruct (worth_inv _ _ _ _ H) as (b & f & vs & Hb & Hf & Hv & Hw). rewrite E in Hb.
    destruct Hb as [<-|[<-|[<-|[<-|[<-|[]]]]]]; cbn [rb_terms rb_f] in *; destruct (rule_inv _ _ _ _ _ Hv) as (k & a & vs' & -> & W1 & Hv').
    - apply nil_inv in Hv' as [-> ->]. apply (f_call1 _ _ _ _ Hf), (a_part _ 0) in Hw. injection Hw as ->.
      pose proof (single_simple _ _ Hu U _ _ _ W1) as M1.
      destruct (Hu _ _ _ W1) as (w & z & K & -> & -> & ->). split; [lia|]. split; [apply si_unit; exact K|]. intros _ _. exact M1.
    - apply nil_inv in Hv' as [-> ->]. apply (f_call1 _ _ _ _ Hf), (a_part _ 0) in Hw. injection Hw as ->.
      pose proof (single_simple _ _ Ht T _ _ _ W1) as M1.
      destruct (Ht _ _ _ W1) as (w & z & K & -> & -> & ->). split; [lia|]. split; [apply si_teen; exact K|]. intros _ _. exact M1.
    - apply nil_inv in Hv' as [-> ->]. apply (f_call1 _ _ _ _ Hf), (a_part _ 0) in Hw. injection Hw as ->.
      pose proof (single_simple _ _ Hs X _ _ _ W1) as M1.
      destruct (Hs _ _ _ W1) as (w & z & K & -> & -> & ->). split; [lia|]. split; [apply si_tens; exact K|]. intros _ _. exact M1.
    - destruct (rule_inv _ _ _ _ _ Hv') as (k' & a' & vs'' & -> & W2 & Hn). apply nil_inv in Hn as [-> ->].
      destruct (f_call2 _ _ _ _ _ _ Hf Hw) as (x1 & y1 & -> & A1 & A2). apply (a_part _ 0) in A1. apply (a_part _ 1) in A2. injection A1 as ->. injection A2 as ->.
      pose proof (single_simple _ _ Hs X _ _ _ W1) as M1. pose proof (single_simple _ _ Hu U _ _ _ W2) as M2.
      destruct (Hs _ _ _ W1) as (w & z & K & -> & -> & S1). destruct (Hu _ _ _ W2) as (w' & z' & K' & -> & -> & S2).
      split; [lia|]. rewrite (sl_app i (S i) (S (S i))) by lia. rewrite S1, S2. split; [apply si_both; assumption|]. intros _ _. cbn [modest value].
      apply X in K. apply U in K'. unfold small in *. repeat split; try assumption; try lia; try discriminate.
    - destruct (word_inv _ _ _ _ _ Hv') as (k' & vs'' & -> & P & Hv''). apply phrase_word in P as [-> P]; [|vm_compute; tauto].
      destruct (rule_inv _ _ _ _ _ Hv'') as (k'' & a' & vs3 & -> & W2 & Hn). apply nil_inv in Hn as [-> ->].
      destruct (f_call2 _ _ _ _ _ _ Hf Hw) as (x1 & y1 & -> & A1 & A2). apply (a_part _ 0) in A1. apply (a_part _ 2) in A2. injection A1 as ->. injection A2 as ->.
      pose proof (single_simple _ _ Hs X _ _ _ W1) as M1. pose proof (single_simple _ _ Hu U _ _ _ W2) as M2.
      destruct (Hs _ _ _ W1) as (w & z & K & -> & -> & S1). destruct (Hu _ _ _ W2) as (w' & z' & K' & -> & -> & S2).
      split; [lia|]. rewrite (sl_app i (S i) (S (S (S i)))), (sl_app (S i) (S (S i)) (S (S (S i)))) by lia. rewrite S1, S2, P. split; [apply si_hyphen; assumption|].
      intros _ _. cbn [modest value]. apply X in K. apply U in K'. unfold small in *. repeat split; try assumption; try lia; try discriminate.
  Qed.

  Lemma level_reading lo sc hi L A w s : clean A L -> reading lo L -> single sc [(w, s)] -> alternatives hi = level lo sc ->
    (0 < s)%Z -> (s < 10 ^ 10)%Z \/ w = "trillion"%string -> reading hi (step L w s).
  Proof using HB Hws.
    intros HA Hlo Hsc E Hs Hsm i j e H.
    assert (Pos : forall i j e, W lo i j e -> (0 <= value e)%Z) by (intros i' j' e' H'; apply Hlo in H' as (_ & H' & _); apply HA in H'; tauto).
    assert (Sc : forall i j e, W sc i j e -> e = Number s /\ j = S i /\ sl i j = [w] /\ (~ In "trillion"%string (sl i j) -> small s)).
    { intros i' j' e' H'. destruct (Hsc _ _ _ H') as (w' & z' & [[= <- <-]|[]] & -> & -> & S1). rewrite S1. split; [reflexivity|]. split; [reflexivity|]. split; [reflexivity|].
      intros Hn. unfold small. destruct Hsm as [Hsm| ->]; [lia|]. exfalso. apply Hn. left. reflexivity. }
    destruct (worth_inv _ _ _ _ H) as (b & f & vs & Hb & Hf & Hv & Hw). rewrite E in Hb.
    destruct Hb as [<-|[<-|[<-|[<-|[<-|[]]]]]]; cbn [rb_terms rb_f] in *; destruct (rule_inv _ _ _ _ _ Hv) as (k & a & vs' & -> & W1 & Hv').
    - apply nil_inv in Hv' as [-> ->]. apply (f_call1 _ _ _ _ Hf), (a_part _ 0) in Hw. injection Hw as ->.
      destruct (Hlo _ _ _ W1) as (H1 & H2 & H3). split; [exact H1|]. split; [apply st_up; exact H2|exact H3].
    - apply nil_inv in Hv' as [-> ->]. apply (f_call1 _ _ _ _ Hf), (a_part _ 0) in Hw. injection Hw as ->.
      destruct (Sc _ _ _ W1) as (-> & -> & S1 & S2). split; [lia|]. split; [rewrite S1; apply st_bare|]. intros Hn _. exact (S2 Hn).
    - destruct (rule_inv _ _ _ _ _ Hv') as (k' & a' & vs'' & -> & W2 & Hn). apply nil_inv in Hn as [-> ->].
      destruct (f_call2 _ _ _ _ _ _ Hf Hw) as (x1 & y1 & -> & A1 & A2). apply (a_part _ 0) in A1. apply (a_part _ 1) in A2. injection A1 as ->. injection A2 as ->.
      pose proof (Pos _ _ _ W1) as P1. destruct (Hlo _ _ _ W1) as (H1 & H2 & H3). destruct (Sc _ _ _ W2) as (-> & -> & S1 & S2).
      split; [lia|]. rewrite (sl_app i k (S k)) by lia. split; [rewrite S1; apply st_times; exact H2|].
      intros Hn Hz. cbn [value] in Hz. cbn [modest value].
      assert (N1 : ~ In "trillion"%string (sl i k)) by (intros C; apply Hn, in_app_iff; auto).
      assert (N2 : ~ In "trillion"%string (sl k (S k))) by (intros C; apply Hn, in_app_iff; auto).
      specialize (S2 N2). split; [apply H3; [exact N1|nia]|]. split; [exact S2|]. split; [unfold small in *; lia|]. intros _ _. lia.
    - destruct (rule_inv _ _ _ _ _ Hv') as (k' & a' & vs'' & -> & W2 & Hv''). destruct (rule_inv _ _ _ _ _ Hv'') as (k'' & a'' & vs3 & -> & W3 & Hn). apply nil_inv in Hn as [-> ->].
      destruct (f_call2 _ _ _ _ _ _ Hf Hw) as (x1 & y1 & -> & A1 & A2). apply a_product in A1 as (x2 & y2 & -> & A1 & A3).
      apply (a_part _ 2) in A2. apply (a_part _ 0) in A1. apply (a_part _ 1) in A3. injection A1 as ->. injection A2 as ->. injection A3 as ->.
      pose proof (Pos _ _ _ W1) as P1. destruct (Hlo _ _ _ W1) as (H1 & H2 & H3). destruct (Sc _ _ _ W2) as (-> & -> & S1 & S2).
      pose proof (Pos _ _ _ W3) as P3. destruct (Hlo _ _ _ W3) as (H1' & H2' & H3').
      split; [lia|]. rewrite (sl_app i k k''), (sl_app k (S k) k'') by lia. rewrite S1 in *. split; [apply (st_plus _ _ _ _ _ [] _ _ H2); [left; reflexivity|exact H2']|].
      intros Hn Hz. cbn [value] in Hz. cbn [modest value]. cbn [app] in Hn.
      assert (N1 : ~ In "trillion"%string (sl i k)) by (intros C; apply Hn, in_app_iff; auto).
      assert (N2 : ~ In "trillion"%string [w]) by (intros [C|[]]; apply Hn, in_app_iff; right; left; exact C).
      assert (N3 : ~ In "trillion"%string (sl (S k) k'')) by (intros C; apply Hn, in_app_iff; right; right; exact C).
      specialize (S2 N2). unfold small in *. repeat split; try lia; try discriminate; try (apply H3; [exact N1|nia]); try (apply H3'; [exact N3|nia]).
    - destruct (rule_inv _ _ _ _ _ Hv') as (k' & a' & vs'' & -> & W2 & Hv''). destruct (word_inv _ _ _ _ _ Hv'') as (m & vs4 & -> & P & Hv4).
      apply phrase_word in P as [-> P]; [|vm_compute; tauto].
      destruct (rule_inv _ _ _ _ _ Hv4) as (k'' & a'' & vs3 & -> & W3 & Hn). apply nil_inv in Hn as [-> ->].
      destruct (f_call2 _ _ _ _ _ _ Hf Hw) as (x1 & y1 & -> & A1 & A2). apply a_product in A1 as (x2 & y2 & -> & A1 & A3).
      apply (a_part _ 3) in A2. apply (a_part _ 0) in A1. apply (a_part _ 1) in A3. injection A1 as ->. injection A2 as ->. injection A3 as ->.
      pose proof (Pos _ _ _ W1) as P1. destruct (Hlo _ _ _ W1) as (H1 & H2 & H3). destruct (Sc _ _ _ W2) as (-> & -> & S1 & S2).
      pose proof (Pos _ _ _ W3) as P3. destruct (Hlo _ _ _ W3) as (H1' & H2' & H3').
      split; [lia|]. rewrite (sl_app i k k''), (sl_app k (S k) k''), (sl_app (S k) (S (S k)) k'') by lia. rewrite S1 in *. rewrite P. split; [apply (st_plus _ _ _ _ _ ["and"%string] _ _ H2); [right; reflexivity|exact H2']|].
      intros Hn Hz. cbn [value] in Hz. cbn [modest value]. cbn [app] in Hn.
      assert (N1 : ~ In "trillion"%string (sl i k)) by (intros C; apply Hn, in_app_iff; auto).
      assert (N2 : ~ In "trillion"%string [w]) by (intros [C|[]]; apply Hn, in_app_iff; right; left; exact C).
      assert (N3 : ~ In "trillion"%string (sl (S (S k)) k'')) by (intros C; apply Hn, in_app_iff; right; right; right; exact C).
      specialize (S2 N2). unfold small in *. repeat split; try lia; try discriminate; try (apply H3; [exact N1|nia]); try (apply H3'; [exact N3|nia]).
  Qed.

  Lemma singles : single "unit" units /\ single "ten" teens /\ single "tens" tens /\ single "e2" [("hundred"%string, 100%Z)] /\ single "e3" [("thousand"%string, 1000%Z)] /\
    single "e6" [("million"%string, 1000000%Z)] /\ single "e9" [("billion"%string, 1000000000%Z)] /\ single "e12" [("trillion"%string, 1000000000000%Z)].
  Proof using HB Hws. repeat split; (apply (single_table tokenize tmatch gs d ws number_words english_items Hws HB); [reflexivity|vm_compute; tauto]). Qed.
  Lemma reading12 : reading "e12s" level12.
  Proof using HB Hws.
    destruct singles as (S1 & S2 & S3 & S4 & S5 & S6 & S7 & S8).
    assert (R1 : reading "e1" simple) by (apply (simple_reading "e1" "unit" "ten" "tens"); auto).
    assert (R2 : reading "e2s" level2) by (apply (level_reading "e1" "e2" "e2s" _ alphabet0); auto; [exact simple_clean|reflexivity|left; reflexivity]).
    assert (R3 : reading "e3s" level3) by (apply (level_reading "e2s" "e3" "e3s" _ alphabet2); auto; [exact clean2|reflexivity|left; reflexivity]).
    assert (R6 : reading "e6s" level6) by (apply (level_reading "e3s" "e6" "e6s" _ alphabet3); auto; [exact clean3|reflexivity|left; reflexivity]).
    assert (R9 : reading "e9s" level9) by (apply (level_reading "e6s" "e9" "e9s" _ alphabet6); auto; [exact clean6|reflexivity|left; reflexivity]).
    apply (level_reading "e9s" "e12" "e12s" _ alphabet9); auto; [exact clean9|reflexivity].
  Qed.
  Hypothesis Hpoint : ~ In "point"%string ws.
  Lemma no_point i j : ~ phrase tokenize tmatch (content d) "point" i j.
  Proof using Hws Hpoint. intros H. apply (proj2 Hws) in H; [|vm_compute; tauto]. destruct H as [_ H]. apply nth_error_In in H. auto. Qed.
  Lemma no_decimal i j e : ~ W "en_decimal" i j e.
  Proof using HB Hws Hpoint.
    intros H. destruct (worth_inv _ _ _ _ H) as (b & f & vs & [<-|[]] & Hf & Hv & Hw). cbn [rb_terms] in Hv.
    destruct (word_inv _ _ _ _ _ Hv) as (k & vs' & _ & P & _). exact (no_point _ _ P).
  Qed.
  Lemma reading_number : reading "number" level12.
  Proof using HB Hws Hpoint.
    assert (R : reading "en_number" level12).
    { intros i j e H. destruct (worth_inv _ _ _ _ H) as (b & f & vs & [<-|[]] & Hf & Hv & Hw). cbn [rb_terms rb_f] in *.
      destruct (rule_inv _ _ _ _ _ Hv) as (k & a & vs' & -> & W1 & Hn). apply nil_inv in Hn as [-> ->].
      apply (f_call1 _ _ _ _ Hf), (a_part _ 0) in Hw. injection Hw as ->. exact (reading12 _ _ _ W1). }
    intros i j e H. destruct (worth_inv _ _ _ _ H) as (b & f & vs & Hb & Hf & Hv & Hw).
    destruct Hb as [<-|[<-|[<-|[<-|[]]]]]; cbn [rb_terms rb_f] in *; destruct (rule_inv _ _ _ _ _ Hv) as (k & a & vs' & -> & W1 & Hv').
    - apply nil_inv in Hv' as [-> ->]. apply (f_call1 _ _ _ _ Hf), (a_part _ 0) in Hw. injection Hw as ->. exact (R _ _ _ W1).
    - exfalso. exact (no_decimal _ _ _ W1).
    - exfalso. destruct (rule_inv _ _ _ _ _ Hv') as (k' & a' & vs'' & _ & W2 & _). exact (no_decimal _ _ _ W2).
    - exfalso. destruct (word_inv _ _ _ _ _ Hv') as (k' & vs'' & _ & _ & Hv''). destruct (rule_inv _ _ _ _ _ Hv'') as (k'' & a' & vs3 & _ & W2 & _). exact (no_decimal _ _ _ W2).
  Qed.


  (** ** Putting readings together *)
  Hypothesis HB' : forall x b, In b (alternatives x) -> has_body gs x b.
  Notation word_at := (word_at tokenize tmatch d ws number_words Hws).
  Notation read_single := (read_single tokenize tmatch gs d ws number_words english_items Hws HB').
  Lemma read_up x y b i j e : In b (alternatives x) -> b = mkRb [nonterm y] (call1 (part 1)) -> W y i j e -> W x i j e.
  Proof using HB'. exact (ProofReadings.read_up tokenize tmatch gs d english_items HB' x y b i j e). Qed.
  Definition readable (x : string) (L : list string -> Z -> Prop) : Prop :=
    forall mid z, L mid z -> forall pre post, ws = pre ++ mid ++ post -> exists e, W x (length pre) (length pre + length mid) e.
  Lemma readable_simple : readable "e1" simple.
  Proof using Hws HB'.
    assert (U : forall w z, In (w, z) units -> forall pre post, ws = pre ++ w :: post -> W "unit" (length pre) (S (length pre)) (Number z))
      by (apply read_single; [reflexivity|vm_compute; tauto]).
    assert (T : forall w z, In (w, z) teens -> forall pre post, ws = pre ++ w :: post -> W "ten" (length pre) (S (length pre)) (Number z))
      by (apply read_single; [reflexivity|vm_compute; tauto]).
    assert (X : forall w z, In (w, z) tens -> forall pre post, ws = pre ++ w :: post -> W "tens" (length pre) (S (length pre)) (Number z))
      by (apply read_single; [reflexivity|vm_compute; tauto]).
    intros mid z H. destruct H as [w z H|w z H|w z H|w z u k H H'|w z u k H H']; intros pre post E; cbn [app length] in *; rewrite ?Nat.add_1_r.
    - eexists. eapply read_up; [|reflexivity|exact (U _ _ H _ _ E)]. left. reflexivity.
    - eexists. eapply read_up; [|reflexivity|exact (T _ _ H _ _ E)]. right. left. reflexivity.
    - eexists. eapply read_up; [|reflexivity|exact (X _ _ H _ _ E)]. right. right. left. reflexivity.
    - pose proof (X _ _ H _ _ E) as H1. assert (E2 : ws = (pre ++ [w]) ++ u :: post) by (rewrite <- app_assoc; exact E). pose proof (U _ _ H' _ _ E2) as H2.
      rewrite app_length, Nat.add_1_r in H2. replace (length pre + 2) with (S (S (length pre))) by lia.
      exists (Binary Plus (Number z) (Number k)). eapply (wo_body _ _ _ _ "e1" _ _ (mkRb [nonterm "tens"; nonterm "unit"] (call2 Plus (part 1) (part 2))) _ [Some (Number z); Some (Number k)]).
      + apply HB'. do 3 right. left. reflexivity.
      + reflexivity.
      + eapply (ws_rule _ _ _ _ (nonterm "tens")); [reflexivity|exact H1|]. eapply (ws_rule _ _ _ _ (nonterm "unit")); [reflexivity|exact H2|constructor].
      + apply (fw_binary _ Plus); [apply (aw_part _ 0)|apply (aw_part _ 1)]; reflexivity.
    - pose proof (X _ _ H _ _ E) as H1. assert (E2 : ws = (pre ++ [w]) ++ "-"%string :: u :: post) by (rewrite <- app_assoc; exact E).
      pose proof (word_at "-" _ _ ltac:(vm_compute; tauto) E2) as H2.
      assert (E3 : ws = (pre ++ [w; "-"%string]) ++ u :: post) by (rewrite <- app_assoc; exact E). pose proof (U _ _ H' _ _ E3) as H3.
      rewrite app_length in H2, H3. cbn [length] in H2, H3. replace (length pre + 1) with (S (length pre)) in H2 by lia. replace (length pre + 2) with (S (S (length pre))) in H3 by lia.
      replace (length pre + 3) with (S (S (S (length pre)))) by lia.
      exists (Binary Plus (Number z) (Number k)). eapply (wo_body _ _ _ _ "e1" _ _ (mkRb [nonterm "tens"; word "-"; nonterm "unit"] (call2 Plus (part 1) (part 3))) _ [Some (Number z); None; Some (Number k)]).
      + apply HB'. do 4 right. left. reflexivity.
      + reflexivity.
      + eapply (ws_rule _ _ _ _ (nonterm "tens")); [reflexivity|exact H1|]. eapply ws_text; [split; [reflexivity|exact H2]|].
        eapply (ws_rule _ _ _ _ (nonterm "unit")); [reflexivity|exact H3|constructor].
      + apply (fw_binary _ Plus); [apply (aw_part _ 0)|apply (aw_part _ 2)]; reflexivity.
  Qed.
  Lemma readable_level lo sc hi L w s : readable lo L -> alternatives sc = map number_body [(w, s)] -> In w number_words -> alternatives hi = level lo sc ->
    readable hi (step L w s).
  Proof using Hws HB'.
    intros Hlo Esc Hw E.
    assert (Sc : forall pre post, ws = pre ++ w :: post -> W sc (length pre) (S (length pre)) (Number s)).
    { apply (read_single sc _ Esc); [intros w' [<-|[]]; exact Hw|left; reflexivity]. }
    assert (Hi : forall k b, nth_error (level lo sc) k = Some b -> has_body gs hi b) by (intros k b Hb; apply HB'; rewrite E; eapply nth_error_In; exact Hb).
    intros mid z H. destruct H as [mid z H| |mid z H|mid z l mid' z' H J H']; intros pre post Ew.
    - destruct (Hlo _ _ H _ _ Ew) as (e & He). exists e. eapply read_up; [rewrite E; left; reflexivity|reflexivity|exact He].
    - cbn [app length] in *. rewrite Nat.add_1_r. eexists. eapply read_up; [rewrite E; right; left; reflexivity|reflexivity|exact (Sc _ _ Ew)].
    - rewrite <- app_assoc in Ew. destruct (Hlo _ _ H _ _ Ew) as (e & He).
      assert (E2 : ws = (pre ++ mid) ++ w :: post) by (rewrite <- app_assoc; exact Ew). pose proof (Sc _ _ E2) as H2. rewrite app_length in *. cbn [length].
      replace (length pre + (length mid + 1)) with (S (length pre + length mid)) by lia.
      exists (Binary Times e (Number s)). eapply (wo_body _ _ _ _ hi _ _ _ _ [Some e; Some (Number s)]); [apply (Hi 2); reflexivity|reflexivity| |].
      + eapply (ws_rule _ _ _ _ (nonterm lo)); [reflexivity|exact He|]. eapply (ws_rule _ _ _ _ (nonterm sc)); [reflexivity|exact H2|constructor].
      + apply (fw_binary _ Times); [apply (aw_part _ 0)|apply (aw_part _ 1)]; reflexivity.
    - rewrite <- app_assoc in Ew. cbn [app] in Ew. rewrite <- app_assoc in Ew. destruct (Hlo _ _ H _ _ Ew) as (e & He).
      assert (E2 : ws = (pre ++ mid) ++ w :: l ++ mid' ++ post) by (rewrite <- app_assoc; exact Ew). pose proof (Sc _ _ E2) as H2.
      assert (E3 : ws = (pre ++ mid ++ w :: l) ++ mid' ++ post) by (rewrite <- !app_assoc; cbn [app]; exact Ew). destruct (Hlo _ _ H' _ _ E3) as (e' & He').
      destruct J as [->| ->]; cbn [app] in *.
      + rewrite !app_length in *. cbn [length] in *. replace (length pre + (length mid + 1)) with (S (length pre + length mid)) in He' by lia.
        replace (length pre + (length mid + S (length mid'))) with (S (length pre + length mid) + length mid') by lia.
        exists (Binary Plus (Binary Times e (Number s)) e'). eapply (wo_body _ _ _ _ hi _ _ _ _ [Some e; Some (Number s); Some e']); [apply (Hi 3); reflexivity|reflexivity| |].
        * eapply (ws_rule _ _ _ _ (nonterm lo)); [reflexivity|exact He|]. eapply (ws_rule _ _ _ _ (nonterm sc)); [reflexivity|exact H2|].
          eapply (ws_rule _ _ _ _ (nonterm lo)); [reflexivity|exact He'|constructor].
        * apply (fw_binary _ Plus); [constructor; apply (fw_binary _ Times); [apply (aw_part _ 0)|apply (aw_part _ 1)]|apply (aw_part _ 2)]; reflexivity.
      + assert (E4 : ws = (pre ++ mid ++ [w]) ++ "and"%string :: mid' ++ post) by (rewrite <- !app_assoc; cbn [app]; exact Ew).
        pose proof (word_at "and" _ _ ltac:(vm_compute; tauto) E4) as H4.
        rewrite !app_length in *. cbn [length] in *. replace (length pre + (length mid + 1)) with (S (length pre + length mid)) in H4 by lia.
        replace (length pre + (length mid + 2)) with (S (S (length pre + length mid))) in He' by lia.
        replace (length pre + (length mid + S (S (length mid')))) with (S (S (length pre + length mid)) + length mid') by lia.
        exists (Binary Plus (Binary Times e (Number s)) e'). eapply (wo_body _ _ _ _ hi _ _ _ _ [Some e; Some (Number s); None; Some e']); [apply (Hi 4); reflexivity|reflexivity| |].
        * eapply (ws_rule _ _ _ _ (nonterm lo)); [reflexivity|exact He|]. eapply (ws_rule _ _ _ _ (nonterm sc)); [reflexivity|exact H2|].
          eapply ws_text; [split; [reflexivity|exact H4]|]. eapply (ws_rule _ _ _ _ (nonterm lo)); [reflexivity|exact He'|constructor].
        * apply (fw_binary _ Plus); [constructor; apply (fw_binary _ Times); [apply (aw_part _ 0)|apply (aw_part _ 1)]|apply (aw_part _ 3)]; reflexivity.
  Qed.
  Lemma readable12 : readable "e12s" level12.
  Proof using Hws HB'.
    assert (R2 : readable "e2s" level2) by (apply (readable_level "e1" "e2"); [exact readable_simple|reflexivity|vm_compute; tauto|reflexivity]).
    assert (R3 : readable "e3s" level3) by (apply (readable_level "e2s" "e3"); [exact R2|reflexivity|vm_compute; tauto|reflexivity]).
    assert (R6 : readable "e6s" level6) by (apply (readable_level "e3s" "e6"); [exact R3|reflexivity|vm_compute; tauto|reflexivity]).
    assert (R9 : readable "e9s" level9) by (apply (readable_level "e6s" "e9"); [exact R6|reflexivity|vm_compute; tauto|reflexivity]).
    apply (readable_level "e9s" "e12"); [exact R9|reflexivity|vm_compute; tauto|reflexivity].
  Qed.
  Lemma readable_number z : level12 ws z -> exists e, W "number" 0 (length ws) e.
  Proof using Hws HB'.
    intros H. destruct (readable12 _ _ H [] []) as (e & He); [rewrite app_nil_r; reflexivity|]. cbn [length Nat.add] in He. exists e.
    eapply read_up; [left; reflexivity|reflexivity|]. eapply read_up; [left; reflexivity|reflexivity|exact He].
  Qed.
End Read.
