(** What the rules of number.zh.grammar read in a text of numerals. *)
From Coq Require Import Permutation.
From Verif Require Import Base ModelTypes ModelText ModelEarley ModelTrees ModelApi ModelReader ModelLocal
     SpecTypes SpecGrammar SpecTree SpecNotation SpecRefine SpecLocal SpecFuncs SpecMath SpecMeaning
     SpecArith SpecWorth ProofWorth ProofReadings SpecChinese ProofChinese.
Local Open Scope list_scope.

Definition cn_alternatives (x : string) : list rulebody := written chinese_items false x.
Definition sized (s : Z) (l : list string) : list (string * Z) := map (fun w => (w, s)) l.

Section Read.
  Variable tokenize : string -> res (list token).
  Variable tmatch : term -> option token -> bool.
  Variable gs : list grammar_rules.
  Variable d : document.
  Variable ws : list string.
  Hypothesis Hws : in_words tokenize tmatch cn_words d ws.
  (** no 万万, no 点 *)
  Hypothesis Hdouble : forall i j, ~ phrase tokenize tmatch (content d) "万万" i j.
  Hypothesis Hpoint : ~ In "点"%string ws.
  Notation W := (worth tokenize tmatch gs (content d)).
  Notation sl := (sl ws).
  Notation sl_app := (sl_app ws).
  Notation single := (single tokenize tmatch gs d ws).
  Notation phrase_word := (phrase_word tokenize tmatch d ws cn_words Hws).
  Notation rule_inv := (rule_inv tokenize tmatch gs d).
  Notation word_inv := (word_inv tokenize tmatch gs d).
  Notation nil_inv := (nil_inv tokenize tmatch gs d).
  Hypothesis HB : forall x b, has_body gs x b -> In b (cn_alternatives x).
  Lemma worth_inv x i j e : W x i j e -> exists b f vs, In b (cn_alternatives x) /\ rb_f b = Some f /\
    worths tokenize tmatch gs (content d) (rb_terms b) i j vs /\ f_worth vs f e.
  Proof using HB. exact (ProofReadings.worth_inv tokenize tmatch gs d chinese_items HB x i j e). Qed.

  Definition reading (x : string) (L : list string -> Z -> Prop) : Prop :=
    forall i j e, W x i j e -> i <= j /\ L (sl i j) (value e) /\ ((value e < 10 ^ 10)%Z -> modest e).
  Lemma singles : single "cn_unit" cn_units /\ single "cn_zero" (sized 0 zeros) /\ single "cn_e1" (sized 10 ten_words) /\ single "cn_e2" (sized 100 hundred_words) /\
    single "cn_e3" (sized 1000 thousand_words) /\ single "cn_e4" (sized 10000 ["万"%string]) /\ single "cn_e8" (sized 100000000 ["亿"%string]).
  Proof using HB Hws Hdouble.
    assert (K : forall x l, cn_alternatives x = map number_body l -> forallb (fun w => existsb (String.eqb w) cn_words) (map fst l) = true -> single x l).
    { intros x l E H. apply (single_table tokenize tmatch gs d ws cn_words chinese_items Hws HB); [exact E|]. rewrite forallb_forall in H. intros w Hw.
      apply H in Hw. apply existsb_exists in Hw as (w' & Hw & Ew). apply String.eqb_eq in Ew. subst w'. exact Hw. }
    repeat split; try (apply K; vm_compute; reflexivity).
    intros i j e H. destruct (worth_inv _ _ _ _ H) as (b & f & vs & Hb & Hf & Hv & Hw).
    change (cn_alternatives "cn_e8") with (map number_body (sized 100000000 ["亿"; "万万"]%string)) in Hb. cbn [sized map] in Hb.
    destruct Hb as [<-|[<-|[]]]; cbn [number_body rb_terms rb_f fst snd] in *; injection Hf as <-; destruct (word_inv _ _ _ _ _ Hv) as (k & vs' & -> & P & Hn).
    - apply nil_inv in Hn as [-> ->]. apply phrase_word in P as [-> P]; [|vm_compute; tauto].
      apply (f_call1 _ (Arg "int" (VInt 100000000))) in Hw; [|reflexivity]. inversion Hw; subst. exists "亿"%string, 100000000%Z. cbn. auto.
    - destruct (Hdouble _ _ P).
  Qed.
  Lemma unit_reading : reading "cn_unit" one_unit.
  Proof using HB Hws Hdouble.
    intros i j e H. destruct singles as (S1 & _). destruct (S1 _ _ _ H) as (w & z & Hin & -> & -> & ->). split; [lia|]. split; [constructor; exact Hin|].
    intros _. apply unit_bounds in Hin. cbn [modest]. unfold small. lia.
  Qed.
  Lemma scale_inv sc s l : single sc (sized s l) -> forall i j e, W sc i j e -> e = Number s /\ j = S i /\ exists w, In w l /\ sl i j = [w].
  Proof using.
    intros H i j e He. destruct (H _ _ _ He) as (w & z & Hin & -> & -> & E). apply in_map_iff in Hin as (w' & [= -> ->] & Hin). split; [reflexivity|]. split; [reflexivity|]. eauto.
  Qed.
  Lemma tens_reading : reading "cn_e1s" g_tens.
  Proof using HB Hws Hdouble.
    destruct singles as (SU & SZ & ST & _). pose proof unit_reading as RU.
    assert (T : forall i j e, W "cn_e1" i j e -> e = Number 10 /\ j = S i /\ exists w, In w ten_words /\ sl i j = [w]) by (apply scale_inv; exact ST).
    assert (O : forall i j e, W "cn_zero" i j e -> e = Number 0 /\ j = S i /\ exists w, In w zeros /\ sl i j = [w]) by (apply scale_inv; exact SZ).
    assert (U : forall i j e, W "cn_unit" i j e -> exists w z, In (w, z) cn_units /\ e = Number z /\ j = S i /\ sl i j = [w] /\ (1 <= z <= 9)%Z).
    { intros i j e He. destruct (SU _ _ _ He) as (w & z & Hin & -> & -> & E). exists w, z. pose proof (unit_bounds _ _ Hin). auto. }
    intros i j e H. destruct (worth_inv _ _ _ _ H) as (b & f & vs & Hb & Hf & Hv & Hw).
    destruct Hb as [<-|[<-|[<-|[<-|[<-|[<-|[]]]]]]]; cbn [up rb_terms rb_f] in *; destruct (rule_inv _ _ _ _ _ Hv) as (k & a & vs' & -> & W1 & Hv').
    - apply nil_inv in Hv' as [-> ->]. apply (f_call1 _ _ _ _ Hf), (a_part _ 0) in Hw. injection Hw as ->.
      destruct (T _ _ _ W1) as (-> & -> & w & Hw & ->). split; [lia|]. split; [left; apply ct_ten; exact Hw|]. intros _. cbn. unfold small. lia.
    - destruct (rule_inv _ _ _ _ _ Hv') as (k' & a' & vs'' & -> & W2 & Hn). apply nil_inv in Hn as [-> ->].
      destruct (f_call2 _ _ _ _ _ _ Hf Hw) as (x1 & y1 & -> & A1 & A2). apply (a_part _ 0) in A1. apply (a_part _ 1) in A2. injection A1 as ->. injection A2 as ->.
      destruct (T _ _ _ W1) as (-> & -> & w & Hin & E1). destruct (U _ _ _ W2) as (u & z & Hu & -> & -> & E2 & B).
      split; [lia|]. rewrite (sl_app i (S i) (S (S i))) by lia. rewrite E1, E2. split; [left; apply ct_teen; assumption|].
      intros _. cbn [modest value]. unfold small. repeat split; try lia; try discriminate.
    - destruct (rule_inv _ _ _ _ _ Hv') as (k' & a' & vs'' & -> & W2 & Hn). apply nil_inv in Hn as [-> ->].
      destruct (f_call2 _ _ _ _ _ _ Hf Hw) as (x1 & y1 & -> & A1 & A2). apply (a_part _ 0) in A1. apply (a_part _ 1) in A2. injection A1 as ->. injection A2 as ->.
      destruct (U _ _ _ W1) as (u & z & Hu & -> & -> & E2 & B). destruct (T _ _ _ W2) as (-> & -> & w & Hin & E1).
      split; [lia|]. rewrite (sl_app i (S i) (S (S i))) by lia. rewrite E1, E2. split; [left; apply ct_tens; assumption|].
      intros _. cbn [modest value]. unfold small. repeat split; try lia; try discriminate.
    - destruct (rule_inv _ _ _ _ _ Hv') as (k' & a' & vs'' & -> & W2 & Hv''). destruct (rule_inv _ _ _ _ _ Hv'') as (k'' & a'' & vs3 & -> & W3 & Hn). apply nil_inv in Hn as [-> ->].
      destruct (f_call2 _ _ _ _ _ _ Hf Hw) as (x1 & y1 & -> & A1 & A2). apply a_product in A1 as (x2 & y2 & -> & A1 & A3).
      apply (a_part _ 2) in A2. apply (a_part _ 0) in A1. apply (a_part _ 1) in A3. injection A1 as ->. injection A2 as ->. injection A3 as ->.
      destruct (U _ _ _ W1) as (u & z & Hu & -> & -> & E1 & B). destruct (T _ _ _ W2) as (-> & -> & w & Hin & E2). destruct (U _ _ _ W3) as (u' & z' & Hu' & -> & -> & E3 & B').
      split; [lia|]. rewrite (sl_app i (S i) (S (S (S i)))), (sl_app (S i) (S (S i)) (S (S (S i)))) by lia. rewrite E1, E2, E3. split; [left; apply ct_both; assumption|].
      intros _. cbn [modest value]. unfold small. repeat split; try lia; try discriminate.
    - apply nil_inv in Hv' as [-> ->]. apply (f_call1 _ _ _ _ Hf), (a_part _ 0) in Hw. injection Hw as ->.
      destruct (RU _ _ _ W1) as (H1 & H2 & H3). split; [exact H1|]. split; [|exact H3]. left. destruct H2. apply ct_unit. assumption.
    - apply nil_inv in Hv' as [-> ->]. apply (f_call1 _ _ _ _ Hf), (a_part _ 0) in Hw. injection Hw as ->.
      destruct (O _ _ _ W1) as (-> & -> & w & Hw & ->). split; [lia|]. split; [right; exists w; auto|]. intros _. cbn. unfold small. lia.
  Qed.

  Lemma level_reading p sc lo hi A P L words s tenth : g_clean A P -> g_clean A L -> reading p P -> reading lo L -> single sc (sized s words) ->
    cn_alternatives hi = cn_level p sc lo tenth -> (s = 10 * tenth)%Z -> (0 < tenth)%Z -> (s < 10 ^ 10)%Z -> reading hi (g_scale P L words s tenth).
  Proof using HB Hws Hdouble.
    intros CP CL RP RL Hsc E Hs Ht Hb10 i j e H. destruct singles as (SU & SZ & _).
    assert (Sc : forall i j e, W sc i j e -> e = Number s /\ j = S i /\ exists w, In w words /\ sl i j = [w]) by (apply scale_inv; exact Hsc).
    assert (O : forall i j e, W "cn_zero" i j e -> e = Number 0 /\ j = S i /\ exists w, In w zeros /\ sl i j = [w]) by (apply scale_inv; exact SZ).
    assert (Pos : forall i j e, W p i j e -> (0 <= value e)%Z) by (intros i' j' e' H'; apply RP in H' as (_ & H' & _); apply CP in H'; tauto).
    assert (Pos' : forall i j e, W lo i j e -> (0 <= value e)%Z) by (intros i' j' e' H'; apply RL in H' as (_ & H' & _); apply CL in H'; tauto).
    destruct (worth_inv _ _ _ _ H) as (b & f & vs & Hb & Hf & Hv & Hw). rewrite E in Hb.
    destruct Hb as [<-|[<-|[<-|[<-|[<-|[]]]]]]; cbn [rb_terms rb_f] in *; destruct (rule_inv _ _ _ _ _ Hv) as (k & a & vs' & -> & W1 & Hv').
    - destruct (rule_inv _ _ _ _ _ Hv') as (k' & a' & vs'' & -> & W2 & Hn). apply nil_inv in Hn as [-> ->].
      destruct (f_call2 _ _ _ _ _ _ Hf Hw) as (x1 & y1 & -> & A1 & A2). apply (a_part _ 0) in A1. apply (a_part _ 1) in A2. injection A1 as ->. injection A2 as ->.
      pose proof (Pos _ _ _ W1) as P1. destruct (RP _ _ _ W1) as (H1 & H2 & H3). destruct (Sc _ _ _ W2) as (-> & -> & w & Hin & E1).
      split; [lia|]. rewrite (sl_app i k (S k)) by lia. rewrite E1. split; [apply gs_exact; assumption|].
      cbn [value modest]. intros Hz. unfold small in *. split; [apply H3; nia|]. repeat split; try lia; intros; lia.
    - destruct (rule_inv _ _ _ _ _ Hv') as (k' & a' & vs'' & -> & W2 & Hv''). destruct (rule_inv _ _ _ _ _ Hv'') as (k'' & a'' & vs3 & -> & W3 & Hn). apply nil_inv in Hn as [-> ->].
      destruct (f_call2 _ _ _ _ _ _ Hf Hw) as (x1 & y1 & -> & A1 & A2). apply a_product in A1 as (x2 & y2 & -> & A1 & A3).
      inversion A2 as [|f2 ? F2|]; subst f2 y1. destruct (f_call2 _ Times (Arg "int" (VInt tenth)) (part 3) _ _ eq_refl F2) as (x3 & y3 & -> & A4 & A5).
      inversion A4; subst. apply (a_part _ 2) in A5. apply (a_part _ 0) in A1. apply (a_part _ 1) in A3. injection A1 as ->. injection A5 as ->. injection A3 as ->.
      pose proof (Pos _ _ _ W1) as P1. destruct (RP _ _ _ W1) as (H1 & H2 & H3). destruct (Sc _ _ _ W2) as (-> & -> & w & Hin & E1).
      destruct (SU _ _ _ W3) as (u & z & Hu & -> & -> & E3). pose proof (unit_bounds _ _ Hu) as B.
      split; [lia|]. rewrite (sl_app i k (S (S k))), (sl_app k (S k) (S (S k))) by lia. rewrite E1, E3. split; [apply gs_unit; assumption|].
      cbn [value modest]. intros Hz. unfold small in *. repeat split; try (apply H3); try nia; try discriminate.
    - destruct (rule_inv _ _ _ _ _ Hv') as (k' & a' & vs'' & -> & W2 & Hv''). destruct (rule_inv _ _ _ _ _ Hv'') as (k'' & a'' & vs3 & -> & W3 & Hn). apply nil_inv in Hn as [-> ->].
      destruct (f_call2 _ _ _ _ _ _ Hf Hw) as (x1 & y1 & -> & A1 & A2). apply a_product in A1 as (x2 & y2 & -> & A1 & A3).
      apply (a_part _ 2) in A2. apply (a_part _ 0) in A1. apply (a_part _ 1) in A3. injection A1 as ->. injection A2 as ->. injection A3 as ->.
      pose proof (Pos _ _ _ W1) as P1. destruct (RP _ _ _ W1) as (H1 & H2 & H3). destruct (Sc _ _ _ W2) as (-> & -> & w & Hin & E1).
      pose proof (Pos' _ _ _ W3) as P3. destruct (RL _ _ _ W3) as (H1' & H2' & H3').
      split; [lia|]. rewrite (sl_app i k k''), (sl_app k (S k) k'') by lia. rewrite E1. split; [apply (gs_next _ _ _ _ _ _ _ _ _ _ H2 Hin H2')|].
      cbn [value modest]. intros Hz. unfold small in *. repeat split; try (apply H3); try (apply H3'); try nia; try discriminate.
    - destruct (rule_inv _ _ _ _ _ Hv') as (k' & a' & vs'' & -> & W2 & Hv''). destruct (rule_inv _ _ _ _ _ Hv'') as (k'' & a'' & vs3 & -> & W3 & Hv3).
      destruct (rule_inv _ _ _ _ _ Hv3) as (k3 & a3 & vs4 & -> & W4 & Hn). apply nil_inv in Hn as [-> ->].
      destruct (f_call2 _ _ _ _ _ _ Hf Hw) as (x1 & y1 & -> & A1 & A2). apply a_product in A1 as (x2 & y2 & -> & A1 & A3).
      apply (a_part _ 3) in A2. apply (a_part _ 0) in A1. apply (a_part _ 1) in A3. injection A1 as ->. injection A2 as ->. injection A3 as ->.
      pose proof (Pos _ _ _ W1) as P1. destruct (RP _ _ _ W1) as (H1 & H2 & H3). destruct (Sc _ _ _ W2) as (-> & -> & w & Hin & E1).
      destruct (O _ _ _ W3) as (-> & -> & o & Ho & E2). pose proof (Pos' _ _ _ W4) as P3. destruct (RL _ _ _ W4) as (H1' & H2' & H3').
      split; [lia|]. rewrite (sl_app i k k3), (sl_app k (S k) k3), (sl_app (S k) (S (S k)) k3) by lia. rewrite E1, E2. split; [apply (gs_gap _ _ _ _ _ _ _ _ _ _ _ H2 Hin Ho H2')|].
      cbn [value modest]. intros Hz. unfold small in *. repeat split; try (apply H3); try (apply H3'); try nia; try discriminate.
    - apply nil_inv in Hv' as [-> ->]. apply (f_call1 _ _ _ _ Hf), (a_part _ 0) in Hw. injection Hw as ->.
      destruct (RL _ _ _ W1) as (H1 & H2 & H3). split; [exact H1|]. split; [apply gs_up; exact H2|exact H3].
  Qed.
  Lemma reading8 : reading "cn_e8s" g_numbers.
  Proof using HB Hws Hdouble.
    destruct singles as (_ & _ & _ & S2 & S3 & S4 & S8).
    assert (R2 : reading "cn_e2s" g_hundreds) by (apply (level_reading "cn_unit" "cn_e2" "cn_e1s" "cn_e2s" alphabet1); auto using one_clean, tens_clean, unit_reading, tens_reading; lia).
    assert (R3 : reading "cn_e3s" g_thousands).
    { apply (level_reading "cn_unit" "cn_e3" "cn_e2s" "cn_e3s" alphabet2); auto using unit_reading, (fits_clean _ _ _ fits2); try lia.
      eapply clean_more; [|exact one_clean]. in_alphabet. }
    assert (R4 : reading "cn_e4s" g_myriads) by (apply (level_reading "cn_e3s" "cn_e4" "cn_e3s" "cn_e4s" alphabet3); auto using (fits_clean _ _ _ fits3); lia).
    apply (level_reading "cn_e4s" "cn_e8" "cn_e4s" "cn_e8s" alphabet4); auto using (fits_clean _ _ _ fits4); lia.
  Qed.
  Lemma no_cn_point i j : ~ phrase tokenize tmatch (content d) "点" i j.
  Proof using Hws Hpoint. intros H. apply (proj2 Hws) in H; [|vm_compute; tauto]. destruct H as [_ H]. apply nth_error_In in H. auto. Qed.
  Lemma no_cn_decimal i j e : ~ W "cn_decimal" i j e.
  Proof using HB Hws Hpoint.
    intros H. destruct (worth_inv _ _ _ _ H) as (b & f & vs & [<-|[]] & Hf & Hv & Hw). cbn [rb_terms] in Hv.
    destruct (word_inv _ _ _ _ _ Hv) as (k & vs' & _ & P & _). exact (no_cn_point _ _ P).
  Qed.
  (** a scale on its own is not a numeral *)
  Hypothesis Hstart : exists w r, ws = w :: r /\ (In w zeros \/ starter w).
  Lemma not_bare sc s l j e : single sc (sized s l) -> (forall w, In w l -> ~ In w zeros) -> (forall w, In w l -> ~ starter w) -> ~ W sc 0 j e.
  Proof using Hstart.
    intros H H1 H2 C. destruct (scale_inv _ _ _ H _ _ _ C) as (_ & -> & w & Hw & E). destruct Hstart as (w' & r & Ew & S).
    unfold ProofReadings.sl in E. rewrite Ew in E. cbn in E. injection E as E. rewrite E in S. destruct S as [S|S]; [exact (H1 _ Hw S)|exact (H2 _ Hw S)].
  Qed.
  Lemma reading_number j e : W "number" 0 j e -> g_numbers (sl 0 j) (value e) /\ ((value e < 10 ^ 10)%Z -> modest e).
  Proof using HB Hws Hdouble Hpoint Hstart.
    intros H. destruct singles as (_ & _ & _ & S2 & S3 & S4 & S8). destruct (worth_inv _ _ _ _ H) as (b & f & vs & Hb & Hf & Hv & Hw).
    destruct Hb as [<-|[<-|[<-|[<-|[<-|[<-|[<-|[]]]]]]]]; cbn [up rb_terms rb_f] in *; destruct (rule_inv _ _ _ _ _ Hv) as (k & a & vs' & -> & W1 & Hv').
    - apply nil_inv in Hv' as [-> ->]. apply (f_call1 _ _ _ _ Hf), (a_part _ 0) in Hw. injection Hw as ->. destruct (reading8 _ _ _ W1) as (_ & R). exact R.
    - destruct (no_cn_decimal _ _ _ W1).
    - destruct (rule_inv _ _ _ _ _ Hv') as (k' & a' & vs'' & _ & W2 & _). destruct (no_cn_decimal _ _ _ W2).
    - exfalso. revert W1. apply (not_bare _ _ _ _ _ S2); [apply apart; vm_compute; reflexivity|not_starters].
    - exfalso. revert W1. apply (not_bare _ _ _ _ _ S3); [apply apart; vm_compute; reflexivity|not_starters].
    - exfalso. revert W1. apply (not_bare _ _ _ _ _ S4); [apply apart; vm_compute; reflexivity|not_starters].
    - exfalso. revert W1. apply (not_bare _ _ _ _ _ S8); [apply apart; vm_compute; reflexivity|not_starters].
  Qed.

  (** ** Putting readings together *)
  Hypothesis HB' : forall x b, In b (cn_alternatives x) -> has_body gs x b.
  Notation readable := (readable tokenize tmatch gs d ws).
  Lemma read_up x y b i j e : In b (cn_alternatives x) -> b = up y -> W y i j e -> W x i j e.
  Proof using HB'. exact (ProofReadings.read_up tokenize tmatch gs d chinese_items HB' x y b i j e). Qed.
  (** the word stands alone *)
  Definition at_word (x : string) (l : list (string * Z)) : Prop :=
    forall w z, In (w, z) l -> forall pre post, ws = pre ++ w :: post -> W x (length pre) (S (length pre)) (Number z).
  Lemma words_read : at_word "cn_unit" cn_units /\ at_word "cn_zero" (sized 0 zeros) /\ at_word "cn_e1" (sized 10 ten_words) /\ at_word "cn_e2" (sized 100 hundred_words) /\
    at_word "cn_e3" (sized 1000 thousand_words) /\ at_word "cn_e4" (sized 10000 ["万"%string]) /\ at_word "cn_e8" (sized 100000000 ["亿"%string]).
  Proof using Hws HB'.
    assert (K : forall x l, cn_alternatives x = map number_body l -> forallb (fun w => existsb (String.eqb w) cn_words) (map fst l) = true -> at_word x l).
    { intros x l E H. refine (read_single tokenize tmatch gs d ws cn_words chinese_items Hws HB' x l E _). rewrite forallb_forall in H. intros w Hw.
      apply H in Hw. apply existsb_exists in Hw as (w' & Hw & Ew). apply String.eqb_eq in Ew. subst w'. exact Hw. }
    repeat split; try (apply K; vm_compute; reflexivity).
    intros w z [[= <- <-]|[]] pre post Ew. eapply (wo_body _ _ _ _ _ _ _ (number_body ("亿"%string, 100000000%Z)) _ [None]).
    - apply HB'. left. reflexivity.
    - reflexivity.
    - eapply ws_text; [|constructor]. split; [reflexivity|]. apply (word_at tokenize tmatch d ws cn_words Hws) with (post := post); [vm_compute; tauto|exact Ew].
    - constructor. constructor.
  Qed.
  Lemma sized_in s l w : In w l -> In (w, s) (sized s l).
  Proof using. intros H. apply (in_map (fun w => (w, s))) in H. exact H. Qed.
  Lemma readable_tens : readable "cn_e1s" g_tens.
  Proof using Hws HB'.
    destruct words_read as (U & O & T & _).
    assert (Hi : forall k b, nth_error (cn_alternatives "cn_e1s") k = Some b -> has_body gs "cn_e1s" b) by (intros k b Hb; apply HB'; eapply nth_error_In; exact Hb).
    intros mid z H. destruct H as [H|(o & Ho & -> & ->)].
    2: { intros pre post E. cbn [app length] in *. rewrite Nat.add_1_r. eexists. eapply read_up; [do 5 right; left; reflexivity|reflexivity|exact (O _ _ (sized_in _ _ _ Ho) _ _ E)]. }
    destruct H as [w z H|t H|t w z H H'|w z t H H'|w z t u k H H' H'']; intros pre post E; cbn [app length] in *; rewrite ?Nat.add_1_r.
    - eexists. eapply read_up; [do 4 right; left; reflexivity|reflexivity|exact (U _ _ H _ _ E)].
    - eexists. eapply read_up; [left; reflexivity|reflexivity|exact (T _ _ (sized_in _ _ _ H) _ _ E)].
    - pose proof (T _ _ (sized_in _ _ _ H) _ _ E) as H1. assert (E2 : ws = (pre ++ [t]) ++ w :: post) by (rewrite <- app_assoc; exact E). pose proof (U _ _ H' _ _ E2) as H2.
      rewrite app_length, Nat.add_1_r in H2. replace (length pre + 2) with (S (S (length pre))) by lia.
      eexists. eapply (wo_body _ _ _ _ _ _ _ _ _ [Some _; Some _]); [apply (Hi 1); reflexivity|reflexivity| |].
      + eapply (ws_rule _ _ _ _ (nonterm "cn_e1")); [reflexivity|exact H1|]. eapply (ws_rule _ _ _ _ (nonterm "cn_unit")); [reflexivity|exact H2|constructor].
      + apply (fw_binary _ Plus); [apply (aw_part _ 0)|apply (aw_part _ 1)]; reflexivity.
    - pose proof (U _ _ H _ _ E) as H1. assert (E2 : ws = (pre ++ [w]) ++ t :: post) by (rewrite <- app_assoc; exact E). pose proof (T _ _ (sized_in _ _ _ H') _ _ E2) as H2.
      rewrite app_length, Nat.add_1_r in H2. replace (length pre + 2) with (S (S (length pre))) by lia.
      eexists. eapply (wo_body _ _ _ _ _ _ _ _ _ [Some _; Some _]); [apply (Hi 2); reflexivity|reflexivity| |].
      + eapply (ws_rule _ _ _ _ (nonterm "cn_unit")); [reflexivity|exact H1|]. eapply (ws_rule _ _ _ _ (nonterm "cn_e1")); [reflexivity|exact H2|constructor].
      + apply (fw_binary _ Times); [apply (aw_part _ 0)|apply (aw_part _ 1)]; reflexivity.
    - pose proof (U _ _ H _ _ E) as H1. assert (E2 : ws = (pre ++ [w]) ++ t :: u :: post) by (rewrite <- app_assoc; exact E). pose proof (T _ _ (sized_in _ _ _ H') _ _ E2) as H2.
      assert (E3 : ws = (pre ++ [w; t]) ++ u :: post) by (rewrite <- app_assoc; exact E). pose proof (U _ _ H'' _ _ E3) as H3.
      rewrite app_length in H2, H3. cbn [length] in H2, H3. replace (length pre + 1) with (S (length pre)) in H2 by lia. replace (length pre + 2) with (S (S (length pre))) in H3 by lia.
      replace (length pre + 3) with (S (S (S (length pre)))) by lia.
      eexists. eapply (wo_body _ _ _ _ _ _ _ _ _ [Some _; Some _; Some _]); [apply (Hi 3); reflexivity|reflexivity| |].
      + eapply (ws_rule _ _ _ _ (nonterm "cn_unit")); [reflexivity|exact H1|]. eapply (ws_rule _ _ _ _ (nonterm "cn_e1")); [reflexivity|exact H2|].
        eapply (ws_rule _ _ _ _ (nonterm "cn_unit")); [reflexivity|exact H3|constructor].
      + apply (fw_binary _ Plus); [constructor; apply (fw_binary _ Times); [apply (aw_part _ 0)|apply (aw_part _ 1)]|apply (aw_part _ 2)]; reflexivity.
  Qed.
  Lemma readable_unit : readable "cn_unit" one_unit.
  Proof using Hws HB'.
    destruct words_read as (U & _). intros mid z [w k H] pre post E. cbn [app length] in *. rewrite Nat.add_1_r. eexists. exact (U _ _ H _ _ E).
  Qed.
  Lemma readable_level p sc lo hi P L words s tenth : readable p P -> readable lo L -> at_word sc (sized s words) -> cn_alternatives hi = cn_level p sc lo tenth ->
    readable hi (g_scale P L words s tenth).
  Proof using Hws HB'.
    intros RP RL Sc E. destruct words_read as (U & O & _).
    assert (Hi : forall k b, nth_error (cn_level p sc lo tenth) k = Some b -> has_body gs hi b) by (intros k b Hb; apply HB'; rewrite E; eapply nth_error_In; exact Hb).
    intros mid z H. destruct H as [mid z H|mid z w H Hw|mid z w u k H Hw Hu|mid z w mid' z' H Hw H'|mid z w o mid' z' H Hw Ho H']; intros pre post Ew.
    - destruct (RL _ _ H _ _ Ew) as (e & He). exists e. eapply read_up; [rewrite E; do 4 right; left; reflexivity|reflexivity|exact He].
    - rewrite <- app_assoc in Ew. destruct (RP _ _ H _ _ Ew) as (e & He).
      assert (E2 : ws = (pre ++ mid) ++ w :: post) by (rewrite <- app_assoc; exact Ew). pose proof (Sc _ _ (sized_in _ _ _ Hw) _ _ E2) as H2. rewrite app_length in *. cbn [length].
      replace (length pre + (length mid + 1)) with (S (length pre + length mid)) by lia.
      eexists. eapply (wo_body _ _ _ _ hi _ _ _ _ [Some _; Some _]); [apply (Hi 0); reflexivity|reflexivity| |].
      + eapply (ws_rule _ _ _ _ (nonterm p)); [reflexivity|exact He|]. eapply (ws_rule _ _ _ _ (nonterm sc)); [reflexivity|exact H2|constructor].
      + apply (fw_binary _ Times); [apply (aw_part _ 0)|apply (aw_part _ 1)]; reflexivity.
    - rewrite <- app_assoc in Ew. destruct (RP _ _ H _ _ Ew) as (e & He). cbn [app] in Ew.
      assert (E2 : ws = (pre ++ mid) ++ w :: u :: post) by (rewrite <- app_assoc; exact Ew). pose proof (Sc _ _ (sized_in _ _ _ Hw) _ _ E2) as H2.
      assert (E3 : ws = (pre ++ mid ++ [w]) ++ u :: post) by (rewrite <- !app_assoc; cbn [app]; exact Ew). pose proof (U _ _ Hu _ _ E3) as H3.
      rewrite !app_length in *. cbn [length] in *. replace (length pre + (length mid + 1)) with (S (length pre + length mid)) in H3 by lia.
      replace (length pre + (length mid + 2)) with (S (S (length pre + length mid))) by lia.
      eexists. eapply (wo_body _ _ _ _ hi _ _ _ _ [Some _; Some _; Some _]); [apply (Hi 1); reflexivity|reflexivity| |].
      + eapply (ws_rule _ _ _ _ (nonterm p)); [reflexivity|exact He|]. eapply (ws_rule _ _ _ _ (nonterm sc)); [reflexivity|exact H2|].
        eapply (ws_rule _ _ _ _ (nonterm "cn_unit")); [reflexivity|exact H3|constructor].
      + apply (fw_binary _ Plus); [constructor; apply (fw_binary _ Times); [apply (aw_part _ 0)|apply (aw_part _ 1)]; reflexivity|].
        constructor. apply (fw_binary _ Times); [constructor|apply (aw_part _ 2); reflexivity].
    - rewrite <- app_assoc in Ew. cbn [app] in Ew. destruct (RP _ _ H _ _ Ew) as (e & He).
      assert (E2 : ws = (pre ++ mid) ++ w :: mid' ++ post) by (rewrite <- app_assoc; exact Ew). pose proof (Sc _ _ (sized_in _ _ _ Hw) _ _ E2) as H2.
      assert (E3 : ws = (pre ++ mid ++ [w]) ++ mid' ++ post) by (rewrite <- !app_assoc; cbn [app]; exact Ew). destruct (RL _ _ H' _ _ E3) as (e' & He').
      rewrite !app_length in *. cbn [length] in *. replace (length pre + (length mid + 1)) with (S (length pre + length mid)) in He' by lia.
      replace (length pre + (length mid + S (length mid'))) with (S (length pre + length mid) + length mid') by lia.
      eexists. eapply (wo_body _ _ _ _ hi _ _ _ _ [Some _; Some _; Some _]); [apply (Hi 2); reflexivity|reflexivity| |].
      + eapply (ws_rule _ _ _ _ (nonterm p)); [reflexivity|exact He|]. eapply (ws_rule _ _ _ _ (nonterm sc)); [reflexivity|exact H2|].
        eapply (ws_rule _ _ _ _ (nonterm lo)); [reflexivity|exact He'|constructor].
      + apply (fw_binary _ Plus); [constructor; apply (fw_binary _ Times); [apply (aw_part _ 0)|apply (aw_part _ 1)]|apply (aw_part _ 2)]; reflexivity.
    - rewrite <- app_assoc in Ew. cbn [app] in Ew. destruct (RP _ _ H _ _ Ew) as (e & He).
      assert (E2 : ws = (pre ++ mid) ++ w :: o :: mid' ++ post) by (rewrite <- app_assoc; exact Ew). pose proof (Sc _ _ (sized_in _ _ _ Hw) _ _ E2) as H2.
      assert (E4 : ws = (pre ++ mid ++ [w]) ++ o :: mid' ++ post) by (rewrite <- !app_assoc; cbn [app]; exact Ew). pose proof (O _ _ (sized_in _ _ _ Ho) _ _ E4) as H4.
      assert (E3 : ws = (pre ++ mid ++ [w; o]) ++ mid' ++ post) by (rewrite <- !app_assoc; cbn [app]; exact Ew). destruct (RL _ _ H' _ _ E3) as (e' & He').
      rewrite !app_length in *. cbn [length] in *. replace (length pre + (length mid + 1)) with (S (length pre + length mid)) in H4 by lia.
      replace (length pre + (length mid + 2)) with (S (S (length pre + length mid))) in He' by lia.
      replace (length pre + (length mid + S (S (length mid')))) with (S (S (length pre + length mid)) + length mid') by lia.
      eexists. eapply (wo_body _ _ _ _ hi _ _ _ _ [Some _; Some _; Some _; Some _]); [apply (Hi 3); reflexivity|reflexivity| |].
      + eapply (ws_rule _ _ _ _ (nonterm p)); [reflexivity|exact He|]. eapply (ws_rule _ _ _ _ (nonterm sc)); [reflexivity|exact H2|].
        eapply (ws_rule _ _ _ _ (nonterm "cn_zero")); [reflexivity|exact H4|]. eapply (ws_rule _ _ _ _ (nonterm lo)); [reflexivity|exact He'|constructor].
      + apply (fw_binary _ Plus); [constructor; apply (fw_binary _ Times); [apply (aw_part _ 0)|apply (aw_part _ 1)]|apply (aw_part _ 3)]; reflexivity.
  Qed.
  Lemma readable_numbers : readable "cn_e8s" g_numbers.
  Proof using Hws HB'.
    destruct words_read as (_ & _ & _ & S2 & S3 & S4 & S8).
    assert (R2 : readable "cn_e2s" g_hundreds) by (apply (readable_level "cn_unit" "cn_e2" "cn_e1s"); auto using readable_unit, readable_tens).
    assert (R3 : readable "cn_e3s" g_thousands) by (apply (readable_level "cn_unit" "cn_e3" "cn_e2s"); auto using readable_unit).
    assert (R4 : readable "cn_e4s" g_myriads) by (apply (readable_level "cn_e3s" "cn_e4" "cn_e3s"); auto).
    apply (readable_level "cn_e4s" "cn_e8" "cn_e4s"); auto.
  Qed.
  Lemma readable_number z : g_numbers ws z -> exists e, W "number" 0 (length ws) e.
  Proof using Hws HB'.
    intros H. destruct (readable_numbers _ _ H [] []) as (e & He); [rewrite app_nil_r; reflexivity|]. cbn [length Nat.add] in He. exists e.
    eapply read_up; [left; reflexivity|reflexivity|exact He].
  Qed.
End Read.
