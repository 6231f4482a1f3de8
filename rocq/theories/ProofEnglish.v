(** The rules of number.en.grammar and English numerals: one value for every numeral. *)
From Coq Require Import Permutation.
From Verif Require Import Base ModelTypes ModelText ModelEarley ModelTrees ModelApi ModelReader ModelLocal
     SpecTypes SpecGrammar SpecTree SpecNotation SpecRefine SpecLocal SpecFuncs SpecMath SpecMeaning
     SpecArith SpecWorth ProofWorth SpecEnglish.
Local Open Scope list_scope.

(** ** The languages of the rules *)
Lemma cut_once (w : string) pre : forall pre' post post', pre ++ w :: post = pre' ++ w :: post' -> ~ In w pre -> ~ In w pre' -> pre = pre' /\ post = post'.
  Proof.
    induction pre as [|x pre IH]; intros [|x' pre'] post post' E N N'; cbn [app] in E.
    - injection E as ->. auto.
    - injection E as -> _. destruct N'. left. reflexivity.
    - injection E as -> _. destruct N. left. reflexivity.
    - injection E as -> E. destruct (IH pre' post post' E) as [-> ->]; auto; [intros C; apply N; right; exact C|intros C; apply N'; right; exact C].
  Qed.
Section Step.
  Variable L : list string -> Z -> Prop.
  Variables (w : string) (s : Z).
  Inductive step : list string -> Z -> Prop :=
  | st_up ws z : L ws z -> step ws z
  | st_bare : step [w] s
  | st_times ws z : L ws z -> step (ws ++ [w]) (z * s)
  | st_plus ws z l ws' z' : L ws z -> joint l -> L ws' z' -> step (ws ++ w :: l ++ ws') (z * s + z').

  (** words of an alphabet; not empty; no "and" in front *)
  Definition clean (A : list string) (K : list string -> Z -> Prop) : Prop :=
    forall ws z, K ws z -> ws <> [] /\ hd ""%string ws <> "and"%string /\ Forall (fun x => In x A) ws /\ (0 <= z)%Z.
  Definition functional (K : list string -> Z -> Prop) : Prop := forall ws z z', K ws z -> K ws z' -> z = z'.
  Variable A : list string.
  Hypothesis HA : clean A L.
  Hypothesis Hw : w <> "and"%string.
  Hypothesis Hs : (0 < s)%Z.

  Lemma step_clean : clean (w :: "and"%string :: A) step.
  Proof using HA Hw Hs.
    assert (K : forall ws, Forall (fun x => In x A) ws -> Forall (fun x => In x (w :: "and"%string :: A)) ws)
      by (intros ws; apply Forall_impl; intros x Hx; right; right; exact Hx).
    assert (Kw : In w (w :: "and"%string :: A)) by (left; reflexivity).
    assert (Ka : In "and"%string (w :: "and"%string :: A)) by (right; left; reflexivity).
    intros ws z H. destruct H as [ws z H| |ws z H|ws z l ws' z' H J H'].
    - destruct (HA _ _ H) as (H1 & H2 & H3 & H4). auto.
    - split; [discriminate|]. split; [exact Hw|]. split; [auto|lia].
    - destruct (HA _ _ H) as (H1 & H2 & H3 & H4). destruct ws as [|x ws]; [congruence|]. split; [discriminate|]. split; [exact H2|]. split; [|nia].
      apply Forall_app. split; [apply K; exact H3|auto].
    - destruct (HA _ _ H) as (H1 & H2 & H3 & H4). destruct (HA _ _ H') as (H1' & H2' & H3' & H4').
      destruct ws as [|x ws]; [congruence|]. split; [discriminate|]. split; [exact H2|]. split; [|nia].
      apply Forall_app. split; [apply K; exact H3|]. constructor; [exact Kw|]. apply Forall_app. split; [|apply K; exact H3'].
      destruct J as [->| ->]; auto.
  Qed.

  Hypothesis HwA : ~ In w A.
  Hypothesis HL : functional L.
  Definition around (pre post : list string) (z : Z) : Prop :=
    (pre = [] /\ post = [] /\ z = s) \/ (exists a, L pre a /\ post = [] /\ z = (a * s)%Z) \/
    (exists a b l p, L pre a /\ joint l /\ L p b /\ post = l ++ p /\ z = (a * s + b)%Z).
  Lemma step_cases ws z : step ws z -> (L ws z /\ ~ In w ws) \/ exists pre post, ws = pre ++ w :: post /\ ~ In w pre /\ around pre post z.
  Proof using HA HwA.
    assert (K : forall ws z, L ws z -> ~ In w ws).
    { intros v y H Hin. destruct (HA _ _ H) as (_ & _ & F & _). rewrite Forall_forall in F. exact (HwA (F _ Hin)). }
    intros H. destruct H as [ws z H| |ws z H|ws z l ws' z' H J H'].
    - left. split; [exact H|]. eapply K; exact H.
    - right. exists [], []. split; [reflexivity|]. split; [intros []|]. left. auto.
    - right. exists ws, []. split; [reflexivity|]. split; [eapply K; exact H|]. right. left. exists z. auto.
    - right. exists ws, (l ++ ws'). split; [reflexivity|]. split; [eapply K; exact H|]. right. right. exists z, z', l, ws'. auto.
  Qed.
  Lemma joint_unique l l' p p' z z' : joint l -> joint l' -> L p z -> L p' z' -> l ++ p = l' ++ p' -> p = p'.
  Proof using HA.
    intros [->| ->] [->| ->] H H' E; cbn [app] in E; [exact E| | |injection E; auto].
    - subst p. destruct (HA _ _ H) as (_ & C & _). contradiction C. reflexivity.
    - subst p'. destruct (HA _ _ H') as (_ & C & _). contradiction C. reflexivity.
  Qed.
  Lemma around_one pre post z z' : around pre post z -> around pre post z' -> z = z'.
  Proof using HA HL.
    assert (K : forall z, ~ L [] z) by (intros y H; destruct (HA _ _ H) as (C & _); congruence).
    assert (K' : forall l p z, joint l -> L p z -> l ++ p <> []).
    { intros l p y J H E. apply app_eq_nil in E as [_ ->]. exact (K _ H). }
    intros [(-> & -> & ->)|[(a & H1 & -> & ->)|(a & b & l & p & H1 & J & H2 & -> & ->)]]
      [(E1 & E2 & E3)|[(a' & H1' & E2 & E3)|(a' & b' & l' & p' & H1' & J' & H2' & E2 & E3)]]; subst.
    - reflexivity.
    - exfalso. exact (K _ H1').
    - exfalso. exact (K _ H1').
    - exfalso. exact (K _ H1).
    - rewrite (HL _ _ _ H1 H1'). reflexivity.
    - exfalso. symmetry in E2. exact (K' _ _ _ J' H2' E2).
    - exfalso. exact (K _ H1).
    - exfalso. exact (K' _ _ _ J H2 E2).
    - rewrite <- (joint_unique _ _ _ _ _ _ J J' H2 H2' E2) in H2'. rewrite (HL _ _ _ H1 H1'), (HL _ _ _ H2 H2'). reflexivity.
  Qed.
  Lemma step_functional : functional step.
  Proof using HA HwA HL.
    intros ws z z' H H'. destruct (step_cases _ _ H) as [[H1 N]|(pre & post & -> & N & R)]; destruct (step_cases _ _ H') as [[H1' N']|(pre' & post' & E & N' & R')].
    - exact (HL _ _ _ H1 H1').
    - exfalso. apply N. rewrite E. apply in_app_iff. right. left. reflexivity.
    - exfalso. apply N'. apply in_app_iff. right. left. reflexivity.
    - destruct (cut_once _ _ _ _ _ E N N') as [<- <-]. exact (around_one _ _ _ _ R R').
  Qed.
End Step.

Inductive simple : list string -> Z -> Prop :=
| si_unit w z : In (w, z) units -> simple [w] z
| si_teen w z : In (w, z) teens -> simple [w] z
| si_tens w z : In (w, z) tens -> simple [w] z
| si_both w z u k : In (w, z) tens -> In (u, k) units -> simple [w; u] (z + k)
| si_hyphen w z u k : In (w, z) tens -> In (u, k) units -> simple [w; "-"%string; u] (z + k).
Definition alphabet0 : list string := "-"%string :: map fst units ++ map fst teens ++ map fst tens.
Definition level2 := step simple "hundred" 100.
Definition level3 := step level2 "thousand" 1000.
Definition level6 := step level3 "million" 1000000.
Definition level9 := step level6 "billion" 1000000000.
Definition level12 := step level9 "trillion" 1000000000000.
Definition alphabet2 := "hundred"%string :: "and"%string :: alphabet0.
Definition alphabet3 := "thousand"%string :: "and"%string :: alphabet2.
Definition alphabet6 := "million"%string :: "and"%string :: alphabet3.
Definition alphabet9 := "billion"%string :: "and"%string :: alphabet6.
Definition alphabet12 := "trillion"%string :: "and"%string :: alphabet9.

Lemma not_mem x l : existsb (String.eqb x) l = false -> ~ In x l.
Proof. intros H C. assert (existsb (String.eqb x) l = true) by (apply existsb_exists; exists x; split; [exact C|apply String.eqb_refl]). congruence. Qed.
Lemma fst_in {B} (l : list (string * B)) w z : In (w, z) l -> In w (map fst l).
Proof. apply (in_map fst). Qed.
Lemma table_facts w z : In (w, z) (units ++ teens ++ tens) -> (0 <= z <= 90)%Z /\ w <> "and"%string.
Proof.
  assert (K : Forall (fun wz => (0 <= snd wz <= 90)%Z /\ fst wz <> "and"%string) (units ++ teens ++ tens)).
  { unfold units, teens, tens. cbn [app]. repeat (constructor; [split; [cbn; lia|discriminate]|]). constructor. }
  rewrite Forall_forall in K. intros H. exact (K _ H).
Qed.
Lemma table_functional (l : list (string * Z)) : NoDup (map fst l) -> forall w z z', In (w, z) l -> In (w, z') l -> z = z'.
Proof.
  induction l as [|[a b] l IH]; intros ND w z z' H H'; [destruct H|]. cbn [map fst] in ND. inversion ND as [|? ? N1 N2]; subst.
  destruct H as [E|H], H' as [E'|H'].
  - congruence.
  - exfalso. apply N1. injection E as -> _. eapply fst_in; exact H'.
  - exfalso. apply N1. injection E' as -> _. eapply fst_in; exact H.
  - eapply IH; eauto.
Qed.
Lemma tables_nodup : NoDup (map fst (units ++ teens ++ tens)).
Proof.
  assert (K : forall L : list string, (if list_eq_dec string_dec (nodup string_dec L) L then true else false) = true -> NoDup L).
  { intros L H. destruct (list_eq_dec string_dec (nodup string_dec L) L) as [E|]; [|discriminate]. rewrite <- E. apply NoDup_nodup. }
  apply K. vm_compute. reflexivity.
Qed.
Ltac words := repeat (apply Forall_cons; [solve [eauto]|]); apply Forall_nil.
Lemma simple_clean : clean alphabet0 simple.
Proof.
  assert (U : forall w z, In (w, z) units -> In (w, z) (units ++ teens ++ tens)) by (intros; apply in_app_iff; auto).
  assert (T : forall w z, In (w, z) teens -> In (w, z) (units ++ teens ++ tens)) by (intros; apply in_app_iff; right; apply in_app_iff; auto).
  assert (X : forall w z, In (w, z) tens -> In (w, z) (units ++ teens ++ tens)) by (intros; apply in_app_iff; right; apply in_app_iff; auto).
  assert (F : forall w z, In (w, z) (units ++ teens ++ tens) -> In w alphabet0).
  { intros w z H. right. apply fst_in in H. rewrite !map_app in H. exact H. }
  assert (D : In "-"%string alphabet0) by (left; reflexivity).
  intros ws z H. destruct H as [w z H|w z H|w z H|w z u k H H'|w z u k H H'].
  - destruct (table_facts _ _ (U _ _ H)). split; [discriminate|]. split; [auto|]. split; [words|lia].
  - destruct (table_facts _ _ (T _ _ H)). split; [discriminate|]. split; [auto|]. split; [words|lia].
  - destruct (table_facts _ _ (X _ _ H)). split; [discriminate|]. split; [auto|]. split; [words|lia].
  - destruct (table_facts _ _ (X _ _ H)). destruct (table_facts _ _ (U _ _ H')). split; [discriminate|]. split; [auto|]. split; [words|lia].
  - destruct (table_facts _ _ (X _ _ H)). destruct (table_facts _ _ (U _ _ H')). split; [discriminate|]. split; [auto|]. split; [words|lia].
Qed.
Lemma simple_functional : functional simple.
Proof.
  assert (U : forall w z, In (w, z) units -> In (w, z) (units ++ teens ++ tens)) by (intros; apply in_app_iff; auto).
  assert (T : forall w z, In (w, z) teens -> In (w, z) (units ++ teens ++ tens)) by (intros; apply in_app_iff; right; apply in_app_iff; auto).
  assert (X : forall w z, In (w, z) tens -> In (w, z) (units ++ teens ++ tens)) by (intros; apply in_app_iff; right; apply in_app_iff; auto).
  assert (One : forall w z z', In (w, z) (units ++ teens ++ tens) -> In (w, z') (units ++ teens ++ tens) -> z = z') by (apply table_functional, tables_nodup).
  intros ws z z' H H'. inversion H; subst; inversion H'; subst; try (eapply One; solve [eauto]); (f_equal; eapply One; solve [eauto]).
Qed.

Ltac level L := apply step_clean; [exact L|discriminate|reflexivity].
Lemma clean2 : clean alphabet2 level2. Proof. level simple_clean. Qed.
Lemma clean3 : clean alphabet3 level3. Proof. level clean2. Qed.
Lemma clean6 : clean alphabet6 level6. Proof. level clean3. Qed.
Lemma clean9 : clean alphabet9 level9. Proof. level clean6. Qed.
Lemma clean12 : clean alphabet12 level12. Proof. level clean9. Qed.
Lemma functional12 : functional level12.
Proof.
  apply (step_functional _ _ _ alphabet9 clean9); [apply not_mem; vm_compute; reflexivity|].
  apply (step_functional _ _ _ alphabet6 clean6); [apply not_mem; vm_compute; reflexivity|].
  apply (step_functional _ _ _ alphabet3 clean3); [apply not_mem; vm_compute; reflexivity|].
  apply (step_functional _ _ _ alphabet2 clean2); [apply not_mem; vm_compute; reflexivity|].
  apply (step_functional _ _ _ alphabet0 simple_clean); [apply not_mem; vm_compute; reflexivity|].
  exact simple_functional.
Qed.

(** ** Numerals belong to the language *)
Lemma hundred_simple ws z : below_hundred ws z -> simple ws z /\ (0 < z)%Z.
Proof.
  assert (U : forall w z, In (w, z) units -> In (w, z) (units ++ teens ++ tens)) by (intros; apply in_app_iff; auto).
  assert (T : Forall (fun wz => 0 < snd wz)%Z (teens ++ tens)).
  { unfold teens, tens. cbn [app]. repeat (constructor; [cbn; lia|]). constructor. }
  rewrite Forall_forall in T.
  assert (T1 : forall w z, In (w, z) teens -> (0 < z)%Z) by (intros w y H; apply (T (w, y)), in_app_iff; auto).
  assert (T2 : forall w z, In (w, z) tens -> (0 < z)%Z) by (intros w y H; apply (T (w, y)), in_app_iff; auto).
  intros H. destruct H as [w z H N|w z H|w z H|w z u k H H' N|w z u k H H' N].
  - destruct (table_facts _ _ (U _ _ H)). split; [apply si_unit; exact H|lia].
  - split; [apply si_teen; exact H|eauto].
  - split; [apply si_tens; exact H|eauto].
  - destruct (table_facts _ _ (U _ _ H')). pose proof (T2 _ _ H). split; [apply si_both; auto|lia].
  - destruct (table_facts _ _ (U _ _ H')). pose proof (T2 _ _ H). split; [apply si_hyphen; auto|lia].
Qed.
Lemma thousand_level ws z : below_thousand ws z -> level2 ws z /\ (0 < z)%Z.
Proof.
  assert (U : forall w z, In (w, z) units -> (0 <= z)%Z) by (intros w y H; apply (table_facts w y), in_app_iff; auto).
  intros H. destruct H as [ws z H|w z H N|w z l ws k H N J H'].
  - apply hundred_simple in H as [H1 H2]. split; [apply st_up; exact H1|exact H2].
  - pose proof (U _ _ H). split; [|lia]. apply (st_times _ _ _ [w] z). apply si_unit. exact H.
  - pose proof (U _ _ H). apply hundred_simple in H' as [H1 H2]. split; [|lia]. apply (st_plus _ _ _ [w] z l ws k); auto. apply si_unit. exact H.
Qed.
Lemma grouped_step (L : list string -> Z -> Prop) sc (w : string) s : (0 < s)%Z -> (forall ws z, below_thousand ws z -> L ws z) -> (forall ws z, grouped sc ws z -> L ws z /\ (0 < z)%Z) ->
  forall ws z, grouped ((w, s) :: sc) ws z -> step L w s ws z /\ (0 < z)%Z.
Proof.
  intros Hs HB HG ws z H. inversion H as [|? ? ? ? H1|? ? ? ? ? H1|? ? ? ? ? ? ? ? H1 J H2]; subst.
  - destruct (HG _ _ H1). split; [apply st_up|]; auto.
  - split; [apply st_times; auto|]. apply thousand_level in H1 as [_ H1]. nia.
  - destruct (HG _ _ H2). split; [apply st_plus; auto|]. apply thousand_level in H1 as [_ H1]. nia.
Qed.
Lemma grouped_levels ws z :
  (grouped [] ws z -> level2 ws z /\ (0 < z)%Z) /\ (grouped (skipn 1 scales) ws z -> level9 ws z /\ (0 < z)%Z) /\ (grouped scales ws z -> level12 ws z /\ (0 < z)%Z).
Proof.
  assert (B2 : forall ws z, below_thousand ws z -> level2 ws z) by (intros v y H; apply thousand_level in H; tauto).
  assert (B3 : forall ws z, below_thousand ws z -> level3 ws z) by (intros v y H; apply st_up; auto).
  assert (B6 : forall ws z, below_thousand ws z -> level6 ws z) by (intros v y H; apply st_up; auto).
  assert (B9 : forall ws z, below_thousand ws z -> level9 ws z) by (intros v y H; apply st_up; auto).
  assert (G2 : forall ws z, grouped [] ws z -> level2 ws z /\ (0 < z)%Z) by (intros v y H; inversion H; subst; apply thousand_level; assumption).
  assert (G3 : forall ws z, grouped (skipn 3 scales) ws z -> level3 ws z /\ (0 < z)%Z) by (apply grouped_step; [reflexivity|auto|exact G2]).
  assert (G6 : forall ws z, grouped (skipn 2 scales) ws z -> level6 ws z /\ (0 < z)%Z) by (apply grouped_step; [reflexivity|auto|exact G3]).
  assert (G9 : forall ws z, grouped (skipn 1 scales) ws z -> level9 ws z /\ (0 < z)%Z) by (apply grouped_step; [reflexivity|auto|exact G6]).
  assert (G12 : forall ws z, grouped scales ws z -> level12 ws z /\ (0 < z)%Z) by (apply grouped_step; [reflexivity|auto|exact G9]).
  auto.
Qed.
Lemma zero_unit : simple ["zero"%string] 0.
Proof. apply si_unit. left. reflexivity. Qed.
Lemma english_level ws z : english ws z -> level12 ws z /\ (0 <= z)%Z /\ ((z < 1000000000000)%Z -> ~ In "trillion"%string ws).
Proof.
  intros [[-> ->]|H].
  - split; [do 5 apply st_up; exact zero_unit|]. split; [lia|]. intros _. intros [C|[]]; discriminate C.
  - destruct (proj2 (proj2 (grouped_levels ws z)) H) as [H1 H2]. split; [exact H1|]. split; [lia|]. intros Hz.
    inversion H as [|? ? ? ? H3|? ? ? ? ? H3|? ? ? ? ? ? ? ? H3 J H4]; subst.
    + destruct (proj1 (proj2 (grouped_levels ws z)) H3) as [H4 _]. destruct (clean9 _ _ H4) as (_ & _ & F & _). rewrite Forall_forall in F.
      intros C. apply F in C. revert C. apply not_mem. vm_compute. reflexivity.
    + apply thousand_level in H3 as [_ H3]. lia.
    + apply thousand_level in H3 as [_ H3]. destruct (proj1 (proj2 (grouped_levels ws' z')) H4) as [_ H5]. lia.
Qed.

(** ** Every number below 10^15 has a numeral, and every numeral one number. *)
Lemma unit_of k : (0 <= k <= 9)%Z -> exists w, In (w, k) units.
Proof.
  intros H. assert (K : (k = 0 \/ k = 1 \/ k = 2 \/ k = 3 \/ k = 4 \/ k = 5 \/ k = 6 \/ k = 7 \/ k = 8 \/ k = 9)%Z) by lia.
  destruct K as [-> | [-> | [-> | [-> | [-> | [-> | [-> | [-> | [-> | ->]]]]]]]]]; eexists; unfold units; repeat first [left; reflexivity|right].
Qed.
Lemma teen_of k : (10 <= k <= 19)%Z -> exists w, In (w, k) teens.
Proof.
  intros H. assert (K : (k = 10 \/ k = 11 \/ k = 12 \/ k = 13 \/ k = 14 \/ k = 15 \/ k = 16 \/ k = 17 \/ k = 18 \/ k = 19)%Z) by lia.
  destruct K as [-> | [-> | [-> | [-> | [-> | [-> | [-> | [-> | [-> | ->]]]]]]]]]; eexists; unfold teens; repeat first [left; reflexivity|right].
Qed.
Lemma tens_of k : (2 <= k <= 9)%Z -> exists w, In (w, (10 * k)%Z) tens.
Proof.
  intros H. assert (K : (k = 2 \/ k = 3 \/ k = 4 \/ k = 5 \/ k = 6 \/ k = 7 \/ k = 8 \/ k = 9)%Z) by lia.
  destruct K as [-> | [-> | [-> | [-> | [-> | [-> | [-> | ->]]]]]]]; eexists; unfold tens; repeat first [left; reflexivity|right].
Qed.
Lemma hundred_of n : (0 < n < 100)%Z -> exists ws, below_hundred ws n.
Proof.
  intros H. destruct (Z_lt_le_dec n 10) as [H1|H1].
  { destruct (unit_of n ltac:(lia)) as (w & Hw). exists [w]. apply bh_unit; [exact Hw|lia]. }
  destruct (Z_lt_le_dec n 20) as [H2|H2].
  { destruct (teen_of n ltac:(lia)) as (w & Hw). exists [w]. apply bh_teen. exact Hw. }
  pose proof (Z.div_mod n 10 ltac:(lia)) as E. pose proof (Z.mod_pos_bound n 10 ltac:(lia)) as B.
  destruct (tens_of (n / 10) ltac:(lia)) as (w & Hw). destruct (Z.eq_dec (n mod 10) 0) as [Z0|Z0].
  - exists [w]. apply bh_tens. replace n with (10 * (n / 10))%Z by lia. replace (10 * (n / 10) / 10)%Z with (n / 10)%Z in *; [exact Hw|].
    replace (10 * (n / 10))%Z with n by lia. reflexivity.
  - destruct (unit_of (n mod 10) ltac:(lia)) as (u & Hu). exists [w; u]. rewrite E. apply bh_both; auto.
Qed.
Lemma thousand_of n : (0 < n < 1000)%Z -> exists ws, below_thousand ws n.
Proof.
  intros H. destruct (Z_lt_le_dec n 100) as [H1|H1].
  { destruct (hundred_of n ltac:(lia)) as (ws & Hw). exists ws. apply bt_small. exact Hw. }
  pose proof (Z.div_mod n 100 ltac:(lia)) as E. pose proof (Z.mod_pos_bound n 100 ltac:(lia)) as B.
  destruct (unit_of (n / 100) ltac:(lia)) as (w & Hw). destruct (Z.eq_dec (n mod 100) 0) as [Z0|Z0].
  - exists [w; "hundred"%string]. replace n with (n / 100 * 100)%Z by lia. replace (n / 100 * 100 / 100)%Z with (n / 100)%Z by (replace (n / 100 * 100)%Z with n by lia; reflexivity).
    apply bt_hundreds; [exact Hw|lia].
  - destruct (hundred_of (n mod 100) ltac:(lia)) as (ws & Hs). exists (w :: "hundred"%string :: [] ++ ws).
    replace n with (n / 100 * 100 + n mod 100)%Z at 1 by lia. apply bt_both; auto; [lia|left; reflexivity].
Qed.
Lemma grouped_of w s sc : (0 < s)%Z -> (forall m, (0 < m < s)%Z -> exists ws, grouped sc ws m) ->
  forall n, (0 < n < s * 1000)%Z -> exists ws, grouped ((w, s) :: sc) ws n.
Proof.
  intros Hs IH n H. destruct (Z_lt_le_dec n s) as [H1|H1].
  { destruct (IH n ltac:(lia)) as (ws & Hw). exists ws. apply gr_skip. exact Hw. }
  pose proof (Z.div_mod n s ltac:(lia)) as E. pose proof (Z.mod_pos_bound n s ltac:(lia)) as B.
  assert (Q : (0 < n / s < 1000)%Z) by (split; [apply Z.div_str_pos; lia|apply Z.div_lt_upper_bound; lia]).
  destruct (thousand_of (n / s) Q) as (ws & Hw). remember (n / s)%Z as q eqn:Eq. remember (n mod s)%Z as r eqn:Er. clear Eq Er.
  destruct (Z.eq_dec r 0) as [Z0|Z0].
  - exists (ws ++ [w]). replace n with (q * s)%Z by nia. apply gr_exact. exact Hw.
  - destruct (IH r ltac:(lia)) as (ws' & Hw'). exists (ws ++ w :: [] ++ ws'). replace n with (q * s + r)%Z by nia.
    apply gr_both; auto. left. reflexivity.
Qed.
Lemma english_exists n : (0 <= n < 10 ^ 15)%Z -> exists ws, english ws n.
Proof.
  intros H. destruct (Z.eq_dec n 0) as [->|Hn]; [exists ["zero"%string]; left; auto|].
  assert (K : exists ws, grouped scales ws n).
  { apply grouped_of; [lia| |lia]. intros a Ha. apply grouped_of; [lia| |lia]. intros b Hb. apply grouped_of; [lia| |lia].
    intros c Hc. apply grouped_of; [lia| |lia]. intros m Hm. destruct (thousand_of m ltac:(lia)) as (ws & Hw). exists ws. apply gr_last. exact Hw. }
  destruct K as (ws & K). exists ws. right. exact K.
Qed.
Lemma english_functional ws z z' : english ws z -> english ws z' -> z = z'.
Proof. intros H H'. apply english_level in H as [H _]. apply english_level in H' as [H' _]. exact (functional12 _ _ _ H H'). Qed.
