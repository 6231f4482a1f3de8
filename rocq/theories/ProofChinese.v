(** What the rules of number.zh.grammar read as numbers agrees with the numerals. *)
From Verif Require Import Base ModelTypes SpecTypes SpecGrammar SpecArith SpecWorth SpecChinese.
Local Open Scope list_scope.

(** ** Words *)
Definition starter (w : string) : Prop := In w (map fst cn_units) \/ In w ten_words.
Lemma not_mem x l : existsb (String.eqb x) l = false -> ~ In x l.
Proof. intros H C. assert (existsb (String.eqb x) l = true) by (apply existsb_exists; exists x; split; [exact C|apply String.eqb_refl]). congruence. Qed.
Lemma apart l m : forallb (fun x => negb (existsb (String.eqb x) m)) l = true -> forall x, In x l -> ~ In x m.
Proof. intros H x Hx. rewrite forallb_forall in H. apply not_mem. specialize (H x Hx). destruct (existsb _ m); [discriminate|reflexivity]. Qed.
Lemma unit_in w z : In (w, z) cn_units -> In w (map fst cn_units).
Proof. intros H. apply (in_map fst) in H. exact H. Qed.
Lemma unit_bounds w z : In (w, z) cn_units -> (1 <= z <= 9)%Z.
Proof.
  intros H. assert (K : forallb (fun r => (1 <=? snd r)%Z && (snd r <=? 9)%Z) cn_units = true) by (vm_compute; reflexivity).
  rewrite forallb_forall in K. specialize (K _ H). cbn [snd] in K. apply andb_true_iff in K as [K1 K2]. apply Z.leb_le in K1, K2. lia.
Qed.
Lemma unit_functional w z z' : In (w, z) cn_units -> In (w, z') cn_units -> z = z'.
Proof.
  assert (K : forallb (fun r => forallb (fun r' => negb (String.eqb (fst r) (fst r')) || (snd r =? snd r')%Z) cn_units) cn_units = true) by (vm_compute; reflexivity).
  intros H H'. rewrite forallb_forall in K. specialize (K _ H). cbn beta in K. rewrite forallb_forall in K. specialize (K _ H'). cbn [fst snd] in K.
  rewrite String.eqb_refl in K. cbn in K. apply Z.eqb_eq. exact K.
Qed.
Lemma zero_not_starter o : In o zeros -> ~ starter o.
Proof. intros H [C|C]; revert o H C; apply apart; vm_compute; reflexivity. Qed.
Lemma zero_not_unit o z : In o zeros -> ~ In (o, z) cn_units.
Proof. intros H C. apply unit_in in C. apply (zero_not_starter o H). left. exact C. Qed.
Lemma ten_not_unit t z : In t ten_words -> ~ In (t, z) cn_units.
Proof. intros H C. apply unit_in in C. revert t H C. apply apart. vm_compute. reflexivity. Qed.
Lemma zero_not_ten o : In o zeros -> ~ In o ten_words.
Proof. intros H C. apply (zero_not_starter o H). right. exact C. Qed.

(** ** What the rules read *)
(** cn_e1s *)
Definition g_tens (ws : list string) (z : Z) : Prop := cn_tens ws z \/ exists o, In o zeros /\ ws = [o] /\ z = 0%Z.
Section Scale.
  Variables P L : list string -> Z -> Prop.
  Variable words : list string.
  Variables s tenth : Z.
  Inductive g_scale : list string -> Z -> Prop :=
  | gs_up ws z : L ws z -> g_scale ws z
  | gs_exact p a w : P p a -> In w words -> g_scale (p ++ [w]) (a * s)
  | gs_unit p a w u k : P p a -> In w words -> In (u, k) cn_units -> g_scale (p ++ [w; u]) (a * s + tenth * k)
  | gs_next p a w q b : P p a -> In w words -> L q b -> g_scale (p ++ w :: q) (a * s + b)
  | gs_gap p a w o q b : P p a -> In w words -> In o zeros -> L q b -> g_scale (p ++ w :: o :: q) (a * s + b).
End Scale.
Definition g_hundreds := g_scale one_unit g_tens hundred_words 100 10.
Definition g_thousands := g_scale one_unit g_hundreds thousand_words 1000 100.
Definition g_myriads := g_scale g_thousands g_thousands ["万"%string] 10000 1000.
Definition g_numbers := g_scale g_myriads g_myriads ["亿"%string] 100000000 10000000.

(** words of [A] only, at least one, and a leading zero is alone or followed by a scale *)
Definition g_clean (A : list string) (K : list string -> Z -> Prop) : Prop :=
  forall ws z, K ws z -> ws <> [] /\ Forall (fun x => In x A) ws /\ (0 <= z)%Z /\
    forall o q, In o zeros -> ws = o :: q -> q = [] \/ exists w r, q = w :: r /\ ~ starter w.
(** numerals begin with a digit or ten *)
Definition z_clean (K : list string -> Z -> Prop) : Prop := forall ws z, K ws z -> exists w r, ws = w :: r /\ starter w.
Definition agree (K G : list string -> Z -> Prop) : Prop := forall ws z z', K ws z -> G ws z' -> z = z'.
Definition within (K G : list string -> Z -> Prop) : Prop := forall ws z, K ws z -> G ws z.
Definition has_units (G : list string -> Z -> Prop) : Prop := forall w z, In (w, z) cn_units -> G [w] z.

Lemma cut_at (words : list string) p w q p' w' q' : In w words -> In w' words -> Forall (fun x => ~ In x words) p -> Forall (fun x => ~ In x words) p' ->
  p ++ w :: q = p' ++ w' :: q' -> p = p' /\ w = w' /\ q = q'.
Proof.
  intros Hw Hw'. revert p'. induction p as [|x p IH]; intros p' Hp Hp' E; destruct p' as [|x' p']; cbn [app] in E.
  - injection E as <- <-. auto.
  - injection E as <- _. inversion Hp' as [|? ? C _]; subst. contradiction.
  - injection E as -> _. inversion Hp as [|? ? C _]; subst. contradiction.
  - injection E as <- E. inversion Hp; subst. inversion Hp'; subst. destruct (IH p') as (-> & -> & ->); auto.
Qed.

Section Step.
  Variables A words : list string.
  Variables zP zL gP gL : list string -> Z -> Prop.
  Variables s tenth : Z.
  Hypothesis HA : forall x, In x A -> ~ In x words.
  Hypothesis Hw : forall x, In x words -> ~ starter x.
  Hypothesis Hs : (s = 10 * tenth)%Z.
  Hypothesis Ht : (10 <= tenth)%Z.
  Hypothesis CP : g_clean A gP.
  Hypothesis CL : g_clean A gL.
  Hypothesis ZP : z_clean zP.
  Hypothesis ZL : z_clean zL.
  Hypothesis AP : agree zP gP.
  Hypothesis AL : agree zL gL.
  Hypothesis IP : within zP gP.
  Hypothesis IL : within zL gL.
  Hypothesis UL : has_units gL.
  Hypothesis UA : forall x, In x (map fst cn_units) -> In x A.
  Hypothesis OA : forall x, In x zeros -> In x A.
  Notation zH := (cn_scale zP zL words s).
  Notation gH := (g_scale gP gL words s tenth).

  Lemma step_within : within zH gH.
  Proof using IP IL. intros ws z H. destruct H; [apply gs_up|apply gs_exact|apply gs_next|apply gs_gap]; auto. Qed.
  Lemma step_units : has_units gH.
  Proof using UL. intros w z H. apply gs_up, UL. exact H. Qed.
  Lemma step_z_clean : z_clean zH.
  Proof using ZP ZL.
    intros ws z H. destruct H as [ws z H|p a w H _|p a w q b H _ _ _|p a w o q b H _ _ _ _]; [exact (ZL _ _ H)|..];
      destruct (ZP _ _ H) as (x & r & -> & S); eexists; eexists; (split; [reflexivity|exact S]).
  Qed.
  Lemma step_clean : g_clean (words ++ A) gH.
  Proof using CP CL Hw Hs Ht UA OA.
    assert (Sub : forall l, Forall (fun x => In x A) l -> Forall (fun x => In x (words ++ A)) l)
      by (intros l; apply Forall_impl; intros x Hx; apply in_app_iff; auto).
    assert (Z0 : forall p a w q, gP p a -> In w words -> forall o r, In o zeros -> p ++ w :: q = o :: r -> r = [] \/ exists v r', r = v :: r' /\ ~ starter v).
    { intros p a w q H Hin o r Ho E. destruct (CP _ _ H) as (N & _ & _ & Z0). destruct p as [|x p]; [congruence|]. cbn [app] in E. injection E as -> <-.
      destruct (Z0 o p Ho eq_refl) as [->|(v & r' & -> & S)]; right; [exists w, q; split; [reflexivity|apply Hw; exact Hin]|].
      exists v, (r' ++ w :: q). auto. }
    intros ws z H. destruct H as [ws z H|p a w H Hin|p a w u k H Hin Hu|p a w q b H Hin Hq|p a w o q b H Hin Ho Hq].
    - destruct (CL _ _ H) as (N & F & Z & O). auto.
    - destruct (CP _ _ H) as (N & F & Z & O). split; [destruct p; discriminate|]. split.
      { apply Forall_app. split; [apply Sub; exact F|]. constructor; [apply in_app_iff; auto|constructor]. }
      split; [nia|]. exact (Z0 p a w [] H Hin).
    - destruct (CP _ _ H) as (N & F & Z & O). pose proof (unit_bounds _ _ Hu). split; [destruct p; discriminate|]. split.
      { apply Forall_app. split; [apply Sub; exact F|]. constructor; [apply in_app_iff; auto|]. constructor; [|constructor].
        apply in_app_iff. right. apply UA. eapply unit_in; eauto. }
      split; [nia|]. exact (Z0 p a w [u] H Hin).
    - destruct (CP _ _ H) as (N & F & Z & O). destruct (CL _ _ Hq) as (N' & F' & Z' & O'). split; [destruct p; discriminate|]. split.
      { apply Forall_app. split; [apply Sub; exact F|]. constructor; [apply in_app_iff; auto|apply Sub; exact F']. }
      split; [nia|]. exact (Z0 p a w q H Hin).
    - destruct (CP _ _ H) as (N & F & Z & O). destruct (CL _ _ Hq) as (N' & F' & Z' & O'). split; [destruct p; discriminate|]. split.
      { apply Forall_app. split; [apply Sub; exact F|]. constructor; [apply in_app_iff; auto|]. constructor; [apply in_app_iff; auto|apply Sub; exact F']. }
      split; [nia|]. exact (Z0 p a w (o :: q) H Hin).
  Qed.
  Lemma step_agree : agree zH gH.
  Proof using HA Hs Ht CP CL ZP ZL AP AL IP IL UL.
    assert (FP : forall p a, gP p a -> Forall (fun x => ~ In x words) p).
    { intros p a H. apply CP in H as (_ & H & _). revert H. apply Forall_impl. exact HA. }
    assert (NL : forall l b p w q, gL l b -> In w words -> l <> p ++ w :: q).
    { intros l b p w q H Hin ->. apply CL in H as (_ & H & _). rewrite Forall_forall in H. apply (HA w); [|exact Hin]. apply H. apply in_app_iff. right. left. reflexivity. }
    assert (One : forall u k b, In (u, k) cn_units -> zL [u] b -> (b <= 9)%Z).
    { intros u k b Hu Hb. rewrite (AL _ _ _ Hb (UL _ _ Hu)). apply unit_bounds in Hu. lia. }
    assert (Nz : forall b, ~ zL [] b) by (intros b Hb; destruct (ZL _ _ Hb) as (w & r & E & _); discriminate).
    assert (Zo : forall o q b, In o zeros -> ~ zL (o :: q) b).
    { intros o q b Ho Hb. destruct (ZL _ _ Hb) as (w & r & E & S). injection E as <- <-. exact (zero_not_starter o Ho S). }
    intros ws z z' Hz Hg. destruct Hz as [ws z H|p a w H Hin|p a w q b H Hin Hq Hb|p a w o q b H Hin Ho Hq Hb].
    - destruct Hg as [ws z' G|p a' w' G Gin|p a' w' u k G Gin Gu|p a' w' q b' G Gin Gq|p a' w' o q b' G Gin Go Gq]; [exact (AL _ _ _ H G)|..];
        exfalso; apply IL in H; exact (NL _ _ _ _ _ H Gin eq_refl).
    - inversion Hg as [? ? G|p' a' w' G Gin E|p' a' w' u k G Gin Gu E|p' a' w' q' b' G Gin Gq E|p' a' w' o' q' b' G Gin Go Gq E]; subst.
      + exfalso. exact (NL _ _ _ _ _ G Hin eq_refl).
      + apply (cut_at words) in E as (E1 & _); eauto; subst. rewrite (AP _ _ _ H G). reflexivity.
      + apply (cut_at words) in E as (_ & _ & E); eauto. discriminate E.
      + apply (cut_at words) in E as (_ & _ & E); eauto; subst. destruct (CL _ _ Gq) as (N & _). congruence.
      + apply (cut_at words) in E as (_ & _ & E); eauto. discriminate E.
    - inversion Hg as [? ? G|p' a' w' G Gin E|p' a' w' u k G Gin Gu E|p' a' w' q' b' G Gin Gq E|p' a' w' o' q' b' G Gin Go Gq E]; subst.
      + exfalso. exact (NL _ _ _ _ _ G Hin eq_refl).
      + apply (cut_at words) in E as (_ & _ & E); eauto; subst. destruct (Nz _ Hq).
      + apply (cut_at words) in E as (_ & _ & E); eauto; subst. exfalso. pose proof (One _ _ _ Gu Hq). lia.
      + apply (cut_at words) in E as (E1 & _ & E); eauto; subst. rewrite (AP _ _ _ H G), (AL _ _ _ Hq Gq). reflexivity.
      + apply (cut_at words) in E as (_ & _ & E); eauto; subst. destruct (Zo _ _ _ Go Hq).
    - inversion Hg as [? ? G|p' a' w' G Gin E|p' a' w' u k G Gin Gu E|p' a' w' q' b' G Gin Gq E|p' a' w' o' q' b' G Gin Go Gq E]; subst.
      + exfalso. exact (NL _ _ _ _ _ G Hin eq_refl).
      + apply (cut_at words) in E as (_ & _ & E); eauto. discriminate E.
      + apply (cut_at words) in E as (_ & _ & E); eauto. injection E as E1 E2; subst. destruct (zero_not_unit _ _ Ho Gu).
      + apply (cut_at words) in E as (_ & _ & E); eauto; subst. exfalso. destruct (CL _ _ Gq) as (_ & _ & _ & O).
        destruct (O o q Ho eq_refl) as [->|(v & r & -> & S)]; [exact (Nz _ Hq)|]. destruct (ZL _ _ Hq) as (v' & r' & E & S'). injection E as <- <-. exact (S S').
      + apply (cut_at words) in E as (E1 & _ & E); eauto. injection E as _ E. subst. rewrite (AP _ _ _ H G), (AL _ _ _ Hq Gq). reflexivity.
  Qed.
End Step.

(** ** Ones and tens *)
Definition alphabet1 : list string := map fst cn_units ++ zeros ++ ten_words.
Definition alphabet2 : list string := hundred_words ++ alphabet1.
Definition alphabet3 : list string := thousand_words ++ alphabet2.
Definition alphabet4 : list string := ["万"%string] ++ alphabet3.
Definition alphabet8 : list string := ["亿"%string] ++ alphabet4.
Lemma clean_more (A B : list string) K : (forall x, In x A -> In x B) -> g_clean A K -> g_clean B K.
Proof.
  intros H C ws z Hk. destruct (C ws z Hk) as (H1 & H2 & H3 & H4). split; [exact H1|]. split; [|auto]. revert H2. apply Forall_impl. exact H.
Qed.
Lemma one_clean : g_clean alphabet1 one_unit.
Proof.
  intros ws z [w k H]. pose proof (unit_bounds _ _ H). split; [discriminate|]. split.
  - constructor; [|constructor]. apply in_app_iff. left. eapply unit_in; eauto.
  - split; [lia|]. intros o q _ [= _ <-]. left. reflexivity.
Qed.
Lemma one_z : z_clean one_unit.
Proof. intros ws z [w k H]. exists w, []. split; [reflexivity|]. left. eapply unit_in; eauto. Qed.
Lemma one_agree : agree one_unit one_unit.
Proof. intros ws z z' [w k H] H'. inversion H'; subst. eapply unit_functional; eauto. Qed.
Lemma tens_z : z_clean cn_tens.
Proof.
  intros ws z H. destruct H as [w z H|t H|t w z H _|w z t H _|w z t u k H _ _]; eexists; eexists; (split; [reflexivity|]);
    first [right; exact H|left; eapply unit_in; eauto].
Qed.
Lemma tens_clean : g_clean alphabet1 g_tens.
Proof.
  assert (U : forall w z, In (w, z) cn_units -> In w alphabet1) by (intros w z H; apply in_app_iff; left; eapply unit_in; eauto).
  assert (T : forall t, In t ten_words -> In t alphabet1) by (intros t H; apply in_app_iff; right; apply in_app_iff; right; exact H).
  intros ws z [H|(o & H & -> & ->)].
  - split; [intros ->; inversion H|]. split; [destruct H; eauto 10|]. split.
    + destruct H as [w z H|t H|t w z H H'|w z t H H'|w z t u k H H' H'']; try lia; try (apply unit_bounds in H; try apply unit_bounds in H''; lia).
      apply unit_bounds in H'. lia.
    + intros o q Ho ->. destruct (tens_z _ _ H) as (w & r & E & S). injection E as <- <-. destruct (zero_not_starter _ Ho S).
  - split; [discriminate|]. split; [constructor; [|constructor]; apply in_app_iff; right; apply in_app_iff; auto|]. split; [lia|].
    intros o' q _ [= _ <-]. left. reflexivity.
Qed.
Lemma tens_agree : agree cn_tens g_tens.
Proof.
  intros ws z z' H [H'|(o & Ho & -> & ->)].
  - destruct H as [w z H|t H|t w z H H0|w z t H H0|w z t u k H H0 H1]; inversion H' as [w' k' G|t' G|t' w' k' G G0|w' k' t' G G0|w' k' t' u' k'' G G0 G1]; subst;
      try reflexivity; try (exfalso; eapply ten_not_unit; eauto; fail);
      repeat match goal with A : In (?w, ?a) cn_units, B : In (?w, ?b) cn_units |- _ => tryif constr_eq a b then fail else (pose proof (unit_functional _ _ _ A B); subst) end; reflexivity.
  - exfalso. destruct (tens_z _ _ H) as (w & r & E & S). injection E as <- <-. destruct (zero_not_starter _ Ho S).
Qed.
Lemma tens_units : has_units g_tens.
Proof. intros w z H. left. apply ct_unit. exact H. Qed.

(** ** The levels *)
Record fits (A : list string) (zL gL : list string -> Z -> Prop) : Prop :=
  { fits_clean : g_clean A gL; fits_z : z_clean zL; fits_agree : agree zL gL; fits_within : within zL gL; fits_units : has_units gL;
    fits_zero : forall o z, In o zeros -> gL [o] z -> z = 0%Z }.
Lemma step_fits A words zP gP zL gL s tenth : (forall x, In x A -> ~ In x words) -> (forall x, In x words -> ~ starter x) -> (s = 10 * tenth)%Z -> (10 <= tenth)%Z ->
  (forall x, In x (map fst cn_units) -> In x A) -> (forall x, In x zeros -> In x A) ->
  g_clean A gP -> z_clean zP -> agree zP gP -> within zP gP -> fits A zL gL -> fits (words ++ A) (cn_scale zP zL words s) (g_scale gP gL words s tenth).
Proof.
  intros HA Hw Hs Ht UA OA CP ZP AP IP [CL ZL AL IL UL OL]. split.
  - eapply step_clean; eauto.
  - eapply step_z_clean; eauto.
  - eapply step_agree; eauto.
  - eapply step_within; eauto.
  - eapply step_units; eauto.
  - intros o z Ho H. inversion H as [? ? G|p a w G Gin E|p a w u k G Gin Gu E|p a w q b G Gin Gq E|p a w o' q b G Gin Go Gq E]; subst; [exact (OL _ _ Ho G)|..];
      destruct (CP _ _ G) as (N & _); destruct p as [|x p]; try congruence; destruct p; discriminate E.
Qed.
Lemma fits1 : fits alphabet1 cn_tens g_tens.
Proof.
  split; [exact tens_clean|exact tens_z|exact tens_agree|intros ws z H; left; exact H|exact tens_units|].
  intros o z Ho [H|(o' & _ & _ & ->)]; [|reflexivity]. destruct (tens_z _ _ H) as (w & r & E & S). injection E as <- <-. destruct (zero_not_starter _ Ho S).
Qed.
Ltac in_alphabet := intros x Hx; vm_compute in Hx; vm_compute; tauto.
Ltac not_starters := intros x Hx [C|C]; revert x Hx C; apply apart; vm_compute; reflexivity.
Lemma fits2 : fits alphabet2 cn_hundreds g_hundreds.
Proof.
  apply step_fits; [apply apart; vm_compute; reflexivity|not_starters|reflexivity|lia|in_alphabet|in_alphabet|exact one_clean|exact one_z|exact one_agree|intros ws z H; exact H|exact fits1].
Qed.
Lemma fits3 : fits alphabet3 cn_thousands g_thousands.
Proof.
  apply step_fits; [apply apart; vm_compute; reflexivity|not_starters|reflexivity|lia|in_alphabet|in_alphabet| |exact one_z|exact one_agree|intros ws z H; exact H|exact fits2].
  eapply clean_more; [|exact one_clean]. in_alphabet.
Qed.
Lemma fits4 : fits alphabet4 cn_myriads g_myriads.
Proof.
  destruct fits3. apply step_fits; auto; [apply apart; vm_compute; reflexivity|not_starters|lia|in_alphabet|in_alphabet|split; auto].
Qed.
Lemma fits8 : fits alphabet8 cn_numbers g_numbers.
Proof.
  destruct fits4. apply step_fits; auto; [apply apart; vm_compute; reflexivity|not_starters|lia|in_alphabet|in_alphabet|split; auto].
Qed.
Lemma chinese_g ws z : chinese ws z -> g_numbers ws z.
Proof.
  intros [(o & H & -> & ->)|H]; [|apply (fits_within _ _ _ fits8); exact H]. do 4 apply gs_up. right. exists o. auto.
Qed.
Lemma chinese_value ws z z' : chinese ws z -> g_numbers ws z' -> z' = z.
Proof.
  intros [(o & H & -> & ->)|H] G; [exact (fits_zero _ _ _ fits8 _ _ H G)|]. symmetry. exact (fits_agree _ _ _ fits8 _ _ _ H G).
Qed.
Lemma chinese_functional ws z z' : chinese ws z -> chinese ws z' -> z = z'.
Proof. intros H H'. apply (chinese_value _ _ _ H'). apply chinese_g. exact H. Qed.
Lemma chinese_words ws z : chinese ws z -> Forall (fun w => In w alphabet8) ws /\ exists w r, ws = w :: r /\ (In w zeros \/ starter w).
Proof.
  intros H. split; [pose proof (chinese_g _ _ H) as G; apply (fits_clean _ _ _ fits8) in G; tauto|].
  destruct H as [(o & H & -> & ->)|H]; [exists o, []; auto|]. destruct (fits_z _ _ _ fits8 _ _ H) as (w & r & E & S). exists w, r. auto.
Qed.

(** ** Every number has a numeral *)
Lemma unit_exists z : (1 <= z <= 9)%Z -> exists w, In (w, z) cn_units.
Proof.
  intros H. assert (K : (z = 1 \/ z = 2 \/ z = 3 \/ z = 4 \/ z = 5 \/ z = 6 \/ z = 7 \/ z = 8 \/ z = 9)%Z) by lia.
  destruct K as [-> | [-> | [-> | [-> | [-> | [-> | [-> | [-> | ->]]]]]]]]; eexists; cbv [cn_units]; repeat first [left; reflexivity|right].
Qed.
Definition covers (K : list string -> Z -> Prop) (m : Z) : Prop := forall n, (1 <= n < m)%Z -> exists ws, K ws n.
Lemma tens_covers : covers cn_tens 100.
Proof.
  assert (Ten : In "十"%string ten_words) by (left; reflexivity).
  intros n H. destruct (Z_lt_le_dec n 10) as [H1|H1].
  - destruct (unit_exists n) as (w & Hw); [lia|]. exists [w]. constructor. exact Hw.
  - pose proof (Z.div_mod n 10 ltac:(lia)) as E. pose proof (Z.mod_pos_bound n 10 ltac:(lia)). destruct (unit_exists (n / 10)) as (w & Hw); [lia|].
    destruct (Z.eq_dec (n mod 10) 0) as [Z0|Z0].
    + exists [w; "十"%string]. rewrite E, Z0, Z.add_0_r, (Z.mul_comm 10). apply ct_tens; assumption.
    + destruct (unit_exists (n mod 10)) as (u & Hu); [lia|]. exists [w; "十"%string; u]. rewrite E, (Z.mul_comm 10). apply ct_both; assumption.
Qed.
Lemma scale_covers P L words w s m : In w words -> (0 < s)%Z -> covers P m -> covers L s -> covers (cn_scale P L words s) (m * s).
Proof.
  intros Hw Hs HP HL n H. assert (Zero : In "零"%string zeros) by (left; reflexivity).
  destruct (Z_lt_le_dec n s) as [H1|H1]; [destruct (HL n) as (ws & K); [lia|]; exists ws; apply cs_up; exact K|].
  pose proof (Z.div_mod n s ltac:(lia)) as E. pose proof (Z.mod_pos_bound n s ltac:(lia)) as B.
  destruct (HP (n / s)%Z) as (p & K); [split; [apply Z.div_le_lower_bound; lia|apply Z.div_lt_upper_bound; lia]|].
  destruct (Z.eq_dec (n mod s) 0) as [Z0|Z0].
  - exists (p ++ [w]). rewrite E, Z0, Z.add_0_r, (Z.mul_comm s). apply cs_exact; assumption.
  - destruct (HL (n mod s)%Z) as (q & K'); [lia|]. rewrite E, (Z.mul_comm s). destruct (Z_lt_le_dec (10 * (n mod s)) s) as [H2|H2].
    + exists (p ++ w :: "零"%string :: q). apply cs_gap; assumption.
    + exists (p ++ w :: q). apply cs_next; assumption.
Qed.
Lemma covers_all : covers cn_numbers (10 ^ 16).
Proof.
  assert (C1 : covers one_unit 10) by (intros n H; destruct (unit_exists n) as (w & Hw); [lia|]; exists [w]; constructor; exact Hw).
  assert (C2 : covers cn_hundreds 1000) by (apply (scale_covers _ _ _ "百" 100 10); [left; reflexivity|lia|exact C1|exact tens_covers]).
  assert (C3 : covers cn_thousands 10000) by (apply (scale_covers _ _ _ "千" 1000 10); [left; reflexivity|lia|exact C1|exact C2]).
  assert (C4 : covers cn_myriads 100000000) by (apply (scale_covers _ _ _ "万" 10000 10000); [left; reflexivity|lia|exact C3|exact C3]).
  apply (scale_covers _ _ _ "亿" 100000000 100000000); [left; reflexivity|lia|exact C4|exact C4].
Qed.
Lemma chinese_exists n : (0 <= n < 10 ^ 16)%Z -> exists ws, chinese ws n.
Proof.
  intros H. destruct (Z.eq_dec n 0) as [->|Z0].
  - exists ["零"%string]. left. exists "零"%string. split; [left; reflexivity|]. auto.
  - destruct (covers_all n) as (ws & K); [lia|]. exists ws. right. exact K.
Qed.

(** ** No two 万 in a row *)
Fixpoint apart_w (l : list string) : Prop :=
  match l with
  | x :: (y :: _) as r => ~ (x = "万" /\ y = "万")%string /\ apart_w r
  | _ => True
  end.
Lemma apart_none l : ~ In "万"%string l -> apart_w l.
Proof.
  induction l as [|x l IH]; intros N; [exact I|]. destruct l as [|y l]; [exact I|]. split; [|apply IH; intros C; apply N; right; exact C].
  intros [-> _]. apply N. left. reflexivity.
Qed.
Lemma apart_app p q : apart_w p -> apart_w q -> (p = [] \/ q = [] \/ last p ""%string <> "万"%string \/ hd ""%string q <> "万"%string) -> apart_w (p ++ q).
Proof.
  induction p as [|x p IH]; intros Hp Hq J; [exact Hq|]. destruct p as [|y p].
  - cbn [app]. destruct q as [|y q]; [exact I|]. split; [|exact Hq]. intros [-> ->]. destruct J as [J|[J|[J|J]]]; try discriminate J; apply J; reflexivity.
  - destruct Hp as [H1 H2]. split; [exact H1|]. apply IH; [exact H2|exact Hq|]. destruct J as [J|J]; [discriminate J|]. right. exact J.
Qed.
Lemma no_myriad ws z : cn_thousands ws z -> ~ In "万"%string ws.
Proof.
  intros H. apply (fits_within _ _ _ fits3), (fits_clean _ _ _ fits3) in H as (_ & H & _). rewrite Forall_forall in H. intros C. apply H in C.
  revert C. apply not_mem. vm_compute. reflexivity.
Qed.
Lemma hd_starter K ws z : z_clean K -> K ws z -> hd ""%string ws <> "万"%string.
Proof.
  intros H Hk. destruct (H _ _ Hk) as (w & r & -> & S). cbn [hd]. intros ->. destruct S as [S|S]; revert S; apply not_mem; vm_compute; reflexivity.
Qed.
Lemma zero_hd o q : In o zeros -> hd ""%string (o :: q) <> "万"%string.
Proof. intros H C. cbn [hd] in C. subst o. revert H. apply not_mem. vm_compute. reflexivity. Qed.
Lemma myriads_apart ws z : cn_myriads ws z -> apart_w ws.
Proof.
  assert (J : forall p q : list string, ~ In "万"%string p -> p = [] \/ q = [] \/ last p ""%string <> "万"%string \/ hd ""%string q <> "万"%string).
  { intros p q N. destruct p as [|x p]; [auto|]. right. right. left. intros C. apply N. rewrite <- C. destruct (@exists_last _ (x :: p)) as (l & a & E); [discriminate|].
    rewrite E, last_last. apply in_app_iff. right. left. reflexivity. }
  intros H. destruct H as [ws z H|p a w H [<-|[]]|p a w q b H [<-|[]] Hq _|p a w o q b H [<-|[]] Ho Hq _].
  - apply apart_none. eapply no_myriad; eauto.
  - apply no_myriad in H. apply apart_app; [apply apart_none; exact H|exact I|apply J; exact H].
  - apply no_myriad in H. apply apart_app; [apply apart_none; exact H| |apply J; exact H].
    apply (apart_app ["万"%string] q); [exact I|apply apart_none; eapply no_myriad; eauto|]. do 3 right. eapply hd_starter; [exact (fits_z _ _ _ fits3)|exact Hq].
  - apply no_myriad in H. apply apart_app; [apply apart_none; exact H| |apply J; exact H].
    apply (apart_app ["万"%string] (o :: q)); [exact I| |do 3 right; apply zero_hd; exact Ho].
    apply (apart_app [o] q); [exact I|apply apart_none; eapply no_myriad; eauto|]. do 3 right. eapply hd_starter; [exact (fits_z _ _ _ fits3)|exact Hq].
Qed.
Lemma chinese_apart ws z : chinese ws z -> apart_w ws.
Proof.
  assert (Y : hd ""%string ["亿"%string] <> "万"%string) by discriminate.
  intros [(o & _ & -> & _)|H]; [exact I|]. destruct H as [ws z H|p a w H [<-|[]]|p a w q b H [<-|[]] Hq _|p a w o q b H [<-|[]] Ho Hq _].
  - eapply myriads_apart; eauto.
  - apply apart_app; [eapply myriads_apart; eauto|exact I|do 3 right; discriminate].
  - apply apart_app; [eapply myriads_apart; eauto| |do 3 right; discriminate].
    apply (apart_app ["亿"%string] q); [exact I|eapply myriads_apart; eauto|right; right; left; discriminate].
  - apply apart_app; [eapply myriads_apart; eauto| |do 3 right; discriminate].
    apply (apart_app ["亿"%string] (o :: q)); [exact I| |right; right; left; discriminate].
    apply (apart_app [o] q); [exact I|eapply myriads_apart; eauto|]. do 3 right. eapply hd_starter; [exact (fits_z _ _ _ fits4)|exact Hq].
Qed.
Lemma apart_nth ws i : apart_w ws -> nth_error ws i = Some "万"%string -> nth_error ws (S i) <> Some "万"%string.
Proof.
  revert i. induction ws as [|x ws IH]; intros i H; [destruct i; discriminate|]. destruct ws as [|y ws].
  - intros _ C. cbn [nth_error] in C. destruct i; discriminate C.
  - destruct H as [H1 H2]. destruct i as [|i]; [|exact (IH i H2)]. intros [= ->] [= ->]. apply H1. auto.
Qed.
