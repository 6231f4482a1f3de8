(** Simple numerals have one value, that of the Chinese numerals, and every number has one. *)
From Verif Require Import Base ModelTypes SpecTypes SpecGrammar SpecArith SpecWorth SpecChinese ProofChinese SpecCnNum.
Local Open Scope list_scope.

Lemma s_units_units w z : In (w, z) s_units -> In (w, z) cn_units.
Proof. intros H. apply (in_app_iff s_units (skipn 9 cn_units)). left. exact H. Qed.
Lemma s_one_one : within s_one one_unit.
Proof. intros ws z [w k H]. constructor. apply s_units_units. exact H. Qed.
Lemma s_one_tens : within s_one s_tens.
Proof. intros ws z [w k H]. constructor. exact H. Qed.
Lemma ten_word : In "十"%string ten_words. Proof. left. reflexivity. Qed.
Lemma s_tens_tens : within s_tens g_tens.
Proof. intros ws z H. left. destruct H; [apply ct_unit|apply ct_ten|apply ct_tens|apply ct_both]; auto using s_units_units, ten_word. Qed.
Lemma s_scale_g P L G word words s tenth P' L' : In word words -> within P P' -> within L L' -> within G L' ->
  within (s_scale P L G word s) (g_scale P' L' words s tenth).
Proof. intros Hw HP HL HG ws z H. destruct H; [apply gs_up|apply gs_exact|apply gs_next|apply gs_gap]; auto. Qed.
Lemma s_hundreds_g : within s_hundreds g_hundreds.
Proof. apply s_scale_g; [left; reflexivity|exact s_one_one|exact s_tens_tens|]. intros ws z H. apply s_tens_tens, s_one_tens. exact H. Qed.
Lemma s_tens_hundreds : within s_tens s_hundreds.
Proof. intros ws z H. apply ss_up. exact H. Qed.
Lemma s_thousands_g : within s_thousands g_thousands.
Proof. apply s_scale_g; [left; reflexivity|exact s_one_one|exact s_hundreds_g|]. intros ws z H. apply s_hundreds_g, s_tens_hundreds. exact H. Qed.
Lemma s_myriads_g : within s_myriads g_myriads.
Proof. apply s_scale_g; [left; reflexivity|exact s_thousands_g|exact s_thousands_g|intros ws z []]. Qed.
Lemma simple_g : within simple g_numbers.
Proof. apply s_scale_g; [left; reflexivity|exact s_myriads_g|exact s_myriads_g|exact s_myriads_g]. Qed.

(** ** One value *)
Section Step.
  Variable A : list string.
  Variables P L G : list string -> Z -> Prop.
  Variable word : string.
  Variable s : Z.
  Hypothesis HA : ~ In word A.
  Hypothesis CP : forall ws z, P ws z -> Forall (fun x => In x A) ws.
  Hypothesis CL : forall ws z, L ws z -> ws <> [] /\ Forall (fun x => In x A) ws.
  Hypothesis ZL : z_clean L.
  Hypothesis GL : within G L.
  Hypothesis AP : agree P P.
  Hypothesis AL : agree L L.
  Notation H := (s_scale P L G word s).

  Lemma s_step_agree : agree H H.
  Proof using HA CP CL ZL GL AP AL.
    assert (FP : forall p a, P p a -> Forall (fun x => ~ In x [word]) p).
    { intros p a Hp. apply CP in Hp. revert Hp. apply Forall_impl. intros x Hx [<-|[]]. exact (HA Hx). }
    assert (NL : forall l b p q, L l b -> l <> p ++ word :: q).
    { intros l b p q Hl ->. apply CL in Hl as [_ Hl]. rewrite Forall_forall in Hl. apply HA, Hl. apply in_app_iff. right. left. reflexivity. }
    assert (Zo : forall o q b, In o zeros -> ~ L (o :: q) b).
    { intros o q b Ho Hb. destruct (ZL _ _ Hb) as (w & r & E & S). injection E as <- <-. exact (zero_not_starter o Ho S). }
    assert (Ne : forall b, ~ L [] b) by (intros b Hb; apply CL in Hb as [Hb _]; congruence).
    assert (In1 : In word [word]) by (left; reflexivity).
    intros ws z z' Hz Hz'. destruct Hz as [ws z K|p a K|p a q b K Kq|p a o q b K Ko Kq];
      inversion Hz' as [? ? J|p' a' J E|p' a' q' b' J Jq E|p' a' o' q' b' J Jo Jq E]; subst;
      try match goal with C : L (_ ++ word :: _) _ |- _ => destruct (NL _ _ _ _ C eq_refl) end;
      try (eapply AL; eassumption);
      apply (cut_at [word]) in E as (E1 & _ & E2); eauto; subst; try discriminate E2;
      try match goal with C : L [] _ |- _ => destruct (Ne _ C) | C : L (?o :: _) _, O : In ?o zeros |- _ => destruct (Zo _ _ _ O C) end.
    - rewrite (AP _ _ _ K J). reflexivity.
    - rewrite (AP _ _ _ K J), (AL _ _ _ Kq Jq). reflexivity.
    - injection E2 as _ ->. rewrite (AP _ _ _ K J), (AL _ _ _ (GL _ _ Kq) (GL _ _ Jq)). reflexivity.
  Qed.
  Lemma s_step_z : z_clean P -> z_clean H.
  Proof using ZL.
    intros ZP ws z Hz. destruct Hz as [ws z K|p a K|p a q b K _|p a o q b K _ _]; [exact (ZL _ _ K)|..];
      destruct (ZP _ _ K) as (x & r & -> & S); eexists; eexists; (split; [reflexivity|exact S]).
  Qed.
End Step.
Lemma g_in A K K' : g_clean A K' -> within K K' -> forall ws z, K ws z -> ws <> [] /\ Forall (fun x => In x A) ws.
Proof. intros C W ws z H. apply W in H. apply C in H. tauto. Qed.
Lemma g_only A K K' : g_clean A K' -> within K K' -> forall ws z, K ws z -> Forall (fun x => In x A) ws.
Proof. intros C W ws z H. apply (g_in A K K' C W) in H. tauto. Qed.
Lemma s_one_agree : agree s_one s_one.
Proof. intros ws z z' H H'. exact (one_agree _ _ _ (s_one_one _ _ H) (s_one_one _ _ H')). Qed.
Lemma s_one_z : z_clean s_one.
Proof. intros ws z H. exact (one_z _ _ (s_one_one _ _ H)). Qed.
Lemma s_tens_cn : within s_tens cn_tens.
Proof. intros ws z H. destruct H; [apply ct_unit|apply ct_ten|apply ct_tens|apply ct_both]; auto using s_units_units, ten_word. Qed.
Lemma s_tens_agree : agree s_tens s_tens.
Proof. intros ws z z' H H'. exact (tens_agree _ _ _ (s_tens_cn _ _ H) (s_tens_tens _ _ H')). Qed.
Lemma s_tens_z : z_clean s_tens.
Proof. intros ws z H. exact (tens_z _ _ (s_tens_cn _ _ H)). Qed.
Ltac not_in := apply not_mem; vm_compute; reflexivity.
Lemma s_hundreds_agree : agree s_hundreds s_hundreds.
Proof.
  apply (s_step_agree alphabet1); [not_in|exact (g_only _ _ _ one_clean s_one_one)|exact (g_in _ _ _ tens_clean s_tens_tens)|exact s_tens_z|exact s_one_tens|exact s_one_agree|exact s_tens_agree].
Qed.
Lemma s_hundreds_z : z_clean s_hundreds.
Proof. apply s_step_z; [exact s_tens_z|exact s_one_z]. Qed.
Lemma s_thousands_agree : agree s_thousands s_thousands.
Proof.
  apply (s_step_agree alphabet2); [not_in| |exact (g_in _ _ _ (fits_clean _ _ _ fits2) s_hundreds_g)|exact s_hundreds_z|exact s_tens_hundreds|exact s_one_agree|exact s_hundreds_agree].
  apply (g_only alphabet2 s_one one_unit); [|exact s_one_one]. eapply clean_more; [|exact one_clean]. in_alphabet.
Qed.
Lemma s_thousands_z : z_clean s_thousands.
Proof. apply s_step_z; [exact s_hundreds_z|exact s_one_z]. Qed.
Lemma s_myriads_agree : agree s_myriads s_myriads.
Proof.
  pose proof (fits_clean _ _ _ fits3) as C.
  apply (s_step_agree alphabet3); [not_in|exact (g_only _ _ _ C s_thousands_g)|exact (g_in _ _ _ C s_thousands_g)|exact s_thousands_z|intros ws z []|exact s_thousands_agree|exact s_thousands_agree].
Qed.
Lemma s_myriads_z : z_clean s_myriads.
Proof. apply s_step_z; exact s_thousands_z. Qed.
Lemma simple_functional ws n n' : simple ws n -> simple ws n' -> n = n'.
Proof.
  pose proof (fits_clean _ _ _ fits4) as C.
  apply (s_step_agree alphabet4); [not_in|exact (g_only _ _ _ C s_myriads_g)|exact (g_in _ _ _ C s_myriads_g)|exact s_myriads_z|intros v z H; exact H|exact s_myriads_agree|exact s_myriads_agree].
Qed.
(** a simple numeral that is a Chinese one has its value *)
Lemma simple_chinese ws n n' : chinese ws n -> simple ws n' -> n' = n.
Proof. intros H H'. exact (chinese_value _ _ _ H (simple_g _ _ H')). Qed.

(** ** Every number has a simple numeral *)
Lemma s_unit_exists z : (1 <= z <= 9)%Z -> exists w, In (w, z) s_units.
Proof.
  intros H. assert (K : (z = 1 \/ z = 2 \/ z = 3 \/ z = 4 \/ z = 5 \/ z = 6 \/ z = 7 \/ z = 8 \/ z = 9)%Z) by lia.
  destruct K as [-> | [-> | [-> | [-> | [-> | [-> | [-> | [-> | ->]]]]]]]]; eexists; cbv [s_units]; repeat first [left; reflexivity|right].
Qed.
Definition both (K K' : list string -> Z -> Prop) (ws : list string) (z : Z) : Prop := K ws z /\ K' ws z.
Lemma s_one_covers : covers s_one 10.
Proof. intros n H. destruct (s_unit_exists n) as (w & Hw); [lia|]. exists [w]. constructor. exact Hw. Qed.
Lemma s_tens_covers : covers s_tens 100.
Proof.
  intros n H. destruct (Z_lt_le_dec n 10) as [H1|H1].
  - destruct (s_unit_exists n) as (w & Hw); [lia|]. exists [w]. constructor. exact Hw.
  - pose proof (Z.div_mod n 10 ltac:(lia)) as E. pose proof (Z.mod_pos_bound n 10 ltac:(lia)). destruct (s_unit_exists (n / 10)) as (w & Hw); [lia|].
    destruct (Z.eq_dec (n mod 10) 0) as [Z0|Z0].
    + exists [w; "十"%string]. rewrite E, Z0, Z.add_0_r, (Z.mul_comm 10). apply st_tens. exact Hw.
    + destruct (s_unit_exists (n mod 10)) as (u & Hu); [lia|]. exists [w; "十"%string; u]. rewrite E, (Z.mul_comm 10). apply st_both; assumption.
Qed.
Lemma s_scale_covers P L G w s m : (0 < s)%Z -> covers P m -> covers L s -> covers (s_scale P L G w s) (m * s).
Proof.
  intros Hs HP HL n H. destruct (Z_lt_le_dec n s) as [H1|H1]; [destruct (HL n) as (ws & K); [lia|]; exists ws; apply ss_up; exact K|].
  pose proof (Z.div_mod n s ltac:(lia)) as E. pose proof (Z.mod_pos_bound n s ltac:(lia)) as B.
  destruct (HP (n / s)%Z) as (p & K); [split; [apply Z.div_le_lower_bound; lia|apply Z.div_lt_upper_bound; lia]|].
  destruct (Z.eq_dec (n mod s) 0) as [Z0|Z0].
  - exists (p ++ [w]). rewrite E, Z0, Z.add_0_r, (Z.mul_comm s). apply ss_exact. assumption.
  - destruct (HL (n mod s)%Z) as (q & K'); [lia|]. rewrite E, (Z.mul_comm s). exists (p ++ w :: q). apply ss_next; assumption.
Qed.
Lemma simple_exists n : (1 <= n < 10 ^ 16)%Z -> exists ws, simple ws n.
Proof.
  assert (C2 : covers s_hundreds 1000) by (apply (s_scale_covers _ _ _ "百" 100 10); [lia|exact s_one_covers|exact s_tens_covers]).
  assert (C3 : covers s_thousands 10000) by (apply (s_scale_covers _ _ _ "千" 1000 10); [lia|exact s_one_covers|exact C2]).
  assert (C4 : covers s_myriads 100000000) by (apply (s_scale_covers _ _ _ "万" 10000 10000); [lia|exact C3|exact C3]).
  revert n. apply (s_scale_covers _ _ _ "亿" 100000000 100000000); [lia|exact C4|exact C4].
Qed.

(** below 10000 one that is also a Chinese numeral *)
Lemma both_scale_covers P L G P' L' w words s m t : In w words -> (0 < s)%Z -> (s = 10 * t)%Z ->
  covers (both P P') m -> covers (both L L') s -> covers (both G L') t ->
  covers (both (s_scale P L G w s) (cn_scale P' L' words s)) (m * s).
Proof.
  intros Hw Hs Ht HP HL HG n H. assert (Zero : In "零"%string zeros) by (left; reflexivity).
  destruct (Z_lt_le_dec n s) as [H1|H1]; [destruct (HL n) as (ws & K & K'); [lia|]; exists ws; split; [apply ss_up; exact K|apply cs_up; exact K']|].
  pose proof (Z.div_mod n s ltac:(lia)) as E. pose proof (Z.mod_pos_bound n s ltac:(lia)) as B.
  destruct (HP (n / s)%Z) as (p & K & K'); [split; [apply Z.div_le_lower_bound; lia|apply Z.div_lt_upper_bound; lia]|].
  destruct (Z.eq_dec (n mod s) 0) as [Z0|Z0].
  - exists (p ++ [w]). rewrite E, Z0, Z.add_0_r, (Z.mul_comm s). split; [apply ss_exact|apply cs_exact]; assumption.
  - rewrite E, (Z.mul_comm s). destruct (Z_lt_le_dec (10 * (n mod s)) s) as [H2|H2].
    + destruct (HG (n mod s)%Z) as (q & J & J'); [lia|]. exists (p ++ w :: "零"%string :: q). split; [apply ss_gap|apply cs_gap]; assumption.
    + destruct (HL (n mod s)%Z) as (q & J & J'); [lia|]. exists (p ++ w :: q). split; [apply ss_next|apply cs_next]; assumption.
Qed.
Lemma simple_standard n : (1 <= n < 10000)%Z -> exists ws, simple ws n /\ chinese ws n.
Proof.
  intros H.
  assert (B1 : covers (both s_one one_unit) 10) by (intros k Hk; destruct (s_one_covers k Hk) as (ws & K); exists ws; split; [exact K|apply s_one_one; exact K]).
  assert (B2 : covers (both s_tens cn_tens) 100) by (intros k Hk; destruct (s_tens_covers k Hk) as (ws & K); exists ws; split; [exact K|apply s_tens_cn; exact K]).
  assert (B3 : covers (both s_hundreds cn_hundreds) 1000).
  { apply (both_scale_covers _ _ _ _ _ "百" hundred_words 100 10 10); [left; reflexivity|lia|lia|exact B1|exact B2|].
    intros k Hk. destruct (B1 k Hk) as (ws & K & _). exists ws. split; [exact K|apply s_tens_cn, s_one_tens; exact K]. }
  assert (B4 : covers (both s_thousands cn_thousands) 10000).
  { apply (both_scale_covers _ _ _ _ _ "千" thousand_words 1000 10 100); [left; reflexivity|lia|lia|exact B1|exact B3|].
    intros k Hk. destruct (B2 k Hk) as (ws & K & K'). exists ws. split; [exact K|apply cs_up; exact K']. }
  destruct (B4 n H) as (ws & K & K'). exists ws. split; [do 2 apply ss_up; exact K|right; do 2 apply cs_up; exact K'].
Qed.
