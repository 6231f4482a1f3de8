(** A tens word and the unit after it taken together: every amount is said so in exactly one way. *)
From Verif Require Import Base ModelTypes SpecTypes SpecGrammar SpecArith SpecWorth SpecEnglish SpecChinese SpecSpoken ProofSpoken.
Local Open Scope list_scope.

Notation sect := (fun ws z => count ws z \/ multiple ws z).
Lemma in_known l w : In w (map fst l) -> known l w = true. Proof. apply known_in. Qed.
Lemma in_entry (l : list (string * Z)) w : In w (map fst l) -> exists z, In (w, z) l.
Proof. intros H. apply in_map_iff in H as ((w' & z) & <- & H). exists z. exact H. Qed.
Lemma unit_kind w z : In (w, z) b_units -> known magnitudes w = false /\ known tens w = false /\ known b_units w = true. Proof. apply kinds. Qed.
Lemma tens_kind w z : In (w, z) tens -> known magnitudes w = false /\ known tens w = true /\ known b_units w = false.
Proof.
  assert (K : forallb (fun wz => negb (known b_units (fst wz))) tens = true) by (vm_compute; reflexivity). rewrite forallb_forall in K.
  intros H. destruct (proj1 (proj2 (kinds w z)) H). apply K in H. cbn [fst] in H. apply Bool.negb_true_iff in H. auto.
Qed.
Lemma teen_kind w z : In (w, z) teens -> known magnitudes w = false /\ known tens w = false /\ known b_units w = false.
Proof. intros H. pose proof (proj1 (proj2 (proj2 (kinds w z))) H). tauto. Qed.
Lemma magnitude_kind w z : In (w, z) magnitudes -> known tens w = false /\ known b_units w = false.
Proof.
  assert (K : forallb (fun wz => negb (known b_units (fst wz)) && negb (known tens (fst wz))) magnitudes = true) by (vm_compute; reflexivity). rewrite forallb_forall in K.
  intros H. apply K in H. cbn [fst] in H. apply Bool.andb_true_iff in H as [A B]. apply Bool.negb_true_iff in A, B. auto.
Qed.

(** ** One value *)
Fixpoint reckon (ws : list string) (st : nat) (acc cur : Z) : Z :=
  match ws with
  | [] => acc + cur
  | w :: r =>
      match lookup magnitudes w with
      | Some s => reckon r 0 acc (cur * s)
      | None =>
          match lookup numbers w with
          | Some z =>
              if Nat.eqb st 3 || (Nat.ltb 0 st && known b_units w) then reckon r 0 acc (cur + z)
              else reckon r (if known tens w then 1 else 0) (acc + cur) z
          | None => if String.eqb w "and" then reckon r (if Nat.eqb st 1 then 2 else 0) acc cur else reckon r 3 acc cur
          end
      end
  end%Z.
Definition starts_ok (st : nat) (w : string) : Prop := st = 0 \/ (st = 1 \/ st = 2) /\ known b_units w = false.
Lemma reckon_number w z r st acc cur : In (w, z) numbers -> starts_ok st w -> reckon (w :: r) st acc cur = reckon r (if known tens w then 1 else 0) (acc + cur) z.
Proof.
  intros H Hst. destruct (number_word _ _ H) as [E1 E2]. cbn [reckon]. rewrite E1, E2.
  destruct Hst as [->|[[->| ->] E]]; [reflexivity|rewrite E; reflexivity|rewrite E; reflexivity].
Qed.
Lemma reckon_unit w z r st acc cur : In (w, z) b_units -> st = 1 \/ st = 2 \/ st = 3 -> reckon (w :: r) st acc cur = reckon r 0 acc (cur + z).
Proof.
  intros H Hst. destruct (number_word _ _ (unit_number _ _ H)) as [E1 E2]. destruct (unit_kind _ _ H) as (_ & _ & E3). cbn [reckon]. rewrite E1, E2, E3.
  destruct Hst as [->|[->| ->]]; reflexivity.
Qed.
Lemma reckon_magnitude w z r st acc cur : In (w, z) magnitudes -> reckon (w :: r) st acc cur = reckon r 0 acc (cur * z).
Proof. intros H. cbn [reckon]. rewrite (magnitude_word _ _ H). reflexivity. Qed.
Lemma reckon_and r st acc cur : reckon ("and"%string :: r) st acc cur = reckon r (if Nat.eqb st 1 then 2 else 0) acc cur. Proof. reflexivity. Qed.
Lemma reckon_dash r st acc cur : reckon ("-"%string :: r) st acc cur = reckon r 3 acc cur. Proof. reflexivity. Qed.
Lemma reckon_comma r st acc cur : reckon (","%string :: r) st acc cur = reckon r 3 acc cur. Proof. reflexivity. Qed.

Definition ending (ws : list string) : nat := if known tens (last ws ""%string) then 1 else 0.
Lemma last_snoc (ws : list string) w : last (ws ++ [w]) ""%string = w. Proof. apply last_last. Qed.
Lemma count_reckon ws z r st acc cur : count ws z -> starts_ok st (hd ""%string ws) -> reckon (ws ++ r) st acc cur = reckon r (ending ws) (acc + cur) z.
Proof.
  intros H Hst. destruct H as [w z H|w z H|w z H|w z l u k H Hl Hu]; cbn [app hd] in *.
  - exact (reckon_number _ _ _ _ _ _ (unit_number _ _ H) Hst).
  - exact (reckon_number _ _ _ _ _ _ (teen_number _ _ H) Hst).
  - exact (reckon_number _ _ _ _ _ _ (tens_number _ _ H) Hst).
  - assert (E : ending (w :: l ++ [u]) = 0).
    { unfold ending. change (w :: l ++ [u]) with ((w :: l) ++ [u]). rewrite last_snoc. destruct (unit_kind _ _ Hu) as (_ & -> & _). reflexivity. }
    rewrite E. rewrite (reckon_number _ _ _ _ _ _ (tens_number _ _ H) Hst). destruct (tens_kind _ _ H) as (_ & -> & _).
    destruct Hl as [<-|[<-|[<-|[<-|[]]]]]; cbn [app].
    + apply (reckon_unit _ _ _ _ _ _ Hu). left. reflexivity.
    + rewrite reckon_and. apply (reckon_unit _ _ _ _ _ _ Hu). right. left. reflexivity.
    + rewrite reckon_dash. apply (reckon_unit _ _ _ _ _ _ Hu). right. right. reflexivity.
    + rewrite reckon_comma. apply (reckon_unit _ _ _ _ _ _ Hu). right. right. reflexivity.
Qed.
Lemma count_some ws z : count ws z -> ws <> []. Proof. intros []; discriminate. Qed.
Lemma multiple_some ws z : multiple ws z -> ws <> [].
Proof. intros [v k l m s _ _ _|v k m s _ _]; intros E; apply app_eq_nil in E as [_ E]; [apply app_eq_nil in E as [_ E]|]; discriminate E. Qed.
Lemma hd_app (ws r : list string) : ws <> [] -> hd ""%string (ws ++ r) = hd ""%string ws.
Proof. destruct ws; [congruence|reflexivity]. Qed.
Lemma last_app (ws r : list string) : r <> [] -> last (ws ++ r) ""%string = last r ""%string.
Proof.
  intros H. destruct (exists_last H) as (r' & w & ->). rewrite app_assoc, !last_last. reflexivity.
Qed.
Lemma multiple_last ws z : multiple ws z -> exists m s, In (m, s) magnitudes /\ last ws ""%string = m.
Proof.
  intros [v k l m s _ _ H|v k m s _ H]; exists m, s; (split; [exact H|]); [rewrite app_assoc|]; apply last_last.
Qed.
Lemma multiple_reckon ws z : multiple ws z -> forall r st acc cur, starts_ok st (hd ""%string ws) -> reckon (ws ++ r) st acc cur = reckon r 0 (acc + cur) z.
Proof.
  intros H. induction H as [ws z l m s H Hl Hm|ws z m s H IH Hm]; intros r st acc cur Hst.
  - rewrite (hd_app ws) in Hst by (exact (count_some _ _ H)). rewrite <- !app_assoc. rewrite (count_reckon _ _ _ _ _ _ H Hst).
    destruct Hl as [->| ->]; cbn [app]; rewrite ?reckon_dash; apply reckon_magnitude; exact Hm.
  - rewrite (hd_app ws) in Hst by (exact (multiple_some _ _ H)). rewrite <- app_assoc. rewrite IH by exact Hst. apply reckon_magnitude. exact Hm.
Qed.
Lemma section_reckon ws z r st acc cur : sect ws z -> starts_ok st (hd ""%string ws) -> reckon (ws ++ r) st acc cur = reckon r (ending ws) (acc + cur) z.
Proof.
  intros [H|H] Hst; [exact (count_reckon _ _ _ _ _ _ H Hst)|]. rewrite (multiple_reckon _ _ H _ _ _ _ Hst). f_equal.
  destruct (multiple_last _ _ H) as (m & s & Hm & E). unfold ending. rewrite E. destruct (magnitude_kind _ _ Hm) as [-> _]. reflexivity.
Qed.
Lemma section_some ws z : sect ws z -> ws <> []. Proof. intros [H|H]; [exact (count_some _ _ H)|exact (multiple_some _ _ H)]. Qed.
Lemma merged_reckon ws z : merged ws z -> forall st acc cur, starts_ok st (hd ""%string ws) -> reckon ws st acc cur = (acc + cur + z)%Z.
Proof.
  intros H. induction H as [ws z H|ws z l ws' z' H Hl H' IH C]; intros st acc cur Hst.
  - rewrite <- (app_nil_r ws). rewrite (section_reckon _ _ _ _ _ _ H Hst). reflexivity.
  - rewrite (hd_app ws) in Hst by (exact (section_some _ _ H)). rewrite (section_reckon _ _ _ _ _ _ H Hst).
    assert (K : known tens (last ws ""%string) = true -> known b_units (hd ""%string ws') = false).
    { intros E. apply known_in in E. apply C in E. destruct (known b_units (hd ""%string ws')) eqn:E'; [|reflexivity]. apply known_in in E'. contradiction. }
    unfold ending. destruct (known tens (last ws ""%string)).
    + specialize (K eq_refl). destruct Hl as [->| ->]; cbn [app]; rewrite ?reckon_and; rewrite IH by (right; split; [auto|exact K]); lia.
    + destruct Hl as [->| ->]; cbn [app]; rewrite ?reckon_and; rewrite IH by (left; reflexivity); lia.
Qed.
Lemma merged_once ws n n' : merged ws n -> merged ws n' -> n = n'.
Proof.
  intros H H'. pose proof (merged_reckon _ _ H 0 0 0 (or_introl eq_refl)). pose proof (merged_reckon _ _ H' 0 0 0 (or_introl eq_refl)). lia.
Qed.

(** ** Some value *)
Lemma merged_spoken ws z : merged ws z -> spoken ws z.
Proof. induction 1 as [ws z H|ws z l ws' z' H Hl _ IH _]; [apply sp_one; exact H|apply sp_more; assumption]. Qed.
Lemma merged_some ws z : merged ws z -> ws <> [].
Proof. intros [v k H|v k l v' k' H _ _ _]; [exact (section_some _ _ H)|]. intros E. apply app_eq_nil in E as [E _]. exact (section_some _ _ H E). Qed.
Lemma tens_last ws z : sect ws z -> In (last ws ""%string) (map fst tens) -> exists t k, ws = [t] /\ In (t, k) tens.
Proof.
  intros [H|H] Ht; apply in_known in Ht.
  - destruct H as [w z H|w z H|w z H|w z l u k H Hl Hu]; [| |exists w, z; auto|]; exfalso.
    + cbn [last] in Ht. destruct (unit_kind _ _ H) as (_ & A & _). congruence.
    + cbn [last] in Ht. destruct (teen_kind _ _ H) as (_ & A & _). congruence.
    + change (w :: l ++ [u]) with ((w :: l) ++ [u]) in Ht. rewrite last_snoc in Ht. destruct (unit_kind _ _ Hu) as (_ & A & _). congruence.
  - exfalso. destruct (multiple_last _ _ H) as (m & s & Hm & E). rewrite E in Ht. destruct (magnitude_kind _ _ Hm) as [A _]. congruence.
Qed.
Section Before.
  Variables (t : string) (k : Z) (l0 : list string).
  Hypothesis Ht : In (t, k) tens.
  Hypothesis Hl0 : joint l0.
  Lemma count_before ws z : count ws z -> known b_units (hd ""%string ws) = true -> exists z', count (t :: l0 ++ ws) z'.
  Proof using Ht Hl0.
    intros H Hu. destruct H as [w z H|w z H|w z H|w z l u k' H Hl Hk]; cbn [hd] in Hu.
    - exists (k + z)%Z. apply co_both; [exact Ht| |exact H]. destruct Hl0 as [->| ->]; [left; reflexivity|right; left; reflexivity].
    - destruct (teen_kind _ _ H) as (_ & _ & A). congruence.
    - destruct (tens_kind _ _ H) as (_ & _ & A). congruence.
    - destruct (tens_kind _ _ H) as (_ & _ & A). congruence.
  Qed.
  Lemma multiple_before ws z : multiple ws z -> known b_units (hd ""%string ws) = true -> exists z', multiple (t :: l0 ++ ws) z'.
  Proof using Ht Hl0.
    intros H. induction H as [ws z l m s H Hl Hm|ws z m s H IH Hm]; intros Hu.
    - rewrite hd_app in Hu by (exact (count_some _ _ H)). destruct (count_before _ _ H Hu) as (z' & H'). exists (z' * s)%Z.
      replace (t :: l0 ++ ws ++ l ++ [m]) with ((t :: l0 ++ ws) ++ l ++ [m]) by (cbn [app]; rewrite <- app_assoc; reflexivity). apply mu_one; assumption.
    - rewrite hd_app in Hu by (exact (multiple_some _ _ H)). destruct (IH Hu) as (z' & H'). exists (z' * s)%Z.
      replace (t :: l0 ++ ws ++ [m]) with ((t :: l0 ++ ws) ++ [m]) by (cbn [app]; rewrite <- app_assoc; reflexivity). apply mu_more; assumption.
  Qed.
  Lemma section_before ws z : sect ws z -> known b_units (hd ""%string ws) = true -> exists z', sect (t :: l0 ++ ws) z'.
  Proof using Ht Hl0.
    intros [H|H] Hu; [destruct (count_before _ _ H Hu) as (z' & H')|destruct (multiple_before _ _ H Hu) as (z' & H')]; exists z'; [left|right]; exact H'.
  Qed.
  Lemma merged_before ws z : merged ws z -> known b_units (hd ""%string ws) = true -> exists z', merged (t :: l0 ++ ws) z'.
  Proof using Ht Hl0.
    intros H Hu. destruct H as [ws z H|ws z l ws' z' H Hl H' C].
    - destruct (section_before _ _ H Hu) as (z' & H'). exists z'. apply me_one. exact H'.
    - rewrite hd_app in Hu by (exact (section_some _ _ H)). destruct (section_before _ _ H Hu) as (z2 & H2). exists (z2 + z')%Z.
      replace (t :: l0 ++ ws ++ l ++ ws') with ((t :: l0 ++ ws) ++ l ++ ws') by (cbn [app]; rewrite <- app_assoc; reflexivity).
      apply me_more; [exact H2|exact Hl|exact H'|]. change (t :: l0 ++ ws) with ((t :: l0) ++ ws). rewrite last_app by (exact (section_some _ _ H)). exact C.
  Qed.
End Before.
Lemma merged_exists ws n : spoken ws n -> exists m, merged ws m.
Proof.
  induction 1 as [ws z H|ws z l ws' z' H Hl _ (m & IH)]; [exists z; apply me_one; exact H|].
  destruct (known tens (last ws ""%string) && known b_units (hd ""%string ws')) eqn:E.
  - apply Bool.andb_true_iff in E as [E1 E2]. apply known_in in E1. destruct (tens_last _ _ H E1) as (t & k & -> & Ht).
    exact (merged_before t k l Ht Hl _ _ IH E2).
  - exists (z + m)%Z. apply me_more; [exact H|exact Hl|exact IH|]. intros A B. apply in_known in A, B. rewrite A, B in E. discriminate E.
Qed.

(** ** English numerals *)
Lemma plain_merged ws n : plain ws -> spoken ws n -> merged ws n.
Proof.
  intros Hp H. destruct (merged_exists _ _ H) as (m & Hm). assert (m = n) as <- by (exact (spoken_once _ _ _ Hp (merged_spoken _ _ Hm) H)). exact Hm.
Qed.
Lemma unit_positive w z : In (w, z) units -> z <> 0%Z -> (1 <= z)%Z.
Proof.
  assert (K : forallb (fun p => Z.leb 0 (snd p)) units = true) by (vm_compute; reflexivity). rewrite forallb_forall in K. intros H Hz. apply K in H. cbn [snd] in H. apply Z.leb_le in H. lia.
Qed.
Lemma hundred_positive ws z : below_hundred ws z -> (1 <= z)%Z.
Proof.
  assert (K : forallb (fun p => Z.leb 1 (snd p)) (teens ++ tens) = true) by (vm_compute; reflexivity). rewrite forallb_forall in K.
  intros [w z' H Hz|w z' H|w z' H|w z' u k H Hu Hk|w z' u k H Hu Hk].
  1: exact (unit_positive _ _ H Hz).
  all: assert (P : (1 <= z')%Z) by (apply Z.leb_le; apply (K (w, z')); apply in_app_iff; auto).
  1, 2: exact P. all: pose proof (unit_positive _ _ Hu Hk); lia.
Qed.
Lemma thousand_positive ws z : below_thousand ws z -> (1 <= z)%Z /\ ((z < 100)%Z -> below_hundred ws z).
Proof.
  intros [ws' z' H|w z' H Hz|w z' l ws' k H Hz _ Hk].
  - split; [exact (hundred_positive _ _ H)|auto].
  - pose proof (unit_positive _ _ H Hz). split; lia.
  - pose proof (unit_positive _ _ H Hz). pose proof (hundred_positive _ _ Hk). split; lia.
Qed.
Lemma grouped_positive sc : (forall w s, In (w, s) sc -> (1000 <= s)%Z) -> forall ws z, grouped sc ws z -> (1 <= z)%Z.
Proof.
  intros Hs ws z H. induction H as [ws z H|s sc ws z H IH|w s sc ws z H|w s sc ws z l ws' z' H _ _ IH].
  - exact (proj1 (thousand_positive _ _ H)).
  - apply IH. intros w' s' Hw. apply (Hs w'). right. exact Hw.
  - pose proof (proj1 (thousand_positive _ _ H)). pose proof (Hs w s (or_introl eq_refl)). nia.
  - pose proof (proj1 (thousand_positive _ _ H)). pose proof (Hs w s (or_introl eq_refl)). assert (1 <= z')%Z by (apply IH; intros w' s' Hw; apply (Hs w'); right; exact Hw). nia.
Qed.
Lemma large_scale w s sc ws z : (100000 <= s)%Z -> (forall w s, In (w, s) sc -> (1000 <= s)%Z) -> grouped ((w, s) :: sc) ws z -> (z < 100000)%Z -> grouped sc ws z.
Proof.
  intros Hs Hsc H Hz. inversion H as [|? ? ? ? H'|? ? ? ws0 z0 H'|? ? ? ws0 z0 l ws' z' H' _ H'']; subst.
  - exact H'.
  - exfalso. pose proof (proj1 (thousand_positive _ _ H')). nia.
  - exfalso. pose proof (proj1 (thousand_positive _ _ H')). pose proof (grouped_positive _ Hsc _ _ H''). nia.
Qed.
Lemma english_merged ws n : english ws n -> (n < 100000)%Z -> merged ws n.
Proof.
  intros [[-> ->]|H] Hn.
  { apply me_one. left. apply co_unit. left. reflexivity. }
  unfold scales in H.
  do 3 (apply large_scale in H; [|lia|intros w s Hw; repeat (destruct Hw as [[= <- <-]|Hw]; [lia|]); destruct Hw|exact Hn]).
  assert (T : forall ws z, below_thousand ws z -> merged ws z) by (intros v z Hv; destruct (thousand_spoken _ _ Hv); apply plain_merged; assumption).
  assert (M : forall ws z, below_hundred ws z -> multiple (ws ++ ["thousand"%string]) (z * 1000)).
  { intros v z Hv. apply (mu_one v z [] "thousand" 1000); [exact (proj1 (hundred_count _ _ Hv))|left; reflexivity|exact thousand_magnitude]. }
  inversion H as [|? ? ? ? H'|? ? ? ws0 z0 H'|? ? ? ws0 z0 l ws' z' H' Hl H'']; subst.
  - inversion H'; subst. apply T. assumption.
  - apply me_one. right. apply M. apply (thousand_positive _ _ H'). lia.
  - inversion H'' as [? ? Hw| | |]; subst. pose proof (thousand_positive _ _ Hw) as [P _].
    change (ws0 ++ "thousand"%string :: l ++ ws') with (ws0 ++ ["thousand"%string] ++ l ++ ws'). rewrite app_assoc.
    apply me_more; [right; apply M; apply (thousand_positive _ _ H'); lia|exact Hl|apply T; exact Hw|].
    rewrite last_snoc. intros C. apply in_known in C. discriminate C.
Qed.
Lemma usual_numbers : (forall ws n, spoken ws n -> exists m, merged ws m /\ forall m', merged ws m' -> m' = m) /\
  (forall ws n, merged ws n -> spoken ws n) /\ (forall ws n, english ws n -> (n < 100000)%Z -> merged ws n).
Proof.
  split; [|exact (conj merged_spoken english_merged)]. intros ws n H. destruct (merged_exists _ _ H) as (m & Hm). exists m. split; [exact Hm|].
  intros m' Hm'. exact (merged_once _ _ _ Hm' Hm).
Qed.
