(** Plain amounts have one value, and every number has one. *)
From Verif Require Import Base ModelTypes SpecTypes SpecGrammar SpecArith SpecWorth SpecEnglish SpecChinese SpecSpoken.
Local Open Scope list_scope.

Definition numbers : list (string * Z) := b_units ++ teens ++ tens.
Definition known (l : list (string * Z)) (w : string) : bool := existsb (String.eqb w) (map fst l).
Lemma known_in l w : known l w = true <-> In w (map fst l).
Proof.
  unfold known. rewrite existsb_exists. split.
  - intros (w' & H & E). apply String.eqb_eq in E. subst w'. exact H.
  - intros H. exists w. split; [exact H|apply String.eqb_refl].
Qed.
Lemma entry_known l w z : In (w, z) l -> known l w = true.
Proof. intros H. apply known_in. apply (in_map fst) in H. exact H. Qed.

(** ** The sum *)
Fixpoint tally (ws : list string) (join : bool) (acc cur : Z) : Z :=
  match ws with
  | [] => acc + cur
  | w :: r =>
      match lookup magnitudes w with
      | Some s => tally r false acc (cur * s)
      | None =>
          match lookup numbers w with
          | Some z => if join then tally r false acc (cur + z) else tally r false (acc + cur) z
          | None => if String.eqb w "and" then tally r false (acc + cur) 0 else tally r true acc cur
          end
      end
  end%Z.
Lemma number_word w z : In (w, z) numbers -> lookup magnitudes w = None /\ lookup numbers w = Some z.
Proof.
  assert (K : forallb (fun wz => match lookup magnitudes (fst wz), lookup numbers (fst wz) with None, Some z => Z.eqb z (snd wz) | _, _ => false end) numbers = true) by (vm_compute; reflexivity).
  intros H. rewrite forallb_forall in K. apply K in H. cbn [fst snd] in H. destruct (lookup magnitudes w); [discriminate|]. destruct (lookup numbers w); [|discriminate].
  apply Z.eqb_eq in H. subst. auto.
Qed.
Lemma magnitude_word w z : In (w, z) magnitudes -> lookup magnitudes w = Some z.
Proof.
  assert (K : forallb (fun wz => match lookup magnitudes (fst wz) with Some z => Z.eqb z (snd wz) | _ => false end) magnitudes = true) by (vm_compute; reflexivity).
  intros H. rewrite forallb_forall in K. apply K in H. cbn [fst snd] in H. destruct (lookup magnitudes w); [|discriminate].
  apply Z.eqb_eq in H. subst. auto.
Qed.
Lemma unit_number w z : In (w, z) b_units -> In (w, z) numbers. Proof. intros H. apply in_or_app. left. exact H. Qed.
Lemma teen_number w z : In (w, z) teens -> In (w, z) numbers. Proof. intros H. apply in_or_app. right. apply in_or_app. left. exact H. Qed.
Lemma tens_number w z : In (w, z) tens -> In (w, z) numbers. Proof. intros H. apply in_or_app. right. apply in_or_app. right. exact H. Qed.
Lemma tally_number w z r acc cur : In (w, z) numbers -> tally (w :: r) false acc cur = tally r false (acc + cur) z.
Proof. intros H. destruct (number_word _ _ H) as [E1 E2]. cbn [tally]. rewrite E1, E2. reflexivity. Qed.
Lemma tally_join w z r acc cur : In (w, z) numbers -> tally (w :: r) true acc cur = tally r false acc (cur + z).
Proof. intros H. destruct (number_word _ _ H) as [E1 E2]. cbn [tally]. rewrite E1, E2. reflexivity. Qed.
Lemma tally_magnitude w z r j acc cur : In (w, z) magnitudes -> tally (w :: r) j acc cur = tally r false acc (cur * z).
Proof. intros H. cbn [tally]. rewrite (magnitude_word _ _ H). reflexivity. Qed.
Lemma tally_and r j acc cur : tally ("and"%string :: r) j acc cur = tally r false (acc + cur) 0.
Proof. reflexivity. Qed.
Lemma tally_dash r j acc cur : tally ("-"%string :: r) j acc cur = tally r true acc cur.
Proof. reflexivity. Qed.
Lemma tally_comma r j acc cur : tally (","%string :: r) j acc cur = tally r true acc cur.
Proof. reflexivity. Qed.

(** what ends a count or multiple *)
Definition fresh (r : list string) : Prop := r = [] \/ exists w r', r = w :: r' /\ (w = "and"%string \/ exists z, In (w, z) numbers).
Lemma fresh_tally r acc cur : fresh r -> tally r false acc cur = tally r false (acc + cur) 0.
Proof.
  intros [->|(w & r' & -> & [->|(z & H)])].
  - cbn [tally]. lia.
  - rewrite !tally_and. f_equal; lia.
  - rewrite !(tally_number w z) by exact H. f_equal; lia.
Qed.
Lemma count_fresh ws z r : count ws z -> fresh (ws ++ r).
Proof.
  intros H. right. destruct H as [w z H|w z H|w z H|w z l u k H _ _]; cbn [app].
  - exists w, r. split; [reflexivity|right; exists z; apply unit_number; exact H].
  - exists w, r. split; [reflexivity|right; exists z; apply teen_number; exact H].
  - exists w, r. split; [reflexivity|right; exists z; apply tens_number; exact H].
  - eexists w, _. split; [reflexivity|right; exists z; apply tens_number; exact H].
Qed.
Lemma multiple_fresh ws z : multiple ws z -> forall r, fresh (ws ++ r).
Proof.
  intros H. induction H as [ws z l m s H _ _|ws z m s _ IH _]; intros r.
  - rewrite <- app_assoc. apply (count_fresh _ _ _ H).
  - rewrite <- app_assoc. apply IH.
Qed.
Lemma spoken_fresh ws z : spoken ws z -> forall r, fresh (ws ++ r).
Proof.
  assert (K : forall ws z, count ws z \/ multiple ws z -> forall r, fresh (ws ++ r)).
  { intros ws' z' [H|H] r; [exact (count_fresh _ _ _ H)|exact (multiple_fresh _ _ H r)]. }
  intros H r. destruct H as [ws z H|ws z l ws' z' H _ _]; [apply (K _ _ H)|rewrite <- app_assoc; apply (K _ _ H)].
Qed.
Lemma joint_fresh l ws z : joint l -> spoken ws z -> fresh (l ++ ws).
Proof.
  intros [->| ->] H; [rewrite <- (app_nil_r ws); apply (spoken_fresh _ _ H)|]. right. eexists _, _. split; [reflexivity|left; reflexivity].
Qed.

Lemma plain_left p q : plain (p ++ q) -> plain p.
Proof.
  intros H pre t l u h m post E. apply (H pre t l u h m (post ++ q)). rewrite E, <- app_assoc. cbn [app]. rewrite <- !app_assoc. cbn [app]. rewrite <- !app_assoc. reflexivity.
Qed.
Lemma plain_right p q : plain (p ++ q) -> plain q.
Proof. intros H pre t l u h m post E. apply (H (p ++ pre) t l u h m post). rewrite E, <- app_assoc. reflexivity. Qed.

Lemma count_tally ws z r acc cur : count ws z -> fresh r -> tally (ws ++ r) false acc cur = tally r false (acc + cur + z) 0.
Proof.
  intros H Hr. destruct H as [w z H|w z H|w z H|w z l u k H Hl Hu]; cbn [app].
  - rewrite (tally_number w z) by (apply unit_number; exact H). apply fresh_tally. exact Hr.
  - rewrite (tally_number w z) by (apply teen_number; exact H). apply fresh_tally. exact Hr.
  - rewrite (tally_number w z) by (apply tens_number; exact H). apply fresh_tally. exact Hr.
  - rewrite (tally_number w z) by (apply tens_number; exact H). apply unit_number in Hu. destruct Hl as [<-|[<-|[<-|[<-|[]]]]]; cbn [app].
    + rewrite (tally_number u k) by exact Hu. rewrite fresh_tally by exact Hr. f_equal; lia.
    + rewrite tally_and, (tally_number u k) by exact Hu. rewrite fresh_tally by exact Hr. f_equal; lia.
    + rewrite tally_dash, (tally_join u k) by exact Hu. rewrite fresh_tally by exact Hr. f_equal; lia.
    + rewrite tally_comma, (tally_join u k) by exact Hu. rewrite fresh_tally by exact Hr. f_equal; lia.
Qed.
Lemma tally_multiply l m s r acc cur : dash l -> In (m, s) magnitudes -> tally ((l ++ [m]) ++ r) false acc cur = tally r false acc (cur * s).
Proof. intros [->| ->] H; cbn [app]; rewrite ?tally_dash; apply tally_magnitude; exact H. Qed.
Lemma multiple_tally ws z : multiple ws z -> plain ws -> forall r acc cur, tally (ws ++ r) false acc cur = tally r false (acc + cur) z.
Proof.
  intros H. induction H as [ws z l m s H Hl Hm|ws z m s H IH Hm]; intros Hp r acc cur.
  - rewrite <- app_assoc. destruct H as [w z H|w z H|w z H|w z l' u k H Hl' Hu]; cbn [app].
    + rewrite (tally_number w z) by (apply unit_number; exact H). apply tally_multiply; assumption.
    + rewrite (tally_number w z) by (apply teen_number; exact H). apply tally_multiply; assumption.
    + rewrite (tally_number w z) by (apply tens_number; exact H). apply tally_multiply; assumption.
    + rewrite (tally_number w z) by (apply tens_number; exact H).
      assert (C : joint l' -> False).
      { intros J. apply (Hp [] w l' u l m []); [|apply (in_map fst) in H; exact H|exact J|apply (in_map fst) in Hu; exact Hu|exact Hl|apply (in_map fst) in Hm; exact Hm].
        cbn [app]. f_equal. rewrite <- !app_assoc. reflexivity. }
      apply unit_number in Hu. destruct Hl' as [<-|[<-|[<-|[<-|[]]]]]; cbn [app].
      * destruct C. left. reflexivity.
      * destruct C. right. reflexivity.
      * rewrite tally_dash, (tally_join u k) by exact Hu. apply tally_multiply; assumption.
      * rewrite tally_comma, (tally_join u k) by exact Hu. apply tally_multiply; assumption.
  - rewrite <- app_assoc. rewrite IH by (exact (plain_left _ _ Hp)). apply tally_magnitude. exact Hm.
Qed.
Lemma spoken_tally ws z : spoken ws z -> plain ws -> forall acc, tally ws false acc 0 = (acc + z)%Z.
Proof.
  assert (K : forall ws z r acc, count ws z \/ multiple ws z -> plain ws -> fresh r -> tally (ws ++ r) false acc 0 = tally r false (acc + z) 0).
  { intros ws' z' r acc [H|H] Hp Hr.
    - rewrite (count_tally _ _ _ _ _ H Hr). f_equal; lia.
    - rewrite (multiple_tally _ _ H Hp). rewrite fresh_tally by exact Hr. f_equal; lia. }
  intros H. induction H as [ws z H|ws z l ws' z' H Hl H' IH]; intros Hp acc.
  - rewrite <- (app_nil_r ws). rewrite (K _ z) by (first [exact H|exact Hp|left; reflexivity]). cbn [tally]. lia.
  - rewrite (K _ z) by (first [exact H|exact (plain_left _ _ Hp)|exact (joint_fresh _ _ _ Hl H')]).
    apply plain_right in Hp. apply plain_right in Hp.
    destruct Hl as [->| ->]; cbn [app]; rewrite ?tally_and; rewrite IH by exact Hp; lia.
Qed.
Lemma spoken_once ws n n' : plain ws -> spoken ws n -> spoken ws n' -> n = n'.
Proof. intros Hp H H'. pose proof (spoken_tally _ _ H Hp 0). pose proof (spoken_tally _ _ H' Hp 0). lia. Qed.

(** ** Plain words *)
Fixpoint plain_b (st : nat) (ws : list string) : bool :=
  match ws with
  | [] => true
  | w :: r =>
      if known magnitudes w then Nat.ltb st 3 && plain_b 0 r
      else if known tens w then plain_b 1 r
      else if known b_units w then plain_b (match st with 1 | 2 => 3 | _ => 0 end) r
      else if String.eqb w "and" then plain_b (match st with 1 => 2 | _ => 0 end) r
      else if String.eqb w "-" then plain_b (match st with 3 => 4 | _ => 0 end) r
      else plain_b 0 r
  end.
Lemma kinds w z : (In (w, z) b_units -> known magnitudes w = false /\ known tens w = false /\ known b_units w = true) /\
  (In (w, z) tens -> known magnitudes w = false /\ known tens w = true) /\
  (In (w, z) teens -> known magnitudes w = false /\ known tens w = false /\ known b_units w = false /\ String.eqb w "and" = false /\ String.eqb w "-" = false) /\
  (In (w, z) magnitudes -> known magnitudes w = true).
Proof.
  assert (K1 : forallb (fun wz => negb (known magnitudes (fst wz)) && (negb (known tens (fst wz)) && known b_units (fst wz))) b_units = true) by (vm_compute; reflexivity).
  assert (K2 : forallb (fun wz => negb (known magnitudes (fst wz)) && known tens (fst wz)) tens = true) by (vm_compute; reflexivity).
  assert (K3 : forallb (fun wz => negb (known magnitudes (fst wz)) && (negb (known tens (fst wz)) && (negb (known b_units (fst wz)) &&
            (negb (String.eqb (fst wz) "and") && negb (String.eqb (fst wz) "-"))))) teens = true) by (vm_compute; reflexivity).
  rewrite forallb_forall in K1, K2, K3.
  split; [|split; [|split]]; intros H; [apply K1 in H|apply K2 in H|apply K3 in H|exact (entry_known _ _ _ H)];
    cbn [fst] in H; repeat rewrite Bool.andb_true_iff in H; rewrite ?Bool.negb_true_iff in H; tauto.
Qed.
Lemma plain_b_skip pre : forall st X, plain_b st (pre ++ X) = true -> exists st', plain_b st' X = true.
Proof.
  induction pre as [|w pre IH]; intros st X H; [exists st; exact H|]. cbn [app plain_b] in H.
  destruct (known magnitudes w); [apply Bool.andb_true_iff in H as [_ H]; apply (IH _ _ H)|].
  destruct (known tens w); [apply (IH _ _ H)|]. destruct (known b_units w); [apply (IH _ _ H)|].
  destruct (String.eqb w "and"); [apply (IH _ _ H)|]. destruct (String.eqb w "-"); apply (IH _ _ H).
Qed.
Lemma plain_b_plain ws st : plain_b st ws = true -> plain ws.
Proof.
  intros H pre t l u h m post -> Ht Hl Hu Hh Hm. apply plain_b_skip in H as (st' & H).
  apply in_map_iff in Ht as ((t' & zt) & <- & Ht). apply in_map_iff in Hu as ((u' & zu) & <- & Hu). apply in_map_iff in Hm as ((m' & zm) & <- & Hm). cbn [fst] in *.
  pose proof (proj1 (proj2 (kinds _ _)) Ht) as [T1 T2]. pose proof (proj1 (kinds _ _) Hu) as (U1 & U2 & U3). pose proof (proj2 (proj2 (proj2 (kinds _ _))) Hm) as M1.
  cbn [plain_b] in H. rewrite T1, T2 in H.
  assert (K : plain_b 3 (h ++ m' :: post) = true).
  { destruct Hl as [->| ->]; cbn [app plain_b] in H.
    - rewrite U1, U2, U3 in H. exact H.
    - assert (E1 : known magnitudes "and" = false) by (vm_compute; reflexivity). assert (E2 : known tens "and" = false) by (vm_compute; reflexivity).
      assert (E3 : known b_units "and" = false) by (vm_compute; reflexivity). rewrite E1, E2, E3, U1, U2, U3 in H. exact H. }
  destruct Hh as [->| ->]; cbn [app plain_b] in K.
  - rewrite M1 in K. discriminate K.
  - assert (E1 : known magnitudes "-" = false) by (vm_compute; reflexivity). assert (E2 : known tens "-" = false) by (vm_compute; reflexivity).
    assert (E3 : known b_units "-" = false) by (vm_compute; reflexivity). rewrite E1, E2, E3, M1 in K. discriminate K.
Qed.
Lemma plain_b_unit w z r : In (w, z) b_units -> plain_b 0 (w :: r) = plain_b 0 r.
Proof. intros H. pose proof (proj1 (kinds _ _) H) as (U1 & U2 & U3). cbn [plain_b]. rewrite U1, U2, U3. reflexivity. Qed.
Lemma plain_b_magnitude m s st r : In (m, s) magnitudes -> st < 3 -> plain_b st (m :: r) = plain_b 0 r.
Proof. intros H Hst. cbn [plain_b]. rewrite (proj2 (proj2 (proj2 (kinds _ _))) H). apply Nat.ltb_lt in Hst. rewrite Hst. reflexivity. Qed.
Lemma plain_b_teen w z r : In (w, z) teens -> plain_b 0 (w :: r) = plain_b 0 r.
Proof. intros H. pose proof (proj1 (proj2 (proj2 (kinds _ _))) H) as (U1 & U2 & U3 & U4 & U5). cbn [plain_b]. rewrite U1, U2, U3, U4, U5. reflexivity. Qed.
Lemma plain_b_tens w z st r : In (w, z) tens -> plain_b st (w :: r) = plain_b 1 r.
Proof. intros H. pose proof (proj1 (proj2 (kinds _ _)) H) as (U1 & U2). cbn [plain_b]. rewrite U1, U2. reflexivity. Qed.
Lemma plain_b_dash r st : st <> 3 -> plain_b st ("-"%string :: r) = plain_b 0 r.
Proof. intros H. cbn [plain_b]. assert (E1 : known magnitudes "-" = false) by (vm_compute; reflexivity). assert (E2 : known tens "-" = false) by (vm_compute; reflexivity).
  assert (E3 : known b_units "-" = false) by (vm_compute; reflexivity). rewrite E1, E2, E3. destruct st as [|[|[|[|st]]]]; try reflexivity. congruence.
Qed.
Lemma no_magnitudes ws : Forall (fun w => known magnitudes w = false) ws -> forall st, plain_b st ws = true.
Proof.
  induction 1 as [|w ws H _ IH]; intros st; [reflexivity|]. cbn [plain_b]. rewrite H.
  destruct (known tens w); [apply IH|]. destruct (known b_units w); [apply IH|]. destruct (String.eqb w "and"); [apply IH|]. destruct (String.eqb w "-"); apply IH.
Qed.

(** ** Numerals below a thousand *)
Lemma number_plain w z : In (w, z) numbers -> known magnitudes w = false.
Proof.
  assert (K : forallb (fun wz => negb (known magnitudes (fst wz))) numbers = true) by (vm_compute; reflexivity).
  intros H. rewrite forallb_forall in K. apply K in H. apply Bool.negb_true_iff in H. exact H.
Qed.
Lemma unit_unit w z : In (w, z) units -> In (w, z) b_units.
Proof.
  assert (K : forallb (fun wz => existsb (fun p => String.eqb (fst p) (fst wz) && Z.eqb (snd p) (snd wz)) b_units) units = true) by (vm_compute; reflexivity).
  intros H. rewrite forallb_forall in K. apply K in H. apply existsb_exists in H as ((w' & z') & H & E). cbn [fst snd] in E. apply Bool.andb_true_iff in E as [E1 E2].
  apply String.eqb_eq in E1. apply Z.eqb_eq in E2. subst. exact H.
Qed.
Lemma hundred_count ws z : below_hundred ws z -> count ws z /\ Forall (fun w => known magnitudes w = false) ws.
Proof.
  intros H. destruct H as [w z H _|w z H|w z H|w z u k H H' _|w z u k H H' _]; try apply unit_unit in H'; try apply unit_unit in H.
  - split; [apply co_unit; exact H|]. constructor; [apply (number_plain w z), unit_number; exact H|constructor].
  - split; [apply co_teen; exact H|]. constructor; [apply (number_plain w z), teen_number; exact H|constructor].
  - split; [apply co_tens; exact H|]. constructor; [apply (number_plain w z), tens_number; exact H|constructor].
  - split; [apply (co_both w z [] u k); [exact H|left; reflexivity|exact H']|]. constructor; [apply (number_plain w z), tens_number; exact H|]. constructor; [apply (number_plain u k), unit_number; exact H'|constructor].
  - split; [apply (co_both w z ["-"%string] u k); [exact H|right; right; left; reflexivity|exact H']|].
    constructor; [apply (number_plain w z), tens_number; exact H|]. constructor; [vm_compute; reflexivity|]. constructor; [apply (number_plain u k), unit_number; exact H'|constructor].
Qed.
Lemma hundred_magnitude : In ("hundred"%string, 100%Z) magnitudes. Proof. left. reflexivity. Qed.
Lemma thousand_magnitude : In ("thousand"%string, 1000%Z) magnitudes. Proof. right. left. reflexivity. Qed.
Lemma hundreds_multiple w z : In (w, z) b_units -> multiple [w; "hundred"%string] (z * 100).
Proof. intros H. apply (mu_one [w] z [] "hundred" 100); [apply co_unit; exact H|left; reflexivity|exact hundred_magnitude]. Qed.
Lemma thousand_spoken ws z : below_thousand ws z -> spoken ws z /\ plain ws.
Proof.
  intros H. destruct H as [ws z H|w z H _|w z l ws k H _ Hl H'].
  - destruct (hundred_count _ _ H) as [H1 H2]. split; [apply sp_one; left; exact H1|]. apply (plain_b_plain _ 0), no_magnitudes. exact H2.
  - apply unit_unit in H. split; [apply sp_one; right; apply hundreds_multiple; exact H|]. apply (plain_b_plain _ 0).
    rewrite (plain_b_unit _ _ _ H), (plain_b_magnitude "hundred" 100) by (first [exact hundred_magnitude|lia]). reflexivity.
  - apply unit_unit in H. destruct (hundred_count _ _ H') as [H1 H2]. split.
    + apply (sp_more [w; "hundred"%string] (z * 100) l ws k); [right; apply hundreds_multiple; exact H|exact Hl|apply sp_one; left; exact H1].
    + apply (plain_b_plain _ 0). rewrite (plain_b_unit _ _ _ H), (plain_b_magnitude "hundred" 100) by (first [exact hundred_magnitude|lia]). apply no_magnitudes.
      destruct Hl as [->| ->]; [exact H2|]. constructor; [vm_compute; reflexivity|exact H2].
Qed.

(** ** Every number *)
Lemma spoken_app a x b y : spoken a x -> spoken b y -> spoken (a ++ b) (x + y).
Proof.
  intros H Hb. induction H as [ws z H|ws z l ws' z' H Hl H' IH].
  - apply (sp_more ws z [] b y H (or_introl eq_refl) Hb).
  - rewrite <- !app_assoc. rewrite <- Z.add_assoc. apply (sp_more ws z l (ws' ++ b) (z' + y) H Hl IH).
Qed.
Lemma unit_exists z : (1 <= z <= 9)%Z -> exists w, In (w, z) b_units.
Proof.
  intros H. assert (C : (z = 1 \/ z = 2 \/ z = 3 \/ z = 4 \/ z = 5 \/ z = 6 \/ z = 7 \/ z = 8 \/ z = 9)%Z) by lia.
  destruct C as [->|[->|[->|[->|[->|[->|[->|[->| ->]]]]]]]];
    [exists "one"%string|exists "two"%string|exists "three"%string|exists "four"%string|exists "five"%string|exists "six"%string|exists "seven"%string|exists "eight"%string|exists "nine"%string];
    vm_compute; tauto.
Qed.
Lemma teen_exists z : (10 <= z <= 19)%Z -> exists w, In (w, z) teens.
Proof.
  intros H. assert (C : (z = 10 \/ z = 11 \/ z = 12 \/ z = 13 \/ z = 14 \/ z = 15 \/ z = 16 \/ z = 17 \/ z = 18 \/ z = 19)%Z) by lia.
  destruct C as [->|[->|[->|[->|[->|[->|[->|[->|[->| ->]]]]]]]]];
    [exists "ten"%string|exists "eleven"%string|exists "twelve"%string|exists "thirteen"%string|exists "fourteen"%string|exists "fifteen"%string|exists "sixteen"%string|
     exists "seventeen"%string|exists "eighteen"%string|exists "nineteen"%string]; vm_compute; tauto.
Qed.
Lemma tens_exists d : (2 <= d <= 9)%Z -> exists w, In (w, (10 * d)%Z) tens.
Proof.
  intros H. assert (C : (d = 2 \/ d = 3 \/ d = 4 \/ d = 5 \/ d = 6 \/ d = 7 \/ d = 8 \/ d = 9)%Z) by lia.
  destruct C as [->|[->|[->|[->|[->|[->|[->| ->]]]]]]];
    [exists "twenty"%string|exists "thirty"%string|exists "forty"%string|exists "fifty"%string|exists "sixty"%string|exists "seventy"%string|exists "eighty"%string|exists "ninety"%string];
    vm_compute; tauto.
Qed.
Lemma count_exists z : (1 <= z <= 99)%Z -> exists ws, count ws z /\ plain_b 0 ws = true /\ forall m s r, In (m, s) magnitudes -> plain_b 0 (ws ++ m :: r) = plain_b 0 r.
Proof.
  intros H. destruct (Z_le_gt_dec z 9) as [L|L].
  { destruct (unit_exists z ltac:(lia)) as (w & Hw). exists [w]. split; [apply co_unit; exact Hw|]. split; [rewrite (plain_b_unit _ _ _ Hw); reflexivity|].
    intros m s r Hm. cbn [app]. rewrite (plain_b_unit _ _ _ Hw). apply (plain_b_magnitude _ _ _ _ Hm). lia. }
  destruct (Z_le_gt_dec z 19) as [L'|L'].
  { destruct (teen_exists z ltac:(lia)) as (w & Hw). exists [w]. split; [apply co_teen; exact Hw|]. split; [rewrite (plain_b_teen _ _ _ Hw); reflexivity|].
    intros m s r Hm. cbn [app]. rewrite (plain_b_teen _ _ _ Hw). apply (plain_b_magnitude _ _ _ _ Hm). lia. }
  pose proof (Z.div_mod z 10 ltac:(lia)) as E. pose proof (Z.mod_pos_bound z 10 ltac:(lia)) as B. set (q := (z / 10)%Z) in *. set (u := (z mod 10)%Z) in *.
  destruct (tens_exists q ltac:(lia)) as (w & Hw). destruct (Z.eq_dec u 0) as [U|U].
  - exists [w]. replace z with (10 * q)%Z by lia. split; [apply co_tens; exact Hw|]. split; [rewrite (plain_b_tens _ _ _ _ Hw); reflexivity|].
    intros m s r Hm. cbn [app]. rewrite (plain_b_tens _ _ _ _ Hw). apply (plain_b_magnitude _ _ _ _ Hm). lia.
  - destruct (unit_exists u ltac:(lia)) as (w' & Hw'). exists [w; "-"%string; w']. rewrite E. split; [apply (co_both w (10 * q) ["-"%string] w' u Hw); [do 2 right; left; reflexivity|exact Hw']|].
    split; [rewrite (plain_b_tens _ _ _ _ Hw), plain_b_dash, (plain_b_unit _ _ _ Hw') by lia; reflexivity|].
    intros m s r Hm. cbn [app]. rewrite (plain_b_tens _ _ _ _ Hw), plain_b_dash, (plain_b_unit _ _ _ Hw') by lia. apply (plain_b_magnitude _ _ _ _ Hm). lia.
Qed.
Definition product (ms : list (string * Z)) : Z := fold_right (fun p => Z.mul (snd p)) 1%Z ms.
Lemma multiple_more ms : forall ws z, multiple ws z -> Forall (fun p => In p magnitudes) ms -> multiple (ws ++ map fst ms) (z * product ms).
Proof.
  induction ms as [|[m s] ms IH]; intros ws z H F; cbn [map fst product fold_right snd].
  - rewrite app_nil_r, Z.mul_1_r. exact H.
  - inversion F; subst. change (m :: map fst ms) with ([m] ++ map fst ms). rewrite app_assoc, Z.mul_assoc. apply IH; [|assumption]. apply mu_more; assumption.
Qed.
Lemma magnitudes_plain ms r : Forall (fun p => In p magnitudes) ms -> plain_b 0 (map fst ms ++ r) = plain_b 0 r.
Proof.
  induction 1 as [|[m s] ms H _ IH]; [reflexivity|]. cbn [map fst app]. rewrite (plain_b_magnitude _ _ _ _ H) by lia. exact IH.
Qed.
(** numbers of magnitudes that keep the words plain *)
Definition large (n : Z) : Prop := exists ws, spoken ws n /\ forall r, plain_b 0 (ws ++ r) = plain_b 0 r.
Lemma large_add x y : large x -> large y -> large (x + y).
Proof.
  intros (a & A1 & A2) (b & B1 & B2). exists (a ++ b). split; [apply spoken_app; assumption|]. intros r. rewrite <- app_assoc, A2. apply B2.
Qed.
Lemma large_count c p ms : (1 <= c <= 99)%Z -> In p magnitudes -> Forall (fun p => In p magnitudes) ms -> large (c * product (p :: ms)).
Proof.
  destruct p as [m s]. intros Hc Hp Hms. destruct (count_exists c Hc) as (ws & C1 & _ & C2). exists ((ws ++ [m]) ++ map fst ms). split.
  - apply sp_one. right. cbn [product fold_right snd]. fold (product ms). rewrite Z.mul_assoc. apply multiple_more; [|exact Hms].
    apply (mu_one ws c [] m s C1); [left; reflexivity|exact Hp].
  - intros r. rewrite <- !app_assoc. cbn [app]. rewrite (C2 m s _ Hp). apply magnitudes_plain. exact Hms.
Qed.
Lemma large_small n p ms : (1 <= n < 1000)%Z -> In p magnitudes -> Forall (fun p => In p magnitudes) ms -> large (n * product (p :: ms)).
Proof.
  intros Hn Hp Hms. pose proof (Z.div_mod n 100 ltac:(lia)) as E. pose proof (Z.mod_pos_bound n 100 ltac:(lia)) as B. set (q := (n / 100)%Z) in *. set (u := (n mod 100)%Z) in *.
  assert (Hq : (1 <= q)%Z -> large (q * 100 * product (p :: ms))).
  { intros Hq. rewrite <- Z.mul_assoc. change (100 * product (p :: ms))%Z with (product (("hundred"%string, 100%Z) :: p :: ms)).
    apply large_count; [lia|exact hundred_magnitude|constructor; assumption]. }
  assert (Hu : (1 <= u)%Z -> large (u * product (p :: ms))) by (intros Hu; apply large_count; [lia|assumption|assumption]).
  destruct (Z_lt_le_dec 0 q) as [Q|Q], (Z_lt_le_dec 0 u) as [U|U].
  - replace (n * product (p :: ms))%Z with (q * 100 * product (p :: ms) + u * product (p :: ms))%Z by (rewrite E; ring). apply large_add; [apply Hq|apply Hu]; lia.
  - replace n with (q * 100)%Z by lia. apply Hq. lia.
  - replace n with u by lia. apply Hu. lia.
  - lia.
Qed.
Lemma large_all k : forall n p ms, (1 <= n < 1000 ^ Z.of_nat (S k))%Z -> In p magnitudes -> Forall (fun p => In p magnitudes) ms -> large (n * product (p :: ms)).
Proof.
  induction k as [|k IH]; intros n p ms Hn Hp Hms; [apply large_small; [lia|assumption|assumption]|].
  pose proof (Z.div_mod n 1000 ltac:(lia)) as E. pose proof (Z.mod_pos_bound n 1000 ltac:(lia)) as B. set (q := (n / 1000)%Z) in *. set (u := (n mod 1000)%Z) in *.
  assert (Hq : (1 <= q)%Z -> large (q * 1000 * product (p :: ms))).
  { intros Hq. rewrite <- Z.mul_assoc. change (1000 * product (p :: ms))%Z with (product (("thousand"%string, 1000%Z) :: p :: ms)).
    apply IH; [|exact thousand_magnitude|constructor; assumption]. split; [exact Hq|]. rewrite (Nat2Z.inj_succ (S k)), Z.pow_succ_r in Hn by lia. lia. }
  assert (Hu : (1 <= u)%Z -> large (u * product (p :: ms))) by (intros Hu; apply large_small; [lia|assumption|assumption]).
  destruct (Z_lt_le_dec 0 q) as [Q|Q], (Z_lt_le_dec 0 u) as [U|U].
  - replace (n * product (p :: ms))%Z with (q * 1000 * product (p :: ms) + u * product (p :: ms))%Z by (rewrite E; ring). apply large_add; [apply Hq|apply Hu]; lia.
  - replace n with (q * 1000)%Z by lia. apply Hq. lia.
  - replace n with u by lia. apply Hu. lia.
  - lia.
Qed.
Lemma below_power n : (1 <= n)%Z -> exists k, (n < 1000 ^ Z.of_nat (S k))%Z.
Proof.
  intros H. exists (Z.to_nat n). rewrite Nat2Z.inj_succ, Z2Nat.id by lia. apply Z.lt_le_trans with (1000 ^ n)%Z; [apply Z.pow_gt_lin_r; lia|].
  apply Z.pow_le_mono_r; lia.
Qed.
Lemma spoken_exists n : (0 <= n)%Z -> exists ws, spoken ws n /\ plain ws.
Proof.
  intros Hn. destruct (Z.eq_dec n 0) as [->|N0].
  { exists ["zero"%string]. split; [apply sp_one; left; apply co_unit; left; reflexivity|]. apply (plain_b_plain _ 0). reflexivity. }
  pose proof (Z.div_mod n 100 ltac:(lia)) as E. pose proof (Z.mod_pos_bound n 100 ltac:(lia)) as B. set (q := (n / 100)%Z) in *. set (u := (n mod 100)%Z) in *.
  assert (Hq : (1 <= q)%Z -> large (q * 100)).
  { intros Hq. destruct (below_power q Hq) as (k & Hk). change 100%Z with (product [("hundred"%string, 100%Z)]). apply (large_all k); [lia|exact hundred_magnitude|constructor]. }
  destruct (Z_lt_le_dec 0 q) as [Q|Q], (Z_lt_le_dec 0 u) as [U|U].
  - destruct (Hq ltac:(lia)) as (a & A1 & A2). destruct (count_exists u ltac:(lia)) as (b & B1 & B2 & _). exists (a ++ b).
    replace n with (q * 100 + u)%Z by lia. split; [apply spoken_app; [exact A1|apply sp_one; left; exact B1]|]. apply (plain_b_plain _ 0). rewrite A2. exact B2.
  - destruct (Hq ltac:(lia)) as (a & A1 & A2). exists a. replace n with (q * 100)%Z by lia. split; [exact A1|]. apply (plain_b_plain _ 0). rewrite <- (app_nil_r a), A2. reflexivity.
  - destruct (count_exists u ltac:(lia)) as (b & B1 & B2 & _). exists b. replace n with u by lia. split; [apply sp_one; left; exact B1|]. apply (plain_b_plain _ 0). exact B2.
  - lia.
Qed.
