(** Chains of Chinese numerals and operations: how they fall into parts, what they are worth. *)
From Coq Require Import Permutation.
From Verif Require Import Base ModelTypes ModelText ModelEarley ModelTrees ModelApi ModelReader ModelGrammar ModelMatch ModelLocal
     SpecTypes SpecGrammar SpecTree SpecNotation SpecRefine SpecConstruct SpecLocal SpecFuncs SpecMath SpecMeaning ModelShipped SpecShipped SpecNames
     ProofShipped ProofNames SpecArith SpecWorth ProofWorth ProofReadings SpecChinese ProofChinese ProofChineseRules ProofChineseCalls SpecWordArith SpecChineseArith.
Local Open Scope list_scope.

Definition opw (o : operation) : string := match o with Plus => "加" | Minus => "减" | Times => "乘" end.
Lemma opw_in o : In (opw o, o) cn_operators.
Proof. destruct o; vm_compute; tauto. Qed.
Lemma opw_of w o : In (w, o) cn_operators -> w = opw o.
Proof. intros [[= <- <-]|[[= <- <-]|[[= <- <-]|[]]]]; reflexivity. Qed.
Lemma opw_inj o o' : opw o = opw o' -> o = o'.
Proof. destruct o, o'; intros H; try reflexivity; discriminate H. Qed.
Definition plain (u : list string) : Prop := forall o, ~ In (opw o) u.
Lemma words_plain A u : forallb (fun o => negb (existsb (String.eqb (opw o)) A)) [Plus; Minus; Times] = true -> Forall (fun w => In w A) u -> plain u.
Proof.
  intros H F o C. rewrite Forall_forall in F. apply F in C. revert C. apply not_mem. cbn [forallb] in H. rewrite !andb_true_iff, !negb_true_iff in H.
  destruct o; tauto.
Qed.
Lemma number_plain u z : g_numbers u z -> plain u.
Proof. intros H. apply (fits_clean _ _ _ fits8) in H as (_ & H & _). revert H. apply words_plain. vm_compute. reflexivity. Qed.
Lemma chinese_plain u z : chinese u z -> plain u.
Proof. intros H. apply chinese_g in H. exact (number_plain _ _ H). Qed.

(** ** Parts *)
Definition flat (u : list string) (l : list (operation * list string)) : list string := u ++ flat_map (fun ou => opw (fst ou) :: snd ou) l.
Lemma flat_app u l o u' l' : flat u l ++ opw o :: flat u' l' = flat u (l ++ (o, u') :: l').
Proof. unfold flat. rewrite flat_map_app, <- !app_assoc. cbn [flat_map fst snd app]. reflexivity. Qed.
Lemma cut_first u : forall u' o o' r r', plain u -> plain u' -> u ++ opw o :: r = u' ++ opw o' :: r' -> u = u' /\ o = o' /\ r = r'.
Proof.
  induction u as [|a u IH]; intros [|a' u'] o o' r r' Hu Hu' E; cbn [app] in E.
  - injection E as E1 E2. apply opw_inj in E1. auto.
  - injection E as E1 E2. exfalso. apply (Hu' o). left. auto.
  - injection E as E1 E2. exfalso. apply (Hu o'). left. auto.
  - injection E as <- E. destruct (IH u' o o' r r') as (-> & -> & ->); auto; intros q Hq; [apply (Hu q)|apply (Hu' q)]; right; exact Hq.
Qed.
Lemma flat_unique l : forall u u' l', plain u -> plain u' -> Forall (fun ou => plain (snd ou)) l -> Forall (fun ou => plain (snd ou)) l' ->
  flat u l = flat u' l' -> u = u' /\ l = l'.
Proof.
  unfold flat. induction l as [|[o v] l IH]; intros u u' [|[o' v'] l'] Hu Hu' Hl Hl' E; cbn [flat_map fst snd app] in E.
  - rewrite !app_nil_r in E. auto.
  - exfalso. rewrite app_nil_r in E. apply (Hu o'). rewrite E. apply in_app_iff. right. left. reflexivity.
  - exfalso. rewrite app_nil_r in E. apply (Hu' o). rewrite <- E. apply in_app_iff. right. left. reflexivity.
  - apply cut_first in E as (-> & -> & E); auto. inversion Hl as [|? ? L1 L2]; subst. inversion Hl' as [|? ? L1' L2']; subst. cbn [snd] in *.
    destruct (IH v v' l' L1 L1' L2 L2' E) as [-> ->]. auto.
Qed.
Definition spelled (ou : operation * list string) (om : operation * Z) : Prop := fst ou = fst om /\ chinese (snd ou) (snd om).
Lemma chain_flat ws n rest : cn_chain ws n rest -> exists u l, ws = flat u l /\ chinese u n /\ Forall2 spelled l rest.
Proof.
  induction 1 as [ws n H|ws n w o ws' m rest H Hw _ (u & l & -> & Hu & Hl)].
  - exists ws, []. split; [unfold flat; rewrite app_nil_r; reflexivity|]. split; [exact H|constructor].
  - apply opw_of in Hw. subst w. exists ws, ((o, u) :: l). split; [reflexivity|]. split; [exact H|]. constructor; [split; [reflexivity|exact Hu]|exact Hl].
Qed.

(** ** What parts are read as *)
Definition bare : list string := hundred_words ++ thousand_words ++ ["万"; "亿"]%string.
Definition read_leaf (u : list string) (x : expression) : Prop :=
  (g_numbers u (value x) /\ ((value x < 10 ^ 10)%Z -> modest x)) \/ exists w, In w bare /\ u = [w].
Lemma bare_plain w : In w bare -> plain [w].
Proof. intros H. apply (words_plain bare); [vm_compute; reflexivity|]. constructor; [exact H|constructor]. Qed.
Lemma bare_not w z : In w bare -> ~ chinese [w] z.
Proof.
  intros Hw H. apply chinese_words in H as (_ & w' & r & E & H). injection E as <- <-.
  destruct H as [H|[H|H]]; revert w Hw H; apply apart; vm_compute; reflexivity.
Qed.
Lemma read_plain u l x : bracketing read_leaf u l x -> plain u /\ Forall (fun ou => plain (snd ou)) l.
Proof.
  induction 1 as [a x H|a l o b r x y _ [H1 H2] _ [H3 H4]];
    [split; [destruct H as [[H _]|(w & Hw & ->)]; [exact (number_plain _ _ H)|exact (bare_plain _ Hw)]|constructor]|].
  split; [exact H1|]. apply Forall_app. split; [exact H2|]. constructor; [exact H3|exact H4].
Qed.
Lemma read_meant u l x : bracketing read_leaf u l x -> forall n rest, chinese u n -> Forall2 spelled l rest ->
  exists b, meant n rest b /\ value x = value b /\ (modest b -> modest x).
Proof.
  induction 1 as [a x [[H1 H2]|(w & Hw & ->)]|a l o b r x y _ IHx _ IHy]; intros n rest Hn Hr.
  - inversion Hr; subst. pose proof (chinese_value _ _ _ Hn H1) as E.
    exists (Number n). split; [constructor; reflexivity|]. split; [exact E|]. cbn [modest]. unfold small. intros M. apply H2. lia.
  - destruct (bare_not _ _ Hw Hn).
  - apply Forall2_app_inv_l in Hr as (r1 & r2 & R1 & R2 & ->). inversion R2 as [|? [o' m] ? r3 [E Hm] R3]; subst. cbn [fst snd] in *. subst o'.
    destruct (IHx n r1 Hn R1) as (b1 & B1 & V1 & M1). destruct (IHy m r3 Hm R3) as (b2 & B2 & V2 & M2).
    exists (Binary o b1 b2). split; [apply br_split; assumption|]. split; [destruct o; cbn [value]; rewrite V1, V2; reflexivity|].
    cbn [modest]. intros (A1 & A2 & A3 & A4). split; [auto|]. split; [auto|]. rewrite V1, V2. split; [|exact A4].
    replace (value (Binary o x y)) with (value (Binary o b1 b2)) by (destruct o; cbn [value]; rewrite V1, V2; reflexivity). exact A3.
Qed.

Lemma cn_chain_nonneg ws n rest : cn_chain ws n rest -> (0 <= n)%Z /\ Forall (fun om => (0 <= snd om)%Z) rest.
Proof.
  assert (K : forall u m, chinese u m -> (0 <= m)%Z) by (intros u m H; apply chinese_g, (fits_clean _ _ _ fits8) in H; tauto).
  induction 1 as [ws n H|ws n w o ws' m rest H _ _ [IH1 IH2]]; apply K in H; split; auto.
Qed.
(** 万 never stands next to itself. *)
Lemma flat_apart l rest : Forall2 spelled l rest -> forall u n, chinese u n -> apart_w (flat u l).
Proof.
  induction 1 as [|[o v] [o' m] l rest [_ Hv] _ IH]; intros u n Hu; unfold flat in *; cbn [flat_map fst snd] in *.
  - rewrite app_nil_r. exact (chinese_apart _ _ Hu).
  - assert (N : opw o <> "万"%string) by (destruct o; discriminate).
    apply apart_app; [exact (chinese_apart _ _ Hu)| |do 3 right; exact N].
    apply (apart_app [opw o]); [exact I|exact (IH _ _ Hv)|]. right. right. left. exact N.
Qed.
