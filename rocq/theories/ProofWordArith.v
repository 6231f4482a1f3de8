(** Chains of numerals and operations: how they fall into parts, what they are worth. *)
From Coq Require Import Permutation.
From Verif Require Import Base ModelTypes ModelText ModelEarley ModelTrees ModelApi ModelReader ModelGrammar ModelMatch ModelLocal
     SpecTypes SpecGrammar SpecTree SpecNotation SpecRefine SpecConstruct SpecLocal SpecFuncs SpecMath SpecMeaning ModelShipped SpecShipped SpecNames
     ProofShipped ProofNames SpecArith SpecWorth ProofWorth ProofReadings SpecEnglish ProofEnglish ProofEnglishRules ProofEnglishCalls SpecWordArith.
Local Open Scope list_scope.

Definition opw (o : operation) : string := match o with Plus => "plus" | Minus => "minus" | Times => "times" end.
Lemma opw_in o : In (opw o, o) operator_words.
Proof. destruct o; vm_compute; tauto. Qed.
Lemma opw_of w o : In (w, o) operator_words -> w = opw o.
Proof. intros [[= <- <-]|[[= <- <-]|[[= <- <-]|[]]]]; reflexivity. Qed.
Lemma opw_inj o o' : opw o = opw o' -> o = o'.
Proof. destruct o, o'; intros H; try reflexivity; discriminate H. Qed.
Definition plain (u : list string) : Prop := forall o, ~ In (opw o) u.
Lemma level_plain u z : level12 u z -> plain u.
Proof.
  intros H o C. apply clean12 in H as (_ & _ & H & _). rewrite Forall_forall in H. apply H in C.
  revert C. apply not_mem. destruct o; vm_compute; reflexivity.
Qed.

(** ** Parts *)
Definition flat (u : list string) (l : list (operation * list string)) : list string := u ++ flat_map (fun ou => opw (fst ou) :: snd ou) l.
Lemma flat_app u l o u' l' : flat u l ++ opw o :: flat u' l' = flat u (l ++ (o, u') :: l').
Proof. unfold flat. rewrite flat_map_app, <- !app_assoc. cbn [flat_map fst snd app]. reflexivity. Qed.
Lemma cut_first u : forall u' o o' r r', plain u -> plain u' -> u ++ opw o :: r = u' ++ opw o' :: r' -> u = u' /\ o = o' /\ r = r'.
Proof.
  induction u as [|a u IH]; intros [|a' u'] o o' r r' Hu Hu' E; cbn [app] in E.
  - injection E as E1 E2. apply opw_inj in E1. auto.
  - injection E as E1 E2. exfalso. apply (Hu' o). left. auto.
  - injection E as E1 E2. exfalso. apply (Hu o'). left. auto.
  - injection E as <- E. destruct (IH u' o o' r r') as (-> & -> & ->); auto; intros q Hq; [apply (Hu q)|apply (Hu' q)]; right; exact Hq.
Qed.
Lemma flat_unique l : forall u u' l', plain u -> plain u' -> Forall (fun ou => plain (snd ou)) l -> Forall (fun ou => plain (snd ou)) l' ->
  flat u l = flat u' l' -> u = u' /\ l = l'.
Proof.
  unfold flat. induction l as [|[o v] l IH]; intros u u' [|[o' v'] l'] Hu Hu' Hl Hl' E; cbn [flat_map fst snd app] in E.
  - rewrite !app_nil_r in E. auto.
  - exfalso. rewrite app_nil_r in E. apply (Hu o'). rewrite E. apply in_app_iff. right. left. reflexivity.
  - exfalso. rewrite app_nil_r in E. apply (Hu' o). rewrite <- E. apply in_app_iff. right. left. reflexivity.
  - apply cut_first in E as (-> & -> & E); auto. inversion Hl as [|? ? L1 L2]; subst. inversion Hl' as [|? ? L1' L2']; subst. cbn [snd] in *.
    destruct (IH v v' l' L1 L1' L2 L2' E) as [-> ->]. auto.
Qed.
Definition spelled (ou : operation * list string) (om : operation * Z) : Prop := fst ou = fst om /\ english (snd ou) (snd om).
Lemma chain_flat ws n rest : chain ws n rest -> exists u l, ws = flat u l /\ english u n /\ Forall2 spelled l rest.
Proof.
  induction 1 as [ws n H|ws n w o ws' m rest H Hw _ (u & l & -> & Hu & Hl)].
  - exists ws, []. split; [unfold flat; rewrite app_nil_r; reflexivity|]. split; [exact H|constructor].
  - apply opw_of in Hw. subst w. exists ws, ((o, u) :: l). split; [reflexivity|]. split; [exact H|]. constructor; [split; [reflexivity|exact Hu]|exact Hl].
Qed.

(** ** What parts are read as *)
Definition read_leaf (u : list string) (x : expression) : Prop :=
  level12 u (value x) /\ (~ In "trillion"%string u -> (value x < 10 ^ 10)%Z -> modest x).
Lemma read_plain u l x : bracketing read_leaf u l x -> plain u /\ Forall (fun ou => plain (snd ou)) l.
Proof.
  induction 1 as [a x [H _]|a l o b r x y _ [H1 H2] _ [H3 H4]]; [split; [exact (level_plain _ _ H)|constructor]|].
  split; [exact H1|]. apply Forall_app. split; [exact H2|]. constructor; [exact H3|exact H4].
Qed.
Lemma read_meant u l x : bracketing read_leaf u l x -> forall n rest, english u n -> Forall2 spelled l rest ->
  exists b, meant n rest b /\ value x = value b /\ (modest b -> modest x).
Proof.
  induction 1 as [a x [H1 H2]|a l o b r x y _ IHx _ IHy]; intros n rest Hn Hr.
  - inversion Hr; subst. destruct (english_level _ _ Hn) as (H3 & H4 & H5). pose proof (functional12 _ _ _ H1 H3) as E.
    exists (Number n). split; [constructor; reflexivity|]. split; [exact E|]. cbn [modest]. unfold small. intros M.
    apply H2; [apply H5; lia|lia].
  - apply Forall2_app_inv_l in Hr as (r1 & r2 & R1 & R2 & ->). inversion R2 as [|? [o' m] ? r3 [E Hm] R3]; subst. cbn [fst snd] in *. subst o'.
    destruct (IHx n r1 Hn R1) as (b1 & B1 & V1 & M1). destruct (IHy m r3 Hm R3) as (b2 & B2 & V2 & M2).
    exists (Binary o b1 b2). split; [apply br_split; assumption|]. split; [destruct o; cbn [value]; rewrite V1, V2; reflexivity|].
    cbn [modest]. intros (A1 & A2 & A3 & A4). split; [auto|]. split; [auto|]. rewrite V1, V2. split; [|exact A4].
    replace (value (Binary o x y)) with (value (Binary o b1 b2)) by (destruct o; cbn [value]; rewrite V1, V2; reflexivity). exact A3.
Qed.

(** ** Sums *)
Lemma sum_shift l : forall n k, sum_of (n + k) l = (n + sum_of k l)%Z.
Proof. unfold sum_of. induction l as [|[o m] l IH]; intros n k; [reflexivity|]. cbn [fold_left snd]. rewrite <- IH. f_equal. lia. Qed.
Lemma sum_app n l o m r : sum_of n (l ++ (o, m) :: r) = (sum_of n l + sum_of m r)%Z.
Proof. unfold sum_of. rewrite fold_left_app. cbn [fold_left snd]. apply (sum_shift r). Qed.
Lemma sum_value n rest b : meant n rest b -> Forall (fun om => fst om = Plus) rest -> value b = sum_of n rest.
Proof.
  unfold meant. induction 1 as [a x ->|a l o b r x y _ IHx _ IHy]; intros H; [reflexivity|].
  apply Forall_app in H as [H1 H2]. inversion H2 as [|? ? E H3]; subst. cbn [fst] in E. subst o. cbn [value]. rewrite IHx, IHy by assumption. symmetry. apply sum_app.
Qed.
Lemma sum_nonneg rest : forall n, (0 <= n)%Z -> Forall (fun om => (0 <= snd om)%Z) rest -> (n <= sum_of n rest)%Z.
Proof.
  unfold sum_of. induction rest as [|[o m] l IH]; intros n Hn H; cbn [fold_left snd]; [lia|]. inversion H as [|? ? H1 H2]; subst. cbn [snd] in H1.
  specialize (IH (n + m)%Z ltac:(lia) H2). lia.
Qed.
Lemma sum_modest n rest b : meant n rest b -> Forall (fun om => fst om = Plus) rest -> (0 <= n)%Z -> Forall (fun om => (0 <= snd om)%Z) rest ->
  (sum_of n rest < 10 ^ 10)%Z -> modest b.
Proof.
  unfold meant. induction 1 as [a x ->|a l o b r x y Hx IHx Hy IHy]; intros H Hn Hr Hs.
  - cbn [modest]. unfold small, sum_of in *. cbn [fold_left] in Hs. lia.
  - apply Forall_app in H as [H1 H2]. inversion H2 as [|? ? E H3]; subst. cbn [fst] in E. subst o.
    apply Forall_app in Hr as [R1 R2]. inversion R2 as [|? ? R3 R4]; subst. cbn [snd] in R3. rewrite sum_app in Hs.
    pose proof (sum_nonneg l a Hn R1). pose proof (sum_nonneg r b R3 R4).
    cbn [modest]. split; [apply IHx; auto; lia|]. split; [apply IHy; auto; lia|]. cbn [value].
    rewrite (sum_value _ _ _ Hx), (sum_value _ _ _ Hy) by assumption. split; [unfold small; lia|discriminate].
Qed.
Lemma chain_nonneg ws n rest : chain ws n rest -> (0 <= n)%Z /\ Forall (fun om => (0 <= snd om)%Z) rest.
Proof.
  induction 1 as [ws n H|ws n w o ws' m rest H _ _ [IH1 IH2]]; apply english_level in H as (_ & H & _); split; auto.
Qed.

(** ** The same readings in more rules *)
Section Transfer.
  Variable tokenize : string -> res (list token).
  Variable tmatch : term -> option token -> bool.
  Variables gs gs' : list grammar_rules.
  Variable toks : list token.
  Variable C : string -> Prop.
  Hypothesis H : forall x b, C x -> has_body gs x b -> has_body gs' x b /\ Forall (fun t => t_type t = TNonterminal -> C (t_value t)) (rb_terms b).
  Lemma transfer : (forall x i j e, worth tokenize tmatch gs toks x i j e -> C x -> worth tokenize tmatch gs' toks x i j e) /\
    (forall ts i j vs, worths tokenize tmatch gs toks ts i j vs -> Forall (fun t => t_type t = TNonterminal -> C (t_value t)) ts -> worths tokenize tmatch gs' toks ts i j vs).
  Proof using H.
    apply (worth_mutind tokenize tmatch gs toks (fun x i j e => C x -> worth tokenize tmatch gs' toks x i j e)
             (fun ts i j vs => Forall (fun t => t_type t = TNonterminal -> C (t_value t)) ts -> worths tokenize tmatch gs' toks ts i j vs)).
    - intros x i j b f vs e Hb Hf _ IH Hw Hx. destruct (H x b Hx Hb) as [H1 H2]. eapply wo_body; eauto.
    - intros i _. constructor.
    - intros t ts i j k vs Ht _ IH F. inversion F; subst. eapply ws_text; eauto.
    - intros t ts i j k e vs Et _ IH1 _ IH2 F. inversion F; subst. eapply ws_rule; eauto.
  Qed.
End Transfer.
Lemma worth_more tokenize tmatch gs gs' toks : (forall x b, has_body gs x b -> has_body gs' x b) ->
  forall x i j e, worth tokenize tmatch gs toks x i j e -> worth tokenize tmatch gs' toks x i j e.
Proof.
  intros H x i j e W. apply (proj1 (transfer tokenize tmatch gs gs' toks (fun _ => True) ltac:(intros y b _ Hb; split; [auto|]; apply Forall_forall; auto)) x i j e W I).
Qed.
