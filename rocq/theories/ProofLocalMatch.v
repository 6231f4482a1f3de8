(** What the rules of the local grammar match. *)
From Coq Require Import Permutation Sorted.
From Verif Require Import Base ModelTypes ModelText ModelEarley ModelTrees ModelApi ModelReader ModelGrammar ModelLocal
  ModelMatch SpecTypes SpecGrammar SpecTree SpecApi SpecLocal ProofLocal ProofApiMain.

(** the texts of the tokens number i, ..., j-1 *)
Definition texts_at (toks : list token) (i j : nat) : list string := map tok_text (firstn (j - i) (skipn i toks)).

Lemma texts_reads toks i j ss : j = i + length ss -> (texts_at toks i j = ss <-> reads_at toks i ss).
Proof. intros ->. unfold texts_at, reads_at. replace (i + length ss - i) with (length ss) by lia. reflexivity. Qed.

Lemma has_body_app gs gs' x b : has_body (gs ++ gs') x b <-> has_body gs x b \/ has_body gs' x b.
Proof.
  split.
  - intros (g & r & h & Hg & R). apply in_app_or in Hg. destruct Hg as [Hg|Hg]; [left|right]; exists g, r, h; auto.
  - intros [(g & r & h & Hg & R)|(g & r & h & Hg & R)]; exists g, r, h; (split; [apply in_or_app; auto|exact R]).
Qed.
Lemma with_local_app gs l : with_local gs l = gs ++ opt_rules l.
Proof. destruct l; cbn; [reflexivity|rewrite app_nil_r; reflexivity]. Qed.

Lemma skipn_at {A} (l : list A) n a : nth_error l n = Some a -> skipn n l = a :: skipn (S n) l.
Proof.
  revert n. induction l as [|x l IH]; intros [|n] H; cbn in H; try discriminate.
  - inversion H. reflexivity.
  - apply IH in H. exact H.
Qed.

Section Derive.
  Variable tmatch : term -> option token -> bool.
  Hypothesis Hplain : forall s x, tmatch (word_term s) (Some x) = true <-> s = tok_text x.
  Variable alt : string -> list term -> Prop.
  Variable toks : list token.
  Variable co : term -> nat -> Prop.
  Variable so : nat -> nat -> Prop.
  Notation D := (derives alt (accepts_by tmatch) toks co so).
  Notation DS := (derives_seq alt (accepts_by tmatch) toks co so).

  Lemma terminals_out ss : forall i j, DS (map word_term ss) i j -> j = i + length ss /\ texts_at toks i j = ss.
  Proof.
    induction ss as [|s ss IH]; intros i j H; cbn [map] in H; inversion H; subst.
    - unfold texts_at. rewrite Nat.sub_diag. split; [cbn; lia|reflexivity].
    - match goal with HD : D (word_term s) _ _ |- _ => inversion HD; subst; try discriminate end.
      match goal with HD : DS _ _ _ |- _ => apply IH in HD; destruct HD as (-> & HT) end.
      match goal with HA : accepts_by _ _ _ |- _ => apply Hplain in HA; subst s end.
      split; [cbn; lia|]. unfold texts_at in *. cbn [length].
      match goal with HN : nth_error _ _ = Some _ |- _ => rewrite (skipn_at _ _ _ HN) end.
      replace (S i + length ss - i) with (S (length ss)) by lia. cbn [firstn map].
      replace (S i + length ss - S i) with (length ss) in HT by lia. f_equal. exact HT.
  Qed.
  Lemma terminals_in ss : (forall i, so i (S i)) -> forall i, texts_at toks i (i + length ss) = ss -> DS (map word_term ss) i (i + length ss).
  Proof.
    intros Hso. induction ss as [|s ss IH]; intros i HT; cbn [map length].
    - rewrite Nat.add_0_r. constructor.
    - unfold texts_at in HT. cbn [length] in HT. replace (i + S (length ss) - i) with (S (length ss)) in HT by lia.
      destruct (nth_error toks i) as [k|] eqn:E.
      + rewrite (skipn_at _ _ _ E) in HT. cbn [firstn map] in HT. injection HT as H1 H2.
        apply ds_cons with (j := S i).
        * eapply d_terminal; [reflexivity|exact E| |apply Hso]. apply Hplain. symmetry. exact H1.
        * rewrite Nat.add_succ_r. rewrite <- Nat.add_succ_l. apply IH. unfold texts_at.
          replace (S i + length ss - S i) with (length ss) by lia. exact H2.
      + apply nth_error_None in E. rewrite skipn_all2 in HT by exact E. discriminate HT.
  Qed.
  Lemma nonterm_out x i j : D (nonterm x) i j -> exists ts, alt x ts /\ DS ts i j /\ so i j.
  Proof. intros H. inversion H; subst; try discriminate. eauto. Qed.
End Derive.

Lemma terms_words ks : texts_as_terms ks = map word_term (map tok_text ks).
Proof. unfold texts_as_terms. rewrite map_map. reflexivity. Qed.

Lemma local_alt_words find_all regexps d x b : local_alt find_all regexps d x b -> exists ss, rb_terms b = map word_term ss.
Proof.
  intros []; cbn; try (rewrite terms_words; eauto). exists [tok_string k]. reflexivity.
Qed.

Section Doc.
  Variable hash : rulebody -> N.
  Variable find_all : string -> string -> option (list (nat * nat)).
  Variable span_text : document -> nat -> nat -> string.
  Variable regexps : list (string * string).
  Variable ord : nat -> list (string * entry) -> list (string * entry).
  Hypothesis Hord : forall i l, Permutation l (ord i l).
  Variable d : document.
  Hypothesis Hok : doc_ok d.
  Hypothesis Hhash : hash_separates find_all regexps d hash.
  Variable l : option grammar_rules.
  Hypothesis Hl : local_grammar hash find_all span_text regexps ord d = Ret l.
  Variable gs : list grammar_rules.

  (** what the hypotheses of the other theorems become *)
  Lemma local_well_formed starts : well_formed gs starts -> well_formed (with_local gs l) starts.
  Proof.
    intros (Hn & Hr & Hg). rewrite with_local_app. split; [|split; [|exact Hg]].
    - intros g x r Hin. apply in_app_or in Hin. destruct Hin as [Hin|Hin]; [apply Hn; exact Hin|].
      intros Hlk. eapply (local_named hash find_all span_text regexps ord d l Hok Hl); eauto.
    - intros t (x & b & Hb & Ht) Hty. apply has_body_app in Hb. destruct Hb as [Hb|Hb]; [apply Hr; [exists x, b; auto|exact Hty]|].
      apply (local_sound hash find_all span_text regexps ord Hord d l x b Hok Hl) in Hb.
      destruct (local_alt_words _ _ _ _ _ Hb) as (ss & E). rewrite E in Ht. apply in_map_iff in Ht.
      destruct Ht as (s & <- & _). destruct Hty; reflexivity.
  Qed.
  Lemma local_occurs t : occurs (with_local gs l) t -> occurs gs t \/ t_type t = TTerminal.
  Proof.
    intros (x & b & Hb & Ht). rewrite with_local_app in Hb. apply has_body_app in Hb. destruct Hb as [Hb|Hb]; [left; exists x, b; auto|right].
    apply (local_sound hash find_all span_text regexps ord Hord d l x b Hok Hl) in Hb.
    destruct (local_alt_words _ _ _ _ _ Hb) as (ss & E). rewrite E in Ht. apply in_map_iff in Ht.
    destruct Ht as (s & <- & _). reflexivity.
  Qed.
  Lemma local_uniform : uniform_ranges gs -> uniform_ranges (with_local gs l).
  Proof.
    intros H t t' Ht Ht' Hty Hc.
    assert (t_type t <> TTerminal) as Hn by (destruct Hc as [->|(-> & _)]; discriminate).
    apply H; auto; [destruct (local_occurs t Ht) | destruct (local_occurs t' Ht')]; auto; congruence.
  Qed.
  Lemma local_separated : separated gs -> separated (with_local gs l).
  Proof.
    intros H x b Hb. rewrite with_local_app in Hb. apply has_body_app in Hb. destruct Hb as [Hb|Hb]; [apply (H x b Hb)|].
    apply (local_sound hash find_all span_text regexps ord Hord d l x b Hok Hl) in Hb.
    destruct (local_alt_words _ _ _ _ _ Hb) as (ss & E). left. intros t Ht. rewrite E in Ht. apply in_map_iff in Ht.
    destruct Ht as (s & <- & _). reflexivity.
  Qed.
  Lemma local_any_named : any_named gs -> any_named (with_local gs l).
  Proof. intros H t Ht Hty. destruct (local_occurs t Ht) as [Ho|Ho]; [apply H; auto|congruence]. Qed.
  Lemma local_typed : typed_args gs -> string_items d -> typed_args (with_local gs l).
  Proof.
    intros H Hi x b Hb. rewrite with_local_app in Hb. apply has_body_app in Hb. destruct Hb as [Hb|Hb]; [apply (H x b Hb)|].
    apply (local_sound hash find_all span_text regexps ord Hord d l x b Hok Hl) in Hb.
    destruct Hb as [k y | sp m y | sp m y items Hin Hm He | y s e]; try (intros f Hf; discriminate Hf).
    intros f Hf. inversion Hf; subst f. repeat constructor.
    apply Forall_forall. intros a Ha. apply in_map_iff in Ha. destruct Ha as (v & <- & Hv).
    pose proof (Hi sp m y items Hin Hm He) as HF. rewrite Forall_forall in HF. destruct (HF v Hv) as (s & ->). constructor.
  Qed.
  Lemma local_no_empty : no_empty gs -> no_empty_spans find_all regexps d -> no_empty (with_local gs l).
  Proof.
    intros (H1 & H2) (HS & HR). split.
    - intros x b Hb. rewrite with_local_app in Hb. apply has_body_app in Hb. destruct Hb as [Hb|Hb]; [apply (H1 x b Hb)|].
      apply (local_sound hash find_all span_text regexps ord Hord d l x b Hok Hl) in Hb.
      destruct Hb as [k y | sp m y Hin Hm He | sp m y items Hin Hm He | y s e Hh]; cbn; [discriminate|..]; intros HE;
        apply map_eq_nil in HE; [eapply HS; eauto | eapply HS; eauto | eapply HR; eauto].
    - intros t Ht Hty. apply H2; [|exact Hty]. destruct (local_occurs t Ht) as [Ho|Ho]; [exact Ho|]. destruct Hty; congruence.
  Qed.

  Variable tmatch : term -> option token -> bool.
  Hypothesis Hplain : forall s x, tmatch (word_term s) (Some x) = true <-> s = tok_text x.
  Variable toks : list token.

  (** a rule that only the local grammar has *)
  Lemma local_derives co (so : nat -> nat -> Prop) x i j : undefined gs x ->
    derives (has_alt (with_local gs l)) (accepts_by tmatch) toks co so (nonterm x) i j ->
    exists b, local_alt find_all regexps d x b /\ so i j /\ j = i + length (rb_terms b) /\
      texts_at toks i j = map t_value (rb_terms b).
  Proof.
    intros Hu H. apply nonterm_out in H. destruct H as (ts & (b & Hb & <-) & Hd & Hso).
    rewrite with_local_app in Hb. apply has_body_app in Hb. destruct Hb as [Hb|Hb]; [destruct (Hu b Hb)|].
    apply (local_sound hash find_all span_text regexps ord Hord d l x b Hok Hl) in Hb. exists b. split; [exact Hb|]. split; [exact Hso|].
    destruct (local_alt_words _ _ _ _ _ Hb) as (ss & E). rewrite E in *. rewrite map_length, map_map. cbn.
    rewrite map_id. eapply terminals_out; eauto.
  Qed.
  Lemma derives_local co (so : nat -> nat -> Prop) x b i : (forall i, so i (S i)) -> so i (i + length (rb_terms b)) ->
    local_alt find_all regexps d x b -> texts_at toks i (i + length (rb_terms b)) = map t_value (rb_terms b) ->
    derives (has_alt (with_local gs l)) (accepts_by tmatch) toks co so (nonterm x) i (i + length (rb_terms b)).
  Proof.
    intros Hs1 Hs Hb HT. destruct (local_alt_words _ _ _ _ _ Hb) as (ss & E).
    eapply d_rule with (ts := rb_terms b); [reflexivity| |  |exact Hs].
    - exists b. split; [|reflexivity]. rewrite with_local_app. apply has_body_app. right.
      eapply local_complete; eauto.
    - rewrite E in *. rewrite map_length, map_map in *. cbn in HT. rewrite map_id in HT. apply terminals_in; auto.
  Qed.
  Lemma local_matches co (so : nat -> nat -> Prop) x : undefined gs x -> (forall i, so i (S i)) -> forall i j,
    derives (has_alt (with_local gs l)) (accepts_by tmatch) toks co so (nonterm x) i j <->
    exists b, local_alt find_all regexps d x b /\ so i j /\ j = i + length (rb_terms b) /\
      texts_at toks i j = map t_value (rb_terms b).
  Proof.
    intros Hu Hs i j. split; [apply local_derives; exact Hu|]. intros (b & Hb & Hso & -> & HT). apply derives_local; auto.
  Qed.

  Lemma texts_one i s : texts_at toks i (S i) = [s] <-> exists x, nth_error toks i = Some x /\ tok_text x = s.
  Proof.
    unfold texts_at. replace (S i - i) with 1 by lia. split.
    - intros H. destruct (nth_error toks i) as [x|] eqn:E.
      + rewrite (skipn_at _ _ _ E) in H. cbn in H. inversion H. eauto.
      + apply nth_error_None in E. rewrite skipn_all2 in H by exact E. discriminate H.
    - intros (x & E & <-). rewrite (skipn_at _ _ _ E). reflexivity.
  Qed.

  (** the token classes *)
  Lemma class_alts c ty : class_of ty c -> ~ tagged d c -> ~ In c (map fst regexps) -> forall b,
    local_alt find_all regexps d c b <-> exists s, class_text d c s /\ b = mkRb [word_term s] None.
  Proof.
    intros Hc Ht Hr b. split.
    - intros H. destruct H as [k x Hk Hc' | sp m x Hin Hm He | sp m x items Hin Hm He | x s e Hh].
      + exists (tok_string k). split; [exists k; auto|reflexivity].
      + destruct Ht. exists sp, m, EOther. auto.
      + destruct Ht. exists sp, m, (EList items). auto.
      + destruct Hr. destruct Hh as (pat & ms & a & b & k & l0 & Hin & _). apply in_map_iff. exists (x, pat). auto.
    - intros (s & (w & Hw & Hc' & <-) & ->). apply la_class; auto.
  Qed.
  Lemma class_derives co (so : nat -> nat -> Prop) c ty : class_of ty c -> ~ tagged d c -> ~ In c (map fst regexps) -> undefined gs c ->
    (forall i, so i (S i)) -> forall i j,
    derives (has_alt (with_local gs l)) (accepts_by tmatch) toks co so (nonterm c) i j <->
    j = S i /\ exists x, nth_error toks i = Some x /\ class_text d c (tok_text x).
  Proof.
    intros Hc Ht Hr Hu Hso i j. rewrite (local_matches co so c Hu Hso). split.
    - intros (b & Hb & _ & -> & HT). apply (class_alts c ty Hc Ht Hr) in Hb. destruct Hb as (s & Hs & ->).
      cbn in *. rewrite Nat.add_1_r in *. split; [reflexivity|]. apply texts_one in HT. destruct HT as (x & E & <-). eauto.
    - intros (-> & x & E & Hx). exists (mkRb [word_term (tok_text x)] None).
      split; [apply (class_alts c ty Hc Ht Hr); eauto|]. split; [apply Hso|]. cbn. split; [lia|]. apply texts_one. eauto.
  Qed.

  (** the regular expressions *)
  Lemma regexp_derives co (so : nat -> nat -> Prop) x : ~ tagged d x -> (forall ty, ~ class_of ty x) -> undefined gs x ->
    (forall i, so i (S i)) -> forall i j,
    derives (has_alt (with_local gs l)) (accepts_by tmatch) toks co so (nonterm x) i j <->
    so i j /\ exists s e, regexp_hit find_all regexps d x s e /\ j = i + length (tokens_at d s e) /\
      texts_at toks i j = map tok_text (tokens_at d s e).
  Proof.
    intros Ht Hc Hu Hso i j. rewrite (local_matches co so x Hu Hso). split.
    - intros (b & Hb & HS & Hj & HT). destruct Hb as [k x Hk Hc' | sp m x Hin Hm He | sp m x items Hin Hm He | x s e Hh].
      + destruct (Hc _ Hc').
      + destruct Ht. exists sp, m, EOther. auto.
      + destruct Ht. exists sp, m, (EList items). auto.
      + split; [exact HS|]. exists s, e. cbn in *. unfold texts_as_terms in *. rewrite map_length, map_map in *. cbn in *. auto.
    - intros (HS & s & e & Hh & Hj & HT). eexists. split; [apply la_regexp; exact Hh|]. cbn. unfold texts_as_terms. rewrite map_length, map_map. cbn. auto.
  Qed.
End Doc.

Lemma terminal_match_plain gtokens to_lower s x : terminal_match gtokens to_lower (word_term s) (Some x) = true <-> s = tok_text x.
Proof. unfold terminal_match, word_term. cbn. apply String.eqb_eq. Qed.

Lemma local_keeps hash find_all span_text regexps ord : (forall i l, Permutation l (ord i l)) ->
  forall d, doc_ok d -> forall l, local_grammar hash find_all span_text regexps ord d = Ret l -> forall gs,
  (forall starts, well_formed gs starts -> well_formed (with_local gs l) starts) /\
  (uniform_ranges gs -> uniform_ranges (with_local gs l)) /\
  (separated gs -> separated (with_local gs l)) /\
  (any_named gs -> any_named (with_local gs l)) /\
  (typed_args gs -> string_items d -> typed_args (with_local gs l)) /\
  (no_empty gs -> no_empty_spans find_all regexps d -> no_empty (with_local gs l)).
Proof.
  intros Ho d Hd l El gs. split; [intros starts; eapply local_well_formed; eauto|]. split; [eapply local_uniform; eauto|].
  split; [eapply local_separated; eauto|]. split; [eapply local_any_named; eauto|]. split; [eapply local_typed; eauto|eapply local_no_empty; eauto].
Qed.
