(** Readings of texts of single words, taken apart and put together. *)
From Coq Require Import Permutation.
From Verif Require Import Base ModelTypes ModelText ModelEarley ModelTrees ModelApi ModelReader ModelGrammar ModelMatch ModelLocal
     SpecTypes SpecGrammar SpecTree SpecNotation SpecRefine SpecConstruct SpecLocal SpecFuncs SpecMath SpecMeaning SpecFrameText
     ProofGrammar ProofConstruct ProofIndex ProofUnique SpecArith SpecWorth ProofWorth.
Local Open Scope list_scope.

Lemma a_part vs k e : a_worth vs (part (Z.of_nat (S k))) e -> nth_error vs k = Some (Some e).
Proof. intros H. inversion H as [| |k' ? K E]; subst. assert (k' = k) by lia. subst k'. exact K. Qed.
Lemma f_call1 vs a f e : call1 a = Some f -> f_worth vs f e -> a_worth vs a e.
Proof. intros [= <-] H. inversion H; subst; assumption. Qed.
Lemma f_call2 vs o a b f e : call2 o a b = Some f -> f_worth vs f e -> exists x y, e = Binary o x y /\ a_worth vs a x /\ a_worth vs b y.
Proof.
  intros [= <-] H. inversion H as [? ? H1 E|o' ? ? x y H1 H2 E|? ? H1 E]; subst.
  apply name_inj in E. subst o'. exists x, y. auto.
Qed.
Lemma a_product vs x : a_worth vs product12 x -> exists a b, x = Binary Times a b /\ a_worth vs (part 1) a /\ a_worth vs (part 2) b.
Proof.
  intros H. inversion H as [|f ? H1|]; subst. apply (f_call2 vs Times (part 1) (part 2) _ _ eq_refl H1).
Qed.

Section Read.
  Variable tokenize : string -> res (list token).
  Variable tmatch : term -> option token -> bool.
  Variable gs : list grammar_rules.
  Variable d : document.
  Variable ws : list string.
  Variable V : list string.
  Variable its : list item.
  Hypothesis Hws : in_words tokenize tmatch V d ws.
  Notation W := (worth tokenize tmatch gs (content d)).
  Notation Ws := (worths tokenize tmatch gs (content d)).
  Definition sl (i j : nat) : list string := firstn (j - i) (skipn i ws).

  Lemma sl_app i j k : i <= j -> j <= k -> sl i k = sl i j ++ sl j k.
  Proof using.
    unfold sl. intros H1 H2. replace (k - i) with ((j - i) + (k - j)) by lia. replace (skipn j ws) with (skipn (j - i) (skipn i ws)).
    2: { clear - H1. assert (K : forall (l : list string) a b, skipn a (skipn b l) = skipn (a + b) l).
         { induction l as [|x l IH]; intros a b; [rewrite !skipn_nil; reflexivity|]. destruct b; [cbn; rewrite Nat.add_0_r; reflexivity|].
           rewrite Nat.add_succ_r. cbn [skipn]. apply IH. }
         rewrite K. f_equal. lia. }
    generalize (skipn i ws) as l, (j - i) as a, (k - j) as b. clear. intros l a. revert l.
    induction a as [|a IH]; intros l b; [reflexivity|]. destruct l as [|x l]; [rewrite !firstn_nil; reflexivity|]. cbn [Nat.add firstn skipn app]. f_equal. apply IH.
  Qed.
  Lemma sl_one i w : nth_error ws i = Some w -> sl i (S i) = [w].
  Proof using.
    unfold sl. replace (S i - i) with 1 by lia. clear. revert i. induction ws as [|x l IH]; intros [|i] H; try discriminate.
    - injection H as ->. reflexivity.
    - cbn [skipn]. apply IH. exact H.
  Qed.
  Lemma phrase_word w i j : In w V -> phrase tokenize tmatch (content d) w i j -> j = S i /\ sl i j = [w].
  Proof using Hws. intros Hw H. apply (proj2 Hws w Hw) in H as [-> H]. split; [reflexivity|]. apply sl_one. exact H. Qed.

  (** ** Taking readings apart *)
  Lemma rule_inv x ts i k vs : Ws (nonterm x :: ts) i k vs -> exists j e vs', vs = Some e :: vs' /\ W x i j e /\ Ws ts j k vs'.
  Proof using.
    intros H. inversion H as [|? ? ? ? ? ? [E _]|? ? ? j ? e vs' _ H1 H2]; subst; [discriminate E|]. exists j, e, vs'. auto.
  Qed.
  Lemma word_inv w ts i k vs : Ws (word w :: ts) i k vs -> exists j vs', vs = None :: vs' /\ phrase tokenize tmatch (content d) w i j /\ Ws ts j k vs'.
  Proof using.
    intros H. inversion H as [|? ? ? j ? vs' [_ H1] H2|? ? ? ? ? ? ? E]; subst; [|discriminate E]. exists j, vs'. auto.
  Qed.
  Lemma nil_inv i k vs : Ws [] i k vs -> k = i /\ vs = [].
  Proof using. intros H. inversion H; auto. Qed.

  Hypothesis HB : forall x b, has_body gs x b -> In b (written its false x).
  Lemma worth_inv x i j e : W x i j e -> exists b f vs, In b (written its false x) /\ rb_f b = Some f /\ Ws (rb_terms b) i j vs /\ f_worth vs f e.
  Proof using HB. intros H. inversion H as [? ? ? b f vs ? H1 H2 H3 H4]; subst. exists b, f, vs. auto. Qed.

  (** a rule of single words *)
  Definition single (x : string) (l : list (string * Z)) : Prop :=
    forall i j e, W x i j e -> exists w z, In (w, z) l /\ e = Number z /\ j = S i /\ sl i j = [w].
  Lemma single_table x l : written its false x = map number_body l -> (forall w, In w (map fst l) -> In w V) -> single x l.
  Proof using HB Hws.
    intros E Hl i j e H. destruct (worth_inv _ _ _ _ H) as (b & f & vs & Hb & Hf & Hv & Hw). rewrite E in Hb.
    apply in_map_iff in Hb as ((w & z) & <- & Hb). cbn [number_body rb_terms rb_f fst snd] in *. injection Hf as <-.
    destruct (word_inv _ _ _ _ _ Hv) as (k & vs' & -> & P & Hn). apply nil_inv in Hn as [-> ->].
    apply phrase_word in P as [-> P]; [|apply Hl; apply (in_map fst) in Hb; exact Hb].
    apply (f_call1 _ (Arg "int" (VInt z))) in Hw; [|reflexivity]. inversion Hw; subst. exists w, z. auto.
  Qed.

  Lemma single_simple x l : single x l -> (forall w z, In (w, z) l -> (0 <= z <= 90)%Z) -> forall i j e, W x i j e -> modest e.
  Proof using. intros H K i j e Hw. destruct (H _ _ _ Hw) as (w & z & H1 & -> & _). apply K in H1. cbn [modest]. unfold small. lia. Qed.

  (** ** Putting readings together *)
  Hypothesis HB' : forall x b, In b (written its false x) -> has_body gs x b.
  Definition readable (x : string) (L : list string -> Z -> Prop) : Prop :=
    forall mid z, L mid z -> forall pre post, ws = pre ++ mid ++ post -> exists e, W x (length pre) (length pre + length mid) e.
  Lemma word_at w pre post : In w V -> ws = pre ++ w :: post -> phrase tokenize tmatch (content d) w (length pre) (S (length pre)).
  Proof using Hws.
    intros Hw E. apply (proj2 Hws w Hw). split; [reflexivity|]. rewrite E, nth_error_app2, Nat.sub_diag by lia. reflexivity.
  Qed.
  Lemma read_single x l : written its false x = map number_body l -> (forall w, In w (map fst l) -> In w V) ->
    forall w z, In (w, z) l -> forall pre post, ws = pre ++ w :: post -> W x (length pre) (S (length pre)) (Number z).
  Proof using Hws HB'.
    intros E Hl w z H pre post Ew. eapply (wo_body _ _ _ _ x _ _ (number_body (w, z)) _ [None]).
    - apply HB'. rewrite E. apply in_map. exact H.
    - reflexivity.
    - eapply ws_text; [|constructor]. split; [reflexivity|]. apply word_at with (post := post); [|exact Ew]. apply Hl. apply (in_map fst) in H; exact H.
    - constructor. constructor.
  Qed.
  Lemma read_up x y b i j e : In b (written its false x) -> b = mkRb [nonterm y] (call1 (part 1)) -> W y i j e -> W x i j e.
  Proof using HB'.
    intros Hb -> H. eapply (wo_body _ _ _ _ x i j _ _ [Some e]); [apply HB'; exact Hb|reflexivity| |].
    - eapply (ws_rule _ _ _ _ (nonterm y)); [reflexivity|exact H|constructor].
    - constructor. apply (aw_part _ 0). reflexivity.
  Qed.
End Read.

(** ** A file without inclusions and regular expressions *)
Section Plain.
  Variable e : env.
  Hypothesis HE : env_ok e.
  Variables (T : string) (its : list item).
  Hypothesis HT : e_text e T [] its [].
  Variables (file dir : string) (fuel depth : nat) (gt : list (string * token)) (g : grammar) (w' : world).
  Hypothesis Hread : e_read e file = Ret T.
  Hypothesis Habs : e_abs e file = Ret dir.
  Hypothesis Hload : from_file e fuel depth file gt = Ret (Some g, w').

  Lemma plain_includes : g_includes g = [].
  Proof using HE HT Hread Habs Hload.
    destruct (env_file_files e HE fuel depth _ gt _ w' Hload) as (g0 & b & dir' & E0 & Hr & Hd & _ & _ & Hi & _).
    injection E0 as <-. rewrite Hread in Hr. injection Hr as <-. rewrite Habs in Hd. injection Hd as <-.
    destruct (g_includes g) as [|ig l] eqn:E; [reflexivity|]. exfalso.
    assert (K : forall f, ~ e_reached e T dir f).
    { intros f H. induction H as [ps its' re p T' Hp|f b fdir ps its' re p _ IH _ _ _ _]; [|exact IH].
      destruct (one_reading e HE _ _ _ _ _ _ _ HT T') as (<- & _). destruct Hp. }
    apply (K (g_name ig)). apply Hi. left. reflexivity.
  Qed.
  Lemma plain_rules L : e_parts e T g L -> compatible L /\ g_regexps g = [] /\
    (forall x b, has_body (map rd_before L) x b -> In b (written its false x)) /\
    (forall x, NoDup (map (e_hash e) (written its false x)) -> forall b, In b (written its false x) -> has_body (map rd_before L) x b).
  Proof using HE HT Hread Habs Hload.
    intros HL. pose proof HL as (p & ps & -> & _ & (ps' & its' & re & T' & _ & D & _ & _ & Rx) & F). rewrite plain_includes in F. inversion F; subst ps.
    destruct (one_reading e HE _ _ _ _ _ _ _ HT T') as (<- & W & RE).
    split; [eapply env_single; [exact HL|exact plain_includes]|].
    split.
    { destruct Rx as (_ & X & _). rewrite plain_includes in X. destruct (g_regexps g) as [|[h v] l]; [reflexivity|]. exfalso.
      destruct (proj1 (X h)) as [H|(ig & [] & _)]; [cbn; rewrite String.eqb_refl; discriminate|]. apply RE in H. destruct H. }
    destruct D as (D1 & D2 & D3). split.
    - intros x b (m & r & h & [<-|[]] & Hx & Hb). apply W.
      destruct (D3 x) as (r' & L' & _ & N' & H').
      { intros C. apply D2 in C. rewrite Hx in C. discriminate. }
      rewrite Hx in L'. injection L' as <-. pose proof (lookup_N_in _ _ _ N' Hb) as E. rewrite H' in E.
      apply find_some in E as [E _]. rewrite <- in_rev in E. exact E.
    - intros x ND b Hb. assert (NE : written its' false x <> []) by (intros C; apply W in Hb; rewrite C in Hb; destruct Hb).
      destruct (D3 _ NE) as (r & L' & _ & N' & H').
      exists (rd_before p), r, (e_hash e b). split; [left; reflexivity|]. split; [exact L'|].
      specialize (H' (e_hash e b)).
      destruct (find _ (rev (written its' false x))) as [b'|] eqn:E.
      + apply find_some in E as [E1 E2]. apply N.eqb_eq in E2. rewrite <- in_rev in E1. apply W in E1.
        assert (b' = b) as ->; [|apply ProofIndex.lookup_N_some; exact H'].
        clear - ND Hb E1 E2. revert ND Hb E1. generalize (written its false x) as l. induction l as [|a l IH]; intros ND; [intros []|].
        cbn [map] in ND. inversion ND as [|? ? N1 N2]; subst. intros [->|Hb] [->|Hb']; auto.
        * exfalso. apply N1. rewrite <- E2. apply in_map. exact Hb'.
        * exfalso. apply N1. rewrite E2. apply in_map. exact Hb.
      + exfalso. assert (H : In b (rev (written its' false x))) by (rewrite <- in_rev; apply W; exact Hb).
        pose proof (find_none _ _ E b H) as C. cbn beta in C. rewrite N.eqb_refl in C. discriminate.
  Qed.
End Plain.

Lemma words_in tokenize gtokens to_lower V d : words_are_tokens tokenize V -> in_words tokenize (terminal_match gtokens to_lower) V d (map tok_text (content d)).
Proof.
  intros H. split; [rewrite map_length; reflexivity|]. intros w Hw i j. destruct (H w Hw) as (ks & k & E & F & T).
  assert (M : forall tok, terminal_match gtokens to_lower (mkTerm w TTerminal MNil) (Some tok) = String.eqb w (tok_text tok)) by reflexivity.
  unfold phrase. split.
  - intros (ks' & E' & L & W). rewrite E in E'. injection E' as <-. unfold token_terms in L, W. rewrite F in L, W. cbn [map length] in L, W. rewrite T in W.
    split; [lia|]. destruct (W 0 _ eq_refl) as (_ & tok & N & Mt). rewrite M in Mt. apply String.eqb_eq in Mt. rewrite Nat.add_0_r in N.
    rewrite (map_nth_error tok_text _ _ N). congruence.
  - intros [-> N]. exists ks. split; [exact E|]. unfold token_terms. rewrite F. cbn [map]. rewrite T. split; [cbn [length]; lia|].
    intros [|k'] t Ht; [|destruct k'; discriminate Ht]. injection Ht as <-. split; [reflexivity|]. rewrite Nat.add_0_r.
    destruct (nth_error (content d) i) as [tok|] eqn:En.
    + exists tok. split; [reflexivity|]. rewrite M. rewrite (map_nth_error tok_text _ _ En) in N. injection N as <-. apply String.eqb_refl.
    + exfalso. apply nth_error_None in En. assert (i < length (map tok_text (content d))) by (apply nth_error_Some; congruence). rewrite map_length in *. lia.
Qed.
