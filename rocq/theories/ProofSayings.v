(** What a span says, it matches. *)
From Verif Require Import Base ModelTypes ModelText ModelEarley ModelTrees ModelApi ModelQuote ModelSem ModelLocal
  SpecTypes SpecGrammar SpecTree SpecRefine SpecLocal SpecSem SpecFuncs SpecEnd SpecMeaning ProofRefine.

Lemma derives_bounds alt acc toks co so :
  (forall t i j, derives alt acc toks co so t i j -> i <= length toks -> j <= length toks) /\
  (forall ts i j, derives_seq alt acc toks co so ts i j -> i <= length toks -> j <= length toks).
Proof.
  apply derives_mutind; intros; auto; try tauto; try lia.
  apply nth_error_Some. congruence.
Qed.

Section Sayings.
  Variable tokenize : string -> res (list token).
  Variable tmatch : term -> option token -> bool.
  Variable gs : list grammar_rules.
  Variable find_all : string -> string -> option (list (nat * nat)).
  Variable regexps : list (string * string).
  Variable d : document.
  Variable join_words : list string -> string.
  Variable float_string : bigf -> string.
  Variable is_print_hi : rune -> bool.
  Notation Says := (says tokenize tmatch gs find_all regexps d join_words float_string is_print_hi (content d)).
  Notation Say_all := (say_all tokenize tmatch gs find_all regexps d join_words float_string is_print_hi (content d)).
  Notation D := (derives (doc_alt tokenize gs find_all regexps d) (accepts_by tmatch) (content d) own_range (fun _ _ => True)).
  Notation DS := (derives_seq (doc_alt tokenize gs find_all regexps d) (accepts_by tmatch) (content d) own_range (fun _ _ => True)).

  Lemma words_derive ts : forall i j, words_match tmatch (content d) ts i j -> DS ts i j.
  Proof using.
    induction ts as [|t ts IH]; intros i j (-> & H).
    - cbn [length]. rewrite Nat.add_0_r. constructor.
    - destruct (H 0 t eq_refl) as (Ht & tok & Hn & Hm). rewrite Nat.add_0_r in Hn.
      apply ds_cons with (j := S i); [apply d_terminal with (tok := tok); auto|].
      apply IH. split; [cbn [length]; lia|]. intros k u Hk. specialize (H (S k) u Hk).
      replace (S i + k) with (i + S k) by lia. exact H.
  Qed.
  Lemma split_repeat x n : split_terms tokenize (repeat (nonterm x) n) (repeat (nonterm x) n).
  Proof using. induction n; cbn [repeat]; [constructor|apply sp_other; [discriminate|assumption]]. Qed.
  Lemma split_fun ts a : split_terms tokenize ts a -> (forall t, In t ts -> t_type t <> TTerminal) -> a = ts.
  Proof using.
    induction 1 as [|t ts ks ts' Ht Hk Hn _|t ts ts' Ht _ IH]; intros H; [reflexivity| |].
    - contradiction (H t (or_introl eq_refl)).
    - f_equal. apply IH. intros u Hu. apply H. right. exact Hu.
  Qed.
  Lemma says_derive :
    (forall t i j s, Says t i j s -> exists ts, split_terms tokenize [t] ts /\ DS ts i j) /\
    (forall ts i j ss, Say_all ts i j ss -> exists ts', split_terms tokenize ts ts' /\ DS ts' i j).
  Proof using.
    apply says_mutind.
    - intros t i j ks Ht Hk Hw. exists (token_terms (t_meta t) ks ++ []). split; [apply sp_text; auto; constructor|].
      rewrite app_nil_r. apply words_derive. exact Hw.
    - intros t i j Ht Hr Ha. exists [t]. split; [apply sp_other; [rewrite Ht; discriminate|constructor]|].
      apply ds_cons with (j := j); [|constructor]. apply d_any; auto.
    - intros t i j b ss s Ht Hb _ (ts' & Hs & Hd) _. exists [t]. split; [apply sp_other; [rewrite Ht; discriminate|constructor]|].
      apply ds_cons with (j := j); [|constructor]. apply d_rule with (ts := ts'); auto. left. exists (rb_terms b). split; [|exact Hs].
      exists b. auto.
    - intros t i j b s Ht Hl Hw _. exists [t]. split; [apply sp_other; [rewrite Ht; discriminate|constructor]|].
      apply ds_cons with (j := j); [|constructor]. apply d_rule with (ts := rb_terms b); auto; [right; eauto|]. apply words_derive. exact Hw.
    - intros t i j n ss Ht Hr _ (ts' & Hs & Hd). exists [t]. split; [apply sp_other; [rewrite Ht; discriminate|constructor]|].
      apply ds_cons with (j := j); [|constructor]. apply d_list with (n := n); auto.
      rewrite (split_fun _ _ Hs) in Hd; [exact Hd|]. intros u Hu. apply repeat_spec in Hu. subst u. discriminate.
    - intros i. exists []. split; constructor.
    - intros t ts i j k s ss _ (a & A1 & A2) _ (b & B1 & B2). exists (a ++ b). split.
      + inversion A1 as [|? ? ks ts' Ht Hk Hn|? ? ts' Ht Hn]; subst; inversion Hn; subst.
        * rewrite app_nil_r. apply sp_text; assumption.
        * apply (sp_other tokenize t ts b); assumption.
      + apply derives_seq_app. exists j. auto.
  Qed.
  Lemma says_means S i j s : Says (nonterm S) i j s -> Means tokenize tmatch gs find_all regexps d S i j.
  Proof using.
    intros H. apply (proj1 says_derive) in H. destruct H as (ts & Hs & Hd).
    rewrite (split_fun _ _ Hs) in Hd; [|intros t [<-|[]]; discriminate].
    inversion Hd as [|? ? ? k ? H1 H2]; subst. inversion H2; subst. exact H1.
  Qed.
End Sayings.
