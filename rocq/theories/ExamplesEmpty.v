(** A grammar with an empty alternative. *)
From Verif Require Import Base ModelTypes ModelText ModelEarley ModelTrees ModelApi SpecTypes SpecGrammar SpecTree SpecApi Examples.

(** s = "a" | "" *)
Definition g_opt : list grammar_rules := [[ xrule "s" [[xT "a"]; []] ]].

Lemma opt_no_x : forall i j, i <= 1 < j -> ~ MatchLax xmatch g_opt (xtoks ["a"; "x"]) "s" i j.
Proof.
  intros i j Hij H. unfold MatchLax, DerivesLax in H. inversion H as [t k tk Ht| t k m ts Ht Ha Hs |t k m Ht|t k m n Ht]; try discriminate Ht. subst.
  destruct Ha as (b & (g & ru & h & Hg & Hl & Hb) & <-). destruct Hg as [<-|[]]. injection Hl as <-. cbn in Hb.
  destruct Hb as [E|[E|[]]]; injection E as _ <-; cbn in Hs.
  - inversion Hs as [|t0 ts0 i0 j0 k0 H1 H2]; subst. inversion H2; subst.
    inversion H1 as [t1 i1 tk Ht1 Hn Hm| t1 i1 j1 ts1 Ht1|t1 i1 j1 Ht1|t1 i1 j1 n1 Ht1]; try discriminate Ht1. subst.
    assert (i = 1) by lia. subst. injection Hn as <-. vm_compute in Hm. discriminate.
  - inversion Hs; subst. lia.
Qed.
