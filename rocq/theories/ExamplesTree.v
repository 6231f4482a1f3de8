(** Examples for the trees a chart lists. *)
From Verif Require Import Base ModelTypes ModelText ModelEarley ModelTrees ModelApi
     SpecTypes SpecGrammar SpecTree SpecApi SpecTreeOrder ProofMain ProofRefute Examples ProofWitness.

(** s = <x> <b>, x = <a> | <c>, c = <a>, a = "a", b = "b": two trees for "a b" *)
Definition g_both : list grammar_rules :=
  [[ xrule "s" [[xN "x"; xN "b"]]; xrule "x" [[xN "a"]; [xN "c"]]; xrule "c" [[xN "a"]];
     xrule "a" [[xT "a"]]; xrule "b" [[xT "b"]] ]].
Definition both_a : ptree := PRule "a" (xbody [xT "a"]) 0 1 [PTok (xT "a") 0].
Definition both_b : ptree := PRule "b" (xbody [xT "b"]) 1 2 [PTok (xT "b") 1].
Definition both_x (deep : bool) : ptree :=
  if deep then PRule "x" (xbody [xN "c"]) 0 1 [PRule "c" (xbody [xN "a"]) 0 1 [both_a]]
  else PRule "x" (xbody [xN "a"]) 0 1 [both_a].
Definition both_tree (deep : bool) : ptree := PRule "s" (xbody [xN "x"; xN "b"]) 0 2 [both_x deep; both_b].

Ltac one_rule x :=
  apply (to_rule _ _ _ _ (xN x)); [reflexivity|apply has_body_bodies; vm_compute; tauto|].
Lemma both_tree_ok deep : tree_of g_both (accepts_by xmatch) (xtoks ["a"; "b"]) own_range (nonterm "s") 0 2 (both_tree deep).
Proof.
  assert (tree_of g_both (accepts_by xmatch) (xtoks ["a"; "b"]) own_range (nonterm "a") 0 1 both_a) as Ha.
  { one_rule "a". eapply tos_cons; [|apply tos_nil]. eapply to_tok; reflexivity. }
  one_rule "s". eapply tos_cons.
  - destruct deep.
    + one_rule "x". eapply tos_cons; [|apply tos_nil]. one_rule "c". eapply tos_cons; [exact Ha|apply tos_nil].
    + one_rule "x". eapply tos_cons; [exact Ha|apply tos_nil].
  - eapply tos_cons; [|apply tos_nil]. one_rule "b". eapply tos_cons; [|apply tos_nil]. eapply to_tok; reflexivity.
Qed.

(** the nodes of a tree *)
Fixpoint p_nodes (q : ptree) : list ptree :=
  q :: match q with
       | PRule _ _ _ _ kids => flat_map p_nodes kids
       | PList _ _ _ kids => flat_map p_nodes kids
       | _ => []
       end.
Lemma p_nodes_ok q m : subtree q m -> In m (p_nodes q).
Proof.
  induction 1 as [q|q k m Hk H IH]; [destruct q; left; reflexivity|].
  destruct q; cbn [p_kids] in Hk; try (destruct Hk; fail); right; apply in_flat_map; exists k; auto.
Qed.
Definition nonempty_b (q : ptree) : bool := forallb (fun m => Nat.ltb (p_start m) (p_end m)) (p_nodes q).
Lemma nonempty_b_ok q : nonempty_b q = true -> nowhere_empty q.
Proof.
  intros H m Hm. unfold nonempty_b in H. rewrite forallb_forall in H. apply Nat.ltb_lt. apply H, p_nodes_ok, Hm.
Qed.

Section Inv.
  Variable gs : list grammar_rules.
  Variable toks : list token.
  Notation T := (tree_of gs (accepts_by xmatch) toks own_range).
  Notation TS := (trees_of gs (accepts_by xmatch) toks own_range).
  Lemma inv_rule x i j q : T (nonterm x) i j q ->
    exists b kids, q = PRule x b i j kids /\ In b (bodies_of gs x) /\ TS (rb_terms b) i j kids.
  Proof.
    intros H. inversion H as [|? ? ? E|? ? ? b kids E Hb Hk|]; subst; try discriminate.
    apply has_body_bodies in Hb. eauto.
  Qed.
  Lemma inv_one t i j qs : TS [t] i j qs -> exists q, qs = [q] /\ T t i j q.
  Proof. intros H. inversion H as [|? ? ? ? ? q ps H1 H2]; subst. inversion H2; subst. eauto. Qed.
  Lemma inv_two t u i j qs : TS [t; u] i j qs -> exists q q' m, qs = [q; q'] /\ T t i m q /\ T u m j q'.
  Proof. intros H. inversion H as [|? ? ? m ? q ps H1 H2]; subst. apply inv_one in H2 as (q' & -> & H2). eauto 6. Qed.
  Lemma inv_tok w i j q : T (xT w) i j q -> j = S i /\ q = PTok (xT w) i.
  Proof. intros H. inversion H; subst; try discriminate. auto. Qed.
End Inv.

Lemma snoc_one {A} (l : list A) a x : l ++ [x] = [a] -> x = a.
Proof. destruct l as [|b [|c l]]; cbn; intros [= ]; congruence. Qed.
Lemma snoc_two {A} (l : list A) a b x : l ++ [x] = [a; b] -> x = b.
Proof. destruct l as [|c [|d [|e l]]]; cbn; intros [= ]; congruence. Qed.

Lemma both_forced deep m :
  subtree (PRule GammaRule (gamma_body "s") 0 2 [both_tree deep]) m ->
  forced g_both (accepts_by xmatch) (xtoks ["a"; "b"]) own_range m.
Proof.
  intros Hm. apply p_nodes_ok in Hm. intros n' l k l' k' Hr Hw E E'.
  assert (forall b i j kids, In b (bodies_of g_both "a") -> trees_of g_both (accepts_by xmatch) (xtoks ["a"; "b"]) own_range (rb_terms b) i j kids ->
    b = xbody [xT "a"] /\ j = S i /\ kids = [PTok (xT "a") i]) as Ia.
  { intros b i j kids Hb Hk. vm_compute in Hb. destruct Hb as [<-|[]]. apply inv_one in Hk as (q & -> & Hq).
    apply inv_tok in Hq as [-> ->]. auto. }
  assert (In m [PRule GammaRule (gamma_body "s") 0 2 [both_tree deep]; both_tree deep; both_x false; both_x true; both_a; both_b;
                PTok (xT "a") 0; PTok (xT "b") 1; PRule "c" (xbody [xN "a"]) 0 1 [both_a]]) as Hin
    by (destruct deep; cbn in Hm; cbn; tauto).
  clear Hm. cbn in Hin.
  destruct Hin as [<-|[<-|[<-|[<-|[<-|[<-|[<-|[<-|[<-|[]]]]]]]]]];
    (destruct n' as [t i|i j|x b i j kids|x i j kids]; try contradiction); cbn [same_root both_tree both_x both_a both_b p_kids] in Hr, E, E';
    try (apply (f_equal (@length _)) in E; rewrite app_length in E; cbn in E; exfalso; lia);
    destruct Hr as (<- & <- & <- & <-); cbn in Hw; symmetry in E.
  - apply inv_one in Hw as (q & -> & Hq). symmetry in E'. apply snoc_one in E, E'. subst.
    apply inv_rule in Hq as (b & kids & -> & Hb & _). vm_compute in Hb. destruct Hb as [<-|[]]. cbn. auto.
  - apply inv_two in Hw as (q & q' & j & -> & Hq & Hq'). symmetry in E'. apply snoc_two in E, E'. subst.
    apply inv_rule in Hq' as (b & kids & -> & Hb & Hk). vm_compute in Hb. destruct Hb as [<-|[]].
    apply inv_one in Hk as (q0 & -> & Hq0). apply inv_tok in Hq0 as [Ej ->]. injection Ej as <-. cbn. auto.
  - apply inv_one in Hw as (q & -> & Hq). symmetry in E'. apply snoc_one in E, E'. subst.
    apply inv_rule in Hq as (b & kids & -> & Hb & Hk). destruct (Ia _ _ _ _ Hb Hk) as (-> & _). cbn. auto.
  - apply inv_one in Hw as (q & -> & Hq). symmetry in E'. apply snoc_one in E, E'. subst.
    apply inv_rule in Hq as (b & kids & -> & Hb & _). vm_compute in Hb. destruct Hb as [<-|[]]. cbn. auto.
  - apply inv_one in Hw as (q & -> & Hq). symmetry in E'. apply snoc_one in E, E'. subst.
    apply inv_tok in Hq as [_ ->]. cbn. auto.
  - apply inv_one in Hw as (q & -> & Hq). symmetry in E'. apply snoc_one in E, E'. subst.
    apply inv_tok in Hq as [_ ->]. cbn. auto.
  - apply inv_one in Hw as (q & -> & Hq). symmetry in E'. apply snoc_one in E, E'. subst.
    apply inv_rule in Hq as (b & kids & -> & Hb & Hk). destruct (Ia _ _ _ _ Hb Hk) as (-> & _). cbn. auto.
Qed.

(** the chart of "a" for g_two *)
Definition two_columns : list column :=
  match xparse id_ord g_two true ["a"] ["s"] with Ret p => p_columns p | _ => [] end.
Lemma two_late : late two_columns (PRule GammaRule (gamma_body "s") 0 1 [two_tree_2]) two_tree_2.
Proof.
  split; [left; reflexivity|]. split; [reflexivity|]. split; [reflexivity|].
  exists 3, 4. split; [|split; [|lia]]; vm_compute; eexists _, _;
    (split; [reflexivity|]; split; [reflexivity|]; repeat split).
Qed.
