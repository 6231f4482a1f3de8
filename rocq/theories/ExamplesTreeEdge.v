(** Examples for right edges. *)
From Verif Require Import Base ModelTypes ModelText ModelEarley ModelTrees ModelApi
     SpecTypes SpecGrammar SpecTree SpecApi SpecTreeOrder SpecTreeEdge ProofMain ProofRefute Examples ProofWitness ExamplesTree.

(** s = <s> <s> | "a" *)
Definition g_pairs : list grammar_rules := [[ xrule "s" [[xN "s"; xN "s"]; [xT "a"]] ]].
Definition pair_leaf (i : nat) : ptree := PRule "s" (xbody [xT "a"]) i (S i) [PTok (xT "a") i].
Definition pair_node (i j : nat) (l r : ptree) : ptree := PRule "s" (xbody [xN "s"; xN "s"]) i j [l; r].
(** the tree ((a a) a) of "a a a" *)
Definition pairs_left : ptree := pair_node 0 3 (pair_node 0 2 (pair_leaf 0) (pair_leaf 1)) (pair_leaf 2).
Definition pairs_right : ptree := pair_node 0 3 (pair_leaf 0) (pair_node 1 3 (pair_leaf 1) (pair_leaf 2)).

Notation PT := (tree_of g_pairs (accepts_by xmatch) (xtoks ["a"; "a"; "a"]) own_range (nonterm "s")).
Lemma leaf_ok i : i < 3 -> PT i (S i) (pair_leaf i).
Proof.
  intros Hi. one_rule "s". eapply tos_cons; [|apply tos_nil].
  destruct i as [|[|[|i]]]; try lia; eapply to_tok; reflexivity.
Qed.
Lemma pair_ok i m j l r : PT i m l -> PT m j r -> PT i j (pair_node i j l r).
Proof. intros Hl Hr. one_rule "s". eapply tos_cons; [exact Hl|]. eapply tos_cons; [exact Hr|apply tos_nil]. Qed.
Lemma pairs_left_ok : PT 0 3 pairs_left.
Proof. eapply pair_ok; [eapply pair_ok|]; apply leaf_ok; lia. Qed.
Lemma pairs_right_ok : PT 0 3 pairs_right.
Proof. eapply pair_ok; [|eapply pair_ok]; apply leaf_ok; lia. Qed.

Lemma pairs_cases i j q : PT i j q -> (j = S i /\ edge q = 1) \/ 2 <= edge q.
Proof.
  intros H. apply inv_rule in H as (b & kids & -> & Hb & Hk). vm_compute in Hb. destruct Hb as [<-|[<-|[]]].
  - right. apply inv_two in Hk as (q & q' & m & -> & _ & Hq). apply inv_rule in Hq as (b & kids & -> & _). cbn [edge]. lia.
  - left. apply inv_one in Hk as (q & -> & Hq). apply inv_tok in Hq as [-> ->]. auto.
Qed.
Lemma pairs_shortest m : subtree (PRule GammaRule (gamma_body "s") 0 3 [pairs_left]) m -> p_inner m = true ->
  shortest g_pairs (accepts_by xmatch) (xtoks ["a"; "a"; "a"]) own_range m.
Proof.
  intros Hm Hi n' Hr Hw. apply p_nodes_ok in Hm. cbn in Hm.
  assert (E : forall i j q, PT i j q -> 1 <= edge q) by (intros i j q H; destruct (pairs_cases i j q H) as [[_ H1]|H1]; lia).
  assert (P : forall i j kids, trees_of g_pairs (accepts_by xmatch) (xtoks ["a"; "a"; "a"]) own_range [xN "s"; xN "s"] i j kids ->
            2 <= edge (PRule "s" (xbody [xN "s"; xN "s"]) i j kids)).
  { intros i j kids H. apply inv_two in H as (q & q' & m' & -> & _ & Hq). apply E in Hq. cbn [edge]. lia. }
  destruct Hm as [<-|[<-|[<-|[<-|[<-|[<-|[<-|[<-|[<-|[]]]]]]]]]]; try discriminate Hi;
    (destruct n' as [t a|a b|x b a c kids|x a c kids]; try contradiction); cbn [same_root] in Hr;
    destruct Hr as (<- & <- & <- & <-); cbn in Hw.
  - apply inv_one in Hw as (q & -> & Hq). apply pairs_cases in Hq as [[C _]|Hq]; [discriminate|]. cbn in *. lia.
  - apply P in Hw. cbn in *. lia.
  - apply P in Hw. cbn in *. lia.
  - cbn. lia.
  - cbn. lia.
  - cbn. lia.
Qed.
Lemma pairs_not_forced : ~ forced g_pairs (accepts_by xmatch) (xtoks ["a"; "a"; "a"]) own_range pairs_left.
Proof.
  intros H. pose proof pairs_right_ok as R. apply inv_rule in R as (b & kids & E & _ & Hk). injection E as <- <-.
  destruct (H pairs_right [pair_node 0 2 (pair_leaf 0) (pair_leaf 1)] (pair_leaf 2) [pair_leaf 0] (pair_node 1 3 (pair_leaf 1) (pair_leaf 2))) as (_ & C & _);
    try reflexivity; [repeat split|exact Hk|discriminate C].
Qed.

(** s = <x> | <y> <b>, x = "a" | <y>, y = "a", b = "b": whether y = "a" is completed before
    x = "a" depends on the order of the alternatives of s *)
Definition g_luck : list grammar_rules :=
  [[ xrule "s" [[xN "x"]; [xN "y"; xN "b"]]; xrule "x" [[xT "a"]; [xN "y"]]; xrule "y" [[xT "a"]]; xrule "b" [[xT "b"]] ]].
Definition luck_tree (long : bool) : ptree :=
  PRule GammaRule (gamma_body "s") 0 1 [PRule "s" (xbody [xN "x"]) 0 1
    [if long then PRule "x" (xbody [xN "y"]) 0 1 [PRule "y" (xbody [xT "a"]) 0 1 [PTok (xT "a") 0]]
     else PRule "x" (xbody [xT "a"]) 0 1 [PTok (xT "a") 0]]].
