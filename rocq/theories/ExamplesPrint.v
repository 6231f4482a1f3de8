(** Examples for printing. *)
From Coq Require Import Ascii.
From Verif Require Import Base ModelTypes ModelText ModelQuote ModelEarley ModelTrees ModelApi ModelString ModelPrint
     SpecTypes SpecGrammar SpecTree SpecApi SpecSem SpecPrint ProofPrint ProofPrintParse Examples ProofWitness ExamplesTree.

Definition lacks_b (c : ascii) (s : string) : bool := negb (existsb (Ascii.eqb c) (list_ascii_of_string s)).
Lemma lacks_b_ok c s : lacks_b c s = true -> lacks c s.
Proof.
  unfold lacks_b, lacks. rewrite negb_true_iff. intros H Hin.
  assert (existsb (Ascii.eqb c) (list_ascii_of_string s) = true) as E; [|congruence].
  apply existsb_exists. exists c. split; [exact Hin|apply Ascii.eqb_refl].
Qed.
Definition plain_term_b (t : term) : bool :=
  match t_type t with TEOF => false | TNonterminal | TList => lacks_b ">" (t_value t) | _ => true end.
Lemma plain_term_b_ok t : plain_term_b t = true -> plain_term t.
Proof. unfold plain_term_b, plain_term. destruct (t_type t); intros H; try discriminate; try exact I; apply lacks_b_ok; exact H. Qed.
(** grammars without functions *)
Definition plain_b (gs : list grammar_rules) (starts : list string) : bool :=
  forallb (fun g : grammar_rules => forallb (fun e : string * rule => lacks_b ">" (fst e)
     && forallb (fun hb : N * rulebody => forallb plain_term_b (rb_terms (snd hb)) && match rb_f (snd hb) with None => true | _ => false end) (r_body (snd e))) g) gs
  && forallb (lacks_b ">") starts.
Lemma plain_b_ok pr fs stop gs starts : lacks stop "nf.I($0)" -> plain_b gs starts = true -> plain_grammar pr fs stop gs starts.
Proof.
  intros Hst H. apply andb_true_iff in H as [H1 H2]. rewrite forallb_forall in H1, H2. split.
  - intros x b (g & ru & h & Hg & Hl & Hb). specialize (H1 g Hg). rewrite forallb_forall in H1.
    assert (In (x, ru) g) as Hin.
    { clear - Hl. induction g as [|[y r] g IH]; [discriminate|]. cbn [lookup] in Hl. destruct (String.eqb y x) eqn:E.
      - apply String.eqb_eq in E as ->. injection Hl as ->. left. reflexivity.
      - right. auto. }
    specialize (H1 _ Hin). cbn [fst snd] in H1. apply andb_true_iff in H1 as [Hx H1]. split; [apply lacks_b_ok; exact Hx|].
    rewrite forallb_forall in H1. specialize (H1 _ Hb). cbn [snd] in H1. apply andb_true_iff in H1 as [Ht Hf].
    split; [|destruct (rb_f b); [discriminate|exact Hst]]. rewrite forallb_forall in Ht. apply Forall_forall. intros t Hin'.
    apply plain_term_b_ok. auto.
  - apply Forall_forall. intros x Hx. apply lacks_b_ok. auto.
Qed.

(** the parse of "a b" with [g_both] and its two trees *)
Definition both_parse : parse_t :=
  Eval vm_compute in match xparse id_ord g_both true ["a"; "b"] ["s"] with Ret p => p | _ => mkParse "" [] [] end.
Definition both_nodes : list node :=
  Eval vm_compute in match p_finals both_parse with
  | ref :: _ => match get_trees (p_columns both_parse) 200 ref with Ret l => l | _ => [] end
  | [] => []
  end.
Definition none : node := Node (mkSt (xN "") None 0 0 0) [].
Definition both_1 : node := Eval vm_compute in nth 0 both_nodes none.
Definition both_2 : node := Eval vm_compute in nth 1 both_nodes none.
Lemma both_parse_ok : xparse id_ord g_both true ["a"; "b"] ["s"] = Ret both_parse.
Proof. vm_compute. reflexivity. Qed.
Lemma both_nodes_ok : tree_of_parse both_parse both_1 /\ tree_of_parse both_parse both_2.
Proof.
  split; exists (nth 0 (p_finals both_parse) (0, 0)), 200, both_nodes; (split; [vm_compute; tauto|]);
    (split; [vm_compute; reflexivity|vm_compute; tauto]).
Qed.

Lemma both_differ pr fs : ~ tree_alike pr fs both_1 both_2.
Proof.
  unfold both_1, both_2. intros H. inversion H as [? ? ? ? _ F]; subst. inversion F as [|? ? ? ? H1 _]; subst. clear H F.
  inversion H1 as [? ? ? ? _ F]; subst. inversion F as [|? ? ? ? H2 _]; subst. clear H1 F.
  inversion H2 as [? ? ? ? Ha _]; subst. destruct Ha as (_ & _ & _ & Ha). cbn in Ha.
  destruct Ha as (_ & _ & b & c & [= <-] & [= <-] & F & _). cbn [rb_terms] in F.
  inversion F as [|? ? ? ? [_ E] _]; subst. specialize (E ltac:(discriminate)). discriminate E.
Qed.

Lemma tree_print_same treeprint pr fs :
  tree_print pr fs treeprint both_1 = tree_print pr fs treeprint both_2.
Proof. vm_compute. reflexivity. Qed.

Lemma tree_print_hides : forall treeprint is_print_hi float_string,
  exists tmatch ords gs text fuel n mf toks starts p t u,
  is_order (ords n) /\ earley_parse_n tmatch ords gs text fuel n mf toks starts = Ret p
  /\ well_formed gs starts /\ plain_grammar is_print_hi float_string (of_byte 10) gs starts
  /\ tree_of_parse p t /\ tree_of_parse p u
  /\ ~ tree_alike is_print_hi float_string t u
  /\ print_node is_print_hi float_string t <> print_node is_print_hi float_string u
  /\ tree_print is_print_hi float_string treeprint t = tree_print is_print_hi float_string treeprint u.
Proof.
  intros tp pr fs.
  assert (plain_grammar pr fs (of_byte 10) g_both ["s"]) as Hpl by (apply plain_b_ok; [apply lacks_b_ok; reflexivity|reflexivity]).
  assert (well_formed g_both ["s"]) as Hwf by (apply well_formed_b_ok; reflexivity).
  destruct both_nodes_ok as [H1 H2].
  exists xmatch, (fun _ => id_ord), g_both, ""%string, 200, 0, true, (xtoks ["a"; "b"]), ["s"%string], both_parse, both_1, both_2.
  split; [exact id_ord_ok|]. split; [exact both_parse_ok|]. split; [exact Hwf|]. split; [exact Hpl|].
  split; [exact H1|]. split; [exact H2|]. split; [apply both_differ|]. split; [|apply tree_print_same].
  intros E. apply (both_differ pr fs). revert E.
  refine (proj1 (trees_printed pr fs xmatch (fun _ => id_ord) _ _ _ 0 _ _ _ _ xmatch (fun _ => id_ord) _ _ _ 0 _ _ _ _ id_ord_ok both_parse_ok Hwf Hpl id_ord_ok both_parse_ok Hwf Hpl _ _ H1 H2)).
Qed.

(** Without plain names: one term of a strange name, and two terms. *)
Definition odd_1 : tstate := mkSt (xN "s") (Some (xbody [xN "a> <b"])) 0 2 1.
Definition odd_2 : tstate := mkSt (xN "s") (Some (xbody [xN "a"; xN "b"])) 0 2 2.

(** texts that a root and its children can be told from *)
Fixpoint ones (s t : string) : string := match s with EmptyString => String "0" t | String _ s' => String "1" (ones s' t) end.
Definition all_shown (a : string) (l : list string) : string := fold_right (fun s t => ones s (s ++ t)) ""%string (a :: l).
Lemma ones_inj : forall s t x y, ones s (s ++ x) = ones t (t ++ y) -> s = t /\ x = y.
Proof.
  assert (A : forall s t x y, ones s x = ones t y -> String.length s = String.length t /\ x = y).
  { induction s as [|c s IH]; intros [|d t] x y E; cbn in E; try discriminate; [injection E as ->; auto|].
    injection E as E. apply IH in E as [E ->]. cbn. auto. }
  intros s t x y E. apply A in E as [L E]. revert t L E. induction s as [|c s IH]; intros [|d t] L E; cbn in *; try discriminate; [auto|].
  injection E as -> E. injection L as L. destruct (IH t L E) as [-> ->]. auto.
Qed.
Lemma all_shown_inj a l b m : all_shown a l = all_shown b m -> a = b /\ l = m.
Proof.
  unfold all_shown. assert (G : forall l m, fold_right (fun s t => ones s (s ++ t)) ""%string l = fold_right (fun s t => ones s (s ++ t)) ""%string m -> l = m).
  { clear. induction l as [|s l IH]; intros [|t m] E; cbn [fold_right] in E; [reflexivity|destruct t; discriminate|destruct s; discriminate|].
    apply ones_inj in E as [-> E]. f_equal. apply IH. exact E. }
  intros E. apply G in E. injection E as -> ->. auto.
Qed.
