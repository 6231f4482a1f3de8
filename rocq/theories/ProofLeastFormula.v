(** Different expressions have different formulas; every alternative takes tokens; a search through the trees. *)
From Verif Require Import Base ModelTypes ModelText ModelEarley ModelTrees ModelApi ModelQuote ModelSem ModelReader ModelGrammar ModelLocal
     SpecTypes SpecGrammar SpecTree SpecNotation SpecRefine SpecConstruct SpecSem SpecFuncs SpecEnd SpecMath SpecMeaning
     ProofMath ProofEnd SpecFormula ProofFormula ProofFormulaJs ExamplesMath SpecArith SpecWorth SpecLeast ProofLeastExists.
Local Open Scope list_scope.

Fixpoint as_formula (x : expression) : SpecFormula.formula :=
  match x with
  | Number z => F_number (dec_Z z)
  | Binary o x y => F_call (function_name o) [as_formula x; as_formula y]
  | Negative x => F_call "nf.math.neg" [as_formula x]
  end.
Lemma as_text hi x : formula_text hi (as_formula x) = formula x.
Proof. induction x as [z|o x IHx y IHy|x IHx]; cbn [as_formula formula_text formula map]; [reflexivity|rewrite IHx, IHy; reflexivity|rewrite IHx; reflexivity]. Qed.
Lemma name_plain o : plain_text (function_name o).
Proof. intros c H K. destruct o; vm_compute in H, K; intuition congruence. Qed.
Lemma neg_plain : plain_text "nf.math.neg".
Proof. intros c H K. vm_compute in H, K. intuition congruence. Qed.
Lemma as_plain json x : plain json (as_formula x).
Proof.
  induction x as [z|o x IHx y IHy|x IHx]; cbn [as_formula].
  - destruct (dec_Z_plain z). constructor; assumption.
  - constructor; [apply name_plain|]. repeat constructor; assumption.
  - constructor; [apply neg_plain|]. repeat constructor; assumption.
Qed.
Lemma as_inj x : forall y, as_formula x = as_formula y -> x = y.
Proof.
  induction x as [z|o x IHx y IHy|x IHx]; intros [z'|o' x' y'|x'] E; cbn [as_formula] in E; try discriminate E.
  - injection E as E. pose proof (xscan_int_ok _ _ (dec_Z_numeral z)) as A. rewrite E, (xscan_int_ok _ _ (dec_Z_numeral z')) in A. congruence.
  - injection E as Eo Ex Ey. rewrite (IHx _ Ex), (IHy _ Ey). f_equal. destruct o, o'; try reflexivity; discriminate Eo.
  - injection E as Ex. rewrite (IHx _ Ex). reflexivity.
Qed.
Lemma formula_inj x y : formula x = formula y -> x = y.
Proof.
  intros E. apply as_inj. apply (same_formula (fun _ => false) (fun _ => "{"%string)); [|apply as_plain|apply as_plain|rewrite !as_text; exact E].
  split; [intros v; exists ""%string; reflexivity|]. intros v w a b H. injection H as ->. auto.
Qed.

Lemma texts_take tokenize tmatch L starts x b t toks i j : usable tokenize L starts -> has_body (map rd_before L) x b -> In t (rb_terms b) ->
  SpecWorth.text_at tokenize tmatch toks t i j -> i < j.
Proof.
  intros HU Hb Ht (Et & ks & Ek & -> & _). assert (Ho : occurs (map rd_before L) t) by (exists x, b; auto).
  destruct HU as (_ & _ & _ & _ & _ & HE & _). destruct (proj1 HE t ks Ho Et Ek) as (k & K1 & K2). unfold token_terms. rewrite map_length.
  enough (0 < length (filter (fun k => negb (is_space_token k)) ks)) by lia.
  assert (K : In k (filter (fun k => negb (is_space_token k)) ks)).
  { apply filter_In. split; [exact K1|]. unfold is_space_token. destruct (tok_type k); try reflexivity. contradiction K2; reflexivity. }
  destruct (filter _ ks); [destruct K|cbn [length]; lia].
Qed.
Lemma bodies_some e d0 g L x b : e_parts e d0 g L -> has_body (map rd_before L) x b -> rb_terms b <> [].
Proof.
  intros HP (m & r & h & Hm & Lx & Hb). apply in_map_iff in Hm as (q & <- & Hq).
  apply (proj2 (before_written e d0 g L HP q x r Hq Lx) h b Hb).
Qed.

(** If it is impossible that no tree says an expression with property [Q], one of the trees does. *)
Lemma find_tree (say : node -> expression -> Prop) (Q : expression -> Prop) (ts : list node) :
  (forall x, {Q x} + {~ Q x}) -> (forall t, In t ts -> exists x, say t x) -> (forall t x y, say t x -> say t y -> x = y) ->
  ~ ~ (exists t x, In t ts /\ say t x /\ Q x) -> exists t x, In t ts /\ say t x /\ Q x.
Proof.
  intros Hdec Hall Huniq Hnn.
  assert (K : (exists t x, In t ts /\ say t x /\ Q x) \/ (forall t x, In t ts -> say t x -> ~ Q x)).
  { clear Hnn. induction ts as [|t ts IH]; [right; intros t x []|].
    destruct (Hall t (or_introl eq_refl)) as (x & Hx). destruct (Hdec x) as [Q1|Q1]; [left; exists t, x; auto using in_eq|].
    destruct IH as [(t' & x' & A & B)|IH]; [intros t' Ht'; apply Hall; right; exact Ht'|left; exists t', x'; auto using in_cons|].
    right. intros t' x' [<-|Ht'] H'; [rewrite <- (Huniq _ _ _ Hx H'); exact Q1|eauto]. }
  destruct K as [K|K]; [exact K|]. exfalso. apply Hnn. intros (t & x & A & B & C). exact (K t x A B C).
Qed.
Lemma displays_unique p join_words float_string json is_print_hi rcall t x y :
  displays p join_words float_string json is_print_hi rcall t x -> displays p join_words float_string json is_print_hi rcall t y -> x = y.
Proof. intros [A _] [B _]. rewrite A in B. injection B as B. apply formula_inj. exact B. Qed.

Lemma least_there e d0 g L : e_parts e d0 g L -> forall starts, usable (e_tokenize e) L starts ->
  forall tmatch toks N, calculates (e_tokenize e) tmatch (map rd_before L) toks N ->
  forall x i j v, N x -> worth (e_tokenize e) tmatch (map rd_before L) toks x i j v ->
  ~ ~ exists v', least_of_all (e_tokenize e) tmatch (map rd_before L) toks x i j v' /\ worth (e_tokenize e) tmatch (map rd_before L) toks x i j v'.
Proof.
  intros HP starts HU tmatch toks N HN x i j v Hx Hv C.
  apply (least_exists _ _ _ _ N HN (fun x b t i j _ Hb Ht HA => texts_take _ _ _ _ _ _ _ _ _ _ HU Hb Ht HA) (fun x b _ Hb => bodies_some _ _ _ _ _ _ HP Hb) _ _ _ _ Hx Hv).
  intros (v' & n & H1 & H2). apply C. exists v'. split; [exists n; auto|]. exact (proj1 (least_worth _ _ _ _) _ _ _ _ _ H1).
Qed.
