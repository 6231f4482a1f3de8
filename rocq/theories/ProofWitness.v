(** Facts about the concrete grammars of Examples.v. *)
From Verif Require Import Base ModelTypes ModelText ModelEarley ModelTrees ModelApi
     SpecTypes SpecGrammar SpecTree SpecApi Examples.

(** The alternatives of a rule, computed. *)
Definition alts_of (gs : list grammar_rules) (x : string) : list (list term) :=
  flat_map (fun g : grammar_rules =>
    match lookup g x with Some r => map (fun p => rb_terms (snd p)) (r_body r) | None => [] end) gs.

Lemma has_alt_in gs x ts : has_alt gs x ts <-> In ts (alts_of gs x).
Proof.
  unfold has_alt, has_body, alts_of. rewrite in_flat_map. split.
  - intros (b & (g & r & h & Hg & Hl & Hb) & E). exists g. split; [exact Hg|]. rewrite Hl.
    apply in_map_iff. exists (h, b). auto.
  - intros (g & Hg & Hin). destruct (lookup g x) as [r|] eqn:El; [|destruct Hin].
    apply in_map_iff in Hin as ((h & b) & E & Hb). exists b. split; [|exact E]. exists g, r, h. auto.
Qed.

(** Bodies of a rule, computed. *)
Definition bodies_of (gs : list grammar_rules) (x : string) : list rulebody :=
  flat_map (fun g : grammar_rules =>
    match lookup g x with Some r => map snd (r_body r) | None => [] end) gs.

Lemma has_body_bodies gs x b : has_body gs x b <-> In b (bodies_of gs x).
Proof.
  unfold has_body, bodies_of. rewrite in_flat_map. split.
  - intros (g & r & h & Hg & Hl & Hb). exists g. split; [exact Hg|]. rewrite Hl.
    apply in_map_iff. exists (h, b). auto.
  - intros (g & Hg & Hin). destruct (lookup g x) as [r|] eqn:El; [|destruct Hin].
    apply in_map_iff in Hin as ((h & b') & E & Hb). simpl in E. subst b'. exists g, r, h. auto.
Qed.

(** ** Taking derivations of concrete grammars apart *)
Section Inv.
  Variable gs : list grammar_rules.
  Variable toks : list token.
  Notation D := (Derives xmatch gs toks).
  Notation DS := (DerivesSeq xmatch gs toks).

  Lemma inv_rule x i j : D (xN x) i j -> exists ts, In ts (alts_of gs x) /\ DS ts i j.
  Proof.
    intros H. inversion H; subst; try discriminate. exists ts. split; [apply has_alt_in|]; assumption.
  Qed.
  Lemma inv_any lo hi i j : D (xA lo hi) i j ->
    i <= j <= length toks /\ (lo <= Z.of_nat (j - i) <= hi)%Z.
  Proof. intros H. inversion H; subst; try discriminate. auto. Qed.
  Lemma inv_tok w i j : D (xT w) i j -> j = S i /\ exists k, nth_error toks i = Some k /\ w = tok_text k.
  Proof.
    intros H. inversion H; subst; try discriminate. split; [reflexivity|]. exists tok. split; [assumption|].
    apply String.eqb_eq. assumption.
  Qed.
  Lemma inv_list x lo hi i j : D (xL x lo hi) i j ->
    exists n, (lo <= Z.of_nat n <= hi)%Z /\ DS (repeat (xN x) n) i j.
  Proof. intros H. inversion H; subst; try discriminate. exists n. auto. Qed.
  Lemma inv_nil i j : DS [] i j -> i = j.
  Proof. intros H. inversion H; auto. Qed.
  Lemma inv_cons t ts i k : DS (t :: ts) i k -> exists j, D t i j /\ DS ts j k.
  Proof. intros H. inversion H; subst. eauto. Qed.
End Inv.

Ltac fold_terms :=
  repeat match goal with
         | H : context [{| t_value := ?v; t_type := TNonterminal; t_meta := MNil |}] |- _ =>
             change {| t_value := v; t_type := TNonterminal; t_meta := MNil |} with (xN v) in H
         | H : context [{| t_value := ?v; t_type := TTerminal; t_meta := MNil |}] |- _ =>
             change {| t_value := v; t_type := TTerminal; t_meta := MNil |} with (xT v) in H
         | H : context [{| t_value := "any"; t_type := TAny; t_meta := MMap (Some ?a) (Some ?b) |}] |- _ =>
             change {| t_value := "any"; t_type := TAny; t_meta := MMap (Some a) (Some b) |} with (xA a b) in H
         end.

Ltac step_inv :=
  match goal with
  | H : DerivesSeq _ _ _ [] _ _ |- _ => apply inv_nil in H; subst
  | H : DerivesSeq _ _ _ (_ :: _) _ _ |- _ =>
      let j := fresh "j" in let H' := fresh "D" in apply inv_cons in H as (j & H' & H)
  | H : Derives _ _ _ (xN _) _ _ |- _ =>
      let ts := fresh "ts" in let Hi := fresh "Hi" in
      apply inv_rule in H as (ts & Hi & H); vm_compute in Hi;
      repeat (destruct Hi as [<-|Hi]); try (destruct Hi);
      fold_terms
  | H : Derives _ _ _ (xA _ _) _ _ |- _ => apply inv_any in H
  | H : Derives _ _ _ (xT _) _ _ |- _ =>
      let k := fresh "k" in let Hn := fresh "Hn" in let He := fresh "He" in
      let E := fresh "E" in
      apply inv_tok in H as (E & k & Hn & He)
  end.

(** s = (any{1,1}) <x> | (any{2,2}) <y> does not derive "a y" *)
Lemma ranges_no_match : ~ Match xmatch g_ranges (xtoks ["a"; "y"]) "s" 0 2.
Proof.
  unfold Match. change (nonterm "s") with (xN "s"). intros H. repeat step_inv.
  - assert (j = 1) as -> by lia. vm_compute in Hn. injection Hn as <-. discriminate.
  - assert (j = 2) as -> by lia. vm_compute in Hn. discriminate.
Qed.

(** ** Building derivations of concrete grammars *)
Section Build.
  Variable gs : list grammar_rules.
  Variable toks : list token.
  Notation D := (Derives xmatch gs toks).
  Notation DS := (DerivesSeq xmatch gs toks).

  Lemma mk_rule x ts i j : In ts (alts_of gs x) -> DS ts i j -> D (xN x) i j.
  Proof. intros H1 H2. eapply d_rule; [reflexivity|apply has_alt_in; exact H1|exact H2|exact I]. Qed.
  Lemma mk_any lo hi i j : i <= j <= length toks -> (lo <= Z.of_nat (j - i) <= hi)%Z -> D (xA lo hi) i j.
  Proof. intros H1 H2. apply d_any; auto. Qed.
  Lemma mk_tok w i k : nth_error toks i = Some k -> w = tok_text k -> D (xT w) i (S i).
  Proof. intros H1 ->. eapply d_terminal; [reflexivity|exact H1|apply String.eqb_refl|exact I]. Qed.
  Lemma mk_list x lo hi i j n : (lo <= Z.of_nat n <= hi)%Z -> DS (repeat (xN x) n) i j -> D (xL x lo hi) i j.
  Proof. intros H1 H2. eapply d_list; [reflexivity|exact H1|exact H2|exact I]. Qed.
  Lemma mk_nil i : DS [] i i.
  Proof. constructor. Qed.
  Lemma mk_cons t ts i j k : D t i j -> DS ts j k -> DS (t :: ts) i k.
  Proof. intros; econstructor; eassumption. Qed.
End Build.

(** "x" is derived by the first alternative of s, with <a> and <e> empty *)
Lemma eps_match : Match xmatch g_eps (xtoks ["x"]) "s" 0 1.
Proof.
  apply mk_rule with (ts := [xN "a"; xN "e"; xN "x"]); [vm_compute; tauto|].
  apply mk_cons with (j := 0).
  { apply mk_rule with (ts := [xA 0 1]); [vm_compute; tauto|]. apply mk_cons with (j := 0); [|apply mk_nil].
    apply mk_any; [simpl; lia|lia]. }
  apply mk_cons with (j := 0).
  { apply mk_rule with (ts := [xL "q" 0 1]); [vm_compute; tauto|]. apply mk_cons with (j := 0); [|apply mk_nil].
    apply mk_list with (n := 0); [lia|apply mk_nil]. }
  apply mk_cons with (j := 1); [|apply mk_nil].
  apply mk_rule with (ts := [xT "x"]); [vm_compute; tauto|]. apply mk_cons with (j := 1); [|apply mk_nil].
  eapply mk_tok; reflexivity.
Qed.

(** the two trees of "a" for s = <a> | <c>, c = <a>, a = "a" *)
Definition two_tree_a : ptree :=
  PRule "a" (xbody [xT "a"]) 0 1 [PTok (xT "a") 0].
Definition two_tree_1 : ptree := PRule "s" (xbody [xN "a"]) 0 1 [two_tree_a].
Definition two_tree_2 : ptree :=
  PRule "s" (xbody [xN "c"]) 0 1 [PRule "c" (xbody [xN "a"]) 0 1 [two_tree_a]].

Lemma two_tree_1_ok : tree_of g_two (accepts_by xmatch) (xtoks ["a"]) own_range (nonterm "s") 0 1 two_tree_1.
Proof.
  unfold two_tree_1, two_tree_a.
  apply (to_rule _ _ _ _ (xN "s")); [reflexivity|apply has_body_bodies; vm_compute; tauto|].
  eapply tos_cons; [|apply tos_nil].
  apply (to_rule _ _ _ _ (xN "a")); [reflexivity|apply has_body_bodies; vm_compute; tauto|].
  eapply tos_cons; [|apply tos_nil]. eapply to_tok; reflexivity.
Qed.
Lemma two_tree_2_ok : tree_of g_two (accepts_by xmatch) (xtoks ["a"]) own_range (nonterm "s") 0 1 two_tree_2.
Proof.
  unfold two_tree_2, two_tree_a.
  apply (to_rule _ _ _ _ (xN "s")); [reflexivity|apply has_body_bodies; vm_compute; tauto|].
  eapply tos_cons; [|apply tos_nil].
  apply (to_rule _ _ _ _ (xN "c")); [reflexivity|apply has_body_bodies; vm_compute; tauto|].
  eapply tos_cons; [|apply tos_nil].
  apply (to_rule _ _ _ _ (xN "a")); [reflexivity|apply has_body_bodies; vm_compute; tauto|].
  eapply tos_cons; [|apply tos_nil]. eapply to_tok; reflexivity.
Qed.

(** "a" has one tree as a <c> *)
Lemma two_c_unique q : tree_of g_two (accepts_by xmatch) (xtoks ["a"]) own_range (nonterm "c") 0 1 q ->
  q = PRule "c" (xbody [xN "a"]) 0 1 [two_tree_a].
Proof.
  intros H. inversion H as [|? ? ? E|? ? ? b kids E Hb Hk|]; subst; try discriminate.
  apply has_body_bodies in Hb. vm_compute in Hb. destruct Hb as [<-|[]].
  inversion Hk as [|? ? ? j ? p ps Hp Hps]; subst. inversion Hps; subst.
  inversion Hp as [|? ? ? E2|? ? ? b kids E2 Hb Hk2|]; subst; try discriminate.
  apply has_body_bodies in Hb. vm_compute in Hb. destruct Hb as [<-|[]].
  inversion Hk2 as [|? ? ? j ? p0 ps0 Hp0 Hps0]; subst. inversion Hps0; subst.
  inversion Hp0; subst; try discriminate. reflexivity.
Qed.
