(** The grammar of examples/arithmetic: its rules, and what its trees mean. *)
From Coq Require Import Permutation.
From Verif Require Import Base ModelTypes ModelText ModelEarley ModelTrees ModelApi ModelQuote ModelSem ModelReader ModelGrammar ModelLocal
     SpecTypes SpecGrammar SpecTree SpecNotation SpecRefine SpecConstruct SpecSem SpecNode SpecApi SpecLocal SpecFuncs SpecEnd SpecMath SpecMeaning
     ModelShipped SpecShipped
     ProofEqual ProofTree ProofTreeOk ProofApi ProofSem ProofNodes ProofSemMain ProofNode ProofFuncs ProofGrammar ProofConstruct ProofMath
     ProofIndex ProofRecognize ProofShipped ProofUnique ProofMeaning ProofMeaningCalls SpecArith.

Local Open Scope list_scope.

(** ** The rules *)
Section Rules.
  Variable e : env.
  Hypothesis HE : env_ok e.

  Lemma arith_text : e_text e arithmetic_arithmetic [] [mkItem false "number" bodies] [].
  Proof using HE.
    destruct (decodes_ok arithmetic_arithmetic ltac:(vm_compute; reflexivity)) as [D1 D2].
    left. exists (runes_of arithmetic_arithmetic). split; [exact D1|]. split; [exact D2|].
    assert (H : p_file [] [] 10 (runes_of arithmetic_arithmetic) = Some ([], [mkItem false "number" bodies], [])) by (vm_compute; reflexivity).
    revert H. apply sound_file.
    - apply letters_ascii.
    - apply digits_ascii.
    - intros s f [].
    - intros x h [].
  Qed.

  Variables (dir : string) (fuel depth : nat) (gt : list (string * token)) (g : grammar) (w' : world).
  Hypothesis Hin : installed e dir dir_arithmetic.
  Hypothesis Hload : from_file e fuel depth (e_join e dir "arithmetic.grammar") gt = Ret (Some g, w').

  Lemma arith_read : e_read e (e_join e dir "arithmetic.grammar") = Ret arithmetic_arithmetic /\
    e_abs e (e_join e dir "arithmetic.grammar") = Ret dir.
  Proof using Hin. apply Hin. left. reflexivity. Qed.
  Lemma arith_includes : g_includes g = [].
  Proof using HE Hin Hload.
    destruct arith_read as [R1 R2].
    destruct (env_file_files e HE fuel depth _ gt _ w' Hload) as (g0 & b & dir' & E0 & Hr & Hd & _ & _ & Hi & _).
    injection E0 as <-. rewrite R1 in Hr. injection Hr as <-. rewrite R2 in Hd. injection Hd as <-.
    destruct (g_includes g) as [|ig l] eqn:E; [reflexivity|]. exfalso.
    assert (K : forall f, ~ e_reached e arithmetic_arithmetic dir f).
    { intros f H. induction H as [ps its re p T Hp|f b fdir ps its re p _ IH _ _ _ _]; [|exact IH].
      destruct (one_reading e HE _ _ _ _ _ _ _ arith_text T) as (<- & _). destruct Hp. }
    apply (K (g_name ig)). apply Hi. left. reflexivity.
  Qed.

  Lemma arith_parts : exists p, e_parts e arithmetic_arithmetic g [p] /\ compatible [p] /\ g_regexps g = [] /\
    (forall x b, has_body [rd_before p] x b -> x = "number"%string /\ In b bodies) /\
    (NoDup (map (e_hash e) bodies) -> forall b, In b bodies -> has_body [rd_before p] "number" b) /\
    lookup (rd_before p) "number" <> None.
  Proof using HE Hin Hload.
    destruct (file_fresh e HE _ _ _ _ _ _ Hload) as (text & Hr & L & HL & _).
    destruct arith_read as [R1 _]. rewrite R1 in Hr. injection Hr as <-.
    pose proof HL as (p & ps & -> & _ & (ps' & its & re & T & _ & D & _ & _ & Rx) & F). rewrite arith_includes in F. inversion F; subst ps.
    destruct (one_reading e HE _ _ _ _ _ _ _ arith_text T) as (<- & W & RE).
    exists p. split; [exact HL|]. split; [eapply env_single; [exact HL|exact arith_includes]|].
    split.
    { destruct Rx as (_ & X & _). rewrite arith_includes in X. destruct (g_regexps g) as [|[h v] l]; [reflexivity|]. exfalso.
      destruct (proj1 (X h)) as [H|(ig & [] & _)]; [cbn; rewrite String.eqb_refl; discriminate|]. apply RE in H. destruct H. }
    destruct D as (D1 & D2 & D3).
    assert (W' : forall x b, In b (written its false x) <-> x = "number"%string /\ In b bodies).
    { intros x b. rewrite <- W. unfold written. cbn [flat_map it_frame it_name it_bodies Bool.eqb andb]. rewrite app_nil_r.
      destruct (String.eqb "number" x) eqn:E.
      - apply String.eqb_eq in E. subst x. tauto.
      - split; [intros []|]. intros [-> _]. discriminate E. }
    assert (NE : written its false "number" <> []).
    { intros C. assert (H : In (number_body ("one"%string, 1%Z)) (written its false "number")) by (apply W'; split; [reflexivity|left; reflexivity]).
      rewrite C in H. destruct H. }
    split; [|split].
    - intros x b (m & r & h & [<-|[]] & Hx & Hb). apply W'.
      destruct (D3 x) as (r' & L' & _ & N' & H').
      { intros C. apply D2 in C. rewrite Hx in C. discriminate. }
      rewrite Hx in L'. injection L' as <-. pose proof (lookup_N_in _ _ _ N' Hb) as E. rewrite H' in E.
      apply find_some in E as [E _]. rewrite <- in_rev in E. exact E.
    - intros ND b Hb. destruct (D3 _ NE) as (r & L' & _ & N' & H').
      exists (rd_before p), r, (e_hash e b). split; [left; reflexivity|]. split; [exact L'|].
      specialize (H' (e_hash e b)).
      destruct (find _ (rev (written its false "number"))) as [b'|] eqn:E.
      + apply find_some in E as [E1 E2]. apply N.eqb_eq in E2. rewrite <- in_rev in E1. apply W' in E1 as [_ E1].
        assert (b' = b) as ->; [|apply ProofIndex.lookup_N_some; exact H'].
        clear - ND Hb E1 E2. revert ND Hb E1. generalize bodies as l. induction l as [|a l IH]; intros ND; [intros []|].
        cbn [map] in ND. inversion ND as [|? ? N1 N2]; subst. intros [->|Hb] [->|Hb']; auto.
        * exfalso. apply N1. rewrite <- E2. apply in_map. exact Hb'.
        * exfalso. apply N1. rewrite E2. apply in_map. exact Hb.
      + exfalso. assert (H : In b (rev (written its false "number"))) by (rewrite <- in_rev; apply W'; auto).
        pose proof (find_none _ _ E b H) as C. cbn beta in C. rewrite N.eqb_refl in C. discriminate.
    - destruct (D3 _ NE) as (r & L' & _). rewrite L'. discriminate.
  Qed.
End Rules.

(** ** The trees *)
Lemma bodies_cases b : In b bodies ->
  (exists w z, In (w, z) numbers /\ b = number_body (w, z)) \/ (exists w o, In (w, o) operators /\ b = operator_body (w, o)) \/
  (exists w, In w signs /\ b = sign_body w).
Proof.
  unfold bodies. intros H. apply in_app_iff in H as [H|H]; [|apply in_app_iff in H as [H|H]].
  - left. apply in_map_iff in H as ((w & z) & <- & H). eauto.
  - right. left. apply in_map_iff in H as ((w & o) & <- & H). eauto.
  - right. right. apply in_map_iff in H as (w & <- & H). eauto.
Qed.
Lemma bodies_fit b f : In b bodies -> rb_f b = Some f -> fun_ok (length (rb_terms b)) f.
Proof.
  intros H E. destruct (bodies_cases b H) as [(w & z & _ & ->)|[(w & o & _ & ->)|(w & _ & ->)]]; cbn [rb_f number_body operator_body sign_body] in E; injection E as <-.
  - constructor; [reflexivity|]. repeat constructor.
  - constructor; [intros C; destruct o; discriminate C|]. repeat (constructor; cbn; try lia).
  - constructor; [discriminate|]. repeat (constructor; cbn; try lia).
Qed.
Lemma numbers_small w z : In (w, z) numbers -> small z.
Proof.
  intros H. assert (K : Forall (fun wz => small (snd wz)) numbers) by (repeat constructor).
  rewrite Forall_forall in K. exact (K _ H).
Qed.

(** the expression a tree stands for *)
Inductive pictures : ptree -> expression -> Prop :=
| pc_number b i j k z : rb_f b = Some (FMR "nf.I" [Arg "int" (VInt z)]) -> pictures (PRule "number" b i j [k]) (Number z)
| pc_binary b i j k1 k2 k3 o x y : rb_f b = Some (FMR (function_name o) [part 1; part 3]) ->
    pictures k1 x -> pictures k3 y -> pictures (PRule "number" b i j [k1; k2; k3]) (Binary o x y)
| pc_negative b i j k1 k2 x : rb_f b = Some (FMR "nf.math.neg" [part 2]) -> pictures k2 x ->
    pictures (PRule "number" b i j [k1; k2]) (Negative x).
Lemma pictures_one q x : pictures q x -> forall y, pictures q y -> x = y.
Proof.
  induction 1 as [b i j k z E|b i j k1 k2 k3 o x y E _ IHx _ IHy|b i j k1 k2 x E _ IHx]; intros v H; inversion H; subst.
  - congruence.
  - f_equal; auto. assert (function_name o = function_name o0) by congruence. destruct o, o0; try reflexivity; discriminate.
  - f_equal. auto.
Qed.

Section Trees.
  Variable p : parse_t.
  Variable toks : list token.
  Hypothesis Htoks : parsed_tokens p toks.
  Variable join_words : list string -> string.
  Variable float_string : bigf -> string.
  Variable json : dval -> string.
  Variable is_print_hi : rune -> bool.
  Variable call : string -> list dval -> res dval.
  Notation sem := (semantic p join_words float_string json is_print_hi call).
  Variable tokenize : string -> res (list token).
  Variable tmatch : term -> option token -> bool.
  Variable gs : list grammar_rules.
  Hypothesis HB : forall x b, has_body gs x b -> x = "number"%string /\ In b bodies.
  Variable find_all : string -> string -> option (list (nat * nat)).
  Variable d : document.
  Hypothesis Hitems : string_items d.
  Hypothesis Hloc : forall b, ~ local_alt find_all [] d "number" b.
  Notation TT := (text_tree tokenize tmatch gs find_all [] d toks).
  Notation TTs := (text_trees tokenize tmatch gs find_all [] d toks).
  Notation Reads := (reads tokenize tmatch toks).
  Notation Phrase := (phrase tokenize tmatch toks).

  Lemma arith_fit : functions_fit gs.
  Proof using HB. intros x b f H E. apply (bodies_fit b f); [apply (HB x b H)|exact E]. Qed.
  Lemma phrase_tree w i j q : TT (word w) i j q -> Phrase w i j.
  Proof using. intros H. inversion H; try discriminate. exists ks. split; [assumption|]. eapply words_at_match; eassumption. Qed.

  Lemma number_tree n : forall i j, built n -> TT (nonterm "number") i j (erase n) -> j <= length toks ->
    exists x, pictures (erase n) x /\ Reads x i j /\ sem n = Ret (formula x) /\ (tame x -> Arith p n (value x)).
  Proof using Htoks HB Hitems Hloc.
    induction n as [v ch IH] using node_ind'. intros i j Hb Ht Hj.
    pose proof (proj1 (text_range toks tokenize tmatch gs find_all [] d) _ _ _ _ Ht) as Hij.
    inversion Hb as [t' i' Et|t' i' j' d' Et|s rb ch' Et Erb El Eb|s ch' Et Erb El Eb]; subst; cbn [erase s_term s_start s_end] in Ht; rewrite Et in Ht.
    - inversion Ht.
    - inversion Ht; discriminate.
    - rewrite Erb in Ht. assert (Hval : t_value (s_term v) = "number"%string) by (inversion Ht; subst; cbn in *; try discriminate; congruence).
      inversion Ht as [? ? ? ? ? ? T1|? ? ? T1|t' i' j' b b' kids T1 T2 T3 T4|t' i' j' b kids T1 T2 T3|? ? ? ? ? T1]; subst; try discriminate T1.
      2: { exfalso. eapply Hloc. cbn [t_value nonterm] in T2. exact T2. }
      destruct (HB _ _ T2) as [_ Hbod].
      assert (HNL : node_nl p join_words (Node v ch) = Ret (join_words (map tok_text (firstn (s_end v - s_start v) (skipn (s_start v) toks)))))
        by (apply (nl_ret p join_words toks (Node v ch) Htoks); auto).
      assert (Hfn : function_of (Node v ch) = rb_f b) by (unfold function_of; cbn [n_value]; rewrite Erb; exact T3).
      assert (Hsay : forall c t i j, In c ch -> TT t i j (erase c) -> j <= length toks -> exists s, sem c = Ret s).
      { intros c t i j Hc Htc Hjc. rewrite Forall_forall in Eb.
        destruct (node_says p toks Htoks join_words float_string json is_print_hi call tokenize tmatch gs arith_fit find_all [] d Hitems
                    c t i j (Eb c Hc) Htc Hjc) as (s & S1 & _). eauto. }
      assert (Hfun : forall f ss, rb_f b = Some f -> Forall2 (fun c s => sem c = Ret s) ch ss -> length ch = length (rb_terms b) ->
                exists z s, sem (Node v ch) = Ret s /\ f_says float_string is_print_hi z ss f s).
      { intros f ss Ef Hss Hl. rewrite semantic_eq, HNL. cbn [Base.bind]. rewrite Hfn, Ef.
        destruct (function_says p join_words float_string json is_print_hi call (Node v ch) _ ss HNL Hss f) as (s & A & B).
        { cbn [n_children]. rewrite Hl. apply bodies_fit; assumption. }
        eexists _, s. split; [exact A|exact B]. }
      cbn [nonterm t_value] in *. clear Ht HNL Hb El T2.
      destruct (bodies_cases b Hbod) as [(w & z & Hw & ->)|[(w & o & Hw & ->)|(w & Hw & ->)]]; cbn [number_body operator_body sign_body rb_terms rb_f fst snd] in *.
      + inversion T4 as [|? ? ? ? ? q qs Q1 Q2 E1 E2 E3 E4]; subst. inversion Q2; subst.
        destruct ch as [|c [|]]; try discriminate. cbn [map] in E4. injection E4 as ->.
        exists (Number z). split; [cbn [erase]; rewrite Et, Erb, Hval; apply pc_number; exact T3|].
        split; [eapply rd_number; [exact Hw|]; eapply phrase_tree; exact Q1|].
        destruct (Hsay c _ _ _ (or_introl eq_refl) Q1 Hj) as (sc & Sc).
        destruct (Hfun _ [sc] eq_refl ltac:(repeat constructor; exact Sc) eq_refl) as (z0 & s & S1 & S2).
        inversion S2 as [? ? S3|? ? ? S3]; subst; [|contradiction S3; reflexivity]. inversion S3; subst.
        split; [exact S1|]. intros _. eapply Ar_fun; [exact Hfn|]. constructor. constructor. eapply numbers_small; exact Hw.
      + inversion T4 as [|? ? ? j1 ? q1 qs Q1 Q1' E1 E2 E3 E4]; subst. inversion Q1' as [|? ? ? j2 ? q2 qs2 Q2 Q2' E1 E2 E3]; subst.
        inversion Q2' as [|? ? ? j3 ? q3 qs3 Q3 Q3' E1 E2 E3]; subst. inversion Q3'; subst. clear Q1' Q2' Q3' T4.
        destruct ch as [|c1 [|c2 [|c3 [|]]]]; try discriminate. cbn [map] in E4. injection E4 as -> -> ->.
        inversion IH as [|? ? I1 I']; subst. inversion I' as [|? ? _ I'']; subst. inversion I'' as [|? ? I3 _]; subst.
        inversion Eb as [|? ? B1 B']; subst. inversion B' as [|? ? _ B'']; subst. inversion B'' as [|? ? B3 _]; subst.
        pose proof (proj1 (text_range toks tokenize tmatch gs find_all [] d) _ _ _ _ Q2).
        pose proof (proj1 (text_range toks tokenize tmatch gs find_all [] d) _ _ _ _ Q3).
        destruct (I1 _ _ B1 Q1 ltac:(lia)) as (x & X0 & X1 & X2 & X3). destruct (I3 _ _ B3 Q3 Hj) as (y & Y0 & Y1 & Y2 & Y3).
        destruct (Hsay c2 _ _ _ (or_intror (or_introl eq_refl)) Q2 ltac:(lia)) as (sc & Sc).
        exists (Binary o x y). split; [cbn [erase map]; rewrite Et, Erb, Hval; apply pc_binary; [exact T3|exact X0|exact Y0]|].
        split; [eapply rd_binary; [exact Hw|exact X1|eapply phrase_tree; exact Q2|exact Y1]|].
        destruct (Hfun _ [formula x; sc; formula y] eq_refl ltac:(repeat constructor; assumption) eq_refl) as (z0 & s & S1 & S2).
        inversion S2 as [? ? S3 N1|fn args l S3 S4]; subst.
        inversion S4 as [|? s1 ? l1 A1 S5]; subst. inversion S5 as [|? s2 ? l2 A2 S6]; subst. inversion S6; subst.
        assert (s1 = formula x) as ->.
        { inversion A1 as [| | | | |k ? K1 K2]; subst. destruct k as [|k]; [injection K1 as <-; reflexivity|lia]. }
        assert (s2 = formula y) as ->.
        { inversion A2 as [| | | | |k ? K1 K2]; subst. destruct k as [|[|[|k]]]; try lia. injection K1 as <-; reflexivity. }
        split; [exact S1|]. cbn [tame]. intros (Tx & Ty & Ts & T0). eapply Ar_fun; [exact Hfn|].
        assert (P1 : AArith p (Node v [c1; c2; c3]) (part 1) (value x)) by (apply (AA_child p _ 0 c1); [reflexivity|auto]).
        assert (P3 : AArith p (Node v [c1; c2; c3]) (part 3) (value y)) by (apply (AA_child p _ 2 c3); [reflexivity|auto]).
        destruct o; cbn [value] in *; constructor; auto.
      + inversion T4 as [|? ? ? j1 ? q1 qs Q1 Q1' E1 E2 E3 E4]; subst. inversion Q1' as [|? ? ? j2 ? q2 qs2 Q2 Q2' E1 E2 E3]; subst.
        inversion Q2'; subst. clear Q1' Q2' T4.
        destruct ch as [|c1 [|c2 [|]]]; try discriminate. cbn [map] in E4. injection E4 as -> ->.
        inversion IH as [|? ? _ I']; subst. inversion I' as [|? ? I2 _]; subst.
        inversion Eb as [|? ? _ B']; subst. inversion B' as [|? ? B2 _]; subst.
        pose proof (proj1 (text_range toks tokenize tmatch gs find_all [] d) _ _ _ _ Q2).
        destruct (I2 _ _ B2 Q2 Hj) as (x & X0 & X1 & X2 & X3).
        destruct (Hsay c1 _ _ _ (or_introl eq_refl) Q1 ltac:(lia)) as (sc & Sc).
        exists (Negative x). split; [cbn [erase map]; rewrite Et, Erb, Hval; apply pc_negative; [exact T3|exact X0]|].
        split; [eapply rd_negative; [exact Hw|eapply phrase_tree; exact Q1|exact X1]|].
        destruct (Hfun _ [sc; formula x] eq_refl ltac:(repeat constructor; assumption) eq_refl) as (z0 & s & S1 & S2).
        inversion S2 as [? ? S3 N1|fn args l S3 S4]; subst.
        inversion S4 as [|? s1 ? l1 A1 S5]; subst. inversion S5; subst.
        assert (s1 = formula x) as ->.
        { inversion A1 as [| | | | |k ? K1 K2]; subst. destruct k as [|[|k]]; try lia. injection K1 as <-; reflexivity. }
        split; [exact S1|]. cbn [tame value]. intros (Tx & T0). eapply Ar_fun; [exact Hfn|].
        apply FA_neg; [|exact T0]. apply (AA_child p _ 1 c2); [reflexivity|auto].
    - inversion Ht; discriminate.
  Qed.


  (** ** What the rules mean *)
  Notation D := (derives (doc_alt tokenize gs find_all [] d) (accepts_by tmatch) toks own_range (fun _ _ => True)).
  Notation Ds := (derives_seq (doc_alt tokenize gs find_all [] d) (accepts_by tmatch) toks own_range (fun _ _ => True)).

  Inductive reads_all : list term -> nat -> nat -> Prop :=
  | ra_nil i : reads_all [] i i
  | ra_word w ts i j k : Phrase w i j -> reads_all ts j k -> reads_all (word w :: ts) i k
  | ra_number x ts i j k : Reads x i j -> reads_all ts j k -> reads_all (nonterm "number" :: ts) i k.

  Definition plain (t : term) : Prop := (exists w, t = word w) \/ t = nonterm "number".

  Lemma words_none ts i : ts = [] -> words_match tmatch toks ts i i.
  Proof using. intros ->. split; [cbn; lia|]. intros [|k] t H; discriminate. Qed.
  Lemma words_cons t ts i j tok : t_type t = TTerminal -> nth_error toks i = Some tok -> tmatch t (Some tok) = true ->
    words_match tmatch toks ts (S i) j -> words_match tmatch toks (t :: ts) i j.
  Proof using.
    intros H1 H2 H3 [-> H]. split; [cbn [length]; lia|]. intros [|k] t' E; cbn [nth_error] in E.
    - injection E as <-. split; [exact H1|]. exists tok. rewrite Nat.add_0_r. auto.
    - destruct (H k t' E) as (A & tok' & B & C). split; [exact A|]. exists tok'. rewrite Nat.add_succ_r. auto.
  Qed.

  Lemma split_none ts0 ts : split_terms tokenize ts0 ts -> Forall plain ts0 -> ts = [] -> forall i, reads_all ts0 i i.
  Proof using.
    induction 1 as [|t ts ks ts' Ht Hk _ IH|t ts ts' Ht _ _]; intros F E i; [constructor| |discriminate].
    apply app_eq_nil in E as [E1 E2]. inversion F as [|? ? [(w & ->)| ->] F']; subst; [|discriminate Ht].
    apply (ra_word _ _ i i i); [|apply IH; auto]. exists ks. split; [exact Hk|]. apply words_none. exact E1.
  Qed.

  Lemma derives_reads : (forall t i j, D t i j -> t = nonterm "number" -> exists x, Reads x i j) /\
    (forall ts i j, Ds ts i j -> forall us ts' ts0, ts = us ++ ts' -> Forall (fun t => t_type t = TTerminal) us -> split_terms tokenize ts0 ts' ->
       Forall plain ts0 -> exists m, words_match tmatch toks us i m /\ reads_all ts0 m j).
  Proof using HB Hloc.
    apply (derives_mutind _ _ _ _ _
             (fun t i j _ => t = nonterm "number" -> exists x, Reads x i j)
             (fun ts i j _ => forall us ts' ts0, ts = us ++ ts' -> Forall (fun t => t_type t = TTerminal) us -> split_terms tokenize ts0 ts' ->
                Forall plain ts0 -> exists m, words_match tmatch toks us i m /\ reads_all ts0 m j)).
    - intros t i tok Ht _ _ _ ->. discriminate Ht.
    - intros t i j ts _ [(ts0 & (b & Hb & <-) & Hs)|(b & Hb & _)] _ IH _ ->; [|exfalso; exact (Hloc _ Hb)].
      destruct (HB _ _ Hb) as [_ Hb'].
      destruct (IH [] ts (rb_terms b) eq_refl ltac:(constructor) Hs) as (m & [Hm _] & R).
      { destruct (bodies_cases b Hb') as [(w & z & _ & ->)|[(w & o & _ & ->)|(w & _ & ->)]]; cbn [rb_terms number_body operator_body sign_body fst];
          repeat (constructor; [first [left; eexists; reflexivity|right; reflexivity]|]); constructor. }
      cbn [length] in Hm. replace m with i in R by lia. clear Hs IH Hb Hm.
      destruct (bodies_cases b Hb') as [(w & z & Hw & ->)|[(w & o & Hw & ->)|(w & Hw & ->)]]; cbn [rb_terms number_body operator_body sign_body fst] in R.
      + inversion R as [|? ? ? ? ? P1 R1|]; subst. inversion R1; subst. exists (Number z). eapply rd_number; eauto.
      + inversion R as [| |x ? ? ? ? P1 R1]; subst. inversion R1 as [|? ? ? ? ? P2 R2|]; subst. inversion R2 as [| |y ? ? ? ? P3 R3]; subst. inversion R3; subst.
        exists (Binary o x y). eapply rd_binary; eauto.
      + inversion R as [|? ? ? ? ? P1 R1|]; subst. inversion R1 as [| |y ? ? ? ? P3 R3]; subst. inversion R3; subst.
        exists (Negative y). eapply rd_negative; eauto.
    - intros t i j Ht _ _ _ ->. discriminate Ht.
    - intros t i j n Ht _ _ _ _ ->. discriminate Ht.
    - intros i us ts' ts0 E F Hs Hp. symmetry in E. apply app_eq_nil in E as [-> E]. exists i. split; [apply words_none; reflexivity|].
      eapply split_none; eauto.
    - intros t ts i j k Hd IHt Hds IH us ts' ts0 E F Hs Hp. destruct us as [|u us].
      + cbn [app] in E. subst ts'. exists i. split; [apply words_none; reflexivity|].
        clear F. remember (t :: ts) as all eqn:E. revert E Hp. induction Hs as [|t0 ts1 ks ts1' Ht Hk Hs IHs|t0 ts1 ts1' Ht Hs _]; intros E Hp; [discriminate| |].
        * inversion Hp as [|? ? [(w & ->)| ->] Hp']; subst; [|discriminate Ht]. cbn [word t_meta t_value] in *.
          destruct (token_terms MNil ks) as [|u us] eqn:Ek.
          -- cbn [app] in E. apply (ra_word _ _ i i k); [exists ks; split; [exact Hk|]; apply words_none; exact Ek|]. apply IHs; assumption.
          -- cbn [app] in E. injection E as E1 E2. subst u.
             assert (Fu : Forall (fun t => t_type t = TTerminal) (t :: us)).
             { rewrite <- Ek. unfold token_terms. apply Forall_forall. intros t' Ht'. apply in_map_iff in Ht' as (? & <- & _). reflexivity. }
             pose proof (Forall_inv Fu) as Ft. pose proof (Forall_inv_tail Fu) as Fu'. cbn beta in Ft.
             destruct (IH us ts1' ts1 (eq_sym E2) Fu' Hs Hp') as (m & W & R).
             inversion Hd as [? ? tok D1 D2 D3| ? ? ? ? D1|? ? ? D1|? ? ? ? D1]; subst; try congruence.
             apply (ra_word _ _ i m k); [|exact R]. exists ks. split; [exact Hk|]. rewrite Ek. eapply words_cons; eauto.
        * injection E as -> ->. inversion Hp as [|? ? [(w & ->)| ->] Hp']; subst; [contradiction Ht; reflexivity|].
          destruct (IHt eq_refl) as (x & Hx). destruct (IH [] ts ts1 eq_refl ltac:(constructor) Hs Hp') as (m & [Hm _] & R).
          cbn [length] in Hm. replace m with j in R by lia. eapply ra_number; eauto.
      + cbn [app] in E. injection E as -> ->. inversion F as [|? ? Fu F']; subst.
        destruct (IH us ts' ts0 eq_refl F' Hs Hp) as (m & W & R). exists m. split; [|exact R].
        inversion Hd as [? ? tok D1 D2 D3| ? ? ? ? D1|? ? ? D1|? ? ? ? D1]; subst; try congruence. eapply words_cons; eauto.
  Qed.

  Lemma words_derive us : forall i j ts k, words_match tmatch toks us i j -> Ds ts j k -> Ds (us ++ ts) i k.
  Proof using.
    induction us as [|u us IH]; intros i j ts k [-> H] Hs; cbn [app length] in *; [rewrite Nat.add_0_r in Hs; exact Hs|].
    destruct (H 0 u eq_refl) as (H1 & tok & H2 & H3). rewrite Nat.add_0_r in H2.
    apply (ds_cons _ _ _ _ _ u (us ++ ts) i (S i) k); [apply (d_terminal _ _ _ _ _ u i tok); auto; exact H3|]. apply (IH (S i) (S i + length us) ts k).
    - split; [reflexivity|]. intros k' t Hk. specialize (H (S k') t Hk). replace (S i + k') with (i + S k') by lia. exact H.
    - replace (S i + length us) with (i + S (length us)) by lia. exact Hs.
  Qed.
  Hypothesis HA : forall b, In b bodies -> has_body gs "number" b.
  Lemma reads_derive x i j : Reads x i j -> D (nonterm "number") i j.
  Proof using HA.
    assert (K : forall b ts i j, In b bodies -> split_terms tokenize (rb_terms b) ts -> Ds ts i j -> D (nonterm "number") i j).
    { intros b ts a c Hb Hs Hd. apply (d_rule _ _ _ _ _ (nonterm "number") a c ts); auto. left. exists (rb_terms b). split; [|exact Hs].
      exists b. split; [exact (HA b Hb)|reflexivity]. }
    unfold bodies in K. induction 1 as [w z i j Hw (ks & E & W)|w o x y i j k l Hw _ IHx (ks & E & W) _ IHy|w x i j k Hw (ks & E & W) _ IHx].
    - apply (K (number_body (w, z)) (token_terms MNil ks ++ [])).
      + apply in_app_iff. left. apply in_map. exact Hw.
      + apply (sp_text _ (word w) []); [reflexivity|exact E|constructor].
      + apply (words_derive _ i j _ j W). constructor.
    - apply (K (operator_body (w, o)) (nonterm "number" :: token_terms MNil ks ++ [nonterm "number"])).
      + apply in_app_iff. right. apply in_app_iff. left. apply in_map. exact Hw.
      + apply sp_other; [discriminate|]. apply (sp_text _ (word w)); [reflexivity|exact E|]. apply sp_other; [discriminate|constructor].
      + eapply ds_cons; [exact IHx|]. apply (words_derive _ j k _ l W). eapply ds_cons; [exact IHy|constructor].
    - apply (K (sign_body w) (token_terms MNil ks ++ [nonterm "number"])).
      + apply in_app_iff. right. apply in_app_iff. right. apply in_map. exact Hw.
      + apply (sp_text _ (word w)); [reflexivity|exact E|]. apply sp_other; [discriminate|constructor].
      + apply (words_derive _ i j _ k W). eapply ds_cons; [exact IHx|constructor].
  Qed.
End Trees.
