(** List nodes, entities and the built-in functions. *)
From Verif Require Import Base ModelTypes ModelText ModelEarley ModelTrees ModelApi ModelQuote ModelSem ModelReader ModelGrammar ModelLocal ModelFuncs
     SpecTypes SpecGrammar SpecTree SpecApi SpecSem SpecNode SpecLocal SpecFuncs
     ProofEqual ProofChart ProofSound ProofComplete ProofTerm ProofTree ProofTreeOk ProofTreeSet ProofTreeDup ProofApi ProofApiLoops
     ProofTreeApi ProofMain ProofSem ProofNodes ProofSemMain ProofNode.
From Coq Require Import Permutation.
From Verif Require Import ProofLocal ProofLocalMatch.

(** ** The built-in functions *)
Lemma entity_exact show x rest : entity_value (show x) rest (fmr_entity show (x :: rest)).
Proof.
  unfold fmr_entity. destruct (String.eqb (show x) "") eqn:E.
  - apply eqb_yes in E. rewrite E. constructor.
  - apply eqb_no in E. destruct rest; constructor; congruence.
Qed.

Lemma call_outcomes rcall fn args :
  (forall v vs, rcall fn args = Ret (v :: vs) -> Call rcall fn args = Ret v)
  /\ (rcall fn args = Ret [] -> Call rcall fn args = Ret DNil)
  /\ (rcall fn args = Err -> Call rcall fn args = Err)
  /\ (rcall fn args = Panic -> Call rcall fn args = Panic).
Proof.
  unfold Call. repeat split; intros; match goal with E : rcall _ _ = _ |- _ => rewrite E end; reflexivity.
Qed.

(** ** $1, ..., $k *)
Lemma sequence_map {A B} (f : A -> res B) l ys : sequence (map f l) = Ret ys <-> Forall2 (fun x y => f x = Ret y) l ys.
Proof.
  rewrite sequence_ret. split.
  - revert ys. induction l as [|x l IH]; intros ys F; inversion F; subst; constructor; auto.
  - induction 1; constructor; auto.
Qed.

Section Args.
  Variable p : parse_t.
  Variable join_words : list string -> string.
  Variable float_string : bigf -> string.
  Variable json : dval -> string.
  Variable is_print_hi : rune -> bool.
  Variable call : string -> list dval -> res dval.
  Notation semantic := (semantic p join_words float_string json is_print_hi call).
  Notation eval := (eval p join_words float_string call).

  Lemma sem_positions (n : node) nl ctx : forall l pre, n_children n = pre ++ l ->
    map (sem_str float_string json is_print_hi nl (map (fun c => Some (semantic c)) (n_children n)) ctx)
        (map (fun i => Arg "index" (VIdx (Z.of_nat i))) (seq (S (length pre)) (length l)))
    = map semantic l.
  Proof.
    induction l as [|c l IH]; intros pre E; [reflexivity|]. cbn [length seq map]. f_equal.
    - rewrite (sem_index_child float_string json is_print_hi nl _ ctx (length pre) (Some (semantic c))); [reflexivity|].
      rewrite nth_error_map, E, nth_error_app2, Nat.sub_diag by lia. reflexivity.
    - specialize (IH (pre ++ [c])). rewrite app_length in IH. cbn [length] in IH.
      replace (length pre + 1) with (S (length pre)) in IH by lia. apply IH. rewrite E, <- app_assoc. reflexivity.
  Qed.

  Lemma eval_positions (n : node) nl ctx : forall l pre, n_children n = pre ++ l ->
    map (arg_eval float_string call nl (map eval (n_children n)) ctx)
        (map (fun i => Arg "index" (VIdx (Z.of_nat i))) (seq (S (length pre)) (length l)))
    = map eval l.
  Proof.
    induction l as [|c l IH]; intros pre E; [reflexivity|]. cbn [length seq map]. f_equal.
    - rewrite (eval_index_child float_string call nl _ ctx (length pre) (eval c)); [reflexivity|].
      rewrite nth_error_map, E, nth_error_app2, Nat.sub_diag by lia. reflexivity.
    - specialize (IH (pre ++ [c])). rewrite app_length in IH. cbn [length] in IH.
      replace (length pre + 1) with (S (length pre)) in IH by lia. apply IH. rewrite E, <- app_assoc. reflexivity.
  Qed.
End Args.

(** ** Functions with string arguments *)
Section Entities.
  Variable p : parse_t.
  Variable join_words : list string -> string.
  Variable float_string : bigf -> string.
  Variable json : dval -> string.
  Variable is_print_hi : rune -> bool.
  Notation Q := (quote is_print_hi).

  Lemma string_sems nl sems ctx ss :
    sequence (map (sem_str float_string json is_print_hi nl sems ctx) (map (Arg "string") (map VStr ss))) = Ret (map Q ss).
  Proof. induction ss as [|s ss IH]; [reflexivity|]. cbn [map sequence]. rewrite IH. reflexivity. Qed.

  Lemma string_evals call nl evs ctx ss :
    sequence (map (arg_eval float_string call nl evs ctx) (map (Arg "string") (map VStr ss))) = Ret (map DStr ss).
  Proof. induction ss as [|s ss IH]; [reflexivity|]. cbn [map sequence]. rewrite IH. reflexivity. Qed.

  Lemma odd_items items : ~ Forall (fun v => exists s, v = VStr s) items ->
    (forall nl sems ctx, sequence (map (sem_str float_string json is_print_hi nl sems ctx) (map (Arg "string") items)) = Err)
    /\ (forall call nl evs ctx, sequence (map (arg_eval float_string call nl evs ctx) (map (Arg "string") items)) = Err).
  Proof.
    induction items as [|v items IH]; intros H; [exfalso; apply H; constructor|].
    destruct v as [s|z|x|i|f|u] eqn:Ev; [|split; intros; reflexivity..].
    destruct IH as [I1 I2]. { intros F. apply H. constructor; eauto. }
    split; intros; cbn [map sequence]; [rewrite I1|rewrite I2]; reflexivity.
  Qed.

  Lemma entity_means show rcall m text x items t : registered show rcall ->
    function_of m = Some (entity text x items) -> node_nl p join_words m = Ret t ->
    (forall ss, items = map VStr ss ->
      semantic p join_words float_string json is_print_hi (Call rcall) m
        = Ret (call_text "fmr.list" [Q text; call_text "fmr.entity" [Q x; call_text "fmr.list" (map Q ss)]])
      /\ exists v, entity_value x [DList (map DStr ss)] v
           /\ eval p join_words float_string (Call rcall) m = Ret (DList [DStr text; v]))
    /\ (~ Forall (fun v => exists s, v = VStr s) items ->
      semantic p join_words float_string json is_print_hi (Call rcall) m = Err
      /\ eval p join_words float_string (Call rcall) m = Err).
  Proof.
    intros (Hsh & Hl & He) Hf Hnl.
    assert (forall vs, Call rcall "fmr.list" vs = Ret (DList vs)) as Hcl by (intros; unfold Call; rewrite Hl; reflexivity).
    assert (forall vs, Call rcall "fmr.entity" vs = Ret (fmr_entity show vs)) as Hce by (intros; unfold Call; rewrite He; reflexivity).
    split.
    - intros ss ->. split.
      + rewrite semantic_eq, Hnl. cbn [bind]. rewrite Hf. unfold entity. rewrite !fmr_str_eq. cbn [String.eqb Ascii.eqb Bool.eqb].
        cbn [map sequence].
        change (sem_str float_string json is_print_hi (Q t) (sems_of p join_words float_string json is_print_hi (Call rcall) m)
                  (ctx_of p join_words float_string (Call rcall) m)
                  (Arg "func" (VFunc (FMR "fmr.entity" [Arg "string" (VStr x); Arg "func" (VFunc (FMR "fmr.list" (map (Arg "string") (map VStr ss))))]))))
          with (fmr_str float_string json is_print_hi (Q t) (sems_of p join_words float_string json is_print_hi (Call rcall) m)
                  (ctx_of p join_words float_string (Call rcall) m)
                  (FMR "fmr.entity" [Arg "string" (VStr x); Arg "func" (VFunc (FMR "fmr.list" (map (Arg "string") (map VStr ss))))])).
        rewrite fmr_str_eq. cbn [String.eqb Ascii.eqb Bool.eqb map sequence].
        change (sem_str float_string json is_print_hi (Q t) (sems_of p join_words float_string json is_print_hi (Call rcall) m)
                  (ctx_of p join_words float_string (Call rcall) m)
                  (Arg "func" (VFunc (FMR "fmr.list" (map (Arg "string") (map VStr ss))))))
          with (fmr_str float_string json is_print_hi (Q t) (sems_of p join_words float_string json is_print_hi (Call rcall) m)
                  (ctx_of p join_words float_string (Call rcall) m) (FMR "fmr.list" (map (Arg "string") (map VStr ss)))).
        rewrite fmr_str_eq. cbn [String.eqb Ascii.eqb Bool.eqb]. rewrite string_sems. reflexivity.
      + exists (fmr_entity show [DStr x; DList (map DStr ss)]). split.
        { rewrite <- (Hsh x) at 1. apply entity_exact. }
        rewrite eval_eq, Hf. unfold entity. rewrite fmr_eval_eq. cbn [String.eqb Ascii.eqb Bool.eqb map sequence].
        change (arg_eval float_string (Call rcall) (node_nl p join_words m) (map (eval p join_words float_string (Call rcall)) (n_children m))
                  (ctx_of p join_words float_string (Call rcall) m)
                  (Arg "func" (VFunc (FMR "fmr.entity" [Arg "string" (VStr x); Arg "func" (VFunc (FMR "fmr.list" (map (Arg "string") (map VStr ss))))]))))
          with (fmr_eval float_string (Call rcall) (node_nl p join_words m) (map (eval p join_words float_string (Call rcall)) (n_children m))
                  (ctx_of p join_words float_string (Call rcall) m)
                  (FMR "fmr.entity" [Arg "string" (VStr x); Arg "func" (VFunc (FMR "fmr.list" (map (Arg "string") (map VStr ss))))])).
        rewrite fmr_eval_eq. cbn [String.eqb Ascii.eqb Bool.eqb map sequence].
        change (arg_eval float_string (Call rcall) (node_nl p join_words m) (map (eval p join_words float_string (Call rcall)) (n_children m))
                  (ctx_of p join_words float_string (Call rcall) m)
                  (Arg "func" (VFunc (FMR "fmr.list" (map (Arg "string") (map VStr ss))))))
          with (fmr_eval float_string (Call rcall) (node_nl p join_words m) (map (eval p join_words float_string (Call rcall)) (n_children m))
                  (ctx_of p join_words float_string (Call rcall) m) (FMR "fmr.list" (map (Arg "string") (map VStr ss)))).
        rewrite fmr_eval_eq. cbn [String.eqb Ascii.eqb Bool.eqb]. rewrite string_evals. cbn [bind].
        rewrite Hcl. cbn [bind].
        change (arg_eval float_string (Call rcall) (node_nl p join_words m) (map (eval p join_words float_string (Call rcall)) (n_children m))
                  (ctx_of p join_words float_string (Call rcall) m) (Arg "string" (VStr x))) with (Ret (DStr x)).
        cbn [bind]. rewrite Hce. cbn [bind].
        change (arg_eval float_string (Call rcall) (node_nl p join_words m) (map (eval p join_words float_string (Call rcall)) (n_children m))
                  (ctx_of p join_words float_string (Call rcall) m) (Arg "string" (VStr text))) with (Ret (DStr text)).
        cbn [bind]. apply Hcl.
    - intros Hodd. destruct (odd_items items Hodd) as [O1 O2]. split.
      + rewrite semantic_eq, Hnl. cbn [bind]. rewrite Hf. unfold entity. rewrite fmr_str_eq. cbn [String.eqb Ascii.eqb Bool.eqb map sequence].
        change (sem_str float_string json is_print_hi (Q t) (sems_of p join_words float_string json is_print_hi (Call rcall) m)
                  (ctx_of p join_words float_string (Call rcall) m)
                  (Arg "func" (VFunc (FMR "fmr.entity" [Arg "string" (VStr x); Arg "func" (VFunc (FMR "fmr.list" (map (Arg "string") items)))]))))
          with (fmr_str float_string json is_print_hi (Q t) (sems_of p join_words float_string json is_print_hi (Call rcall) m)
                  (ctx_of p join_words float_string (Call rcall) m)
                  (FMR "fmr.entity" [Arg "string" (VStr x); Arg "func" (VFunc (FMR "fmr.list" (map (Arg "string") items)))])).
        rewrite fmr_str_eq. cbn [String.eqb Ascii.eqb Bool.eqb map sequence].
        change (sem_str float_string json is_print_hi (Q t) (sems_of p join_words float_string json is_print_hi (Call rcall) m)
                  (ctx_of p join_words float_string (Call rcall) m)
                  (Arg "func" (VFunc (FMR "fmr.list" (map (Arg "string") items)))))
          with (fmr_str float_string json is_print_hi (Q t) (sems_of p join_words float_string json is_print_hi (Call rcall) m)
                  (ctx_of p join_words float_string (Call rcall) m) (FMR "fmr.list" (map (Arg "string") items))).
        rewrite fmr_str_eq. cbn [String.eqb Ascii.eqb Bool.eqb]. rewrite O1. reflexivity.
      + rewrite eval_eq, Hf. unfold entity. rewrite fmr_eval_eq. cbn [String.eqb Ascii.eqb Bool.eqb map sequence].
        change (arg_eval float_string (Call rcall) (node_nl p join_words m) (map (eval p join_words float_string (Call rcall)) (n_children m))
                  (ctx_of p join_words float_string (Call rcall) m)
                  (Arg "func" (VFunc (FMR "fmr.entity" [Arg "string" (VStr x); Arg "func" (VFunc (FMR "fmr.list" (map (Arg "string") items)))]))))
          with (fmr_eval float_string (Call rcall) (node_nl p join_words m) (map (eval p join_words float_string (Call rcall)) (n_children m))
                  (ctx_of p join_words float_string (Call rcall) m)
                  (FMR "fmr.entity" [Arg "string" (VStr x); Arg "func" (VFunc (FMR "fmr.list" (map (Arg "string") items)))])).
        rewrite fmr_eval_eq. cbn [String.eqb Ascii.eqb Bool.eqb map sequence].
        change (arg_eval float_string (Call rcall) (node_nl p join_words m) (map (eval p join_words float_string (Call rcall)) (n_children m))
                  (ctx_of p join_words float_string (Call rcall) m)
                  (Arg "func" (VFunc (FMR "fmr.list" (map (Arg "string") items)))))
          with (fmr_eval float_string (Call rcall) (node_nl p join_words m) (map (eval p join_words float_string (Call rcall)) (n_children m))
                  (ctx_of p join_words float_string (Call rcall) m) (FMR "fmr.list" (map (Arg "string") items))).
        rewrite fmr_eval_eq. cbn [String.eqb Ascii.eqb Bool.eqb]. rewrite O2. reflexivity.
  Qed.
End Entities.

(** ** Nodes of the trees of a parse *)
Section Trees.
  Variable tmatch : term -> option token -> bool.
  Variable ords : nat -> order.
  Variable gs : list grammar_rules.
  Variable text : string.
  Variables (fuel n : nat) (mf : bool) (toks : list token) (starts : list string) (p : parse_t).
  Hypothesis Ho : is_order (ords n).
  Hypothesis Hp : earley_parse_n tmatch ords gs text fuel n mf toks starts = Ret p.
  Hypothesis Hwf : well_formed gs starts.
  Hypothesis Hsep : separated gs.

  Lemma part_split t m : part_of t m -> m = t \/ below t m.
  Proof. intros H. inversion H; subst; [left; reflexivity|right]. eexists; split; eauto. Qed.

  Lemma below_node t m : tree_of_parse p t -> below t m -> exists t',
    tree_of gs (accepts_by tmatch) toks (some_range gs) t' (s_start (n_value m)) (s_end (n_value m)) (erase m)
    /\ t_type (s_term (n_value m)) = t_type t' /\ (t_type t' <> TAny -> t_value (s_term (n_value m)) = t_value t')
    /\ built m.
  Proof.
    intros Ht (c & Hc & Hm).
    destruct (root_node _ _ _ _ _ _ _ _ _ _ Ho Hp Hwf Hsep t Ht) as (v & c' & S & -> & _ & _ & _ & _ & _ & _ & _ & Hb & Htr & _).
    destruct Hc as [<-|[]].
    destruct (node_terms gs (accepts_by tmatch) toks (some_range gs) (fun _ => True) (fun _ _ => I)
                c' (nonterm S) 0 (s_end v) Hb I Htr m Hm) as (t' & _ & H2 & H3 & H4 & _ & H6).
    eauto 6.
  Qed.

  (** *** List nodes *)
  Lemma list_node t m : tree_of_parse p t -> part_of t m -> t_type (s_term (n_value m)) = TList ->
    function_of m = Some (FMR "fmr.list" (positions_to (length (n_children m))))
    /\ Forall (fun c => t_type (s_term (n_value c)) = TNonterminal /\ label c = label m) (n_children m).
  Proof.
    intros Ht Hm Hty. destruct (part_split t m Hm) as [->|Hbl].
    { exfalso. destruct (root_node _ _ _ _ _ _ _ _ _ _ Ho Hp Hwf Hsep t Ht) as (v & c & S & -> & _ & _ & H & _).
      cbn [n_value] in Hty. congruence. }
    destruct (below_node t m Ht Hbl) as (t' & Htr & H1 & H2 & Hb).
    inversion Hb as [? ? E|? ? ? ? E|? ? ? E|s ch E Erb Elen Ekids]; subst; cbn [n_value s_term] in *; try congruence.
    split.
    - unfold function_of. cbn [n_value n_children]. rewrite Erb. cbn [list_rb rb_f]. rewrite Elen. f_equal. f_equal.
      unfold positions_to. rewrite <- seq_shift, map_map. apply map_ext. intros i. do 3 f_equal. lia.
    - cbn [n_children]. simpl in Htr. rewrite E in Htr. inversion Htr as [| | |? ? ? k kids T1 T2 T3]; subst.
      apply Forall_forall. intros c Hc.
      destruct (trees_kids_terms gs (accepts_by tmatch) toks (some_range gs) _ _ _ _ T3 (erase c)) as (tc & i' & j' & Hx & Hy);
        [apply in_map; exact Hc|].
      apply repeat_spec in Hy. subst tc. pose proof (proj1 (Forall_forall _ _) Ekids c Hc) as Hbc.
      inversion Hbc as [? ? Ec|? ? ? ? Ec|s' rb ch' Ec Erb'|s' ch' Ec]; subst; simpl in Hx; rewrite Ec in Hx; inversion Hx; subst;
        try discriminate. unfold label. cbn [n_value]. rewrite Ec, H2 by congruence. auto.
  Qed.

  Section Values.
    Variable join_words : list string -> string.
    Variable float_string : bigf -> string.
    Variable json : dval -> string.
    Variable is_print_hi : rune -> bool.
    Variable call : string -> list dval -> res dval.
    Notation semantic := (semantic p join_words float_string json is_print_hi call).
    Notation eval := (eval p join_words float_string call).

    Lemma list_semantic t m : tree_of_parse p t -> part_of t m -> t_type (s_term (n_value m)) = TList ->
      forall s, semantic m = Ret s <-> exists ss, Forall2 (fun c s => semantic c = Ret s) (n_children m) ss
        /\ s = call_text "fmr.list" ss.
    Proof.
      intros Ht Hm Hty s. destruct (list_node t m Ht Hm Hty) as [Hf _].
      destruct (tree_readable _ _ _ _ _ _ _ _ _ _ Ho Hp Hwf Hsep join_words t m Ht Hm m (po_self m)) as [nl Hnl].
      rewrite semantic_eq, Hnl. cbn [bind]. rewrite Hf, fmr_str_eq. cbn [String.eqb Ascii.eqb Bool.eqb].
      unfold positions_to, sems_of. rewrite (sem_positions p join_words float_string json is_print_hi call m _ _ (n_children m) [] eq_refl).
      split.
      - destruct (sequence (map semantic (n_children m))) as [ss| | |] eqn:E; try discriminate. cbn [bind]. intros [= <-].
        exists ss. split; [|reflexivity]. apply sequence_map. exact E.
      - intros (ss & F & ->).
        assert (sequence (map semantic (n_children m)) = Ret ss) as ->; [|reflexivity].
        apply sequence_map. exact F.
    Qed.

    Lemma list_eval t m : tree_of_parse p t -> part_of t m -> t_type (s_term (n_value m)) = TList ->
      forall v, eval m = Ret v <-> exists vs, Forall2 (fun c v => eval c = Ret v) (n_children m) vs
        /\ call "fmr.list" vs = Ret v.
    Proof.
      intros Ht Hm Hty v. destruct (list_node t m Ht Hm Hty) as [Hf _].
      rewrite eval_eq, Hf, fmr_eval_eq. cbn [String.eqb Ascii.eqb Bool.eqb].
      unfold positions_to. rewrite (eval_positions p join_words float_string call m _ _ (n_children m) [] eq_refl).
      split.
      - destruct (sequence (map eval (n_children m))) as [ss| | |] eqn:E; try discriminate. cbn [bind]. intros Hc.
        exists ss. split; [|exact Hc]. apply sequence_map. exact E.
      - intros (ss & F & Hc).
        assert (sequence (map eval (n_children m)) = Ret ss) as ->; [|exact Hc].
        apply sequence_map. exact F.
    Qed.
  End Values.

  Lemma list_value join_words float_string show rcall t m : registered show rcall ->
    tree_of_parse p t -> part_of t m -> t_type (s_term (n_value m)) = TList ->
    forall v, eval p join_words float_string (Call rcall) m = Ret v <->
      exists vs, Forall2 (fun c v => eval p join_words float_string (Call rcall) c = Ret v) (n_children m) vs /\ v = DList vs.
  Proof.
    intros (_ & Hl & _) Ht Hm Hty v. rewrite (list_eval join_words float_string (Call rcall) t m Ht Hm Hty v).
    split; intros (vs & F & Hc); exists vs; (split; [exact F|]); unfold Call in *; rewrite Hl in *.
    - cbn [bind] in Hc. injection Hc as <-. reflexivity.
    - subst v. reflexivity.
  Qed.
End Trees.

(** *** Entities *)
Section Tagged.
  Variable hash : rulebody -> N.
  Variable find_all : string -> string -> option (list (nat * nat)).
  Variable span_text : document -> nat -> nat -> string.
  Variable regexps : list (string * string).
  Variable ord : nat -> list (string * ModelLocal.entry) -> list (string * ModelLocal.entry).
  Hypothesis Hord : forall i l, Permutation l (ord i l).
  Variables (d : document) (l : option grammar_rules).
  Hypothesis Hok : doc_ok d.
  Hypothesis Hl : local_grammar hash find_all span_text regexps ord d = Ret l.
  Variable gs : list grammar_rules.
  Variable x : string.
  Hypothesis Hx : undefined gs x.

  Variable tmatch : term -> option token -> bool.
  Variable ords : nat -> order.
  Variable text : string.
  Variables (fuel n : nat) (mf : bool) (toks : list token) (starts : list string) (p : parse_t).
  Hypothesis Ho : is_order (ords n).
  Hypothesis Hp : earley_parse_n tmatch ords (with_local gs l) text fuel n mf toks starts = Ret p.
  Hypothesis Hwf : well_formed gs starts.
  Hypothesis Hsep : separated gs.

  Lemma entity_node t m : tree_of_parse p t -> below t m -> t_type (s_term (n_value m)) = TNonterminal -> label m = x ->
    function_of m = None \/ exists sp mm items, In sp (d_spans d) /\ sp_value sp = Some mm /\ In (x, EList items) mm
      /\ function_of m = Some (entity (sp_string sp) x items).
  Proof.
    intros Ht Hm Hty Hlab.
    pose proof (local_well_formed hash find_all span_text regexps ord Hord d Hok l Hl gs starts Hwf) as Hwf'.
    destruct (local_keeps hash find_all span_text regexps ord Hord d Hok l Hl gs) as (_ & _ & Hs & _). specialize (Hs Hsep).
    destruct (below_node _ _ _ _ _ _ _ _ _ _ Ho Hp Hwf' Hs t m Ht Hm) as (t' & Htr & H1 & H2 & Hb).
    inversion Hb as [? ? E|? ? ? ? E|s rb ch E Erb Elen Ekids|s ch E Erb Elen Ekids]; subst; cbn [n_value s_term] in *; try congruence.
    simpl in Htr. rewrite E, Erb in Htr. inversion Htr as [| |? ? ? b kids T1 T2 T3|]; subst.
    unfold function_of, label in *. cbn [n_value] in *. rewrite Erb.
    assert (local_alt find_all regexps d (t_value (s_term s)) rb) as Hla.
    { rewrite with_local_app in T2. apply has_body_app in T2. destruct T2 as [T2|T2].
      - exfalso. eapply Hx. rewrite <- H2 in T2 by congruence. exact T2.
      - rewrite <- H2 in T2 by congruence. eapply local_sound; eauto. }
    inversion Hla; subst; cbn [rb_f]; eauto 10.
  Qed.

  Lemma entity_node_means join_words float_string json is_print_hi show rcall t m : registered show rcall ->
    tree_of_parse p t -> below t m -> t_type (s_term (n_value m)) = TNonterminal -> label m = x ->
    function_of m = None \/ exists sp mm items, In sp (d_spans d) /\ sp_value sp = Some mm /\ In (x, EList items) mm
      /\ (forall ss, items = map VStr ss ->
            semantic p join_words float_string json is_print_hi (Call rcall) m
              = Ret (call_text "fmr.list" [quote is_print_hi (sp_string sp);
                  call_text "fmr.entity" [quote is_print_hi x; call_text "fmr.list" (map (quote is_print_hi) ss)]])
            /\ exists v, entity_value x [DList (map DStr ss)] v
                 /\ eval p join_words float_string (Call rcall) m = Ret (DList [DStr (sp_string sp); v]))
      /\ (~ Forall (fun v => exists s, v = VStr s) items ->
            semantic p join_words float_string json is_print_hi (Call rcall) m = Err
            /\ eval p join_words float_string (Call rcall) m = Err).
  Proof.
    intros Hr Ht Hm Hty Hlab. destruct (entity_node t m Ht Hm Hty Hlab) as [H|(sp & mm & items & H1 & H2 & H3 & H4)]; [left; exact H|].
    right. exists sp, mm, items. split; [exact H1|]. split; [exact H2|]. split; [exact H3|].
    pose proof (local_well_formed hash find_all span_text regexps ord Hord d Hok l Hl gs starts Hwf) as Hwf'.
    destruct (local_keeps hash find_all span_text regexps ord Hord d Hok l Hl gs) as (_ & _ & Hs & _). specialize (Hs Hsep).
    destruct (tree_readable _ _ _ _ _ _ _ _ _ _ Ho Hp Hwf' Hs join_words t m Ht (below_part t m Hm) m (po_self m)) as [nl Hnl].
    eapply entity_means; eauto.
  Qed.
End Tagged.
