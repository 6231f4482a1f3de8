(** The reader with positions and messages reads what the reader of ModelReader.v reads. *)
From Coq Require Import Lia.
From Verif Require Import Base ModelTypes ModelText ModelQuote ModelReader ModelEarley ModelGrammar ModelReport.
Local Open Scope list_scope.

Definition sim {A B} (R : A -> B -> Prop) (o : out A) (x : res B) : Prop :=
  match o, x with
  | Done a, Ret b => R a b
  | Fails _, Err => True
  | Panics, Panic => True
  | Spent, Fuel => True
  | _, _ => False
  end.

Lemma sim_bind {A B A' B'} (R : A -> B -> Prop) (R' : A' -> B' -> Prop) o x k l :
  sim R o x -> (forall a b, R a b -> sim R' (k a) (l b)) -> sim R' (obind o k) (bind x l).
Proof. destruct o, x; cbn; intros H K; try contradiction; auto. Qed.
Lemma sim_lift {A} e (x : res A) : sim eq (lift e x) x.
Proof. destruct x; cbn; auto. Qed.
Lemma sim_weaken {A B} (R R' : A -> B -> Prop) o x : sim R o x -> (forall a b, R a b -> R' a b) -> sim R' o x.
Proof. destruct o, x; cbn; auto. Qed.

Definition RS (s : rp) (d : rd) : Prop := rp_rd s = d.
Definition RP {A} (p : A * rp) (q : A * rd) : Prop := fst p = fst q /\ rp_rd (snd p) = snd q.

Create HintDb sim.

Ltac simstep :=
  match goal with
  | |- sim _ (obind (if ?b then _ else _) _) (bind (if ?b then _ else _) _) =>
      eapply (sim_bind RP); [destruct b|]
  | |- sim _ (obind _ _) (bind _ _) =>
      first [ eapply (sim_bind RS); [solve [eauto with sim] | let E := fresh in intros ? ? E; unfold RS in E; subst]
            | eapply (sim_bind RP); [solve [eauto with sim]
                 | let p := fresh "p" in intros [p ?] [? ?] [? ?]; cbn [fst snd] in *; subst]
            | eapply (sim_bind eq); [solve [apply sim_lift] | intros ? ? <-] ]
  | |- sim _ (if ?b then _ else _) (if ?b then _ else _) => destruct b eqn:?
  | |- sim _ (match ?x with [] => _ | _ :: _ => _ end) (match ?x with [] => _ | _ :: _ => _ end) => destruct x
  | |- sim _ (match ?x with Some _ => _ | None => _ end) (match ?x with Some _ => _ | None => _ end) => destruct x
  | |- sim _ (match ?x with (_, _) => _ end) (match ?x with (_, _) => _ end) => destruct x
  | |- sim _ (Done _) (Ret _) => cbn; solve [reflexivity | split; reflexivity | auto]
  | |- sim _ (m_fail _ _ _ _) Err => exact I
  | |- sim _ (Fails _) Err => exact I
  | |- sim _ _ _ => solve [eauto with sim]
  end.
Ltac sims := repeat simstep.

Section Sim.
  Variables input fname : string.
  Variables letter_hi digit_hi is_print_hi : rune -> bool.
  Variable scan_float : string -> res bigf.
  Variable regexp_ok : string -> bool.
  Variable md5 : string -> string.
  Variable hash : rulebody -> N.
  Variable scan_error : string -> string.
  Variable fuel : nat.
  Local Notation P := is_print_hi.

  Lemma next_sim s : next input (rp_rd s) = (fst (m_next input s), rp_rd (snd (m_next input s))).
  Proof.
    unfold next, m_next. destruct (Nat.leb _ _); [reflexivity|].
    destruct (decode_rune _) as [r w]. destruct (Z.eqb r RuneError); [destruct s as [[] ? ?]; reflexivity|].
    destruct (info_at _ _); reflexivity.
  Qed.
  Ltac nx := match goal with
    | |- context [m_next input ?s] => rewrite (next_sim s); destruct (m_next input s) as [? ?]; cbn [fst snd]
    end.
  Ltac go := repeat (nx || simstep).

  Lemma backup_sim s : sim RS (m_backup s) (backup (rp_rd s)).
  Proof. unfold m_backup, backup. destruct (Nat.leb _ _); [reflexivity|exact I]. Qed.
  #[local] Hint Resolve backup_sim : sim.
  Lemma eat_sim c s : sim RS (m_eat input fname P c s) (eat input c (rp_rd s)).
  Proof. unfold m_eat, eat. nx. destruct (Z.eqb _ _); [reflexivity|exact I]. Qed.
  #[local] Hint Resolve eat_sim : sim.
  Lemma peek_sim s : sim RP (m_peek input s) (peek input (rp_rd s)).
  Proof. unfold m_peek, peek. go. Qed.
  #[local] Hint Resolve peek_sim : sim.
  Lemma ws_loop_sim n : forall s, sim RS (m_ws_loop input n s) (ws_loop input n (rp_rd s)).
  Proof. induction n as [|n IH]; intros s; cbn [m_ws_loop ws_loop]; [exact I|]. go. Qed.
  Lemma ws_sim s : sim RS (m_ws input fuel s) (ws input fuel (rp_rd s)).
  Proof. apply ws_loop_sim. Qed.
  #[local] Hint Resolve ws_sim : sim.
  Lemma text_loop_sim n : forall first s,
    sim RP (m_text_loop input letter_hi digit_hi n first s) (text_loop input letter_hi digit_hi n first (rp_rd s)).
  Proof. induction n as [|n IH]; intros first s; cbn [m_text_loop text_loop]; [exact I|]. go. Qed.
  #[local] Hint Resolve text_loop_sim : sim.
  Lemma text_sim s : sim RP (m_text input fname letter_hi digit_hi P fuel s) (text input letter_hi digit_hi fuel (rp_rd s)).
  Proof. unfold m_text, text. go. Qed.
  #[local] Hint Resolve text_sim : sim.
  Lemma bracketed_sim b e s :
    sim RP (m_bracketed input fname letter_hi digit_hi P fuel b e s) (bracketed input letter_hi digit_hi fuel b e (rp_rd s)).
  Proof. unfold m_bracketed, bracketed. go. Qed.
  #[local] Hint Resolve bracketed_sim : sim.
  Lemma nonterminal_sim s :
    sim RP (m_nonterminal input fname letter_hi digit_hi P fuel s) (nonterminal input letter_hi digit_hi fuel (rp_rd s)).
  Proof. apply bracketed_sim. Qed.
  Lemma frame_sim s :
    sim RP (m_frame_name input fname letter_hi digit_hi P fuel s) (frame_name input letter_hi digit_hi fuel (rp_rd s)).
  Proof. apply bracketed_sim. Qed.
  #[local] Hint Resolve nonterminal_sim frame_sim : sim.
  Lemma line_sim n : forall s, sim RS (m_line_loop input n s) (line_loop input n (rp_rd s)).
  Proof. induction n as [|n IH]; intros s; cbn [m_line_loop line_loop]; [exact I|]. go. Qed.
  Lemma block_sim n : forall prev s, sim RS (m_block_loop input fname P n prev s) (block_loop input n prev (rp_rd s)).
  Proof. induction n as [|n IH]; intros prev s; cbn [m_block_loop block_loop]; [exact I|]. go. Qed.
  #[local] Hint Resolve line_sim block_sim : sim.
  Lemma comment_sim s : sim RP (m_comment input fname P fuel s) (comment input fuel (rp_rd s)).
  Proof. unfold m_comment, comment. go. Qed.
  #[local] Hint Resolve comment_sim : sim.
  Lemma comments_loop_sim n : forall s, sim RS (m_comments_loop input fname P fuel n s) (comments_loop input fuel n (rp_rd s)).
  Proof. induction n as [|n IH]; intros s; cbn [m_comments_loop comments_loop]; [exact I|]. go. Qed.
  Lemma comments_sim s : sim RS (m_comments input fname P fuel s) (comments input fuel (rp_rd s)).
  Proof. apply comments_loop_sim. Qed.
  #[local] Hint Resolve comments_sim : sim.
  Lemma terminal_loop_sim n : forall prev s,
    sim RP (m_terminal_loop input fname P n prev s) (terminal_loop input n prev (rp_rd s)).
  Proof. induction n as [|n IH]; intros prev s; cbn [m_terminal_loop terminal_loop]; [exact I|]. go. Qed.
  #[local] Hint Resolve terminal_loop_sim : sim.
  Lemma terminal_text_sim s : sim RP (m_terminal_text input fname P fuel s) (terminal_text input fuel (rp_rd s)).
  Proof. unfold m_terminal_text, terminal_text. go. Qed.
  #[local] Hint Resolve terminal_text_sim : sim.
  Lemma terminal_sim s :
    sim RP (m_terminal input fname letter_hi digit_hi P fuel s) (terminal input letter_hi digit_hi fuel (rp_rd s)).
  Proof.
    unfold m_terminal, terminal. go.
    intros [? ?] [? ?] [? ?]; cbn [fst snd] in *; subst. go.
  Qed.
  #[local] Hint Resolve terminal_sim : sim.
  Lemma int_loop_sim n : forall i s,
    sim RP (m_int_loop input fname digit_hi P n i s) (int_loop input digit_hi n i (rp_rd s)).
  Proof. induction n as [|n IH]; intros i s; cbn [m_int_loop int_loop]; [exact I|]. go. Qed.
  Lemma get_int_sim s : sim RP (m_get_int input fname digit_hi P fuel s) (get_int input digit_hi fuel (rp_rd s)).
  Proof. apply int_loop_sim. Qed.
  #[local] Hint Resolve get_int_sim : sim.
  Lemma special_meta_sim s :
    sim RP (m_special_meta input fname digit_hi P fuel s) (special_meta input digit_hi fuel (rp_rd s)).
  Proof.
    unfold m_special_meta, special_meta. go.
    intros [? ?] [? ?] [? ?]; cbn [fst snd] in *; subst. go.
  Qed.
  #[local] Hint Resolve special_meta_sim : sim.
  Lemma special_sim s :
    sim RP (m_special input fname letter_hi digit_hi P fuel s) (special input letter_hi digit_hi fuel (rp_rd s)).
  Proof. unfold m_special, special. go. Qed.
  Lemma regex_loop_sim n : forall s, sim RP (m_regex_loop input fname P n s) (regex_loop input n (rp_rd s)).
  Proof. induction n as [|n IH]; intros s; cbn [m_regex_loop regex_loop]; [exact I|]. go. Qed.
  #[local] Hint Resolve special_sim regex_loop_sim : sim.
  Lemma regex_sim s :
    sim RP (m_regex input fname P regexp_ok md5 fuel s) (regex input regexp_ok md5 fuel (rp_rd s)).
  Proof. unfold m_regex, regex. go. Qed.
  #[local] Hint Resolve regex_sim : sim.
  Lemma read_term_sim s :
    sim RP (m_read_term input fname letter_hi digit_hi P regexp_ok md5 fuel s)
        (read_term input letter_hi digit_hi regexp_ok md5 fuel (rp_rd s)).
  Proof.
    unfold m_read_term, read_term. go.
  Qed.
  #[local] Hint Resolve read_term_sim : sim.
  Lemma name_loop_sim n : forall first prev s,
    sim RP (m_name_loop input letter_hi digit_hi n first prev s) (name_loop input letter_hi digit_hi n first prev (rp_rd s)).
  Proof. induction n as [|n IH]; intros first prev s; cbn [m_name_loop name_loop]; [exact I|]. go. Qed.
  #[local] Hint Resolve name_loop_sim : sim.
  Lemma func_name_sim s :
    sim RP (m_func_name input fname letter_hi digit_hi P fuel s) (func_name input letter_hi digit_hi fuel (rp_rd s)).
  Proof. unfold m_func_name, func_name. go. Qed.
  Lemma num_loop_sim n : forall dot s,
    sim RP (m_num_loop input fname digit_hi P n dot s) (num_loop input digit_hi n dot (rp_rd s)).
  Proof. induction n as [|n IH]; intros dot s; cbn [m_num_loop num_loop]; [exact I|]. go. Qed.
  #[local] Hint Resolve func_name_sim num_loop_sim : sim.
  Lemma num_arg_sim neg s :
    sim RP (m_num_arg input fname digit_hi P scan_float scan_error fuel neg s)
        (num_arg input digit_hi scan_float fuel neg (rp_rd s)).
  Proof. unfold m_num_arg, num_arg. go. Qed.
  #[local] Hint Resolve num_arg_sim : sim.
  Lemma semantic_with_sim f g s : (forall s, sim RP (f s) (g (rp_rd s))) ->
    sim RP (m_semantic_with input fname letter_hi digit_hi P fuel f s)
        (semantic_with input letter_hi digit_hi fuel g (rp_rd s)).
  Proof. intros H. unfold m_semantic_with, semantic_with. go. Qed.
  #[local] Hint Resolve semantic_with_sim : sim.
  Lemma one_arg_sim f g r s : (forall s, sim RP (f s) (g (rp_rd s))) ->
    sim RP (m_one_arg input fname letter_hi digit_hi P scan_float scan_error fuel f r s)
        (one_arg input letter_hi digit_hi scan_float fuel g r (rp_rd s)).
  Proof. intros H. unfold m_one_arg, one_arg. go. Qed.
  #[local] Hint Resolve one_arg_sim : sim.
  Lemma args_loop_sim n : forall s,
    sim RP (m_args_loop input fname letter_hi digit_hi P scan_float scan_error fuel n s)
        (args_loop input letter_hi digit_hi scan_float fuel n (rp_rd s)).
  Proof. induction n as [|n IH]; intros s; cbn [m_args_loop args_loop]; [exact I|]. go. Qed.
  #[local] Hint Resolve args_loop_sim : sim.
  Lemma semantic_fn_sim s :
    sim RP (m_semantic_fn input fname letter_hi digit_hi P scan_float scan_error fuel s)
        (semantic_fn input letter_hi digit_hi scan_float fuel (rp_rd s)).
  Proof. unfold m_semantic_fn, semantic_fn. go. Qed.
  #[local] Hint Resolve semantic_fn_sim : sim.
  Lemma terms_loop_sim n : forall s,
    sim RP (m_terms_loop input fname letter_hi digit_hi P regexp_ok md5 fuel n s)
        (terms_loop input letter_hi digit_hi regexp_ok md5 fuel n (rp_rd s)).
  Proof. induction n as [|n IH]; intros s; cbn [m_terms_loop terms_loop]; [exact I|]. go. Qed.
  #[local] Hint Resolve terms_loop_sim : sim.
  Lemma rule_body_sim s :
    sim RP (m_rule_body input fname letter_hi digit_hi P scan_float regexp_ok md5 scan_error fuel s)
        (rule_body input letter_hi digit_hi scan_float regexp_ok md5 fuel (rp_rd s)).
  Proof. unfold m_rule_body, rule_body. go. Qed.
  #[local] Hint Resolve rule_body_sim : sim.
  Lemma bodies_loop_sim n : forall m s,
    sim RP (m_bodies_loop input fname letter_hi digit_hi P scan_float regexp_ok md5 hash scan_error fuel n m s)
        (bodies_loop input letter_hi digit_hi scan_float regexp_ok md5 hash fuel n m (rp_rd s)).
  Proof. induction n as [|n IH]; intros m s; cbn [m_bodies_loop bodies_loop]; [exact I|]. go. Qed.
  #[local] Hint Resolve bodies_loop_sim : sim.
  Lemma rule_bodies_sim s :
    sim RP (m_rule_bodies input fname letter_hi digit_hi P scan_float regexp_ok md5 hash scan_error fuel s)
        (rule_bodies input letter_hi digit_hi scan_float regexp_ok md5 hash fuel (rp_rd s)).
  Proof. unfold m_rule_bodies, rule_bodies. go. Qed.
  #[local] Hint Resolve rule_bodies_sim : sim.
  Lemma read_rule_sim c s :
    sim RP (m_read_rule input fname letter_hi digit_hi P scan_float regexp_ok md5 hash scan_error fuel c s)
        (read_rule input letter_hi digit_hi scan_float regexp_ok md5 hash fuel c (rp_rd s)).
  Proof.
    unfold m_read_rule, read_rule. go.
    intros [? ?] [? ?] [? ?]; cbn [fst snd] in *; subst. go.
  Qed.
  #[local] Hint Resolve read_rule_sim : sim.
  Lemma rules_loop_sim n : forall r f s,
    sim RP (m_rules_loop input fname letter_hi digit_hi P scan_float regexp_ok md5 hash scan_error fuel n r f s)
        (rules_loop input letter_hi digit_hi scan_float regexp_ok md5 hash fuel n r f (rp_rd s)).
  Proof. induction n as [|n IH]; intros r f s; cbn [m_rules_loop rules_loop]; [exact I|]. go. Qed.
  #[local] Hint Resolve rules_loop_sim : sim.
  Lemma rules_part_sim s :
    sim eq (m_rules_part input fname letter_hi digit_hi P scan_float regexp_ok md5 hash scan_error fuel s)
        (rules_part input letter_hi digit_hi scan_float regexp_ok md5 hash fuel (rp_rd s)).
  Proof. unfold m_rules_part, rules_part. go. Qed.

  Section Includes.
    Context {F G : Type}.
    Variable mload : F -> string -> out (option (list G * list (string * string)) * F).
    Variable load : F -> string -> res (option (list G * list (string * string)) * F).
    Hypothesis Hload : forall fs x, sim eq (mload fs x) (load fs x).
    Lemma includes_loop_sim n : forall fs gs s,
      sim RP (m_includes_loop input fname letter_hi digit_hi P fuel mload n fs gs s)
          (includes_loop input letter_hi digit_hi fuel load n fs gs (rp_rd s)).
    Proof.
      induction n as [|n IH]; intros fs gs s; cbn [m_includes_loop includes_loop]; [exact I|]. go.
      eapply (sim_bind eq); [apply Hload|]. intros [[[l re]|] fs'] ? <-.
      - apply (IH fs' (gs ++ l)%list (m_with_re _ r4)).
      - apply IH.
    Qed.
  End Includes.
End Sim.

Section Construct.
  Variables letter_hi digit_hi is_print_hi : rune -> bool.
  Variable scan_float : string -> res bigf.
  Variable regexp_ok : string -> bool.
  Variable md5 : string -> string.
  Variable hash : rulebody -> N.
  Variable trie_accepts : string -> bool.
  Variable tokenize : string -> res (list token).
  Variable ascii_name : string -> string.
  Variable read_file : string -> res string.
  Variable abs_dir : string -> res string.
  Variable join_path : string -> string -> string.
  Variable ord : grammar_rules -> grammar_rules.
  Variables scan_error file_error dir_error : string -> string.
  Variable finish_error : string.
  Variable fuel : nat.

  Lemma include_file_sim mread read dir w path : (forall d x y w, sim eq (mread d x y w) (read d x y w)) ->
    sim eq (m_include_file read_file abs_dir join_path file_error dir_error mread dir w path)
        (include_file read_file abs_dir join_path read dir w path).
  Proof.
    intros H. unfold m_include_file, include_file. destruct (Nat.leb _ _); [reflexivity|].
    eapply (sim_bind eq); [apply sim_lift|intros b ? <-].
    eapply (sim_bind eq); [apply sim_lift|intros idir ? <-].
    eapply (sim_bind eq); [apply H|intros [[ig|] w'] ? <-]; reflexivity.
  Qed.
  Lemma from_string_sim depth : forall d name dir w,
    sim eq (m_grammar_from_string letter_hi digit_hi is_print_hi scan_float regexp_ok md5 hash trie_accepts
              tokenize ascii_name read_file abs_dir join_path ord scan_error file_error dir_error finish_error
              fuel depth d name dir w)
        (grammar_from_string letter_hi digit_hi scan_float regexp_ok md5 hash trie_accepts
              tokenize ascii_name read_file abs_dir join_path ord fuel depth d name dir w).
  Proof.
    induction depth as [|depth IH]; intros d name dir w; cbn [m_grammar_from_string grammar_from_string]; [exact I|].
    destruct (Nat.leb _ _); [reflexivity|].
    eapply (sim_bind RP).
    { apply (includes_loop_sim d name letter_hi digit_hi is_print_hi fuel _ _
               (fun fs x => include_file_sim _ _ dir fs x IH) fuel w [] (mkRp (mkRd 0 0 []) None [])). }
    intros [[gs w1] s] [p2 d2] [E1 E2]. cbn [fst snd] in E1, E2. subst p2 d2.
    eapply (sim_bind eq); [apply rules_part_sim|]. intros [[rules frames] re] ? <-.
    eapply (sim_bind eq); [apply sim_lift|]. intros [g gt] ? <-. reflexivity.
  Qed.
  Lemma GrammarFromString_sim depth d name gt :
    sim eq (m_GrammarFromString letter_hi digit_hi is_print_hi scan_float regexp_ok md5 hash trie_accepts
              tokenize ascii_name read_file abs_dir join_path ord scan_error file_error dir_error finish_error
              fuel depth d name gt)
        (GrammarFromString letter_hi digit_hi scan_float regexp_ok md5 hash trie_accepts
              tokenize ascii_name read_file abs_dir join_path ord fuel depth d name gt).
  Proof. apply from_string_sim. Qed.
  Lemma GrammarFromFile_sim depth file gt :
    sim eq (m_GrammarFromFile letter_hi digit_hi is_print_hi scan_float regexp_ok md5 hash trie_accepts
              tokenize ascii_name read_file abs_dir join_path ord scan_error file_error dir_error finish_error
              fuel depth file gt)
        (GrammarFromFile letter_hi digit_hi scan_float regexp_ok md5 hash trie_accepts
              tokenize ascii_name read_file abs_dir join_path ord fuel depth file gt).
  Proof.
    unfold m_GrammarFromFile, GrammarFromFile.
    eapply (sim_bind eq); [apply sim_lift|intros b ? <-].
    eapply (sim_bind eq); [apply sim_lift|intros dir ? <-]. apply from_string_sim.
  Qed.
End Construct.
