(** More fuel does not change a result of the reader. *)
From Verif Require Import Base ModelTypes ModelText ModelEarley ModelReader ModelGrammar.

Definition le_res {A} (a b : res A) : Prop := a = Fuel \/ a = b.
Lemma le_refl {A} (a : res A) : le_res a a.
Proof. right. reflexivity. Qed.
Lemma le_fuel {A} (b : res A) : le_res Fuel b.
Proof. left. reflexivity. Qed.
Lemma le_bind {A B} (a a' : res A) (k k' : A -> res B) : le_res a a' -> (forall x, le_res (k x) (k' x)) -> le_res (bind a k) (bind a' k').
Proof. intros [-> |<-] H; [left; reflexivity|]. destruct a; cbn [bind]; [apply H|right; reflexivity..]. Qed.
Lemma le_ret {A} (a b : res A) x : le_res a b -> a = Ret x -> b = Ret x.
Proof. intros [-> | ->]; [discriminate|auto]. Qed.

Lemma le_out {A} (a b : res A) : le_res a b -> a <> Fuel -> b = a.
Proof. intros [-> | ->]; [congruence|auto]. Qed.
Lemma le_stuck {A} (a b : res A) : le_res a b -> b = Fuel -> a = Fuel.
Proof. intros [-> | ->]; auto. Qed.

Create HintDb fuel.
#[local] Hint Resolve le_refl le_fuel : fuel.
Ltac mono :=
  lazymatch goal with
  | |- le_res (bind _ _) (bind _ _) => apply le_bind; [mono|intro; mono]
  | |- le_res (let '(_, _) := ?x in _) _ => destruct x; mono
  | |- le_res (match ?x with _ => _ end) _ => destruct x; mono
  | |- le_res _ _ => solve [auto with fuel]
  end.

Section Fuel.
  Variable input : string.
  Variables letter_hi digit_hi : rune -> bool.
  Variable scan_float : string -> res bigf.
  Variable regexp_ok : string -> bool.
  Variable md5 : string -> string.
  Variable hash : rulebody -> N.
  Variables fuel fuel' : nat.
  Hypothesis Hle : fuel <= fuel'.
  #[local] Hint Resolve Hle le_S_n : fuel.

  Lemma ws_loop_mono n : forall m s, n <= m -> le_res (ws_loop input n s) (ws_loop input m s).
  Proof. induction n as [|n IH]; intros m s H; [left; reflexivity|]. destruct m as [|m]; [lia|]. apply le_S_n in H. cbn [ws_loop]. mono. Qed.
  #[local] Hint Resolve ws_loop_mono : fuel.
  Lemma ws_mono s : le_res (ws input fuel s) (ws input fuel' s).
  Proof. unfold ws. mono. Qed.
  #[local] Hint Resolve ws_mono : fuel.
  Lemma text_loop_mono n : forall m b s, n <= m -> le_res (text_loop input letter_hi digit_hi n b s) (text_loop input letter_hi digit_hi m b s).
  Proof. induction n as [|n IH]; intros m b s H; [left; reflexivity|]. destruct m as [|m]; [lia|]. apply le_S_n in H. cbn [text_loop]. mono. Qed.
  #[local] Hint Resolve text_loop_mono : fuel.
  Lemma text_mono s : le_res (text input letter_hi digit_hi fuel s) (text input letter_hi digit_hi fuel' s).
  Proof. unfold text. mono. Qed.
  #[local] Hint Resolve text_mono : fuel.
  Lemma bracketed_mono b e s : le_res (bracketed input letter_hi digit_hi fuel b e s) (bracketed input letter_hi digit_hi fuel' b e s).
  Proof. unfold bracketed. mono. Qed.
  Lemma nonterminal_mono s : le_res (nonterminal input letter_hi digit_hi fuel s) (nonterminal input letter_hi digit_hi fuel' s).
  Proof. apply bracketed_mono. Qed.
  Lemma frame_name_mono s : le_res (frame_name input letter_hi digit_hi fuel s) (frame_name input letter_hi digit_hi fuel' s).
  Proof. apply bracketed_mono. Qed.
  #[local] Hint Resolve nonterminal_mono frame_name_mono : fuel.
  Lemma line_loop_mono n : forall m s, n <= m -> le_res (line_loop input n s) (line_loop input m s).
  Proof. induction n as [|n IH]; intros m s H; [left; reflexivity|]. destruct m as [|m]; [lia|]. apply le_S_n in H. cbn [line_loop]. mono. Qed.
  Lemma block_loop_mono n : forall m r s, n <= m -> le_res (block_loop input n r s) (block_loop input m r s).
  Proof. induction n as [|n IH]; intros m r s H; [left; reflexivity|]. destruct m as [|m]; [lia|]. apply le_S_n in H. cbn [block_loop]. mono. Qed.
  #[local] Hint Resolve line_loop_mono block_loop_mono : fuel.
  Lemma comment_mono s : le_res (comment input fuel s) (comment input fuel' s).
  Proof. unfold comment. mono. Qed.
  #[local] Hint Resolve comment_mono : fuel.
  Lemma comments_loop_mono n : forall m s, n <= m -> le_res (comments_loop input fuel n s) (comments_loop input fuel' m s).
  Proof. induction n as [|n IH]; intros m s H; [left; reflexivity|]. destruct m as [|m]; [lia|]. apply le_S_n in H. cbn [comments_loop]. mono. Qed.
  #[local] Hint Resolve comments_loop_mono : fuel.
  Lemma comments_mono s : le_res (comments input fuel s) (comments input fuel' s).
  Proof. unfold comments. mono. Qed.
  #[local] Hint Resolve comments_mono : fuel.
  Lemma terminal_loop_mono n : forall m r s, n <= m -> le_res (terminal_loop input n r s) (terminal_loop input m r s).
  Proof. induction n as [|n IH]; intros m r s H; [left; reflexivity|]. destruct m as [|m]; [lia|]. apply le_S_n in H. cbn [terminal_loop]. mono. Qed.
  #[local] Hint Resolve terminal_loop_mono : fuel.
  Lemma terminal_text_mono s : le_res (terminal_text input fuel s) (terminal_text input fuel' s).
  Proof. unfold terminal_text. mono. Qed.
  #[local] Hint Resolve terminal_text_mono : fuel.
  Lemma terminal_mono s : le_res (terminal input letter_hi digit_hi fuel s) (terminal input letter_hi digit_hi fuel' s).
  Proof. unfold terminal. mono. Qed.
  #[local] Hint Resolve terminal_mono : fuel.
  Lemma int_loop_mono n : forall m i s, n <= m -> le_res (int_loop input digit_hi n i s) (int_loop input digit_hi m i s).
  Proof. induction n as [|n IH]; intros m i s H; [left; reflexivity|]. destruct m as [|m]; [lia|]. apply le_S_n in H. cbn [int_loop]. mono. Qed.
  #[local] Hint Resolve int_loop_mono : fuel.
  Lemma get_int_mono s : le_res (get_int input digit_hi fuel s) (get_int input digit_hi fuel' s).
  Proof. unfold get_int. mono. Qed.
  #[local] Hint Resolve get_int_mono : fuel.
  Lemma special_meta_mono s : le_res (special_meta input digit_hi fuel s) (special_meta input digit_hi fuel' s).
  Proof. unfold special_meta. mono. Qed.
  #[local] Hint Resolve special_meta_mono : fuel.
  Lemma special_mono s : le_res (special input letter_hi digit_hi fuel s) (special input letter_hi digit_hi fuel' s).
  Proof. unfold special. mono. Qed.
  #[local] Hint Resolve special_mono : fuel.
  Lemma regex_loop_mono n : forall m s, n <= m -> le_res (regex_loop input n s) (regex_loop input m s).
  Proof. induction n as [|n IH]; intros m s H; [left; reflexivity|]. destruct m as [|m]; [lia|]. apply le_S_n in H. cbn [regex_loop]. mono. Qed.
  #[local] Hint Resolve regex_loop_mono : fuel.
  Lemma regex_mono s : le_res (regex input regexp_ok md5 fuel s) (regex input regexp_ok md5 fuel' s).
  Proof. unfold regex. mono. Qed.
  #[local] Hint Resolve regex_mono : fuel.
  Lemma read_term_mono s : le_res (read_term input letter_hi digit_hi regexp_ok md5 fuel s) (read_term input letter_hi digit_hi regexp_ok md5 fuel' s).
  Proof. unfold read_term. mono. Qed.
  #[local] Hint Resolve read_term_mono : fuel.
  Lemma name_loop_mono n : forall m b r s, n <= m -> le_res (name_loop input letter_hi digit_hi n b r s) (name_loop input letter_hi digit_hi m b r s).
  Proof. induction n as [|n IH]; intros m b r s H; [left; reflexivity|]. destruct m as [|m]; [lia|]. apply le_S_n in H. cbn [name_loop]. mono. Qed.
  #[local] Hint Resolve name_loop_mono : fuel.
  Lemma func_name_mono s : le_res (func_name input letter_hi digit_hi fuel s) (func_name input letter_hi digit_hi fuel' s).
  Proof. unfold func_name. mono. Qed.
  #[local] Hint Resolve func_name_mono : fuel.
  Lemma num_loop_mono n : forall m b s, n <= m -> le_res (num_loop input digit_hi n b s) (num_loop input digit_hi m b s).
  Proof. induction n as [|n IH]; intros m b s H; [left; reflexivity|]. destruct m as [|m]; [lia|]. apply le_S_n in H. cbn [num_loop]. mono. Qed.
  #[local] Hint Resolve num_loop_mono : fuel.
  Lemma num_arg_mono b s : le_res (num_arg input digit_hi scan_float fuel b s) (num_arg input digit_hi scan_float fuel' b s).
  Proof. unfold num_arg. mono. Qed.
  #[local] Hint Resolve num_arg_mono : fuel.
  Lemma args_loop_mono n : forall m s, n <= m -> le_res (args_loop input letter_hi digit_hi scan_float fuel n s) (args_loop input letter_hi digit_hi scan_float fuel' m s).
  Proof.
    induction n as [|n IH]; intros m s H; [left; reflexivity|]. destruct m as [|m]; [lia|]. apply le_S_n in H. cbn [args_loop].
    unfold one_arg, semantic_with. mono.
  Qed.
  #[local] Hint Resolve args_loop_mono : fuel.
  Lemma semantic_fn_mono s : le_res (semantic_fn input letter_hi digit_hi scan_float fuel s) (semantic_fn input letter_hi digit_hi scan_float fuel' s).
  Proof. unfold semantic_fn, semantic_with. mono. Qed.
  #[local] Hint Resolve semantic_fn_mono : fuel.
  Lemma terms_loop_mono n : forall m s, n <= m ->
    le_res (terms_loop input letter_hi digit_hi regexp_ok md5 fuel n s) (terms_loop input letter_hi digit_hi regexp_ok md5 fuel' m s).
  Proof. induction n as [|n IH]; intros m s H; [left; reflexivity|]. destruct m as [|m]; [lia|]. apply le_S_n in H. cbn [terms_loop]. mono. Qed.
  #[local] Hint Resolve terms_loop_mono : fuel.
  Lemma rule_body_mono s : le_res (rule_body input letter_hi digit_hi scan_float regexp_ok md5 fuel s) (rule_body input letter_hi digit_hi scan_float regexp_ok md5 fuel' s).
  Proof. unfold rule_body. mono. Qed.
  #[local] Hint Resolve rule_body_mono : fuel.
  Lemma bodies_loop_mono n : forall m l s, n <= m ->
    le_res (bodies_loop input letter_hi digit_hi scan_float regexp_ok md5 hash fuel n l s) (bodies_loop input letter_hi digit_hi scan_float regexp_ok md5 hash fuel' m l s).
  Proof. induction n as [|n IH]; intros m l s H; [left; reflexivity|]. destruct m as [|m]; [lia|]. apply le_S_n in H. cbn [bodies_loop]. mono. Qed.
  #[local] Hint Resolve bodies_loop_mono : fuel.
  Lemma rule_bodies_mono s : le_res (rule_bodies input letter_hi digit_hi scan_float regexp_ok md5 hash fuel s) (rule_bodies input letter_hi digit_hi scan_float regexp_ok md5 hash fuel' s).
  Proof. unfold rule_bodies. mono. Qed.
  #[local] Hint Resolve rule_bodies_mono : fuel.
  Lemma read_rule_mono c s : le_res (read_rule input letter_hi digit_hi scan_float regexp_ok md5 hash fuel c s) (read_rule input letter_hi digit_hi scan_float regexp_ok md5 hash fuel' c s).
  Proof. unfold read_rule. mono. Qed.
  #[local] Hint Resolve read_rule_mono : fuel.
  Lemma rules_loop_mono n : forall m r f s, n <= m ->
    le_res (rules_loop input letter_hi digit_hi scan_float regexp_ok md5 hash fuel n r f s) (rules_loop input letter_hi digit_hi scan_float regexp_ok md5 hash fuel' m r f s).
  Proof. induction n as [|n IH]; intros m r f s H; [left; reflexivity|]. destruct m as [|m]; [lia|]. apply le_S_n in H. cbn [rules_loop]. mono. Qed.
  #[local] Hint Resolve rules_loop_mono : fuel.
  Lemma rules_part_mono s : le_res (rules_part input letter_hi digit_hi scan_float regexp_ok md5 hash fuel s) (rules_part input letter_hi digit_hi scan_float regexp_ok md5 hash fuel' s).
  Proof. unfold rules_part. mono. Qed.
  Section Loads_.
    Context {F G : Type}.
    Variables load load' : F -> string -> res (option (list G * list (string * string)) * F).
    Hypothesis Hload : forall fs p, le_res (load fs p) (load' fs p).
    #[local] Hint Resolve Hload : fuel.
    Lemma includes_loop_mono n : forall m fs gs s, n <= m ->
      le_res (includes_loop input letter_hi digit_hi fuel load n fs gs s) (includes_loop input letter_hi digit_hi fuel' load' m fs gs s).
    Proof. induction n as [|n IH]; intros m fs gs s H; [left; reflexivity|]. destruct m as [|m]; [lia|]. apply le_S_n in H. cbn [includes_loop]. mono. Qed.
  End Loads_.
End Fuel.

(** *** refine and the whole construction *)
Section Construct_.
  Variables letter_hi digit_hi : rune -> bool.
  Variable scan_float : string -> res bigf.
  Variable regexp_ok : string -> bool.
  Variable md5 : string -> string.
  Variable hash : rulebody -> N.
  Variable trie_accepts : string -> bool.
  Variable tokenize : string -> res (list token).
  Variable ascii_name : string -> string.
  Variable read_file : string -> res string.
  Variable abs_dir : string -> res string.
  Variable join_path : string -> string -> string.
  Variable ord : grammar_rules -> grammar_rules.
  Variables fuel fuel' : nat.
  Hypothesis Hle : fuel <= fuel'.
  #[local] Hint Resolve Hle : fuel.

  Section Refine_.
    Variable old : string -> bool.
    Lemma fresh_mono n : forall m t x i l, n <= m -> le_res (fresh old n t x i l) (fresh old m t x i l).
    Proof. induction n as [|n IH]; intros m t x i l H; [left; reflexivity|]. destruct m as [|m]; [lia|]. apply le_S_n in H. cbn [fresh]. mono. Qed.
    #[local] Hint Resolve fresh_mono : fuel.
    Lemma refine_term_mono p t s : le_res (refine_term tokenize ascii_name hash old fuel p t s) (refine_term tokenize ascii_name hash old fuel' p t s).
    Proof. unfold refine_term. mono. Qed.
    #[local] Hint Resolve refine_term_mono : fuel.
    Lemma refine_terms_mono p ts : forall s, le_res (refine_terms tokenize ascii_name hash old fuel p ts s) (refine_terms tokenize ascii_name hash old fuel' p ts s).
    Proof. induction ts as [|t ts IH]; intros s; cbn [refine_terms]; mono. Qed.
    #[local] Hint Resolve refine_terms_mono : fuel.
    Lemma refine_bodies_mono p l : forall s, le_res (refine_bodies tokenize ascii_name hash old fuel p l s) (refine_bodies tokenize ascii_name hash old fuel' p l s).
    Proof. induction l as [|[h b] l IH]; intros s; cbn [refine_bodies]; mono. Qed.
    #[local] Hint Resolve refine_bodies_mono : fuel.
    Lemma refine_rules_mono p l : forall s, le_res (refine_rules tokenize ascii_name hash old fuel p l s) (refine_rules tokenize ascii_name hash old fuel' p l s).
    Proof. induction l as [|[x r] l IH]; intros s; cbn [refine_rules]; mono. Qed.
  End Refine_.
  #[local] Hint Resolve refine_rules_mono : fuel.
  Lemma refine_mono p rules gt : le_res (refine tokenize ascii_name hash fuel p rules gt) (refine tokenize ascii_name hash fuel' p rules gt).
  Proof. unfold refine. mono. Qed.
  #[local] Hint Resolve refine_mono : fuel.
  Lemma finish_mono name rules frames re gs gt :
    le_res (finish hash trie_accepts tokenize ascii_name ord fuel name rules frames re gs gt)
           (finish hash trie_accepts tokenize ascii_name ord fuel' name rules frames re gs gt).
  Proof. unfold finish. mono. Qed.
  #[local] Hint Resolve finish_mono rules_part_mono includes_loop_mono : fuel.
  Lemma gfs_mono depth : forall depth' d name dir w, depth <= depth' ->
    le_res (grammar_from_string letter_hi digit_hi scan_float regexp_ok md5 hash trie_accepts tokenize ascii_name read_file abs_dir join_path ord fuel depth d name dir w)
           (grammar_from_string letter_hi digit_hi scan_float regexp_ok md5 hash trie_accepts tokenize ascii_name read_file abs_dir join_path ord fuel' depth' d name dir w).
  Proof.
    induction depth as [|depth IH]; intros depth' d name dir w H; [left; reflexivity|]. destruct depth' as [|depth']; [lia|].
    apply le_S_n in H. cbn [grammar_from_string]. destruct (Nat.leb _ _); [apply le_refl|].
    apply le_bind; [|intros [[? ?] ?]; mono]. apply includes_loop_mono; [exact Hle| |exact Hle].
    intros fs p. unfold include_file. mono.
  Qed.
End Construct_.
