(** The trees of the parsing calls mean what the text of the grammar says. *)
From Coq Require Import Permutation Sorted.
From Verif Require Import Base ModelTypes ModelText ModelEarley ModelTrees ModelApi ModelQuote ModelSem ModelReader ModelGrammar ModelLocal
     SpecTypes SpecGrammar SpecTree SpecNotation SpecRefine SpecConstruct SpecSem SpecNode SpecApi SpecLocal SpecFuncs SpecEnd SpecMeaning
     ProofEqual ProofTree ProofTreeOk ProofTreeApi ProofApi ProofApiLoops ProofApiMain ProofMain ProofExtract ProofLocal ProofLocalMatch ProofLocalApi ProofSem ProofNodes ProofSemMain ProofNode ProofFuncs ProofEnd
     ProofMeaning.

(** ** From a part of the tokens to all of them *)
Section Shift.
  Variable tokenize : string -> res (list token).
  Variable tmatch : term -> option token -> bool.
  Variable gs : list grammar_rules.
  Variable find_all : string -> string -> option (list (nat * nat)).
  Variable regexps : list (string * string).
  Variable d : document.
  Variable join_words : list string -> string.
  Variable float_string : bigf -> string.
  Variable is_print_hi : rune -> bool.
  Variables (toks : list token) (a : nat).
  Notation Says := (says tokenize tmatch gs find_all regexps d join_words float_string is_print_hi).
  Notation SayAll := (say_all tokenize tmatch gs find_all regexps d join_words float_string is_print_hi).

  Lemma nth_skipn {A} (l : list A) : forall b k, nth_error (skipn b l) k = nth_error l (b + k).
  Proof using. induction l as [|x l IH]; intros [|b] k; cbn [skipn Nat.add nth_error]; auto; destruct k; auto. Qed.
  Lemma quoted_shift i j : quoted join_words is_print_hi (skipn a toks) i j = quoted join_words is_print_hi toks (a + i) (a + j).
  Proof using. unfold quoted. rewrite skipn_add. replace (a + j - (a + i)) with (j - i) by lia. reflexivity. Qed.
  Lemma words_shift ts i j : words_match tmatch (skipn a toks) ts i j -> words_match tmatch toks ts (a + i) (a + j).
  Proof using.
    intros [-> H]. split; [lia|]. intros k t Hk. destruct (H k t Hk) as (H1 & tok & H2 & H3). split; [exact H1|].
    exists tok. rewrite nth_skipn in H2. rewrite <- Nat.add_assoc. auto.
  Qed.
  Lemma body_shift o i j ss s : body_says join_words float_string is_print_hi (skipn a toks) o i j ss s ->
    body_says join_words float_string is_print_hi toks o (a + i) (a + j) ss s.
  Proof using. unfold body_says. rewrite quoted_shift. auto. Qed.

  Hypothesis Ha : a <= length toks.

  Lemma says_shift : (forall t i j s, Says (skipn a toks) t i j s -> Says toks t (a + i) (a + j) s) /\
    (forall ts i j ss, SayAll (skipn a toks) ts i j ss -> SayAll toks ts (a + i) (a + j) ss).
  Proof using Ha.
    apply says_mutind.
    - intros t i j ks H1 H2 H3. rewrite quoted_shift. eapply sy_text; eauto. apply words_shift. exact H3.
    - intros t i j H1 H2 H3. rewrite quoted_shift. rewrite skipn_length in H2. apply sy_any; auto; [lia|].
      replace (a + j - (a + i)) with (j - i) by lia. exact H3.
    - intros t i j b ss s H1 H2 _ IH H3. eapply sy_rule; eauto. apply body_shift. exact H3.
    - intros t i j b s H1 H2 H3 H4. eapply sy_local; eauto. { apply words_shift. exact H3. }
      apply body_shift in H4. replace (a + j - (a + i)) with (j - i) by lia.
      replace (seq (a + i) (j - i)) with (map (Nat.add a) (seq i (j - i))).
      2: { clear. generalize (j - i) as n. intros n. revert i. induction n as [|n IH]; intros i; [reflexivity|].
           cbn [seq map]. f_equal. rewrite IH. f_equal. lia. }
      rewrite map_map. erewrite map_ext; [exact H4|]. intros k. cbn beta. rewrite quoted_shift. f_equal. lia.
    - intros t i j n ss H1 H2 _ IH. eapply sy_list; eauto.
    - intros i. constructor.
    - intros t ts i j k s ss _ IH1 _ IH2. eapply sa_cons; eauto.
  Qed.
End Shift.

(** ** The parses of the calls *)
Section Origin.
  Variable tmatch : term -> option token -> bool.
  Variable ords : nat -> order.
  Variable gs : list grammar_rules.
  Variable text : string.
  Variable starts : list string.

  Lemma max_loop_parses fuel : forall steps toks n ps, max_all_loop tmatch ords gs text steps fuel n toks starts = Ret ps ->
    forall p, In p ps -> exists i n', i < length toks /\ earley_parse_n tmatch ords gs text fuel n' true (skipn i toks) starts = Ret p.
  Proof.
    induction steps as [|steps IH]; intros toks n ps H; [discriminate|]. cbn [max_all_loop] in H.
    destruct toks as [|k toks0] eqn:Ek; [injection H as <-; intros p []|].
    destruct (earley_parse_n tmatch ords gs text fuel n true (k :: toks0) starts) as [q| | |] eqn:E; try discriminate.
    cbn [bind] in H. destruct (has_finals q).
    - destruct (max_end q (p_finals q) 0) as [m| | |] eqn:Em; try discriminate. cbn [bind] in H.
      destruct (max_all_loop tmatch ords gs text steps fuel (S n) (skipn m (k :: toks0)) starts) as [rest| | |] eqn:El; try discriminate.
      cbn [bind] in H. injection H as <-. intros p [<-|Hp].
      + exists 0, n. split; [cbn [length]; lia|exact E].
      + destruct (IH _ _ _ El p Hp) as (i & n' & Hi & Hq). exists (m + i), n'. rewrite <- skipn_add. split; [|exact Hq].
        rewrite skipn_length in Hi. lia.
    - intros p Hp. destruct (IH _ _ _ H p Hp) as (i & n' & Hi & Hq). exists (S i), n'. split; [cbn [length]; lia|exact Hq].
  Qed.
  Lemma all_loop_parses fuel : forall toks n ps, all_loop tmatch ords gs text fuel n toks starts = Ret ps ->
    forall p, In p ps -> exists i n', i < length toks /\ earley_parse_n tmatch ords gs text fuel n' false (skipn i toks) starts = Ret p.
  Proof.
    induction toks as [|k toks IH]; intros n ps H; cbn [all_loop] in H; [injection H as <-; intros p []|].
    destruct (earley_parse_n tmatch ords gs text fuel n false (k :: toks) starts) as [q| | |] eqn:E; try discriminate.
    cbn [bind] in H. destruct (all_loop tmatch ords gs text fuel (S n) toks starts) as [rest| | |] eqn:El; try discriminate.
    cbn [bind] in H. injection H as <-.
    assert (Hrest : forall p, In p rest -> exists i n', i < length (k :: toks) /\
              earley_parse_n tmatch ords gs text fuel n' false (skipn i (k :: toks)) starts = Ret p).
    { intros p Hp. destruct (IH _ _ El p Hp) as (i & n' & Hi & Hq). exists (S i), n'. split; [cbn [length]; lia|exact Hq]. }
    intros p Hp. destruct (has_finals q); [|apply Hrest; exact Hp]. destruct Hp as [<-|Hp]; [|apply Hrest; exact Hp].
    exists 0, n. split; [cbn [length]; lia|exact E].
  Qed.
  Lemma any_loop_parses fuel : forall toks n p0 p, any_loop tmatch ords gs text fuel n toks starts p0 = Ret (Some p) ->
    toks <> [] -> exists i n', i < length toks /\ earley_parse_n tmatch ords gs text fuel n' true (skipn i toks) starts = Ret p.
  Proof.
    induction toks as [|k toks IH]; intros n p0 p H Hne; [congruence|]. cbn [any_loop] in H.
    destruct (earley_parse_n tmatch ords gs text fuel n true (k :: toks) starts) as [q| | |] eqn:E; try discriminate.
    cbn [bind] in H. destruct (has_finals q).
    - injection H as <-. exists 0, n. split; [cbn [length]; lia|exact E].
    - destruct toks as [|k' toks]; [cbn [any_loop] in H; injection H as <-; exists 0, n; split; [cbn [length]; lia|exact E]|].
      destruct (IH _ _ _ H) as (i & n' & Hi & Hq); [discriminate|]. exists (S i), n'. split; [cbn [length] in *; lia|exact Hq].
  Qed.
End Origin.

Section Calls.
  Variable e : env.
  Variables (d0 : string) (g : grammar) (L : list refined).
  Hypothesis HP : e_parts e d0 g L.
  Variable starts : list string.
  Hypothesis HU : usable (e_tokenize e) L starts.
  Variable tmatch : term -> option token -> bool.
  Variable ords : nat -> order.
  Hypothesis Hords : orders ords.
  Variable find_all : string -> string -> option (list (nat * nat)).
  Variable span_text : document -> nat -> nat -> string.
  Variable ord : nat -> list (string * ModelLocal.entry) -> list (string * ModelLocal.entry).
  Hypothesis Hord : forall i l, Permutation l (ord i l).
  Variable annotate : string -> string -> res document.
  Variables (ctx text : string) (d : document).
  Hypothesis Ht : trim_space text <> "".
  Hypothesis Ha : annotate ctx (trim_space text) = Ret d.
  Hypothesis Hfit : fit_document (e_hash e) find_all (g_regexps g) d.
  Variable join_words : list string -> string.
  Variable float_string : bigf -> string.
  Variable json : dval -> string.
  Variable is_print_hi : rune -> bool.
  Variable call : string -> list dval -> res dval.
  Notation before := (map rd_before L).
  Notation means := (Means (e_tokenize e) tmatch before find_all (g_regexps g) d).
  Notation local_ := (doc_local (e_hash e) find_all span_text (g_regexps g) ord annotate ctx text).
  Notation Says := (says (e_tokenize e) tmatch before find_all (g_regexps g) d join_words float_string is_print_hi (content d)).
  Notation sem p := (semantic p join_words float_string json is_print_hi call).

  (** every tree of a parse of the call, as a tree of the text *)
  Lemma tree_setup : exists l, process (doc_tokens annotate) local_ ctx text = Ret (content d, l) /\
    well_formed (with_local (all_rules g) l) starts /\ separated (with_local (all_rules g) l) /\ any_named (with_local (all_rules g) l) /\
    forall fuel n mf i p t,
      earley_parse_n tmatch ords (with_local (all_rules g) l) text fuel n mf (skipn i (content d)) starts = Ret p ->
      tree_of_parse p t -> exists S k v c, t = Node v [c] /\ In S starts /\ reports p S k /\ k <= length (skipn i (content d)) /\
        parsed_tokens p (skipn i (content d)) /\ built c /\ erase t = PRule GammaRule (gamma_body S) 0 k [erase c] /\
        text_tree (e_tokenize e) tmatch before find_all (g_regexps g) d (skipn i (content d)) (nonterm S) 0 k (erase c) /\
        sem p t = sem p c /\ eval p join_words float_string call t = eval p join_words float_string call c.
  Proof using HP HU Hords Hord Ht Ha Hfit.
    destruct HU as (U1 & U2 & U3 & U4 & U5 & U6 & U7 & U8). destruct Hfit as (F1 & F2 & F3 & F4 & F5 & F6 & F7).
    destruct (local_process (e_hash e) find_all span_text (g_regexps g) ord annotate ctx text d Ht Ha F2) as (_ & _ & Pl).
    destruct (Pl F1 F3) as (l & P & P2). exists l. split; [exact P|].
    assert (H1 : well_formed (with_local (all_rules g) l) starts).
    { eapply call_hypotheses; eauto. intros H. destruct (U8 _ H) as [K _]. exact (K eq_refl). }
    destruct (call_separated e d0 g L HP (e_hash e) find_all span_text ord d Hord F2 l P2) as (H5 & H6).
    split; [exact H1|]. split; [exact H5|]. split; [exact H6|].
    intros fuel n mf i p t Hp Htr.
    destruct (parse_facts _ _ _ _ _ _ _ _ _ _ (Hords n) Hp) as (_ & Htoks & _ & _ & R).
    destruct (root_node _ _ _ _ _ _ _ _ _ _ (Hords n) Hp H1 H5 t Htr) as (v & c & S & Et & HS & _ & Ety & Erb & Es & _ & _ & Hb & Hc & _).
    destruct (root_meaning _ _ _ _ _ _ _ _ _ _ (Hords n) Hp H1 H5 is_print_hi join_words float_string json call t Htr) as (c' & Ec' & Ee & Em).
    subst t. cbn [n_children] in Ec'. injection Ec' as <-.
    pose proof Htr as (ref & fuel' & outs & Hr & Hg & Hin).
    destruct (trees_valid _ _ _ _ _ H1 H5 _ _ _ R (some_range (with_local (all_rules g) l)) (lax_count (with_local (all_rules g) l)) ref fuel' outs Hr Hg) as (s & S' & Hs & Htag & Fv).
    rewrite Forall_forall in Fv. destruct (Fv _ Hin) as (kid & Ek & _). pose proof Ek as Ek'. cbn [erase] in Ek. rewrite Ety, Erb in Ek.
    injection Ek as _ ES _ Ev Ekid. subst S' kid.
    destruct (final_reports _ _ _ _ _ H1 _ _ _ _ R Hr) as (s' & S' & A1 & A2 & A3 & A4 & A5 & A6 & A7 & _).
    rewrite Hs in A1. injection A1 as <-. rewrite Htag in A2. injection A2 as <-.
    assert (HT : text_tree (e_tokenize e) tmatch before find_all (g_regexps g) d (skipn i (content d)) (nonterm S) 0 (s_end v) (erase c)).
    { eapply (proj1 (text_trees_of e d0 g L HP U1 U2 U3 U5 tmatch (e_hash e) find_all span_text ord d Hord F2 F7 l P2 _)); [exact Hc|].
      right. split; [discriminate|]. split; [reflexivity|]. split; [|intros [H|H]; discriminate H].
      intros _. apply (own_not_generated e d0 g L HP S U1). apply U8. exact HS. }
    rewrite Ev, A5 in HT. rewrite A5 in Ek'.
    exists S, (fst ref), v, c. auto 12.
  Qed.

  Hypothesis HF : functions_fit before.
  Lemma says_setup : exists l, process (doc_tokens annotate) local_ ctx text = Ret (content d, l) /\
    well_formed (with_local (all_rules g) l) starts /\ separated (with_local (all_rules g) l) /\ any_named (with_local (all_rules g) l) /\
    forall fuel n mf i p t, i < length (content d) ->
      earley_parse_n tmatch ords (with_local (all_rules g) l) text fuel n mf (skipn i (content d)) starts = Ret p ->
      tree_of_parse p t -> exists S k s, In S starts /\ reports p S k /\ sem p t = Ret s /\ Says (nonterm S) i (i + k) s /\
        exists kid, erase t = PRule GammaRule (gamma_body S) 0 k [kid].
  Proof using HP HU HF Hords Hord Ht Ha Hfit.
    destruct tree_setup as (l & H1 & H2 & H3 & H4 & H5). exists l. split; [exact H1|]. split; [exact H2|]. split; [exact H3|]. split; [exact H4|].
    intros fuel n mf i p t Hi Hp Htr. destruct (H5 fuel n mf i p t Hp Htr) as (S & k & v & c & -> & B1 & B2 & B3 & B4 & B5 & B6 & B7 & B8 & _).
    destruct (node_says p (skipn i (content d)) B4 join_words float_string json is_print_hi call
                (e_tokenize e) tmatch before HF find_all (g_regexps g) d ltac:(apply Hfit) c (nonterm S) 0 k B5 B7 B3) as (r & C1 & C2).
    exists S, k, r. split; [exact B1|]. split; [exact B2|]. split; [rewrite B8; exact C1|].
    split; [|eauto]. rewrite <- (Nat.add_0_r i) at 1. apply (says_shift _ _ _ _ _ _ _ _ _ (content d) i); [lia|exact C2].
  Qed.

  Lemma suffix_unique {A} (l : list A) i j : i < length l -> j < length l -> skipn i l = skipn j l -> i = j.
  Proof using. intros Hi Hj E. assert (H : length (skipn i l) = length (skipn j l)) by congruence. rewrite !skipn_length in H. lia. Qed.
  Lemma parsed_unique p (l : list token) i j : i < length l -> j < length l -> parsed_tokens p (skipn i l) -> parsed_tokens p (skipn j l) -> i = j.
  Proof using.
    unfold parsed_tokens. intros Hi Hj E1 E2. rewrite E1 in E2. apply (suffix_unique l i j Hi Hj).
    clear - E2. revert E2. generalize (skipn i l) as x, (skipn j l) as y. induction x as [|u x IH]; intros [|w y] E; try discriminate; [reflexivity|].
    cbn [map] in E. injection E as -> E. f_equal. auto.
  Qed.

  (** what is said of the trees of one parse that starts at token i and has one length k *)
  Lemma says_max : exists ps n, (forall steps fuel, n <= fuel -> length (content d) < steps ->
      EarleyParseMaxAll tmatch ords (all_rules g) (doc_tokens annotate) local_ steps fuel ctx text starts = Ret ps) /\
    exists spans, tiles 0 spans
      /\ Forall2 (fun im p => fst im < length (content d) /\ 0 < snd im
            /\ (exists S, In S starts /\ means S (fst im) (fst im + snd im))
            /\ (forall S j, In S starts -> means S (fst im) j -> j <= fst im + snd im)
            /\ exists ref ts m, p_finals p = [ref] /\ (forall fuel, m <= fuel -> get_trees (p_columns p) fuel ref = Ret ts)
                 /\ ts <> []
                 /\ forall t, In t ts -> exists S s, In S starts /\ sem p t = Ret s
                      /\ Says (nonterm S) (fst im) (fst im + snd im) s) spans ps
      /\ (forall x S j, x < length (content d) -> ~ covered spans x -> In S starts -> ~ means S x j).
  Proof using HP HU HF Hords Hord Ht Ha Hfit.
    destruct (end_max e d0 g L HP starts HU tmatch ords Hords find_all span_text ord Hord annotate ctx text d Ht Ha Hfit)
      as (ps & n & E & spans & T & F & U).
    destruct says_setup as (l & P & Hwf & Hsep & Hany & HS).
    exists ps, n. split; [exact E|]. exists spans. split; [exact T|]. split; [|exact U].
    specialize (E (S (length (content d))) n (le_n _) (Nat.lt_succ_diag_r _)).
    unfold EarleyParseMaxAll in E. rewrite P in E. cbn [bind] in E.
    pose proof (max_loop_parses tmatch ords (with_local (all_rules g) l) text starts n _ _ _ _ E) as Hq. clear E.
    assert (HF2 : forall im p, In p ps -> fst im < length (content d) -> parsed_tokens p (skipn (fst im) (content d)) ->
              (forall k, (exists S, reports p S k) <-> k = snd im) ->
              exists ref ts m, p_finals p = [ref] /\ (forall fuel, m <= fuel -> get_trees (p_columns p) fuel ref = Ret ts) /\ ts <> []
                 /\ forall t, In t ts -> exists S s, In S starts /\ sem p t = Ret s /\ Says (nonterm S) (fst im) (fst im + snd im) s).
    { intros im p Hin Hi Hpt Hk. destruct (Hq p Hin) as (i & n' & Hi' & Hp).
      destruct (parse_facts _ _ _ _ _ _ _ _ _ _ (Hords n') Hp) as (_ & Hpt' & _ & _ & R).
      rewrite (parsed_unique p (content d) _ _ Hi Hi' Hpt Hpt') in *. clear Hpt.
      destruct (proj2 (Hk (snd im)) eq_refl) as (S & ref & s & Hr & _).
      pose proof (one_final _ _ _ _ (Hords n') _ Hwf _ _ _ R Hr) as H1.
      destruct (result_terminates tmatch ords (all_rules g) text starts (content d) l Hwf Hsep i p true n' ref R Hr) as (ts & m & Hm).
      exists ref, ts, m. split; [exact H1|]. split; [exact Hm|].
      split; [eapply (trees_nonempty _ _ _ _ _ Hsep _ _ _ R ref m ts Hany Hr); apply Hm; lia|].
      intros t Hin'. destruct (HS n n' true i p t Hi' Hp) as (S' & k & r & B1 & B2 & B3 & B4 & _).
      { exists ref, m, ts. split; [exact Hr|]. split; [apply Hm; lia|exact Hin']. }
      assert (k = snd im) as <- by (apply Hk; eauto). eauto. }
    clear - F HF2. induction F as [|im p spans ps (A & B & C & D & D' & D'') F IH]; constructor.
    - split; [exact A|]. split; [exact B|]. split; [exact D|]. split; [exact D'|]. apply HF2; auto. left; reflexivity.
    - apply IH. intros im' p' Hin. apply HF2. right. exact Hin.
  Qed.

  Lemma says_extract : exists outs n, (forall fuel, n <= fuel ->
      ExtractAll tmatch ords (all_rules g) (doc_tokens annotate) local_ fuel ctx text starts = Ret outs) /\
    (forall p t, In (p, t) outs -> exists i k S s, i < length (content d) /\ In S starts /\
       parsed_tokens p (skipn i (content d)) /\ sem p t = Ret s /\ Says (nonterm S) i (i + k) s) /\
    (forall S i j, i < length (content d) -> In S starts -> means S i j ->
       exists p t s, In (p, t) outs /\ parsed_tokens p (skipn i (content d)) /\ sem p t = Ret s /\ Says (nonterm S) i j s).
  Proof using HP HU HF Hords Hord Ht Ha Hfit.
    destruct (end_extract e d0 g L HP starts HU tmatch ords Hords find_all span_text ord Hord annotate ctx text d Ht Ha Hfit)
      as (outs & n & E & _ & E2).
    destruct says_setup as (l & P & Hwf & Hsep & Hany & HS).
    exists outs, n. split; [exact E|]. specialize (E n (le_n n)). unfold ExtractAll, EarleyParseAll in E. rewrite P in E. cbn [bind] in E.
    destruct (all_loop tmatch ords (with_local (all_rules g) l) text n 0 (content d) starts) as [ps| | |] eqn:El; try discriminate.
    cbn [bind] in E. destruct (extract_parses_in _ _ _ E) as [X _].
    pose proof (all_loop_parses tmatch ords (with_local (all_rules g) l) text starts n _ _ _ El) as Hq.
    assert (Hone : forall p t, In (p, t) outs -> exists i k S s kid, i < length (content d) /\ In S starts /\
              parsed_tokens p (skipn i (content d)) /\ sem p t = Ret s /\ Says (nonterm S) i (i + k) s /\
              erase t = PRule GammaRule (gamma_body S) 0 k [kid]).
    { intros p t Hin. apply X in Hin. destruct Hin as (ref & ts & Hp & Hr & Hg & Hin).
      destruct (Hq p Hp) as (i & n' & Hi & Hpp).
      destruct (parse_facts _ _ _ _ _ _ _ _ _ _ (Hords n') Hpp) as (_ & Hpt & _ & _ & R).
      assert (Htr : tree_of_parse p t) by (exists ref, n, ts; auto).
      destruct (HS n n' false i p t Hi Hpp Htr) as (S & k & s & B1 & B2 & B3 & B4 & kid & B5).
      exists i, k, S, s, kid. auto 7. }
    split.
    - intros p t Hin. destruct (Hone p t Hin) as (i & k & S & s & kid & B1 & B2 & B3 & B4 & B5 & _). exists i, k, S, s. auto.
    - intros S i j Hi HinS Hm. destruct (E2 S i j Hi HinS Hm) as (p & t & kid & C1 & C2 & C3).
      destruct (Hone p t C1) as (i' & k & S' & s & kid' & B1 & B2 & B3 & B4 & B5 & B6).
      rewrite B6 in C3. injection C3 as -> -> ->.
      rewrite (parsed_unique p (content d) i' i B1 Hi B3 C2) in *.
      exists p, t, s. split; [exact C1|]. split; [exact C2|]. split; [exact B4|].
      replace (i + (j - i)) with j in B5; [exact B5|].
      pose proof (proj1 (derives_le _ _ _ _ _) _ _ _ Hm). lia.
  Qed.
End Calls.
