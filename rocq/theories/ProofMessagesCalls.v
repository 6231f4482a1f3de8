(** Lemmas on the messages of the parsing calls and of the frames. *)
From Coq Require Import Permutation.
From Verif Require Import Base ModelTypes ModelText ModelQuote ModelEarley ModelTrees ModelApi ModelSem
  ModelReader ModelGrammar ModelLocal ModelFrames ModelContext ModelTermType SpecGrammar SpecTree ModelMessages SpecSem SpecText SpecIndex SpecFrames SpecTypes SpecApi SpecMessages
  ProofEqual ProofSem ProofTrim ProofMain ProofSemMain ProofMessages.
Local Open Scope list_scope.

(** ** The parser and the tree builder return no errors *)
Lemma completed_no_err s : is_completed s <> Err.
Proof.
  unfold is_completed. destruct (t_type (s_term s)); try (destruct (s_rb s); discriminate);
    destruct (negb _); try discriminate; destruct (t_meta _); discriminate.
Qed.
Lemma next_no_err s : get_next_term s <> Err.
Proof.
  unfold get_next_term. destruct (t_type (s_term s));
    try (apply bind_no_err; [apply completed_no_err|]; intros b; destruct b; [discriminate|]; destruct (s_rb s); [|discriminate];
         apply bind_no_err; [apply idx_no_err|discriminate]); destruct (at_max s); discriminate.
Qed.
Lemma complete_loop_no_err state : forall sts col, complete_loop sts state col <> Err.
Proof.
  induction sts as [|st sts IH]; intros col; cbn [complete_loop]; [discriminate|].
  apply bind_no_err; [apply next_no_err|]. intros [t|]; [destruct (advances t state)|]; apply IH.
Qed.
Section Chart.
  Variable tmatch : term -> option token -> bool.
  Variable ord : nat -> nat -> nat -> list rulebody -> list rulebody.
  Variable gs : list grammar_rules.
  Lemma complete_no_err cols i st : complete cols i st <> Err.
  Proof.
    unfold complete. apply bind_no_err; [apply idx_no_err|]. intros src. apply bind_no_err; [apply idx_no_err|]. intros col.
    apply bind_no_err; [apply complete_loop_no_err|discriminate].
  Qed.
  Lemma step_no_err cols i j st : step_row tmatch ord gs cols i j st <> Err.
  Proof.
    unfold step_row. apply bind_no_err; [apply completed_no_err|]. intros d.
    apply bind_no_err; [destruct d; [apply complete_no_err|discriminate]|]. intros cols1.
    apply bind_no_err; [apply next_no_err|]. intros [t|]; [|discriminate]. unfold step_next.
    assert (forall c, (if Nat.ltb (i + 1) (length c) then nxt <- idx c (i + 1) ;; Ret (update c (i + 1) (scan tmatch nxt st t)) else Ret c) <> Err) as S.
    { intros c. destruct (Nat.ltb _ _); [|discriminate]. apply bind_no_err; [apply idx_no_err|discriminate]. }
    destruct (t_type (s_term st)); destruct (t_type t); try apply S; try discriminate; (apply bind_no_err; [apply idx_no_err|discriminate]).
  Qed.
  Lemma col_loop_no_err : forall fuel cols i j, col_loop tmatch ord gs fuel cols i j <> Err.
  Proof.
    induction fuel as [|fuel IH]; intros cols i j; cbn [col_loop]; [discriminate|]. apply bind_no_err; [apply idx_no_err|]. intros col.
    destruct (nth_error _ _); [|discriminate]. apply bind_no_err; [apply step_no_err|]. intros c. apply IH.
  Qed.
  Lemma cols_loop_no_err fuel : forall n cols i, cols_loop tmatch ord gs fuel n cols i <> Err.
  Proof.
    induction n as [|n IH]; intros cols i; cbn [cols_loop]; [discriminate|]. apply bind_no_err; [apply col_loop_no_err|]. intros c. apply IH.
  Qed.
  Lemma col_finals_no_err i : forall sts j, col_finals i j sts <> Err.
  Proof.
    induction sts as [|s sts IH]; intros j; cbn [col_finals]; [discriminate|]. destruct (String.eqb _ _); [|apply IH].
    apply bind_no_err; [apply completed_no_err|]. intros d. apply bind_no_err; [apply IH|discriminate].
  Qed.
  Lemma all_finals_no_err cols : forall n, all_finals n cols <> Err.
  Proof.
    induction n as [|n IH]; cbn [all_finals]; [discriminate|]. apply bind_no_err; [apply idx_no_err|]. intros c.
    apply bind_no_err; [apply col_finals_no_err|]. intros h. apply bind_no_err; [apply IH|discriminate].
  Qed.
  Lemma parse_no_err fuel mf starts cols : parse tmatch ord gs fuel mf starts cols <> Err.
  Proof.
    unfold parse. destruct starts; [discriminate|]. apply bind_no_err; [apply idx_no_err|]. intros c0.
    apply bind_no_err; [apply cols_loop_no_err|]. intros c1. apply bind_no_err; [apply all_finals_no_err|discriminate].
  Qed.
End Chart.

Lemma over_subtrees_no_err k : (forall s, k s <> Err) -> forall subs, over_subtrees k subs <> Err.
Proof.
  intros H. induction subs as [|s subs IH]; cbn [over_subtrees]; [discriminate|]. apply bind_no_err; [apply H|]. intros o.
  apply bind_no_err; [apply IH|discriminate].
Qed.
Lemma over_states_no_err body ref t start e : (forall r s, body r s <> Err) -> forall sts r, over_states body ref t start e r sts <> Err.
Proof.
  intros H. induction sts as [|s sts IH]; intros r; cbn [over_states]; [discriminate|]. destruct (_ && _); [discriminate|].
  apply bind_no_err; [apply completed_no_err|]. intros d. destruct (_ || _); [apply IH|]. destruct (match start with Some _ => _ | None => _ end); [apply IH|].
  apply bind_no_err; [apply H|]. intros o. apply bind_no_err; [apply IH|discriminate].
Qed.
Lemma build_no_err cols : forall fuel, (forall ref, build_trees cols fuel ref <> Err)
  /\ (forall ch ref st terms k e, build_helper cols fuel ch ref st terms k e <> Err).
Proof.
  induction fuel as [|fuel [IH1 IH2]]; [split; discriminate|]. split.
  - intros ref. cbn [build_trees]. apply bind_no_err; [apply idx_no_err|]. intros col. apply bind_no_err; [apply idx_no_err|]. intros st.
    destruct (t_type (s_term st)); try discriminate; (destruct (s_rb (with_list_rb st)); [apply IH2|discriminate]).
  - intros ch ref st terms k e. cbn [build_helper]. destruct k as [|ti]; [discriminate|]. apply bind_no_err; [apply idx_no_err|]. intros t.
    destruct (t_type t); try apply IH2;
      (destruct (Z.ltb e 0); [discriminate|]; apply bind_no_err; [apply idx_no_err|]; intros col;
       apply over_states_no_err; intros r s; apply bind_no_err; [apply IH1|]; intros subs; apply over_subtrees_no_err; intros sub; apply IH2).
Qed.
Lemma trees_no_err cols fuel ref : get_trees cols fuel ref <> Err.
Proof. apply build_no_err. Qed.
Lemma extract_finals_no_err fuel cols : forall refs, extract_finals fuel cols refs <> Err.
Proof.
  induction refs as [|r refs IH]; cbn [extract_finals]; [discriminate|]. apply bind_no_err; [apply trees_no_err|]. intros ts.
  apply bind_no_err; [apply IH|discriminate].
Qed.
Lemma extract_no_err fuel : forall ps, extract_parses fuel ps <> Err.
Proof.
  induction ps as [|p ps IH]; cbn [extract_parses]; [discriminate|]. apply bind_no_err; [apply extract_finals_no_err|]. intros ts.
  apply bind_no_err; [apply IH|discriminate].
Qed.
Lemma p_state_no_err p ref : p_state p ref <> Err.
Proof. unfold p_state. apply bind_no_err; [apply idx_no_err|]. intros c. apply idx_no_err. Qed.
Lemma max_end_no_err p : forall refs m, max_end p refs m <> Err.
Proof.
  induction refs as [|r refs IH]; intros m; cbn [max_end]; [discriminate|]. apply bind_no_err; [apply p_state_no_err|]. intros s. apply IH.
Qed.
Lemma tag_no_err s : tag s <> Err.
Proof. unfold tag. destruct (s_rb s); [|discriminate]. apply bind_no_err; [apply idx_no_err|discriminate]. Qed.

(** ** The calls *)
Lemma bind_refuses {A B} (x : told A) (f : A -> told B) m : tbind x f = Refuses m ->
  x = Refuses m \/ exists a, x = Gives a /\ f a = Refuses m.
Proof. destruct x; cbn [tbind]; intros H; try discriminate H; [right; eauto|left; congruence]. Qed.

Section Api.
  Variable tmatch : term -> option token -> bool.
  Variable ords : nat -> order.
  Variable gs : list grammar_rules.
  Variable text : string.
  Lemma earley_same fuel n mf toks starts :
    erase (earley_parse_m tmatch ords gs text fuel n mf toks starts) = earley_parse_n tmatch ords gs text fuel n mf toks starts.
  Proof.
    unfold earley_parse_m, earley_parse_n, earley_parse. destruct starts; [reflexivity|]. destruct toks; [reflexivity|].
    rewrite erase_bind, erase_none. apply bind_ext. intros [cols fs]. reflexivity.
  Qed.
  Lemma earley_refuses fuel n mf toks starts m : toks <> [] ->
    earley_parse_m tmatch ords gs text fuel n mf toks starts = Refuses m <-> starts = [] /\ m = Ours "no start rules".
  Proof.
    intros Ht. unfold earley_parse_m. destruct starts as [|s starts].
    - split; [intros H; injection H as <-; auto|intros [_ ->]; reflexivity].
    - destruct toks as [|t toks]; [contradiction|]. split; [|intros [H _]; discriminate H]. intros H. exfalso.
      apply bind_refuses in H. destruct H as [H|((cols & fs) & _ & H)]; [|discriminate H].
      exact (none_refuses _ m (parse_no_err _ _ _ _ _ _ _) H).
  Qed.
  Lemma any_same fuel starts : forall toks n q,
    erase (any_loop_m tmatch ords gs text fuel n toks starts q) = any_loop tmatch ords gs text fuel n toks starts q.
  Proof.
    induction toks as [|t toks IH]; intros n q; cbn [any_loop_m any_loop]; [reflexivity|]. rewrite erase_bind, earley_same.
    apply bind_ext. intros p. destruct (has_finals p); [reflexivity|apply IH].
  Qed.
  Lemma max_same fuel starts : forall steps toks n,
    erase (max_all_loop_m tmatch ords gs text steps fuel n toks starts) = max_all_loop tmatch ords gs text steps fuel n toks starts.
  Proof.
    induction steps as [|steps IH]; intros toks n; cbn [max_all_loop_m max_all_loop]; [reflexivity|]. destruct toks as [|t toks]; [reflexivity|].
    rewrite erase_bind, earley_same. apply bind_ext. intros p. destruct (has_finals p); [|apply IH].
    rewrite erase_bind, erase_none. apply bind_ext. intros m. rewrite erase_bind, IH. apply bind_ext. reflexivity.
  Qed.
  Lemma all_same fuel starts : forall toks n,
    erase (all_loop_m tmatch ords gs text fuel n toks starts) = all_loop tmatch ords gs text fuel n toks starts.
  Proof.
    induction toks as [|t toks IH]; intros n; cbn [all_loop_m all_loop]; [reflexivity|]. rewrite erase_bind, earley_same.
    apply bind_ext. intros p. rewrite erase_bind, IH. apply bind_ext. reflexivity.
  Qed.
  (** with start rules, none of the loops returns an error; without, all do *)
  Lemma any_refuses fuel starts : forall toks n q m, any_loop_m tmatch ords gs text fuel n toks starts q = Refuses m -> starts = [] /\ m = Ours "no start rules".
  Proof.
    induction toks as [|t toks IH]; intros n q m H; cbn [any_loop_m] in H; [discriminate H|].
    apply bind_refuses in H. destruct H as [H|(p & _ & H)]; [apply earley_refuses in H; [exact H|discriminate]|].
    destruct (has_finals p); [discriminate H|eauto].
  Qed.
  Lemma max_refuses fuel starts : forall steps toks n m, max_all_loop_m tmatch ords gs text steps fuel n toks starts = Refuses m -> starts = [] /\ m = Ours "no start rules".
  Proof.
    induction steps as [|steps IH]; intros toks n m H; cbn [max_all_loop_m] in H; [discriminate H|]. destruct toks as [|t toks]; [discriminate H|].
    apply bind_refuses in H. destruct H as [H|(p & _ & H)]; [apply earley_refuses in H; [exact H|discriminate]|].
    destruct (has_finals p); [|eauto]. apply bind_refuses in H.
    destruct H as [H|(k & _ & H)]; [exfalso; exact (none_refuses _ m (max_end_no_err _ _ _) H)|].
    apply bind_refuses in H. destruct H as [H|(rest & _ & H)]; [eauto|discriminate H].
  Qed.
  Lemma all_refuses fuel starts : forall toks n m, all_loop_m tmatch ords gs text fuel n toks starts = Refuses m -> starts = [] /\ m = Ours "no start rules".
  Proof.
    induction toks as [|t toks IH]; intros n m H; cbn [all_loop_m] in H; [discriminate H|].
    apply bind_refuses in H. destruct H as [H|(p & _ & H)]; [apply earley_refuses in H; [exact H|discriminate]|].
    apply bind_refuses in H. destruct H as [H|(rest & _ & H)]; [eauto|discriminate H].
  Qed.
End Api.

Section Calls.
  Variable tmatch : term -> option token -> bool.
  Variable ords : nat -> order.
  Variable gs : list grammar_rules.
  Variable annotate : string -> string -> told (list token).
  Variable local_grammar : list token -> told (option grammar_rules).
  Notation annotate' := (fun c t => erase (annotate c t)).
  Notation local' := (fun d => erase (local_grammar d)).
  Notation process_m := (process_m annotate local_grammar).

  Lemma process_same ctx text : erase (process_m ctx text) = process annotate' local' ctx text.
  Proof.
    unfold ModelMessages.process_m, process. destruct (String.eqb _ _); [reflexivity|]. rewrite erase_bind. apply bind_ext. intros doc.
    cbv zeta. destruct (filter _ doc); [reflexivity|]. rewrite erase_bind. apply bind_ext. reflexivity.
  Qed.
  Lemma calls_same ctx text starts steps fuel :
    erase (EarleyParse_m tmatch ords gs annotate local_grammar fuel ctx text starts) = EarleyParse tmatch ords gs annotate' local' fuel ctx text starts
    /\ erase (EarleyParseAny_m tmatch ords gs annotate local_grammar fuel ctx text starts) = EarleyParseAny tmatch ords gs annotate' local' fuel ctx text starts
    /\ erase (EarleyParseMaxAll_m tmatch ords gs annotate local_grammar steps fuel ctx text starts) = EarleyParseMaxAll tmatch ords gs annotate' local' steps fuel ctx text starts
    /\ erase (EarleyParseAll_m tmatch ords gs annotate local_grammar fuel ctx text starts) = EarleyParseAll tmatch ords gs annotate' local' fuel ctx text starts
    /\ erase (Parse_m tmatch ords gs annotate local_grammar fuel ctx text starts) = Parse tmatch ords gs annotate' local' fuel ctx text starts
    /\ erase (ParseAny_m tmatch ords gs annotate local_grammar fuel ctx text starts) = ParseAny tmatch ords gs annotate' local' fuel ctx text starts
    /\ erase (ExtractMaxAll_m tmatch ords gs annotate local_grammar steps fuel ctx text starts) = ExtractMaxAll tmatch ords gs annotate' local' steps fuel ctx text starts
    /\ erase (ExtractAll_m tmatch ords gs annotate local_grammar fuel ctx text starts) = ExtractAll tmatch ords gs annotate' local' fuel ctx text starts.
  Proof.
    assert (erase (EarleyParse_m tmatch ords gs annotate local_grammar fuel ctx text starts) = EarleyParse tmatch ords gs annotate' local' fuel ctx text starts) as E1.
    { unfold EarleyParse_m, EarleyParse. rewrite erase_bind, process_same. apply bind_ext. intros [toks l]. apply earley_same. }
    assert (erase (EarleyParseAny_m tmatch ords gs annotate local_grammar fuel ctx text starts) = EarleyParseAny tmatch ords gs annotate' local' fuel ctx text starts) as E2.
    { unfold EarleyParseAny_m, EarleyParseAny. rewrite erase_bind, process_same. apply bind_ext. intros [toks l]. apply any_same. }
    assert (erase (EarleyParseMaxAll_m tmatch ords gs annotate local_grammar steps fuel ctx text starts) = EarleyParseMaxAll tmatch ords gs annotate' local' steps fuel ctx text starts) as E3.
    { unfold EarleyParseMaxAll_m, EarleyParseMaxAll. rewrite erase_bind, process_same. apply bind_ext. intros [toks l]. apply max_same. }
    assert (erase (EarleyParseAll_m tmatch ords gs annotate local_grammar fuel ctx text starts) = EarleyParseAll tmatch ords gs annotate' local' fuel ctx text starts) as E4.
    { unfold EarleyParseAll_m, EarleyParseAll. rewrite erase_bind, process_same. apply bind_ext. intros [toks l]. apply all_same. }
    do 4 (split; [assumption|]). unfold Parse_m, Parse, ParseAny_m, ParseAny, ExtractMaxAll_m, ExtractMaxAll, ExtractAll_m, ExtractAll.
    rewrite !erase_bind, E1, E2, E3, E4. repeat split; apply bind_ext; intros a; try apply erase_none. destruct a; [apply erase_none|reflexivity].
  Qed.

  Lemma spaces_filter (doc : list token) :
    filter (fun k => match tok_type k with KSpace => false | _ => true end) doc = [] <-> only_spaces doc.
  Proof.
    unfold only_spaces. split.
    - induction doc as [|k doc IH]; cbn [filter]; intros H; [constructor|]. destruct (tok_type k) eqn:E; try discriminate H. constructor; auto.
    - intros H. induction H as [|k doc E _ IH]; [reflexivity|]. cbn [filter]. rewrite E. exact IH.
  Qed.
  Lemma process_refuses ctx text m : process_m ctx text = Refuses m <->
    (exists s0 : string, refused annotate local_grammar ctx text [s0] m).
  Proof.
    unfold ModelMessages.process_m. split.
    - destruct (String.eqb (trim_space text) "") eqn:E.
      + intros H. injection H as <-. exists ""%string. apply r_blank. apply blank_trim. apply String.eqb_eq. exact E.
      + assert (~ blank text) as Hb by (intros B; apply blank_trim in B; rewrite B in E; discriminate E).
        assert (trimmed text (trim_space text)) as Ht by (apply trim_space_exact; reflexivity).
        intros H. exists ""%string. apply bind_refuses in H. destruct H as [H|(doc & Hd & H)]; [eapply r_annotate; eauto|].
        cbv zeta in H. destruct (filter _ doc) as [|k ks] eqn:Ef.
        * injection H as <-. apply spaces_filter in Ef. apply r_spaces with (doc := doc); [split; eauto|exact Ef].
        * apply bind_refuses in H. destruct H as [H|(l & _ & H)]; [|discriminate H].
          apply r_local with (doc := doc); [split; eauto| |exact H]. intros S. apply spaces_filter in S. congruence.
    - intros (s0 & H). destruct H as [B|t m Hb Ht Ha|doc (Hb & t & Ht & Hd) S|doc m (Hb & t & Ht & Hd) S Hl|doc l D S Hl E]; [| | | |discriminate E].
      + apply blank_trim in B. rewrite B. reflexivity.
      + apply trim_space_exact in Ht. subst t. destruct (String.eqb_spec (trim_space text) "") as [E|_]; [apply blank_trim in E; contradiction|].
        rewrite Ha. reflexivity.
      + apply trim_space_exact in Ht. subst t. destruct (String.eqb_spec (trim_space text) "") as [E|_]; [apply blank_trim in E; contradiction|].
        rewrite Hd. cbn [tbind]. apply spaces_filter in S. rewrite S. reflexivity.
      + apply trim_space_exact in Ht. subst t. destruct (String.eqb_spec (trim_space text) "") as [E|_]; [apply blank_trim in E; contradiction|].
        rewrite Hd. cbn [tbind]. destruct (filter _ doc) eqn:Ef; [exfalso; apply S; apply spaces_filter; exact Ef|]. rewrite Hl. reflexivity.
  Qed.
  Lemma process_gives ctx text toks l : process_m ctx text = Gives (toks, l) ->
    toks <> [] /\ exists doc, document_is annotate ctx text doc /\ ~ only_spaces doc /\ local_grammar doc = Gives l.
  Proof.
    unfold ModelMessages.process_m. destruct (String.eqb_spec (trim_space text) "") as [E|E]; [discriminate|]. intros H.
    destruct (annotate ctx (trim_space text)) as [doc| | |] eqn:Ed; try discriminate H. cbn [tbind] in H. cbv zeta in H.
    destruct (filter _ doc) as [|k ks] eqn:Ef; [discriminate H|]. destruct (local_grammar doc) as [l'| | |] eqn:El; try discriminate H.
    cbn [tbind] in H. injection H as <- <-. split; [discriminate|]. exists doc. split; [|split; [|exact El]].
    - split; [intros B; apply blank_trim in B; contradiction|]. exists (trim_space text). split; [apply trim_space_exact; reflexivity|exact Ed].
    - intros S. apply spaces_filter in S. congruence.
  Qed.
  Lemma document_gives ctx text doc l : document_is annotate ctx text doc -> ~ only_spaces doc -> local_grammar doc = Gives l ->
    exists toks, toks <> [] /\ process_m ctx text = Gives (toks, l).
  Proof.
    intros (Hb & t & Ht & Hd) S Hl. apply trim_space_exact in Ht. subst t. unfold ModelMessages.process_m.
    destruct (String.eqb_spec (trim_space text) "") as [E|_]; [apply blank_trim in E; contradiction|]. rewrite Hd. cbn [tbind]. cbv zeta.
    destruct (filter _ doc) as [|k ks] eqn:Ef; [exfalso; apply S; apply spaces_filter; exact Ef|]. rewrite Hl. cbn [tbind]. exists (k :: ks). split; [discriminate|reflexivity].
  Qed.

  (** a call: the process, then something that fails exactly without start rules *)
  Lemma call_refuses {A} ctx text starts (body : list token * option grammar_rules -> told A) m :
    (forall toks l m, toks <> [] -> body (toks, l) = Refuses m <-> starts = [] /\ m = Ours "no start rules") ->
    tbind (process_m ctx text) body = Refuses m <-> refused annotate local_grammar ctx text starts m.
  Proof.
    intros Hb. split.
    - intros H. apply bind_refuses in H. destruct H as [H|((toks, l) & Hp & H)].
      + apply process_refuses in H. destruct H as (s0 & R). destruct R as [B|t m Hb' Ht Ha|doc D S|doc m D S Hl|doc l D S Hl E]; [| | | |discriminate E].
        * apply r_blank; exact B.
        * eapply r_annotate; eauto.
        * eapply r_spaces; eauto.
        * eapply r_local; eauto.
      + destruct (process_gives _ _ _ _ Hp) as (Ht & doc & D & S & Hl). apply Hb in H; [|exact Ht]. destruct H as [E ->]. eapply r_starts; eauto.
    - intros R.
      assert ((exists doc l, document_is annotate ctx text doc /\ ~ only_spaces doc /\ local_grammar doc = Gives l /\ starts = [] /\ m = Ours "no start rules")
              \/ refused annotate local_grammar ctx text [""%string] m) as [(doc & l & D & S & Hl & E & ->)|R'].
      { destruct R as [B|t m Hb' Ht Ha|doc D S|doc m D S Hl|doc l D S Hl E]; [right; apply r_blank; exact B|right; eapply r_annotate; eauto
          |right; eapply r_spaces; eauto|right; eapply r_local; eauto|left; exists doc, l; auto]. }
      + destruct (document_gives _ _ _ _ D S Hl) as (toks & Ht & Hp). rewrite Hp. cbn [tbind]. apply Hb; auto.
      + assert (process_m ctx text = Refuses m) as E by (apply process_refuses; eauto). rewrite E. reflexivity.
  Qed.

  Lemma bind_after {A B} (x : told A) (f : A -> told B) m : (forall a, f a <> Refuses m) -> tbind x f = Refuses m <-> x = Refuses m.
  Proof. intros H. destruct x; cbn [tbind]; split; intros E; try discriminate E; [destruct (H _ E)|congruence|congruence]. Qed.
  Lemma calls_refuse ctx text starts steps fuel m : 0 < steps ->
    let R := refused annotate local_grammar ctx text starts m in
    (EarleyParse_m tmatch ords gs annotate local_grammar fuel ctx text starts = Refuses m <-> R)
    /\ (EarleyParseAny_m tmatch ords gs annotate local_grammar fuel ctx text starts = Refuses m <-> R)
    /\ (EarleyParseMaxAll_m tmatch ords gs annotate local_grammar steps fuel ctx text starts = Refuses m <-> R)
    /\ (EarleyParseAll_m tmatch ords gs annotate local_grammar fuel ctx text starts = Refuses m <-> R)
    /\ (Parse_m tmatch ords gs annotate local_grammar fuel ctx text starts = Refuses m <-> R)
    /\ (ParseAny_m tmatch ords gs annotate local_grammar fuel ctx text starts = Refuses m <-> R)
    /\ (ExtractMaxAll_m tmatch ords gs annotate local_grammar steps fuel ctx text starts = Refuses m <-> R)
    /\ (ExtractAll_m tmatch ords gs annotate local_grammar fuel ctx text starts = Refuses m <-> R).
  Proof.
    intros Hs R. subst R.
    assert (EarleyParse_m tmatch ords gs annotate local_grammar fuel ctx text starts = Refuses m <-> refused annotate local_grammar ctx text starts m) as E1.
    { apply call_refuses. intros toks l m' Ht. apply earley_refuses. exact Ht. }
    assert (EarleyParseAny_m tmatch ords gs annotate local_grammar fuel ctx text starts = Refuses m <-> refused annotate local_grammar ctx text starts m) as E2.
    { apply call_refuses. intros toks l m' Ht. split; [apply any_refuses|]. intros [-> ->]. destruct toks; [contradiction|reflexivity]. }
    assert (EarleyParseMaxAll_m tmatch ords gs annotate local_grammar steps fuel ctx text starts = Refuses m <-> refused annotate local_grammar ctx text starts m) as E3.
    { apply call_refuses. intros toks l m' Ht. split; [apply max_refuses|]. intros [-> ->]. destruct steps; [lia|]. destruct toks; [contradiction|reflexivity]. }
    assert (EarleyParseAll_m tmatch ords gs annotate local_grammar fuel ctx text starts = Refuses m <-> refused annotate local_grammar ctx text starts m) as E4.
    { apply call_refuses. intros toks l m' Ht. split; [apply all_refuses|]. intros [-> ->]. destruct toks; [contradiction|reflexivity]. }
    do 4 (split; [assumption|]). unfold Parse_m, ParseAny_m, ExtractMaxAll_m, ExtractAll_m.
    rewrite <- E1 at 1. rewrite <- E2 at 1. rewrite <- E3 at 1. rewrite <- E4.
    repeat split; try (apply bind_after; intros a; intros H; try (destruct a; [|discriminate H]); exact (none_refuses _ m (extract_no_err _ _) H));
      intros H; rewrite H; reflexivity.
  Qed.
End Calls.

(** ** The context *)
Section Context.
  Variable address tagger : Type.
  Variable parse_uri : string -> option (address * string).
  Variable uri_string : address -> string -> string.
  Variable api_tagger : string -> option tagger.
  Variable annotate_plain : string -> res document.
  Variable annotate_pro : tagger -> string -> res document.
  Variable ctx_tagger : string.
  Variable uri_says tagger_says plain_says : string -> string.
  Variable pro_says : tagger -> string -> string.
  Notation ann := (context_annotate_m address tagger parse_uri uri_string api_tagger annotate_plain annotate_pro ctx_tagger
                     uri_says tagger_says plain_says pro_says).
  Lemma context_same ctx text :
    erase (ann ctx text) = context_annotate address tagger parse_uri uri_string api_tagger annotate_plain annotate_pro ctx_tagger ctx text.
  Proof.
    unfold context_annotate_m, context_annotate. destruct (String.eqb ctx ""); [apply erase_with|]. destruct (String.eqb ctx_tagger ""); [reflexivity|].
    destruct (parse_uri ctx_tagger) as [[a raw]|]; [|reflexivity]. cbv zeta. destruct (api_tagger _); [apply erase_with|reflexivity].
  Qed.
  Lemma with_theirs {A} s (x : res A) t : with_message (Theirs s) x <> Refuses (Ours t).
  Proof. destruct x; discriminate. Qed.
  Lemma context_ours ctx text s : ann ctx text = Refuses (Ours s) <-> ctx <> ""%string /\ ctx_tagger = ""%string /\ s = "ctxTagger should be supplied"%string.
  Proof.
    unfold context_annotate_m. destruct (String.eqb_spec ctx "") as [->|Hc].
    { split; [intros H; destruct (with_theirs _ _ _ H)|intros [H _]; contradiction]. }
    destruct (String.eqb_spec ctx_tagger "") as [E|E].
    { split; [intros H; injection H as <-; auto|intros (_ & _ & ->); reflexivity]. }
    split; [|intros (_ & H & _); contradiction]. destruct (parse_uri ctx_tagger) as [[a raw]|]; [|discriminate]. cbv zeta.
    destruct (api_tagger _); [|discriminate]. intros H. destruct (with_theirs _ _ _ H).
  Qed.

  Variable hash : rulebody -> N.
  Variable find_all : string -> string -> option (list (nat * nat)).
  Variable span_text : document -> nat -> nat -> string.
  Variable regexps : list (string * string).
  Variable ord : nat -> list (string * entry) -> list (string * entry).
  Lemma span_terms_no_err toks : forall n s, span_terms toks s n <> Err.
  Proof.
    induction n as [|n IH]; intros s; cbn [span_terms]; [discriminate|]. apply bind_no_err; [apply idx_no_err|]. intros k.
    apply bind_no_err; [apply IH|discriminate].
  Qed.
  Lemma local_no_err d : local_grammar hash find_all span_text regexps ord d <> Err.
  Proof.
    unfold local_grammar. apply bind_no_err; [|intros [|r rs]; discriminate].
    generalize (fold_left (add_token hash) (d_tokens d) []) as rules, (d_spans d ++ regexp_spans find_all span_text regexps d) as sps, 0 as i. intros rules sps. revert rules.
    induction sps as [|sp sps IH]; intros rules i; cbn [add_spans]; [discriminate|]. apply bind_no_err; [|intros r; apply IH].
    unfold add_span. destruct (sp_value sp); [|discriminate]. apply bind_no_err; [apply span_terms_no_err|discriminate].
  Qed.
  Notation toks_m := (doc_tokens_m ann).
  Notation local_m ctx text := (doc_local_m hash find_all span_text regexps ord ann ctx text).
  Lemma doc_tokens_same ctx text : erase (toks_m ctx text)
    = doc_tokens (context_annotate address tagger parse_uri uri_string api_tagger annotate_plain annotate_pro ctx_tagger) ctx text.
  Proof. unfold doc_tokens_m, doc_tokens. rewrite erase_bind, context_same. apply bind_ext. reflexivity. Qed.
  Lemma doc_local_same ctx text doc : erase (local_m ctx text doc)
    = doc_local hash find_all span_text regexps ord
        (context_annotate address tagger parse_uri uri_string api_tagger annotate_plain annotate_pro ctx_tagger) ctx text doc.
  Proof. unfold doc_local_m, doc_local. rewrite erase_bind, context_same. apply bind_ext. intros d. apply erase_none. Qed.

  Lemma context_reasons ctx text starts s :
    refused toks_m (local_m ctx text) ctx text starts (Ours s) <->
    (blank text /\ s = "text is empty"%string)
    \/ (~ blank text /\ ctx <> ""%string /\ ctx_tagger = ""%string /\ s = "ctxTagger should be supplied"%string)
    \/ (exists doc, document_is toks_m ctx text doc /\ only_spaces doc /\ s = "no tokens"%string)
    \/ (exists doc l, document_is toks_m ctx text doc /\ ~ only_spaces doc /\ local_m ctx text doc = Gives l /\ starts = [] /\ s = "no start rules"%string).
  Proof.
    split.
    - intros R. remember (Ours s) as m eqn:Em. destruct R as [B|t m Hb Ht Ha|doc D S|doc m D S Hl|doc l D S Hl E].
      + injection Em as <-. auto.
      + subst m. unfold doc_tokens_m in Ha. apply bind_refuses in Ha. destruct Ha as [Ha|(d & _ & Ha)]; [|discriminate Ha].
        apply context_ours in Ha. right; left. tauto.
      + injection Em as <-. right; right; left. eauto.
      + subst m. exfalso. unfold doc_local_m in Hl. destruct D as (_ & t & Ht & Hd). apply trim_space_exact in Ht. subst t.
        unfold doc_tokens_m in Hd. destruct (ann ctx (trim_space text)) as [d| | |] eqn:Ea; try discriminate Hd. cbn [tbind] in Hl.
        exact (none_refuses _ _ (local_no_err d) Hl).
      + injection Em as <-. right; right; right. exists doc, l. auto.
    - intros [(B & ->)|[(B & Hc & Hf & ->)|[(doc & D & S & ->)|(doc & l & D & S & Hl & E & ->)]]].
      + apply r_blank. exact B.
      + apply r_annotate with (t := trim_space text); [exact B|apply trim_space_exact; reflexivity|].
        unfold doc_tokens_m. assert (ann ctx (trim_space text) = Refuses (Ours "ctxTagger should be supplied")) as -> by (apply context_ours; auto). reflexivity.
      + eapply r_spaces; eauto.
      + eapply r_starts; eauto.
  Qed.
End Context.

(** ** Frames *)
Section Frames.
  Variable g : grammar.
  Variable key : term -> N.
  Variable multi_match : list string -> string -> res (list (string * list (nat * nat))).
  Variable trie_says : string -> string.
  Variable fo : frame_orders.

  Lemma frame_body_no_err v : frame_body g v <> Err.
  Proof. unfold frame_body. destruct (lookup _ _); [|discriminate]. destruct (get_N _ _); discriminate. Qed.
  Lemma fill_all_no_err k new : forall vs fs, fill_all g k new vs fs <> Err.
  Proof.
    induction vs as [|v vs IH]; intros fs; cbn [fill_all]; [discriminate|]. apply bind_no_err; [|intros f; apply IH].
    unfold fill. apply bind_no_err; [apply frame_body_no_err|discriminate].
  Qed.
  Lemma closure_no_err : forall fuel queue rules, closure g fo fuel queue rules <> Err.
  Proof.
    induction fuel as [|fuel IH]; intros [|r queue] rules; cbn [closure]; try discriminate. destruct (lookup _ _); [|apply IH].
    destruct (fold_left _ _ _). apply IH.
  Qed.
  Lemma words_same : forall ms fs rules, erase (words_loop_m g key fo ms fs rules) = words_loop g key fo ms fs rules.
  Proof.
    induction ms as [|[w hits] ms IH]; intros fs rules; cbn [words_loop_m words_loop]; [reflexivity|]. destruct (lookup _ _); [|reflexivity].
    rewrite erase_bind, erase_none. apply bind_ext. intros f. apply IH.
  Qed.
  Lemma candidates_same fuel text : erase (get_candidates_m g key multi_match trie_says fo fuel text) = get_candidates g key multi_match fo fuel text.
  Proof.
    unfold get_candidates_m, get_candidates. rewrite erase_bind, erase_with. apply bind_ext. intros ms. rewrite erase_bind, words_same. apply bind_ext.
    intros [fs rules]. rewrite erase_bind, erase_none. apply bind_ext. reflexivity.
  Qed.
  Lemma finals_same fuel i p : forall refs j fs, erase (finals_loop_m g key fo fuel i j p refs fs) = finals_loop g key fo fuel i j p refs fs.
  Proof.
    induction refs as [|r refs IH]; intros j fs; cbn [finals_loop_m finals_loop]; [reflexivity|].
    rewrite erase_bind, erase_none. apply bind_ext. intros s. rewrite erase_bind, erase_none. apply bind_ext. intros t.
    rewrite erase_bind, erase_none. apply bind_ext. intros [a b]. rewrite erase_bind, erase_none. apply bind_ext. intros ts.
    destruct (String.eqb t ""); [reflexivity|]. destruct (lookup _ _); [|apply IH]. rewrite erase_bind, erase_none. apply bind_ext. intros f. apply IH.
  Qed.
  Lemma parses_same fuel : forall ps i fs, erase (parses_loop_m g key fo fuel i ps fs) = parses_loop g key fo fuel i ps fs.
  Proof.
    induction ps as [|p ps IH]; intros i fs; cbn [parses_loop_m parses_loop]; [reflexivity|]. rewrite erase_bind, finals_same. apply bind_ext. intros f. apply IH.
  Qed.

  Lemma words_refuse : forall ms fs rules m, words_loop_m g key fo ms fs rules = Refuses m ->
    exists w, In w (map fst ms) /\ lookup (g_index g) w = None /\ m = Ours (w ++ " in trie but not in index").
  Proof.
    induction ms as [|[w hits] ms IH]; intros fs rules m H; cbn [words_loop_m] in H; [discriminate H|].
    destruct (lookup (g_index g) w) as [i|] eqn:E.
    - apply bind_refuses in H. destruct H as [H|(f & _ & H)]; [exfalso; exact (none_refuses _ _ (fill_all_no_err _ _ _ _) H)|].
      apply IH in H. destruct H as (w' & Hw & Hn). exists w'. split; [right; exact Hw|exact Hn].
    - injection H as <-. exists w. split; [left; reflexivity|auto].
  Qed.
  Lemma finals_refuse fuel i p : forall refs j fs m, finals_loop_m g key fo fuel i j p refs fs = Refuses m ->
    exists ref s, In ref refs /\ p_state p ref = Ret s /\ tag s = Ret ""%string /\ m = Ours "invalid parse".
  Proof.
    induction refs as [|r refs IH]; intros j fs m H; cbn [finals_loop_m] in H; [discriminate H|].
    assert (forall j fs, finals_loop_m g key fo fuel i j p refs fs = Refuses m ->
      exists ref s, In ref (r :: refs) /\ p_state p ref = Ret s /\ tag s = Ret ""%string /\ m = Ours "invalid parse") as R.
    { intros j' fs' H'. apply IH in H'. destruct H' as (ref & s & Hi & H'). exists ref, s. split; [right; exact Hi|exact H']. }
    destruct (p_state p r) as [s| | |] eqn:Es; try discriminate H; [|destruct (p_state_no_err _ _ Es)]. cbn [no_error with_message tbind] in H.
    destruct (tag s) as [t| | |] eqn:Et; try discriminate H; [|destruct (tag_no_err _ Et)]. cbn [no_error with_message tbind] in H.
    apply bind_refuses in H. destruct H as [H|([a b] & _ & H)]; [exfalso; exact (none_refuses _ _ (boundary_no_err _ _) H)|].
    apply bind_refuses in H. destruct H as [H|(ts & _ & H)]; [exfalso; exact (none_refuses _ _ (trees_no_err _ _ _) H)|].
    destruct (String.eqb_spec t "") as [->|_].
    - injection H as <-. exists r, s. split; [left; reflexivity|auto].
    - destruct (lookup _ _); [|eauto]. apply bind_refuses in H. destruct H as [H|(f & _ & H)]; [exfalso; exact (none_refuses _ _ (fill_all_no_err _ _ _ _) H)|eauto].
  Qed.
  Lemma parses_refuse fuel : forall ps i fs m, parses_loop_m g key fo fuel i ps fs = Refuses m ->
    exists p ref s, In p ps /\ In ref (p_finals p) /\ p_state p ref = Ret s /\ tag s = Ret ""%string /\ m = Ours "invalid parse".
  Proof.
    induction ps as [|p ps IH]; intros i fs m H; cbn [parses_loop_m] in H; [discriminate H|]. apply bind_refuses in H. destruct H as [H|(f & _ & H)].
    - apply finals_refuse in H. destruct H as (ref & s & H). exists p, ref, s. split; [left; reflexivity|exact H].
    - apply IH in H. destruct H as (p' & ref & s & Hp & H). exists p', ref, s. split; [right; exact Hp|exact H].
  Qed.

  Lemma candidates_refuse rules fuel text m : index_exact g rules -> frame_orders_ok fo ->
    (forall ms w, multi_match (g_trie g) text = Ret ms -> In w (map fst ms) -> In w (g_trie g)) ->
    get_candidates_m g key multi_match trie_says fo fuel text = Refuses m <->
    multi_match (g_trie g) text = Err /\ m = Theirs (trie_says text).
  Proof.
    intros Hx Ho Hm. unfold get_candidates_m. split.
    - intros H. destruct (multi_match (g_trie g) text) as [ms| | |] eqn:E; try discriminate H; cbn [with_message tbind] in H.
      + exfalso. apply bind_refuses in H. destruct H as [H|([fs rs] & _ & H)].
        * apply words_refuse in H. destruct H as (w & Hw & Hn & _). destruct Hx as (_ & Ht & _). apply (proj1 (Ht w)); [|exact Hn].
          apply (Hm ms); [reflexivity|]. destruct Ho as (Hp & _). eapply Permutation_in; [|exact Hw]. apply Permutation_map, Permutation_sym, Hp.
        * apply bind_refuses in H. destruct H as [H|(r & _ & H)]; [exact (none_refuses _ _ (closure_no_err _ _ _) H)|discriminate H].
      + injection H as <-. auto.
    - intros [E ->]. rewrite E. reflexivity.
  Qed.

  Variable tmatch : term -> option token -> bool.
  Variable ords : nat -> order.
  Variable annotate : string -> string -> told (list token).
  Variable local_grammar : list token -> told (option grammar_rules).
  Notation MF_m := (MatchFrames_m g key multi_match trie_says fo tmatch ords annotate local_grammar).
  Lemma frames_same fuel ctx text : erase (MF_m fuel ctx text)
    = MatchFrames g key multi_match fo tmatch ords (fun c t => erase (annotate c t)) (fun d => erase (local_grammar d)) fuel ctx text.
  Proof.
    unfold MatchFrames_m, MatchFrames. rewrite erase_bind, candidates_same. apply bind_ext. intros [fs starts]. rewrite erase_bind.
    destruct (calls_same tmatch ords (all_rules g) annotate local_grammar ctx text starts 0 fuel) as (_ & _ & _ & -> & _). apply bind_ext. intros ps. apply parses_same.
  Qed.

  Lemma frames_refuse rules fuel ctx text m : index_exact g rules -> frame_orders_ok fo -> orders ords ->
    (forall ms w, multi_match (g_trie g) text = Ret ms -> In w (map fst ms) -> In w (g_trie g)) ->
    (forall fs starts doc l, get_candidates_m g key multi_match trie_says fo fuel text = Gives (fs, starts) ->
       document_is annotate ctx text doc -> local_grammar doc = Gives l ->
       well_formed (with_local (all_rules g) l) starts /\ ~ In ""%string starts) ->
    MF_m fuel ctx text = Refuses m <->
    (multi_match (g_trie g) text = Err /\ m = Theirs (trie_says text))
    \/ (exists fs starts, get_candidates_m g key multi_match trie_says fo fuel text = Gives (fs, starts)
         /\ refused annotate local_grammar ctx text starts m).
  Proof.
    intros Hx Ho Hord Hm Hwf. unfold MatchFrames_m. split.
    - intros H. apply bind_refuses in H. destruct H as [H|([fs starts] & Hc & H)]; [left; eapply candidates_refuse; eauto|].
      right. exists fs, starts. split; [exact Hc|]. apply bind_refuses in H.
      destruct H as [H|(ps & Hps & H)]; [destruct (calls_refuse tmatch ords (all_rules g) annotate local_grammar ctx text starts 1 fuel m) as (_ & _ & _ & E & _); [lia|]; apply E; exact H|].
      exfalso. apply parses_refuse in H. destruct H as (p & ref & s & Hp & Hr & Hs & Ht & _).
      unfold EarleyParseAll_m in Hps. destruct (process_m annotate local_grammar ctx text) as [[toks l]| | |] eqn:Epr; try discriminate Hps.
      cbn [tbind] in Hps. destruct (process_gives _ _ _ _ _ _ Epr) as (_ & doc & D & _ & Hl).
      destruct (Hwf _ _ _ _ Hc D Hl) as [W N]. pose proof (all_same tmatch ords (with_local (all_rules g) l) text fuel starts toks 0) as E.
      rewrite Hps in E. cbn [erase] in E. symmetry in E. destruct (all_suffix _ _ _ _ _ _ _ _ _ _ E Hp) as (fuel' & n' & mf & i & _ & Ep).
      destruct (finals_anchored _ _ _ _ _ _ _ _ _ _ (Hord n') Ep ref W Hr) as (s2 & S2 & Hs2 & Ht2 & HS & _).
      rewrite Hs in Hs2. injection Hs2 as <-. rewrite Ht in Ht2. injection Ht2 as <-. contradiction.
    - intros [H|(fs & starts & Hc & R)].
      + assert (get_candidates_m g key multi_match trie_says fo fuel text = Refuses m) as -> by (eapply candidates_refuse; eauto). reflexivity.
      + rewrite Hc. cbn [tbind]. destruct (calls_refuse tmatch ords (all_rules g) annotate local_grammar ctx text starts 1 fuel m) as (_ & _ & _ & E & _); [lia|].
        apply E in R. rewrite R. reflexivity.
  Qed.

  Variable join_words : list string -> string.
  Variable float_string : bigf -> string.
  Variable json : dval -> string.
  Variable is_print_hi : rune -> bool.
  Variable call : string -> list dval -> res dval.
  Variable show : argval -> string.
  Lemma frame_string_same vf : erase (frame_string_m g key join_words float_string json is_print_hi call show vf)
    = frame_string g key join_words float_string json is_print_hi call vf.
  Proof.
    unfold frame_string_m, frame_string. rewrite erase_bind, erase_none. apply bind_ext. intros b. destruct (rb_f b); [|reflexivity].
    rewrite fmr_str_same. f_equal. rewrite map_map. apply map_ext. intros t. destruct (child _ _ _) as [[p n]|]; [|reflexivity].
    cbn [option_map fst snd]. f_equal. apply semantic_same.
  Qed.
  Lemma FrameFMR_same fuel ctx text :
    erase (FrameFMR_m g key multi_match trie_says fo tmatch ords annotate local_grammar join_words float_string json is_print_hi call show fuel ctx text)
    = FrameFMR g key multi_match fo tmatch ords (fun c t => erase (annotate c t)) (fun d => erase (local_grammar d))
        join_words float_string json is_print_hi call fuel ctx text.
  Proof.
    unfold FrameFMR_m, FrameFMR. rewrite erase_bind, frames_same. apply bind_ext. intros fs. rewrite erase_sequence, map_map. f_equal.
    apply map_ext. intros vf. apply frame_string_same.
  Qed.
End Frames.

(** ** TermType *)
Lemma tt_table : exists t, tt_name_to_value = Ret t
  /\ forall s, lookup t s <> None <-> In s ["EOF"; "Nonterminal"; "Terminal"; "Any"; "List"]%string.
Proof.
  eexists. split; [vm_compute; reflexivity|]. intros s. cbn [lookup In].
  repeat match goal with |- context [String.eqb ?a s] => destruct (String.eqb_spec a s) end; split; intros H; try discriminate; auto 10;
    try (exfalso; apply H; reflexivity); exfalso; intuition congruence.
Qed.
Lemma tt_same json_unmarshal is_print_hi data : erase (tt_unmarshal_m json_unmarshal is_print_hi data) = tt_unmarshal json_unmarshal data.
Proof.
  unfold tt_unmarshal_m, tt_unmarshal. rewrite erase_bind, erase_with. apply bind_ext. intros s. rewrite erase_bind, erase_none. apply bind_ext. intros t.
  destruct (lookup t s); reflexivity.
Qed.
Lemma tt_refuses json_unmarshal is_print_hi data m : tt_unmarshal_m json_unmarshal is_print_hi data = Refuses m <->
  (json_unmarshal data = Err /\ m = Ours ("TermType should be a string, got " ++ data))
  \/ (exists s, json_unmarshal data = Ret s /\ ~ In s ["EOF"; "Nonterminal"; "Terminal"; "Any"; "List"]%string
       /\ m = Ours ("invalid TermType " ++ quote is_print_hi s)).
Proof.
  unfold tt_unmarshal_m. destruct tt_table as (t & -> & Ht). destruct (json_unmarshal data) as [s| | |] eqn:E; cbn [with_message no_error tbind].
  - specialize (Ht s). destruct (lookup t s).
    + split; [discriminate|]. intros [(H & _)|(s' & H & N & _)]; [discriminate H|]. injection H as <-. exfalso. apply N, Ht. discriminate.
    + split; [intros H; injection H as <-; right; exists s; split; [reflexivity|split; [intros N; apply Ht in N; contradiction|reflexivity]]|].
      intros [(H & _)|(s' & H & N & ->)]; [discriminate H|]. injection H as <-. reflexivity.
  - split; [intros H; injection H as <-; auto|]. intros [(_ & ->)|(s & H & _)]; [reflexivity|discriminate H].
  - split; [discriminate|]. intros [(H & _)|(s & H & _)]; discriminate H.
  - split; [discriminate|]. intros [(H & _)|(s & H & _)]; discriminate H.
Qed.

(** ** Functions of a grammar with typed arguments *)
Lemma wt_kinded : forall f, wt_fmr f -> well_kinded f.
Proof.
  intros f. induction f as [fn args IH] using fmr_ind'. intros H. inversion H as [fn' args' W]; subst. rewrite Forall_forall in W. constructor.
  - intros a Ha. specialize (W a Ha). destruct W; intros (M0 & M1 & M2 & M3 & M4 & M5); try congruence;
      first [eapply M1; reflexivity|eapply M2; reflexivity|eapply M3; reflexivity|eapply M4; reflexivity|eapply M5; reflexivity].
  - intros f Hf. rewrite Forall_forall in IH. apply (IH (Arg "func" (VFunc f)) Hf). specialize (W _ Hf). inversion W; assumption.
Qed.
Lemma ok_kinded n : forall f, fun_ok n f -> well_kinded f.
Proof.
  intros f. induction f as [fn args IH] using fmr_ind'. intros H. inversion H as [fn' args' Hi W]; subst. rewrite Forall_forall in W. constructor.
  - intros a Ha. specialize (W a Ha). destruct W; intros (M0 & M1 & M2 & M3 & M4 & M5); try congruence;
      first [eapply M1; reflexivity|eapply M2; reflexivity|eapply M3; reflexivity|eapply M4; reflexivity|eapply M5; reflexivity].
  - intros f Hf. rewrite Forall_forall in IH. apply (IH (Arg "func" (VFunc f)) Hf). specialize (W _ Hf). inversion W; assumption.
Qed.
Lemma ok_within n : forall f h, within f h -> fun_ok n f -> fun_ok n h.
Proof.
  intros f h H. induction H as [f|fn args f h I _ IH]; [auto|]. intros K. apply IH. inversion K as [? ? _ W]; subst.
  rewrite Forall_forall in W. specialize (W _ I). inversion W; assumption.
Qed.
Lemma ok_uses n : forall f, fun_ok n f -> forall i, uses f i -> (0 <= i <= Z.of_nat n)%Z.
Proof.
  intros f K i U. induction U as [fn args k I|fn args f k I _ IH]; inversion K as [? ? _ W]; subst; rewrite Forall_forall in W; specialize (W _ I);
    inversion W; subst; auto.
Qed.

Section Trees.
  Variable tmatch : term -> option token -> bool.
  Variable ords : nat -> order.
  Variable gs : list grammar_rules.
  Variable text : string.
  Variables (fuel n : nat) (mf : bool) (toks : list token) (starts : list string) (p : parse_t).
  Hypothesis Ho : is_order (ords n).
  Hypothesis Hp : earley_parse_n tmatch ords gs text fuel n mf toks starts = Ret p.
  Hypothesis Hwf : well_formed gs starts.
  Hypothesis Hsep : separated gs.
  Hypothesis Htyped : typed_args gs.
  Variable join_words : list string -> string.
  Variable float_string : bigf -> string.
  Variable json : dval -> string.
  Variable is_print_hi : rune -> bool.
  Variable call : string -> list dval -> res dval.
  Variable call_says : string -> list dval -> string.
  Variable show : argval -> string.

  Lemma tree_about t x m : tree_of_parse p t -> part_of t x -> about p join_words float_string call call_says show x m ->
    (exists y b f i, has_body gs y b /\ rb_f b = Some f /\ uses f i /\ out_of_range i (length (rb_terms b))
       /\ m = Ours (range_text i (length (rb_terms b))))
    \/ (exists y b f args, has_body gs y b /\ rb_f b = Some f /\ within f (FMR "nf.I" args) /\ length args <> 1 /\ m = Ours identity_text)
    \/ (exists fn vs, call fn vs = Err /\ m = Theirs (call_says fn vs)).
  Proof.
    intros Ht Hx A.
    assert (forall y f, part_of x y -> function_of y = Some f -> fun_ok (length (n_children y)) f \/ exists z b, has_body gs z b /\ rb_f b = Some f
        /\ length (n_children y) = length (rb_terms b)) as F.
    { intros y f P Hf. eapply tree_functions; eauto. eapply part_trans; eauto. }
    apply kinded_about in A.
    - destruct A as [(y & f & i & P & Hf & U & R & ->)|[(y & f & args & P & Hf & W & L & ->)|(y & f & fn & args & vs & _ & _ & _ & _ & C & ->)]].
      + left. destruct (F y f P Hf) as [K|(z & b & Hb & Hf' & Hl)].
        * exfalso. pose proof (ok_uses _ _ K i U). unfold out_of_range in R. lia.
        * exists z, b, f, i. rewrite <- Hl. auto.
      + right. left. destruct (F y f P Hf) as [K|(z & b & Hb & Hf' & Hl)].
        * exfalso. pose proof (ok_within _ _ _ W K) as K'. inversion K' as [? ? K1 _]; subst. auto.
        * exists z, b, f, args. auto.
      + right. right. eauto.
    - intros y f P Hf. destruct (F y f P Hf) as [K|(z & b & Hb & Hf' & _)]; [eapply ok_kinded; eauto|]. apply wt_kinded. exact (Htyped z b Hb f Hf').
  Qed.
  Lemma grammar_messages t x m : tree_of_parse p t -> part_of t x ->
    eval_m p join_words float_string call call_says show x = Refuses m \/ semantic_m p join_words float_string json is_print_hi call show x = Refuses m ->
    (exists y b f i, has_body gs y b /\ rb_f b = Some f /\ uses f i /\ out_of_range i (length (rb_terms b))
       /\ m = Ours (range_text i (length (rb_terms b))))
    \/ (exists y b f args, has_body gs y b /\ rb_f b = Some f /\ within f (FMR "nf.I" args) /\ length args <> 1 /\ m = Ours identity_text)
    \/ (exists fn vs, call fn vs = Err /\ m = Theirs (call_says fn vs)).
  Proof.
    intros Ht Hx [H|H]; eapply tree_about; eauto; [apply eval_about; exact H|eapply semantic_about; exact H].
  Qed.
End Trees.

Lemma frame_texts_refuse g key multi_match trie_says fo tmatch ords annotate local_grammar join_words float_string json is_print_hi call show fuel ctx text m :
  FrameFMR_m g key multi_match trie_says fo tmatch ords annotate local_grammar join_words float_string json is_print_hi call show fuel ctx text = Refuses m <->
  MatchFrames_m g key multi_match trie_says fo tmatch ords annotate local_grammar fuel ctx text = Refuses m
  \/ exists fs before vf after, MatchFrames_m g key multi_match trie_says fo tmatch ords annotate local_grammar fuel ctx text = Gives fs
       /\ fo_result fo fs = before ++ vf :: after
       /\ (forall v, In v before -> exists s, frame_string_m g key join_words float_string json is_print_hi call show v = Gives s)
       /\ frame_string_m g key join_words float_string json is_print_hi call show vf = Refuses m.
Proof.
  unfold FrameFMR_m. destruct (MatchFrames_m _ _ _ _ _ _ _ _ _ _ _ _) as [fs|m'| |]; cbn [tbind].
  - split.
    + intros H. right. exists fs. revert H. generalize (fo_result fo fs) as l. induction l as [|v l IH]; cbn [map sequence_m]; [discriminate|].
      intros H. apply bind_refuses in H. destruct H as [H|(a & Ha & H)].
      * exists [], v, l. split; [reflexivity|]. split; [reflexivity|]. split; [intros ? []|exact H].
      * apply bind_refuses in H. destruct H as [H|(r & _ & H)]; [|discriminate H]. apply IH in H. destruct H as (b & vf & af & _ & -> & Hb & Hv).
        exists (v :: b), vf, af. split; [reflexivity|]. split; [reflexivity|]. split; [|exact Hv]. intros x [<-|Hx]; eauto.
    + intros [H|(fs' & b & vf & af & E & R & Hb & Hv)]; [discriminate H|]. injection E as <-. rewrite R. clear R. induction b as [|v b IH]; cbn [app map sequence_m].
      * rewrite Hv. reflexivity.
      * destruct (Hb v) as (s & ->); [left; reflexivity|]. cbn [tbind]. rewrite IH; [reflexivity|]. intros x Hx. apply Hb. right. exact Hx.
  - split; [intros H; left; congruence|]. intros [H|(fs' & b & vf & af & E & _)]; [congruence|discriminate E].
  - split; [discriminate|]. intros [H|(fs' & b & vf & af & E & _)]; discriminate.
  - split; [discriminate|]. intros [H|(fs' & b & vf & af & E & _)]; discriminate.
Qed.

(** ** Pairs, as stated in PropMessages.v *)
Lemma values_same p join_words float_string json is_print_hi call call_says show t :
  erase (eval_m p join_words float_string call call_says show t) = eval p join_words float_string call t /\
  erase (semantic_m p join_words float_string json is_print_hi call show t) = semantic p join_words float_string json is_print_hi call t.
Proof. split; [apply eval_same|apply semantic_same]. Qed.
Lemma both_about p join_words float_string json is_print_hi call call_says show t m :
  (eval_m p join_words float_string call call_says show t = Refuses m -> about p join_words float_string call call_says show t m) /\
  (semantic_m p join_words float_string json is_print_hi call show t = Refuses m ->
     about p join_words float_string call call_says show t m /\ exists s, m = Ours s).
Proof. split; [apply eval_about|apply semantic_about]. Qed.
Lemma both_frames_same g key multi_match trie_says fo tmatch ords annotate local_grammar fuel ctx text :
  erase (MatchFrames_m g key multi_match trie_says fo tmatch ords annotate local_grammar fuel ctx text)
  = MatchFrames g key multi_match fo tmatch ords (fun c t => erase (annotate c t)) (fun d => erase (local_grammar d)) fuel ctx text /\
  forall join_words float_string json is_print_hi call show,
  erase (FrameFMR_m g key multi_match trie_says fo tmatch ords annotate local_grammar join_words float_string json is_print_hi call show fuel ctx text)
  = FrameFMR g key multi_match fo tmatch ords (fun c t => erase (annotate c t)) (fun d => erase (local_grammar d))
      join_words float_string json is_print_hi call fuel ctx text.
Proof. split; [apply frames_same|]. intros. apply FrameFMR_same. Qed.
Lemma semantic_message p join_words float_string json is_print_hi call show t m :
  semantic_m p join_words float_string json is_print_hi call show t = Refuses m <-> SemSays p join_words float_string json is_print_hi call show t m.
Proof. apply semantic_says. intros. exact ""%string. Qed.
