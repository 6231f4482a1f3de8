(** The calls see the trimmed text only. *)
From Verif Require Import Base ModelTypes ModelText ModelEarley ModelTrees ModelApi SpecText ProofTrim.

Lemma bind_err {A B} (e : res A) (k : A -> res B) : e = Err -> (x <- e ;; k x) = Err.
Proof. intros ->. reflexivity. Qed.

Section Text.
  Variable tmatch : term -> option token -> bool.
  Variable ords : nat -> order.
  Variable gs : list grammar_rules.
  Variables text text' : string.

  Lemma parse_text fuel n mf toks starts :
    earley_parse_n tmatch ords gs text' fuel n mf toks starts = rmap (retext text') (earley_parse_n tmatch ords gs text fuel n mf toks starts).
  Proof. unfold earley_parse_n. destruct (earley_parse _ _ _ _ _ _ _) as [[c f]| | |]; reflexivity. Qed.

  Lemma any_text fuel starts : forall toks n p,
    any_loop tmatch ords gs text' fuel n toks starts (option_map (retext text') p)
    = rmap (option_map (retext text')) (any_loop tmatch ords gs text fuel n toks starts p).
  Proof.
    induction toks as [|k toks IH]; intros n p; [reflexivity|]. cbn [any_loop]. rewrite parse_text.
    destruct (earley_parse_n _ _ _ text _ _ _ _ _) as [q| | |]; try reflexivity. cbn [rmap bind].
    change (has_finals (retext text' q)) with (has_finals q). destruct (has_finals q); [reflexivity|]. apply (IH (S n) (Some q)).
  Qed.

  Lemma max_end_text p refs : forall m, max_end (retext text' p) refs m = max_end p refs m.
  Proof.
    induction refs as [|r refs IH]; intros m; [reflexivity|]. cbn [max_end]. change (p_state (retext text' p) r) with (p_state p r).
    destruct (p_state p r); try reflexivity. cbn [bind]. apply IH.
  Qed.

  Lemma max_all_text fuel starts : forall steps n toks,
    max_all_loop tmatch ords gs text' steps fuel n toks starts = rmap (map (retext text')) (max_all_loop tmatch ords gs text steps fuel n toks starts).
  Proof.
    induction steps as [|steps IH]; intros n toks; [reflexivity|]. cbn [max_all_loop]. destruct toks as [|k toks]; [reflexivity|].
    rewrite parse_text. destruct (earley_parse_n _ _ _ text _ _ _ _ _) as [q| | |]; try reflexivity. cbn [rmap bind].
    change (has_finals (retext text' q)) with (has_finals q). destruct (has_finals q); [|apply IH].
    rewrite max_end_text. change (p_finals (retext text' q)) with (p_finals q).
    destruct (max_end q (p_finals q) 0) as [m| | |]; try reflexivity. cbn [bind]. rewrite IH.
    destruct (max_all_loop _ _ _ text _ _ _ _ _); reflexivity.
  Qed.

  Lemma all_text fuel starts : forall toks n,
    all_loop tmatch ords gs text' fuel n toks starts = rmap (map (retext text')) (all_loop tmatch ords gs text fuel n toks starts).
  Proof.
    induction toks as [|k toks IH]; intros n; [reflexivity|]. cbn [all_loop].
    rewrite parse_text. destruct (earley_parse_n _ _ _ text _ _ _ _ _) as [q| | |]; try reflexivity. cbn [rmap bind].
    change (has_finals (retext text' q)) with (has_finals q). rewrite IH.
    destruct (all_loop _ _ _ text _ _ _ _) as [l| | |]; try reflexivity. cbn [rmap bind]. destruct (has_finals q); reflexivity.
  Qed.

  Lemma extract_text fuel ps :
    extract_parses fuel (map (retext text') ps) = rmap (map (retree text')) (extract_parses fuel ps).
  Proof.
    induction ps as [|p ps IH]; [reflexivity|]. cbn [map extract_parses].
    change (p_columns (retext text' p)) with (p_columns p). change (p_finals (retext text' p)) with (p_finals p).
    destruct (extract_finals fuel (p_columns p) (p_finals p)) as [ts| | |]; try reflexivity. cbn [bind]. rewrite IH.
    destruct (extract_parses fuel ps) as [l| | |]; try reflexivity. cbn [rmap bind]. rewrite map_app, !map_map. reflexivity.
  Qed.
End Text.

Section Calls.
  Variable tmatch : term -> option token -> bool.
  Variable ords : nat -> order.
  Variable gs : list grammar_rules.
  Variable annotate : string -> string -> res (list token).
  Variable local_grammar : list token -> res (option grammar_rules).
  Variables (ctx text : string) (starts : list string) (steps fuel : nat).

  Lemma process_trim text' : trim_space text' = trim_space text ->
    process annotate local_grammar ctx text' = process annotate local_grammar ctx text.
  Proof. intros E. unfold process. rewrite E. reflexivity. Qed.

  Lemma calls_fail : process annotate local_grammar ctx text = Err ->
    EarleyParse tmatch ords gs annotate local_grammar fuel ctx text starts = Err
    /\ EarleyParseAny tmatch ords gs annotate local_grammar fuel ctx text starts = Err
    /\ EarleyParseMaxAll tmatch ords gs annotate local_grammar steps fuel ctx text starts = Err
    /\ EarleyParseAll tmatch ords gs annotate local_grammar fuel ctx text starts = Err
    /\ Parse tmatch ords gs annotate local_grammar fuel ctx text starts = Err
    /\ ParseAny tmatch ords gs annotate local_grammar fuel ctx text starts = Err
    /\ ExtractMaxAll tmatch ords gs annotate local_grammar steps fuel ctx text starts = Err
    /\ ExtractAll tmatch ords gs annotate local_grammar fuel ctx text starts = Err.
  Proof.
    intros E. unfold Parse, ParseAny, ExtractMaxAll, ExtractAll, EarleyParse, EarleyParseAny, EarleyParseMaxAll, EarleyParseAll.
    rewrite E. repeat split; reflexivity.
  Qed.

  Lemma process_fails : blank text \/ (exists t, trimmed text t /\ annotate ctx t = Err)
      \/ (exists t doc, trimmed text t /\ annotate ctx t = Ret doc /\ Forall (fun k => tok_type k = KSpace) doc) ->
    process annotate local_grammar ctx text = Err.
  Proof.
    unfold process. intros [H|[(t & Ht & Ha)|(t & doc & Ht & Ha & F)]].
    - apply blank_trim in H. rewrite H. reflexivity.
    - apply trim_space_exact in Ht. rewrite Ht. destruct (String.eqb t ""); [reflexivity|]. rewrite Ha. reflexivity.
    - apply trim_space_exact in Ht. rewrite Ht. destruct (String.eqb t ""); [reflexivity|]. rewrite Ha. cbn [bind].
      replace (filter _ doc) with (@nil token); [reflexivity|]. clear Ha. induction F as [|k doc Hk F IH]; [reflexivity|].
      cbn [filter]. rewrite Hk. exact IH.
  Qed.

  Lemma calls_without_tokens : blank text \/ (exists t, trimmed text t /\ annotate ctx t = Err)
      \/ (exists t doc, trimmed text t /\ annotate ctx t = Ret doc /\ Forall (fun k => tok_type k = KSpace) doc) ->
    EarleyParse tmatch ords gs annotate local_grammar fuel ctx text starts = Err
    /\ EarleyParseAny tmatch ords gs annotate local_grammar fuel ctx text starts = Err
    /\ EarleyParseMaxAll tmatch ords gs annotate local_grammar steps fuel ctx text starts = Err
    /\ EarleyParseAll tmatch ords gs annotate local_grammar fuel ctx text starts = Err
    /\ Parse tmatch ords gs annotate local_grammar fuel ctx text starts = Err
    /\ ParseAny tmatch ords gs annotate local_grammar fuel ctx text starts = Err
    /\ ExtractMaxAll tmatch ords gs annotate local_grammar steps fuel ctx text starts = Err
    /\ ExtractAll tmatch ords gs annotate local_grammar fuel ctx text starts = Err.
  Proof. intros H. apply calls_fail, process_fails, H. Qed.

  Lemma calls_trimmed text' t : trimmed text t -> trimmed text' t ->
    EarleyParse tmatch ords gs annotate local_grammar fuel ctx text' starts
      = rmap (retext text') (EarleyParse tmatch ords gs annotate local_grammar fuel ctx text starts)
    /\ EarleyParseAny tmatch ords gs annotate local_grammar fuel ctx text' starts
      = rmap (option_map (retext text')) (EarleyParseAny tmatch ords gs annotate local_grammar fuel ctx text starts)
    /\ EarleyParseMaxAll tmatch ords gs annotate local_grammar steps fuel ctx text' starts
      = rmap (map (retext text')) (EarleyParseMaxAll tmatch ords gs annotate local_grammar steps fuel ctx text starts)
    /\ EarleyParseAll tmatch ords gs annotate local_grammar fuel ctx text' starts
      = rmap (map (retext text')) (EarleyParseAll tmatch ords gs annotate local_grammar fuel ctx text starts)
    /\ Parse tmatch ords gs annotate local_grammar fuel ctx text' starts
      = rmap (map (retree text')) (Parse tmatch ords gs annotate local_grammar fuel ctx text starts)
    /\ ParseAny tmatch ords gs annotate local_grammar fuel ctx text' starts
      = rmap (map (retree text')) (ParseAny tmatch ords gs annotate local_grammar fuel ctx text starts)
    /\ ExtractMaxAll tmatch ords gs annotate local_grammar steps fuel ctx text' starts
      = rmap (map (retree text')) (ExtractMaxAll tmatch ords gs annotate local_grammar steps fuel ctx text starts)
    /\ ExtractAll tmatch ords gs annotate local_grammar fuel ctx text' starts
      = rmap (map (retree text')) (ExtractAll tmatch ords gs annotate local_grammar fuel ctx text starts).
  Proof.
    intros H H'. apply trim_space_exact in H. apply trim_space_exact in H'. rewrite <- H in H'.
    assert (EarleyParse tmatch ords gs annotate local_grammar fuel ctx text' starts
      = rmap (retext text') (EarleyParse tmatch ords gs annotate local_grammar fuel ctx text starts)) as E1.
    { unfold EarleyParse. rewrite (process_trim text' H'). destruct (process _ _ _ text) as [[toks l]| | |]; try reflexivity. apply parse_text. }
    assert (EarleyParseAny tmatch ords gs annotate local_grammar fuel ctx text' starts
      = rmap (option_map (retext text')) (EarleyParseAny tmatch ords gs annotate local_grammar fuel ctx text starts)) as E2.
    { unfold EarleyParseAny. rewrite (process_trim text' H'). destruct (process _ _ _ text) as [[toks l]| | |]; try reflexivity.
      exact (any_text tmatch ords (with_local gs l) text text' fuel starts toks 0 None). }
    assert (EarleyParseMaxAll tmatch ords gs annotate local_grammar steps fuel ctx text' starts
      = rmap (map (retext text')) (EarleyParseMaxAll tmatch ords gs annotate local_grammar steps fuel ctx text starts)) as E3.
    { unfold EarleyParseMaxAll. rewrite (process_trim text' H'). destruct (process _ _ _ text) as [[toks l]| | |]; try reflexivity.
      apply max_all_text. }
    assert (EarleyParseAll tmatch ords gs annotate local_grammar fuel ctx text' starts
      = rmap (map (retext text')) (EarleyParseAll tmatch ords gs annotate local_grammar fuel ctx text starts)) as E4.
    { unfold EarleyParseAll. rewrite (process_trim text' H'). destruct (process _ _ _ text) as [[toks l]| | |]; try reflexivity.
      apply all_text. }
    repeat (split; [assumption|]). unfold Parse, ParseAny, ExtractMaxAll, ExtractAll. rewrite E1, E2, E3, E4.
    split; [|split; [|split]].
    - destruct (EarleyParse _ _ _ _ _ _ _ text _) as [p| | |]; try reflexivity. apply (extract_text text' fuel [p]).
    - destruct (EarleyParseAny _ _ _ _ _ _ _ text _) as [[p|]| | |]; try reflexivity. apply (extract_text text' fuel [p]).
    - destruct (EarleyParseMaxAll _ _ _ _ _ _ _ _ text _) as [p| | |]; try reflexivity. apply extract_text.
    - destruct (EarleyParseAll _ _ _ _ _ _ _ text _) as [p| | |]; try reflexivity. apply extract_text.
  Qed.
End Calls.
