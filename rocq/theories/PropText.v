(** C42: the text of a call. [blank], [trimmed]: SpecText.v. *)
From Verif Require Import Base ModelTypes ModelText ModelEarley ModelTrees ModelApi SpecText ProofTrim ProofText Examples.

(** strings.TrimSpace as modelled removes exactly the white space around a text. *)
Theorem C42_trim_exact : forall text t, trim_space text = t <-> trimmed text t.
Proof. exact trim_space_exact. Qed.
Print Assumptions C42_trim_exact.

Theorem C42_trim_blank : forall text, trim_space text = "" <-> blank text.
Proof. exact blank_trim. Qed.
Print Assumptions C42_trim_blank.

(** Every call fails, without parsing, on blank texts, on texts the pipeline
    cannot annotate, and on documents made of space tokens. *)
Theorem C42_no_tokens : forall tmatch ords gs annotate local_grammar ctx text starts steps fuel,
  blank text \/ (exists t, trimmed text t /\ annotate ctx t = Err)
    \/ (exists t doc, trimmed text t /\ annotate ctx t = Ret doc /\ Forall (fun k => tok_type k = KSpace) doc) ->
  EarleyParse tmatch ords gs annotate local_grammar fuel ctx text starts = Err
  /\ EarleyParseAny tmatch ords gs annotate local_grammar fuel ctx text starts = Err
  /\ EarleyParseMaxAll tmatch ords gs annotate local_grammar steps fuel ctx text starts = Err
  /\ EarleyParseAll tmatch ords gs annotate local_grammar fuel ctx text starts = Err
  /\ Parse tmatch ords gs annotate local_grammar fuel ctx text starts = Err
  /\ ParseAny tmatch ords gs annotate local_grammar fuel ctx text starts = Err
  /\ ExtractMaxAll tmatch ords gs annotate local_grammar steps fuel ctx text starts = Err
  /\ ExtractAll tmatch ords gs annotate local_grammar fuel ctx text starts = Err.
Proof. exact calls_without_tokens. Qed.
Print Assumptions C42_no_tokens.

(** White space around the text changes nothing but the text that the parses
    keep: the same outcome, the same charts, final states and trees. *)
Theorem C42_same_trimmed : forall tmatch ords gs annotate local_grammar ctx text starts steps fuel text' t,
  trimmed text t -> trimmed text' t ->
  EarleyParse tmatch ords gs annotate local_grammar fuel ctx text' starts
    = rmap (retext text') (EarleyParse tmatch ords gs annotate local_grammar fuel ctx text starts)
  /\ EarleyParseAny tmatch ords gs annotate local_grammar fuel ctx text' starts
    = rmap (option_map (retext text')) (EarleyParseAny tmatch ords gs annotate local_grammar fuel ctx text starts)
  /\ EarleyParseMaxAll tmatch ords gs annotate local_grammar steps fuel ctx text' starts
    = rmap (map (retext text')) (EarleyParseMaxAll tmatch ords gs annotate local_grammar steps fuel ctx text starts)
  /\ EarleyParseAll tmatch ords gs annotate local_grammar fuel ctx text' starts
    = rmap (map (retext text')) (EarleyParseAll tmatch ords gs annotate local_grammar fuel ctx text starts)
  /\ Parse tmatch ords gs annotate local_grammar fuel ctx text' starts
    = rmap (map (retree text')) (Parse tmatch ords gs annotate local_grammar fuel ctx text starts)
  /\ ParseAny tmatch ords gs annotate local_grammar fuel ctx text' starts
    = rmap (map (retree text')) (ParseAny tmatch ords gs annotate local_grammar fuel ctx text starts)
  /\ ExtractMaxAll tmatch ords gs annotate local_grammar steps fuel ctx text' starts
    = rmap (map (retree text')) (ExtractMaxAll tmatch ords gs annotate local_grammar steps fuel ctx text starts)
  /\ ExtractAll tmatch ords gs annotate local_grammar fuel ctx text' starts
    = rmap (map (retree text')) (ExtractAll tmatch ords gs annotate local_grammar fuel ctx text starts).
Proof. exact calls_trimmed. Qed.
Print Assumptions C42_same_trimmed.

(** a no-break space, a tab and a line end around "a b"; only white space *)
Example C42_example :
  trimmed (encode [160; 9]%Z ++ "a b" ++ encode [10]%Z) "a b" /\ trimmed "a b" "a b"
  /\ blank (encode [12288; 32]%Z)
  /\ trim_space (encode [160; 9]%Z ++ "a b" ++ encode [10]%Z) = "a b".
Proof.
  split; [apply trim_space_exact; vm_compute; reflexivity|]. split; [apply trim_space_exact; vm_compute; reflexivity|].
  split; [|vm_compute; reflexivity]. exists [12288; 32]%Z. split; [|reflexivity].
  repeat constructor; unfold white; cbn; lia.
Qed.
