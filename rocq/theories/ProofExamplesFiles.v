(** examples/builtin with its own grammar files. *)
From Coq Require Import Permutation.
From Verif Require Import Base ModelTypes ModelText ModelEarley ModelTrees ModelApi ModelQuote ModelSem ModelMath ModelFuncs ModelPrint ModelReader ModelGrammar ModelMatch ModelLocal ModelProgram ModelExamples
     SpecTypes SpecGrammar SpecTree SpecNotation SpecRefine SpecConstruct SpecSem SpecNode SpecApi SpecLocal SpecFuncs SpecEnd SpecMeaning SpecText
     ModelShipped SpecShipped ProofShippedUsable SpecArith SpecProgram SpecExamples ProofExamples.
Local Open Scope list_scope.

Lemma builtin_files e : env_ok e -> fractions_scan e -> e_regexp_ok e sf_pattern = true -> texts_have_tokens e ->
  String.prefix "g_t" (e_md5 e sf_pattern) = false ->
  forall dir, installed e dir dir_builtin ->
  forall name text0, In (name, text0) dir_builtin -> name <> rejected ->
  forall fuel0 depth0 gt g w', from_file e fuel0 depth0 (e_join e dir name) gt = Ret (Some g, w') ->
  forall start, start <> GammaRule -> String.prefix "g_t" start = false ->
  exists L, e_parts e text0 g L /\
  forall vm run fresh src t0 m0, run fresh src = Some (true, t0, m0) ->
  forall ords, (forall k, orders (ords k)) ->
  forall lords, (forall k i l, Permutation l (lords k i l)) ->
  forall find_all annotate input ie,
  (forall l, line_of l input -> trim_space l <> ""%string -> line_fits e (g_regexps g) find_all annotate l \/ line_refused annotate l) ->
  forall to_lower span_text join_words float_string json is_print_hi call panic_text,
  let tmatch := terminal_match (lookup (w_tokens w')) to_lower in
  let sayings := line_sayings e tmatch (map rd_before L) (g_regexps g) start find_all annotate join_words float_string is_print_hi in
  exists out r, lines_out vm (line_refused annotate) (builtin_text vm run sayings (line_size annotate)) false ie m0 input out r /\ r <> Fuel /\
    exists N, forall fuel steps, N <= fuel -> N <= steps ->
      builtin_program vm run fresh to_lower ords (e_hash e) find_all span_text lords annotate join_words float_string json is_print_hi call
        start panic_text fuel steps (from_file e fuel0 depth0 (e_join e dir name) gt) (Ret src) (Ret (input, ie))
      = match r with Panic => ((out ++ panic_text ++ newline)%string, Ret tt) | Err => (out, Err) | _ => (out, Ret tt) end.
Proof.
  intros HE HF HP HT HM dir Hi name text0 Hn Hr fuel0 depth0 gt g w' E start S1 S2.
  destruct (shipped_usable e HE HF HP HT HM dir_builtin dir ltac:(cbn; tauto) Hi name text0 Hn Hr _ _ _ _ _ E) as (L & HL & _ & HC & Hfit & HU).
  exists L. split; [exact HL|]. apply builtin_main with (text0 := text0); [exact E|exact HL| |].
  - apply HU; [|discriminate|intros S [<-|[]]; auto]. apply HC.
    destruct Hn as [[= <- _]|[[= <- _]|[[= <- _]|[]]]]; reflexivity.
  - apply Hfit. destruct Hn as [[= <- _]|[[= <- _]|[[= <- _]|[]]]]; discriminate.
Qed.
