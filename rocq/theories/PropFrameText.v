(** C57: matching frames, from the text of a grammar to the frames of a text. *)
From Coq Require Import Permutation Sorted.
From Verif Require Import Base ModelTypes ModelText ModelEarley ModelTrees ModelApi ModelQuote ModelSem ModelReader ModelGrammar ModelFrames ModelLocal ModelMatch
  SpecTypes SpecGrammar SpecNotation SpecRefine SpecConstruct SpecApi SpecSem SpecLocal SpecEnd SpecIndex SpecFrames SpecFrameText
  ProofFrameText ProofFrameWords Examples ExamplesLocal ExamplesGrammar ExamplesFrames ExamplesArith ExamplesFrameText.

(** When some rule of the text is looked for, MatchFrames returns frames of the text only.
    A term of a frame has as slots the places where its word was found, or one slot, with
    trees, for every place where its rule matches; a frame is complete exactly when there
    is something for each of its terms. When no rule is looked for, it returns an error. *)
Theorem C57_frames_of_text :
  forall e, env_ok e -> forall d0 g, read_as e d0 g -> g_includes g = [] ->
  forall L, e_parts e d0 g L -> sound_texts (e_tokenize e) L ->
  forall key multi_match fo tmatch ords find_all span_text ord annotate ctx text d matches,
  call_ready e g multi_match fo ords find_all ord annotate ctx text d matches ->
  let call := MatchFrames g key multi_match fo tmatch ords (doc_tokens annotate)
                (doc_local (e_hash e) find_all span_text (g_regexps g) ord annotate ctx text) in
  let before := map rd_before L in
  ((forall x, ~ wanted before (map fst matches) x) -> exists n, forall fuel, n <= fuel -> call fuel ctx text = Err) /\
  ((exists x, wanted before (map fst matches) x) ->
    exists fs n, (forall fuel, n <= fuel -> call fuel ctx text = Ret fs) /\
      (forall v f, In (v, f) fs -> exists b, frame_body g v = Ret b) /\
      forall v b, frame_body g v = Ret b -> Forall plain_term (rb_terms b) -> NoDup (map key (rb_terms b)) ->
        (forall t, In t (rb_terms b) ->
           term_filled (e_tokenize e) tmatch before find_all (g_regexps g) d matches t
             (match get_key fs v with Some f => slots_for key f t | None => [] end)) /\
        ((exists f, In (v, f) fs /\ fr_complete f = true) <->
         forall t, In t (rb_terms b) -> term_seen (e_tokenize e) tmatch before find_all (g_regexps g) d matches t)).
Proof. exact loaded_frames. Qed.
Print Assumptions C57_frames_of_text.

(** A rule that matches somewhere is looked for, when every alternative has a word or a
    rule of the text and every terminal text that matches was found as a word. *)
Theorem C57_nothing_missed :
  forall e d0 g L, e_parts e d0 g L -> unicode_tables (e_letter e) (e_digit e) -> forall tmatch find_all d matches,
  anchored (map rd_before L) find_all (g_regexps g) d ->
  words_found (e_tokenize e) tmatch (map rd_before L) d matches ->
  forall x i j, text_only find_all (g_regexps g) d x ->
  Means (e_tokenize e) tmatch (map rd_before L) find_all (g_regexps g) d x i j -> wanted (map rd_before L) (map fst matches) x.
Proof. exact nothing_missed. Qed.
Print Assumptions C57_nothing_missed.

(** The hypotheses hold for a small grammar with one frame, which "play blue moon again
    twice" completes; "blue moon" and "blue moon again" are both reported for <song>. *)
Example C57_example : exists L,
  env_ok fenv /\ read_as fenv text_play g_play /\ g_includes g_play = [] /\ e_parts fenv text_play g_play L /\ sound_texts xtokenize L /\
  call_ready fenv g_play xmulti xfo (fun _ => id_ord) xfind xorde word_annotate "" play_text (word_doc play_text) (found_words g_play play_text) /\
  (exists x, wanted (map rd_before L) (map fst (found_words g_play play_text)) x) /\
  anchored (map rd_before L) xfind (g_regexps g_play) (word_doc play_text) /\
  words_found xtokenize xmatch (map rd_before L) (word_doc play_text) (found_words g_play play_text) /\
  Forall plain_term (rb_terms (frame_alt g_play "play")) /\ NoDup (map xkey (rb_terms (frame_alt g_play "play"))) /\
  seen_frames (frame_call g_play 400 play_text) = Some [("play", true, [[(0, 4, 0)]; [(5, 20, 1); (5, 14, 1)]; [(21, 26, 1)]])]%string.
Proof.
  destruct play_parts as (p & P1 & P2 & P3 & P4 & P5). exists [p]. split; [exact fenv_ok|]. split; [exact (loads_text _ _ _ play_load)|].
  split; [reflexivity|]. split; [exact P1|]. split; [exact P2|]. split; [exact play_ready|]. split; [exact P5|]. split; [exact P3|]. split; [exact P4|].
  split; [apply plain_b_ok; vm_compute; reflexivity|]. split; [vm_compute; repeat constructor; cbn; intuition discriminate|]. vm_compute. reflexivity.
Qed.

(** Lists are not indexed: a rule made of a list matches, nothing looks for it, and the
    frame that uses it stays incomplete, though every word of the text is found. *)
Theorem C57_lists_refuted : exists p v b t fs n,
  env_ok fenv /\ read_as fenv text_tune g_tune /\ g_includes g_tune = [] /\ e_parts fenv text_tune g_tune [p] /\ sound_texts xtokenize [p] /\
  call_ready fenv g_tune xmulti xfo (fun _ => id_ord) xfind xorde word_annotate "" tune_text (word_doc tune_text) (found_words g_tune tune_text) /\
  words_found xtokenize xmatch [rd_before p] (word_doc tune_text) (found_words g_tune tune_text) /\
  frame_body g_tune v = Ret b /\ rb_terms b = [word_term "play"; t] /\ t = nonterm "tune" /\
  Means xtokenize xmatch [rd_before p] xfind (g_regexps g_tune) (word_doc tune_text) "tune" 1 3 /\
  (forall fuel, n <= fuel -> frame_call g_tune fuel tune_text = Ret fs) /\
  (match get_key fs v with Some f => slots_for xkey f t | None => [] end) = [] /\
  ~ exists f, In (v, f) fs /\ fr_complete f = true.
Proof. exact tune_refuted. Qed.
Print Assumptions C57_lists_refuted.

(** Words are searched for as they are written: with two blanks in the grammar and one in
    the text the rule matches, nothing looks for it, and MatchFrames returns an error. *)
Theorem C57_spelling_refuted : exists p n,
  env_ok fenv /\ read_as fenv text_wide g_wide /\ g_includes g_wide = [] /\ e_parts fenv text_wide g_wide [p] /\ sound_texts xtokenize [p] /\
  call_ready fenv g_wide xmulti xfo (fun _ => id_ord) xfind xorde word_annotate "" wide_text (word_doc wide_text) (found_words g_wide wide_text) /\
  anchored [rd_before p] xfind (g_regexps g_wide) (word_doc wide_text) /\
  Means xtokenize xmatch [rd_before p] xfind (g_regexps g_wide) (word_doc wide_text) "song" 1 3 /\
  rb_terms (frame_alt g_wide "play") = [word_term "play"; nonterm "song"] /\
  In "play"%string (map fst (found_words g_wide wide_text)) /\
  forall fuel, n <= fuel -> frame_call g_wide fuel wide_text = Err.
Proof. exact wide_refuted. Qed.
Print Assumptions C57_spelling_refuted.
