(** C38: the texts FrameFMR gives for the frames of a text; C31 on texts without rules. *)
From Coq Require Import Permutation.
From Verif Require Import Base ModelTypes ModelText ModelEarley ModelTrees ModelApi ModelQuote ModelSem ModelReader ModelGrammar ModelFrames
  SpecTypes SpecGrammar SpecTree SpecApi SpecConstruct SpecSem SpecIndex SpecFrames SpecFrameFmr ProofFrameFmr ProofFrameFirst
  Examples ExamplesGrammar ExamplesFrames ExamplesFrameFmr.

(** FrameFMR returns exactly one text for each frame of MatchFrames, in some order. *)
Theorem C38_frame_texts : forall g key multi_match fo tmatch ords annotate local_grammar join_words float_string json is_print_hi call
  fuel ctx text fs,
  MatchFrames g key multi_match fo tmatch ords annotate local_grammar fuel ctx text = Ret fs ->
  (forall l, Permutation l (fo_result fo l)) -> forall l,
  FrameFMR g key multi_match fo tmatch ords annotate local_grammar join_words float_string json is_print_hi call fuel ctx text = Ret l ->
  exists vs, Permutation fs vs /\
    Forall2 (fun vf s => exists b, frame_body g (fst vf) = Ret b /\
      frame_text join_words float_string json is_print_hi call (kids_of key (snd vf) b) b s) vs l.
Proof. exact frame_fmr_texts. Qed.
Print Assumptions C38_frame_texts.

(** It returns iff every one of these frames has a text. *)
Theorem C38_returns_iff : forall g key multi_match fo tmatch ords annotate local_grammar join_words float_string json is_print_hi call
  fuel ctx text fs,
  MatchFrames g key multi_match fo tmatch ords annotate local_grammar fuel ctx text = Ret fs ->
  (forall l, Permutation l (fo_result fo l)) ->
  (exists l, FrameFMR g key multi_match fo tmatch ords annotate local_grammar join_words float_string json is_print_hi call fuel ctx text = Ret l)
  <-> forall vf, In vf fs -> exists s b, frame_body g (fst vf) = Ret b /\
        frame_text join_words float_string json is_print_hi call (kids_of key (snd vf) b) b s.
Proof. exact frame_fmr_all. Qed.
Print Assumptions C38_returns_iff.

(** Functions that fit their bodies never fail. *)
Theorem C38_total : forall g key multi_match fo tmatch ords annotate local_grammar join_words float_string json is_print_hi call
  fuel ctx text fs,
  MatchFrames g key multi_match fo tmatch ords annotate local_grammar fuel ctx text = Ret fs ->
  (forall l, Permutation l (fo_result fo l)) -> forall toks l, orders ords -> process annotate local_grammar ctx text = Ret (toks, l) ->
  (forall fs0 starts, get_candidates g key multi_match fo fuel text = Ret (fs0, starts) -> well_formed (with_local (all_rules g) l) starts) ->
  separated (with_local (all_rules g) l) -> functions_fit (with_local (all_rules g) l) -> frames_fit g ->
  exists out, FrameFMR g key multi_match fo tmatch ords annotate local_grammar join_words float_string json is_print_hi call fuel ctx text = Ret out
    /\ length out = length fs.
Proof. exact frame_fmr_total. Qed.
Print Assumptions C38_total.

(** The tree used for a rule of a frame is a longest one of its leftmost match. *)
Theorem C38_leftmost_longest : forall g rules, index_exact g rules ->
  forall key multi_match fo, frame_orders_ok fo ->
  forall tmatch ords annotate local_grammar fuel ctx text fs fs0 starts toks l, orders ords ->
  MatchFrames g key multi_match fo tmatch ords annotate local_grammar fuel ctx text = Ret fs ->
  (forall ms, multi_match (g_trie g) text = Ret ms -> NoDup (map fst ms)) ->
  get_candidates g key multi_match fo fuel text = Ret (fs0, starts) ->
  process annotate local_grammar ctx text = Ret (toks, l) ->
  let G := with_local (all_rules g) l in
  well_formed G starts -> separated G -> uniform_ranges G -> no_empty G -> any_named G ->
  forall v f b, In (v, f) fs -> frame_is g v b -> Forall plain_term (rb_terms b) -> NoDup (map key (rb_terms b)) ->
  forall t, In t (rb_terms b) ->
  match first_tree (slots_for key f t) with
  | None => t_type t = TNonterminal -> In (t_value t) starts -> forall i j, i < length toks -> ~ Match tmatch G toks (t_value t) i j
  | Some (p, n) => t_type t = TNonterminal /\ In (t_value t) starts /\ tree_of_parse p n /\
      exists i k q, parsed_tokens p (skipn i toks) /\ Match tmatch G toks (t_value t) i (i + k) /\
        (forall j, Match tmatch G toks (t_value t) i j -> j <= i + k) /\
        (forall i' j, i' < i -> ~ Match tmatch G toks (t_value t) i' j) /\
        erase n = PRule GammaRule (gamma_body (t_value t)) 0 k [q] /\
        tree_of G (accepts_by tmatch) (skipn i toks) own_range (nonterm (t_value t)) 0 k q
  end.
Proof. exact frame_kids. Qed.
Print Assumptions C38_leftmost_longest.

(** Words have no tree: $k for a word is null. *)
Theorem C38_words_are_null : forall g rules, index_exact g rules ->
  forall key multi_match fo, frame_orders_ok fo ->
  forall tmatch ords annotate local_grammar fuel ctx text fs,
  MatchFrames g key multi_match fo tmatch ords annotate local_grammar fuel ctx text = Ret fs ->
  (forall ms, multi_match (g_trie g) text = Ret ms -> NoDup (map fst ms)) ->
  forall v f b, In (v, f) fs -> frame_is g v b -> Forall plain_term (rb_terms b) -> NoDup (map key (rb_terms b)) ->
  forall t, In t (rb_terms b) -> t_type t <> TNonterminal -> first_tree (slots_for key f t) = None.
Proof. exact word_kid. Qed.
Print Assumptions C38_words_are_null.

Example C38_example :
  (exists rules, index_exact g_fmr rules) /\ frame_orders_ok xfo /\ frame_orders_ok xfo_rev /\
  (exists fs fs0 starts toks f,
  xframes g_fmr xfo text_moons = Ret fs /\
  get_candidates g_fmr xkey xmulti xfo 400 text_moons = Ret (fs0, starts) /\
  process xannotate (fun _ => Ret None) "" text_moons = Ret (toks, None) /\
  (forall ms, xmulti (g_trie g_fmr) text_moons = Ret ms -> NoDup (map fst ms)) /\
  well_formed (with_local (all_rules g_fmr) None) starts /\ separated (with_local (all_rules g_fmr) None) /\
  uniform_ranges (with_local (all_rules g_fmr) None) /\ no_empty (with_local (all_rules g_fmr) None) /\
  any_named (with_local (all_rules g_fmr) None) /\ functions_fit (with_local (all_rules g_fmr) None) /\ frames_fit g_fmr /\
  In (frame_key g_fmr "play", f) fs /\ frame_is g_fmr (frame_key g_fmr "play") (frame_alt g_fmr "play") /\
  Forall plain_term (rb_terms (frame_alt g_fmr "play")) /\ NoDup (map xkey (rb_terms (frame_alt g_fmr "play")))) /\
  xframe_fmr g_fmr xfo text_moons = Ret ["nf.play(, null, nf.again(" ++ quoted "blue moon again" ++ "))"]%string /\
  xframe_fmr g_fmr xfo "play say blue moon blue moon again" = Ret ["nf.play(, null, nf.song(" ++ quoted "bm" ++ "))"; "null"]%string /\
  xframe_fmr g_fmr xfo_rev "stop blue moon" = Ret ["nf.play(, null, nf.song(" ++ quoted "bm" ++ "))"; ""]%string.
Proof.
  split; [exact fmr_index|]. split; [exact xfo_ok|]. split; [exact xfo_rev_ok|]. split; [exact moons_case|].
  split; [vm_compute; reflexivity|]. split; vm_compute; reflexivity.
Qed.

(** The frames that are not complete are in the result too. *)
Theorem C38_only_complete_refuted : exists g v f text fs s out,
  xframes g xfo text = Ret fs /\ In (v, f) fs /\ fr_complete f = false /\
  xframe_fmr g xfo text = Ret out /\ In s out /\
  exists b, frame_body g v = Ret b /\ frame_text (join " ") (fun _ => "") (fun _ => "") (fun _ => false) (fun _ _ => Err) (kids_of xkey f b) b s.
Proof. exact incomplete_case. Qed.
Print Assumptions C38_only_complete_refuted.

(** A frame whose function has an @ argument makes FrameFMR panic. *)
Theorem C38_at_panics : forall g key multi_match fo tmatch ords annotate local_grammar join_words float_string json is_print_hi call
  fuel ctx text fs,
  MatchFrames g key multi_match fo tmatch ords annotate local_grammar fuel ctx text = Ret fs ->
  (forall l, Permutation l (fo_result fo l)) ->
  forall v f b fm, In (v, f) fs -> frame_body g v = Ret b -> rb_f b = Some fm ->
  reaches_at (fun a => exists s, AText join_words float_string json is_print_hi call (kids_of key f b) a s) fm ->
  (forall l, FrameFMR g key multi_match fo tmatch ords annotate local_grammar join_words float_string json is_print_hi call fuel ctx text <> Ret l) /\
  ((forall vf, In vf fs -> vf <> (v, f) -> exists s b, frame_body g (fst vf) = Ret b /\
      frame_text join_words float_string json is_print_hi call (kids_of key (snd vf) b) b s) ->
   FrameFMR g key multi_match fo tmatch ords annotate local_grammar join_words float_string json is_print_hi call fuel ctx text = Panic).
Proof. exact at_frame_panics. Qed.
Print Assumptions C38_at_panics.

Example C38_at_example : exists fs f fm,
  xframes g_at xfo "blue moon" = Ret fs /\ In (frame_key g_at "where", f) fs /\
  rb_f (frame_alt g_at "where") = Some fm /\ frame_body g_at (frame_key g_at "where") = Ret (frame_alt g_at "where") /\
  reaches_at (fun a => exists s, AText (join " ") (fun _ => "") (fun _ => "") (fun _ => false) (fun _ _ => Err)
    (kids_of xkey f (frame_alt g_at "where")) a s) fm /\
  xframe_fmr g_at xfo "blue moon" = Panic.
Proof. exact at_case. Qed.

(** A text whose words occur in frames but in no rule is an error: without start rules nothing is parsed. *)
Theorem C31_no_rules_fails : forall g rules, index_exact g rules ->
  forall key multi_match fo, frame_orders_ok fo ->
  forall tmatch ords annotate local_grammar fuel ctx text matches,
  multi_match (g_trie g) text = Ret matches ->
  (forall x, ~ wanted (rules :: map g_rules (g_includes g)) (map fst matches) x) ->
  (forall fs, MatchFrames g key multi_match fo tmatch ords annotate local_grammar fuel ctx text <> Ret fs) /\
  (forall fs starts toks l, get_candidates g key multi_match fo fuel text = Ret (fs, starts) ->
     process annotate local_grammar ctx text = Ret (toks, l) ->
     MatchFrames g key multi_match fo tmatch ords annotate local_grammar fuel ctx text = Err).
Proof. exact no_rules_fail. Qed.
Print Assumptions C31_no_rules_fails.

(** [stop] = "stop" is complete in "stop blue moon" and not found in "stop". *)
Example C31_no_rules_example :
  (exists rules matches, index_exact g_fmr rules /\ xmulti (g_trie g_fmr) "stop" = Ret matches /\
     forall x, ~ wanted (rules :: map g_rules (g_includes g_fmr)) (map fst matches) x) /\
  xframes g_fmr xfo "stop" = Err /\
  seen_frames (xframes g_fmr xfo "stop blue moon")
  = Some [("stop", true, [[(0, 4, 0)]]); ("play", false, [[(5, 14, 1)]])]%string.
Proof. split; [exact stop_case|]. split; vm_compute; reflexivity. Qed.
