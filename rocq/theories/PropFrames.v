(** C29 - C31: the index of a grammar, the candidate rules of a text and the
    frames filled by MatchFrames. *)
From Verif Require Import Base ModelTypes ModelText ModelEarley ModelTrees ModelApi ModelReader ModelGrammar ModelFrames
  SpecNotation SpecConstruct SpecIndex SpecFrames ProofIndex ProofFrames ProofSlots Examples ExamplesGrammar ExamplesFrames.

(** * C29 *)
(** [its]: the rules and frames of the text; [rules]: its rules as a map. *)
Theorem C29_index_exact : forall e, env_ok e -> forall fuel depth d name gt g w',
  from_string e fuel depth d name gt = Ret (Some g, w') ->
  (exists ps its re rules, e_text e d ps its re /\ denotes (e_hash e) its true (g_frames g) /\ denotes (e_hash e) its false rules) /\
  forall ps its re rules, e_text e d ps its re -> denotes (e_hash e) its false rules -> index_exact g rules.
Proof. exact env_index. Qed.
Print Assumptions C29_index_exact.

Theorem C29_file_index_exact : forall e, env_ok e -> forall fuel depth file gt g w',
  from_file e fuel depth file gt = Ret (Some g, w') ->
  exists d, e_read e file = Ret d /\
  (exists ps its re rules, e_text e d ps its re /\ denotes (e_hash e) its true (g_frames g) /\ denotes (e_hash e) its false rules) /\
  forall ps its re rules, e_text e d ps its re -> denotes (e_hash e) its false rules -> index_exact g rules.
Proof. exact env_file_index. Qed.
Print Assumptions C29_file_index_exact.

(** The included <b> = "x y" has been refined already when the index is built:
    its text is found by its words, through the rule g_t_x_y. *)
Example C29_example :
  (exists rules, index_exact g_included rules) /\ (exists rules, index_exact g_frames_text rules) /\
  g_trie g_included = ["foo"; "x"; "y"]%string /\
  seen_index (g_index g_included)
  = [("foo", ["fr"], ["a"]); ("x", [], ["g_t_x_y"]); ("y", [], ["g_t_x_y"])]%string /\
  seen_index (g_rule_index g_included) = [("b", ["fx"], []); ("g_t_x_y", [], ["b"])]%string /\
  seen_index (g_index g_frames_text)
  = [("play", ["play"], []); ("go", ["twice"], []); ("hey", ["shout"], []); ("blue moon", [], ["song"]);
     ("again", [], ["more"]); ("x", [], ["other"])]%string /\
  seen_index (g_rule_index g_frames_text) = [("song", ["play"], ["song"; "more"]); ("more", [], ["song"])]%string.
Proof. split; [exact included_index|]. split; [exact frames_text_index|]. vm_compute. repeat split. Qed.

(** * C30 *)
Theorem C30_start_rules_exact : forall g rules, index_exact g rules ->
  forall key multi_match fo fuel text fs starts matches, frame_orders_ok fo ->
  multi_match (g_trie g) text = Ret matches ->
  get_candidates g key multi_match fo fuel text = Ret (fs, starts) ->
  NoDup starts /\ forall x, In x starts <-> wanted (rules :: map g_rules (g_includes g)) (map fst matches) x.
Proof. exact starts_exact. Qed.
Print Assumptions C30_start_rules_exact.

(** The number of steps is bounded by a number that depends on the grammar only. *)
Theorem C30_terminates : forall g key multi_match, (forall text, multi_match (g_trie g) text <> Fuel) ->
  exists n, forall fo fuel text, frame_orders_ok fo -> n <= fuel ->
    get_candidates g key multi_match fo fuel text <> Fuel.
Proof. exact candidates_stop. Qed.
Print Assumptions C30_terminates.

(** <song> and <more> mention each other. *)
Example C30_example :
  (exists rules, index_exact g_frames_text rules) /\ frame_orders_ok xfo /\ frame_orders_ok xfo_rev /\
  xstarts g_frames_text xfo "play blue moon" = Ret ["song"; "more"]%string /\
  xstarts g_frames_text xfo_rev "again" = Ret ["song"; "more"]%string.
Proof. split; [exact frames_text_index|]. split; [exact xfo_ok|]. split; [exact xfo_rev_ok|]. split; vm_compute; reflexivity. Qed.

(** * C31 *)
Theorem C31_complete_iff_filled : forall g rules, index_exact g rules ->
  forall key multi_match fo, frame_orders_ok fo ->
  forall tmatch ords annotate local_grammar fuel ctx text fs,
  MatchFrames g key multi_match fo tmatch ords annotate local_grammar fuel ctx text = Ret fs ->
  forall v f b, In (v, f) fs -> frame_is g v b -> Forall plain_term (rb_terms b) ->
  (NoDup (map key (rb_terms b)) ->
     (fr_complete f = true <-> forall t, In t (rb_terms b) -> slots_for key f t <> [])) /\
  (~ NoDup (map key (rb_terms b)) -> fr_complete f = false).
Proof. exact frames_complete. Qed.
Print Assumptions C31_complete_iff_filled.

Theorem C31_repeated_never_complete : forall g rules, index_exact g rules ->
  forall key multi_match fo, frame_orders_ok fo ->
  forall tmatch ords annotate local_grammar fuel ctx text fs,
  MatchFrames g key multi_match fo tmatch ords annotate local_grammar fuel ctx text = Ret fs ->
  forall v f b, In (v, f) fs -> frame_is g v b -> Forall plain_term (rb_terms b) -> ~ NoDup (rb_terms b) ->
  fr_complete f = false.
Proof. exact repeated_incomplete. Qed.
Print Assumptions C31_repeated_never_complete.

(** The slots of a frame are the hits of its words and the final states of its
    rules; the frame is complete iff there is one for each term. *)
Theorem C31_slots_exact : forall g rules, index_exact g rules ->
  forall key multi_match fo, frame_orders_ok fo ->
  forall tmatch ords annotate local_grammar fuel ctx text fs,
  MatchFrames g key multi_match fo tmatch ords annotate local_grammar fuel ctx text = Ret fs ->
  (forall ms, multi_match (g_trie g) text = Ret ms -> NoDup (map fst ms)) ->
  exists matches fs0 starts ps, multi_match (g_trie g) text = Ret matches /\
    get_candidates g key multi_match fo fuel text = Ret (fs0, starts) /\
    EarleyParseAll tmatch ords (all_rules g) annotate local_grammar fuel ctx text starts = Ret ps /\
    forall v b, frame_is g v b -> Forall plain_term (rb_terms b) -> NoDup (map key (rb_terms b)) -> rb_terms b <> [] ->
      (forall t, In t (rb_terms b) ->
         match get_key fs v with Some f => slots_for key f t | None => [] end = found matches fuel ps t) /\
      ((exists f, In (v, f) fs /\ fr_complete f = true) <-> forall t, In t (rb_terms b) -> found matches fuel ps t <> []).
Proof. exact frames_found. Qed.
Print Assumptions C31_slots_exact.

Example C31_example :
  (exists rules, index_exact g_frames_text rules) /\ frame_orders_ok xfo /\
  frame_is g_frames_text (frame_key g_frames_text "play") (frame_alt g_frames_text "play") /\
  Forall plain_term (rb_terms (frame_alt g_frames_text "play")) /\
  NoDup (map xkey (rb_terms (frame_alt g_frames_text "play"))) /\
  frame_is g_frames_text (frame_key g_frames_text "twice") (frame_alt g_frames_text "twice") /\
  Forall plain_term (rb_terms (frame_alt g_frames_text "twice")) /\
  ~ NoDup (rb_terms (frame_alt g_frames_text "twice")) /\
  (forall ms, xmulti (g_trie g_frames_text) text_song = Ret ms -> NoDup (map fst ms)) /\
  seen_frames (xframes g_frames_text xfo text_song)
  = Some [("play", true, [[(0, 4, 0)]; [(5, 20, 1); (5, 14, 1)]]);
          ("twice", false, [[(21, 23, 0)]]); ("shout", true, [[(24, 27, 0)]])]%string /\
  seen_frames (xframes g_frames_text xfo "play again") = Some [("play", false, [[(0, 4, 0)]])]%string.
Proof.
  split; [exact frames_text_index|]. split; [exact xfo_ok|]. split; [exact play_frame|].
  split; [apply plain_b_ok; vm_compute; reflexivity|].
  split; [vm_compute; repeat constructor; cbn; intuition discriminate|]. split; [exact twice_frame|].
  split; [apply plain_b_ok; vm_compute; reflexivity|].
  split; [vm_compute; intros H; inversion H; cbn in *; tauto|].
  split; [intros ms H; vm_compute in H; inversion H; subst ms; cbn; repeat constructor; cbn; intuition discriminate|].
  split; vm_compute; reflexivity.
Qed.

(** [shout] = "(?i)hey" is Complete on a text with hey although its term has no slot:
    the slot is stored under the key of the term without flags. *)
Theorem C31_flags_refuted : exists g rules v f b t fs,
  index_exact g rules /\ frame_is g v b /\ rb_terms b = [t] /\ t_type t = TTerminal /\
  xframes g xfo text_song = Ret fs /\ In (v, f) fs /\
  fr_complete f = true /\ slots_for xkey f t = [].
Proof. exact shout_complete. Qed.
Print Assumptions C31_flags_refuted.

Theorem C31_included_word_panics : forall g rules, index_exact g rules ->
  forall key multi_match fo, frame_orders_ok fo ->
  forall tmatch ords annotate local_grammar fuel ctx text matches w v,
  multi_match (g_trie g) text = Ret matches -> (forall w, In w (map fst matches) -> In w (g_trie g)) ->
  In w (map fst matches) -> mentioned (map g_frames (g_includes g)) TTerminal w v ->
  (forall r b, lookup (g_frames g) (fst v) = Some r -> ~ In (snd v, b) (r_body r)) ->
  MatchFrames g key multi_match fo tmatch ords annotate local_grammar fuel ctx text = Panic.
Proof. exact included_panics. Qed.
Print Assumptions C31_included_word_panics.

Theorem C31_included_rule_fails : forall g rules, index_exact g rules ->
  forall key multi_match fo, frame_orders_ok fo ->
  forall tmatch ords annotate local_grammar fuel ctx text fs fs0 starts ps p ref tg s v,
  get_candidates g key multi_match fo fuel text = Ret (fs0, starts) ->
  EarleyParseAll tmatch ords (all_rules g) annotate local_grammar fuel ctx text starts = Ret ps ->
  In p ps -> In ref (p_finals p) -> final_slot fuel p ref = Ret (tg, s) ->
  mentioned (map g_frames (g_includes g)) TNonterminal tg v ->
  (forall r b, lookup (g_frames g) (fst v) = Some r -> ~ In (snd v, b) (r_body r)) ->
  MatchFrames g key multi_match fo tmatch ords annotate local_grammar fuel ctx text <> Ret fs.
Proof. exact included_rule_fails. Qed.
Print Assumptions C31_included_rule_fails.

Example C31_included_example :
  (exists rules, index_exact g_included rules) /\
  xmulti (g_trie g_included) "foo" = Ret [("foo", [(0, 3)])]%string /\
  (exists v, mentioned (map g_frames (g_includes g_included)) TTerminal "foo" v) /\
  g_frames g_included = [] /\
  panics (xframes g_included xfo "foo") = true /\ panics (xframes g_included xfo "x y") = true.
Proof. exact included_example. Qed.
