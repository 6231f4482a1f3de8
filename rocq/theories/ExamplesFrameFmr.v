(** Frames with functions. *)
From Coq Require Import Ascii Permutation.
From Verif Require Import Base ModelTypes ModelText ModelEarley ModelTrees ModelApi ModelQuote ModelSem ModelReader ModelGrammar ModelFrames
  SpecTypes SpecGrammar SpecTree SpecApi SpecNotation SpecRefine SpecConstruct SpecSem SpecIndex SpecFrames SpecFrameFmr
  Examples ExamplesSem ExamplesGrammar ExamplesFrames ProofIndex ProofFrameFmr.

(** [play] = "play" <song> {nf.play($0, $1, $2)}; [stop] = "stop"; [say] = "say" {nf.I($1)};
    <song> = "blue moon" {nf.song("bm")} | "blue moon again" {nf.again($0)}; *)
Definition text_fmr : string :=
  ("[play] = " ++ quoted "play" ++ " <song> {nf.play($0, $1, $2)}; [stop] = " ++ quoted "stop"
   ++ "; [say] = " ++ quoted "say" ++ " {nf.I($1)}; <song> = " ++ quoted "blue moon" ++ " {nf.song(" ++ quoted "bm" ++ ")} | "
   ++ quoted "blue moon again" ++ " {nf.again($0)};")%string.
Definition g_fmr : grammar := the_grammar (from_string (xenv [] keep) 500 9 text_fmr "n" []).
(** [where] = <song> "where" {nf.where($1, @)}; [stop] = <song> "stop"; <song> = "blue moon"; *)
Definition text_at : string :=
  ("[where] = <song> " ++ quoted "where" ++ " {nf.where($1, @)}; [stop] = <song> " ++ quoted "stop"
   ++ "; <song> = " ++ quoted "blue moon" ++ ";")%string.
Definition g_at : grammar := the_grammar (from_string (xenv [] keep) 500 9 text_at "n" []).

Definition text_moons : string := "x play blue moon again blue moon".

Lemma text_index d g : (exists w', from_string (xenv [] keep) 500 9 d "n" [] = Ret (Some g, w')) ->
  exists rules, index_exact g rules.
Proof.
  intros (w' & E).
  destruct (env_index (xenv [] keep) (xenv_ok _ _ keep_ok) 500 9 d "n" [] g w') as [(ps & its & re & rules & H1 & _ & H2) H].
  - exact E.
  - exists rules. eapply H; eassumption.
Qed.
Lemma fmr_index : exists rules, index_exact g_fmr rules.
Proof. apply (text_index text_fmr). eexists; vm_compute; reflexivity. Qed.
Lemma at_index : exists rules, index_exact g_at rules.
Proof. apply (text_index text_at). eexists; vm_compute; reflexivity. Qed.

Definition frames_fit_b (g : grammar) : bool :=
  forallb (fun xr => forallb (fun hb => match rb_f (snd hb) with Some f => fun_ok_b (length (rb_terms (snd hb))) f | None => true end)
    (r_body (snd xr))) (g_frames g).
Lemma get_N_in {A} (m : list (N * A)) k a : get_N m k = Some a -> In (k, a) m.
Proof.
  induction m as [|[k' a'] m IH]; cbn [get_N In]; [discriminate|]. destruct (N.eqb_spec k' k) as [->|E]; [intros X; inversion X; auto|auto].
Qed.
Lemma frames_fit_b_ok g : frames_fit_b g = true -> frames_fit g.
Proof.
  unfold frames_fit_b, frames_fit, frame_body. intros H v b f Hb Hf. rewrite forallb_forall in H.
  destruct (lookup (g_frames g) (fst v)) as [r|] eqn:L; [|discriminate]. apply lookup_in in L. specialize (H _ L). cbn [snd] in H.
  rewrite forallb_forall in H. destruct (get_N (r_body r) (snd v)) as [b'|] eqn:G; [|discriminate]. injection Hb as ->.
  apply get_N_in in G. specialize (H _ G). cbn [snd] in H. rewrite Hf in H. apply fun_ok_b_ok. exact H.
Qed.

(** the grammar, the text and the frame [play] meet the hypotheses *)
Lemma moons_case : exists fs fs0 starts toks f,
  xframes g_fmr xfo text_moons = Ret fs /\
  get_candidates g_fmr xkey xmulti xfo 400 text_moons = Ret (fs0, starts) /\
  process xannotate (fun _ => Ret None) "" text_moons = Ret (toks, None) /\
  (forall ms, xmulti (g_trie g_fmr) text_moons = Ret ms -> NoDup (map fst ms)) /\
  well_formed (with_local (all_rules g_fmr) None) starts /\ separated (with_local (all_rules g_fmr) None) /\
  uniform_ranges (with_local (all_rules g_fmr) None) /\ no_empty (with_local (all_rules g_fmr) None) /\
  any_named (with_local (all_rules g_fmr) None) /\ functions_fit (with_local (all_rules g_fmr) None) /\ frames_fit g_fmr /\
  In (frame_key g_fmr "play", f) fs /\ frame_is g_fmr (frame_key g_fmr "play") (frame_alt g_fmr "play") /\
  Forall plain_term (rb_terms (frame_alt g_fmr "play")) /\ NoDup (map xkey (rb_terms (frame_alt g_fmr "play"))).
Proof.
  do 5 eexists. split; [vm_compute; reflexivity|]. split; [vm_compute; reflexivity|]. split; [vm_compute; reflexivity|].
  split; [intros ms H; vm_compute in H; inversion H; subst ms; cbn; repeat constructor; cbn; intuition discriminate|].
  split; [apply well_formed_b_ok; vm_compute; reflexivity|]. split; [apply separated_b_ok; vm_compute; reflexivity|].
  split; [apply uniform_b_ok; vm_compute; reflexivity|]. split; [apply noempty_b_ok; vm_compute; reflexivity|].
  split; [apply anynamed_b_ok; vm_compute; reflexivity|]. split; [apply fits_b_ok; vm_compute; reflexivity|].
  split; [apply frames_fit_b_ok; vm_compute; reflexivity|].
  split; [vm_compute; left; reflexivity|].
  split; [|split; [apply plain_b_ok; vm_compute; reflexivity|vm_compute; repeat constructor; cbn; intuition discriminate]].
  apply frame_is_ok; try (vm_compute; reflexivity).
  - vm_compute. repeat constructor; cbn; intuition discriminate.
  - intros r H. vm_compute in H. inversion H; subst r. vm_compute. repeat constructor; cbn; tauto.
Qed.

(** [play] is not complete on this text and yet its text is returned *)
Lemma incomplete_case : exists g v f text fs s out,
  xframes g xfo text = Ret fs /\ In (v, f) fs /\ fr_complete f = false /\
  xframe_fmr g xfo text = Ret out /\ In s out /\
  exists b, frame_body g v = Ret b /\ frame_text (join " ") (fun _ => "") (fun _ => "") (fun _ => false) (fun _ _ => Err) (kids_of xkey f b) b s.
Proof.
  destruct (xframes g_fmr xfo "stop blue moon") as [fs| | |] eqn:E; try (vm_compute in E; discriminate E).
  destruct (get_key fs (frame_key g_fmr "play")) as [f|] eqn:Ef.
  2: { vm_compute in E. injection E as <-. vm_compute in Ef. discriminate Ef. }
  assert (Hin : In (frame_key g_fmr "play", f) fs).
  { vm_compute in E. injection E as <-. vm_compute in Ef. injection Ef as <-. vm_compute. right. left. reflexivity. }
  exists g_fmr, (frame_key g_fmr "play"), f, "stop blue moon"%string, fs,
    ("nf.play(, null, nf.song(" ++ quoted "bm" ++ "))")%string, [""; "nf.play(, null, nf.song(" ++ quoted "bm" ++ "))"]%string.
  split; [exact E|]. split; [exact Hin|].
  split; [vm_compute in E; injection E as <-; vm_compute in Ef; injection Ef as <-; reflexivity|].
  split; [vm_compute; reflexivity|]. split; [right; left; reflexivity|].
  exists (frame_alt g_fmr "play"). split; [vm_compute; reflexivity|].
  refine (proj1 (frame_string_iff (join " ") (fun _ => "") (fun _ => "") (fun _ => false) (fun _ _ => Err) g_fmr xkey (frame_key g_fmr "play") f
    (frame_alt g_fmr "play") ("nf.play(, null, nf.song(" ++ quoted "bm" ++ "))") _) _); [vm_compute; reflexivity|].
  vm_compute in E. injection E as <-. vm_compute in Ef. injection Ef as <-. vm_compute. reflexivity.
Qed.

(** a frame with @ *)
Lemma reaches_where (texts : arg -> Prop) : texts (Arg "index" (VIdx 1)) ->
  reaches_at texts (FMR "nf.where" [Arg "index" (VIdx 1); Arg "context" (VStr "@")]).
Proof.
  intros H. apply (ra_call _ "nf.where" [Arg "index" (VIdx 1)] (Arg "context" (VStr "@")) []); [discriminate| |constructor].
  constructor; [exact H|constructor].
Qed.
Lemma first_text jw fl js hi call kids p n s : nth_error kids 0 = Some (Some (p, n)) -> semantic p jw fl js hi call n = Ret s ->
  exists s, AText jw fl js hi call kids (Arg "index" (VIdx 1)) s.
Proof.
  intros K1 K2. exists s. apply (at_tree _ _ _ _ _ _ 0 p n s K1). apply ProofSem.semantic_iff. exact K2.
Qed.
Lemma at_case : exists fs f fm,
  xframes g_at xfo "blue moon" = Ret fs /\ In (frame_key g_at "where", f) fs /\
  rb_f (frame_alt g_at "where") = Some fm /\ frame_body g_at (frame_key g_at "where") = Ret (frame_alt g_at "where") /\
  reaches_at (fun a => exists s, AText (join " ") (fun _ => "") (fun _ => "") (fun _ => false) (fun _ _ => Err)
    (kids_of xkey f (frame_alt g_at "where")) a s) fm /\
  xframe_fmr g_at xfo "blue moon" = Panic.
Proof.
  destruct (xframes g_at xfo "blue moon") as [fs| | |] eqn:E; try (vm_compute in E; discriminate E).
  destruct (get_key fs (frame_key g_at "where")) as [f|] eqn:Ef.
  2: { vm_compute in E. injection E as <-. vm_compute in Ef. discriminate Ef. }
  exists fs, f, (FMR "nf.where" [Arg "index" (VIdx 1); Arg "context" (VStr "@")]).
  split; [reflexivity|]. split.
  { vm_compute in E. injection E as <-. vm_compute in Ef. injection Ef as <-. vm_compute. left. reflexivity. }
  split; [vm_compute; reflexivity|]. split; [vm_compute; reflexivity|]. split; [|vm_compute; reflexivity].
  apply reaches_where.
  assert (K : exists p n s, nth_error (kids_of xkey f (frame_alt g_at "where")) 0 = Some (Some (p, n)) /\
    semantic p (join " ") (fun _ => "") (fun _ => "") (fun _ => false) (fun _ _ => Err) n = Ret s).
  { vm_compute in E. injection E as <-. vm_compute in Ef. injection Ef as <-. do 3 eexists.
    split; [vm_compute; reflexivity|]. vm_compute. reflexivity. }
  destruct K as (p & n & s & K1 & K2). exact (first_text _ _ _ _ _ _ p n s K1 K2).
Qed.

(** the words of "stop" occur in no rule *)
Lemma stop_case : exists rules matches, index_exact g_fmr rules /\ xmulti (g_trie g_fmr) "stop" = Ret matches /\
  forall x, ~ wanted (rules :: map g_rules (g_includes g_fmr)) (map fst matches) x.
Proof.
  destruct fmr_index as (rules & Hr). destruct (xmulti (g_trie g_fmr) "stop") as [ms| | |] eqn:E; try (vm_compute in E; discriminate E).
  assert (K : exists fs, get_candidates g_fmr xkey xmulti xfo 100 "stop" = Ret (fs, [])) by (eexists; vm_compute; reflexivity).
  destruct K as (fs & K). destruct (ProofFrames.starts_exact g_fmr rules Hr xkey xmulti xfo 100 "stop" fs [] ms xfo_ok E K) as [_ H].
  exists rules, ms. split; [exact Hr|]. split; [reflexivity|]. intros x Hx. apply H in Hx. destruct Hx.
Qed.
