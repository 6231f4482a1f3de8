(** Small grammars with frames. *)
From Coq Require Import Ascii Permutation.
From Verif Require Import Base ModelTypes ModelText ModelEarley ModelTrees ModelApi ModelQuote ModelSem ModelReader ModelGrammar ModelFrames
  SpecGrammar SpecNotation SpecRefine SpecConstruct SpecIndex SpecFrames Examples ExamplesGrammar ProofRefine ProofIndex.

(** a key that keeps terms apart *)
Definition xkey (t : term) : N :=
  xhash_string (t_value t)
    (match t_type t with TNonterminal => 1 | TTerminal => 2 | _ => 3 end
     + 5 * match t_meta t with MNil => 0 | _ => 1 end)%N.
(** the positions of a word in a text *)
Fixpoint xhits (w text : string) (i : nat) : list (nat * nat) :=
  let rest := match text with EmptyString => [] | String _ text' => xhits w text' (S i) end in
  if String.prefix w text then (i, i + String.length w) :: rest else rest.
Definition xmulti (trie : list string) (text : string) : res (list (string * list (nat * nat))) :=
  Ret (filter (fun wh => match snd wh with [] => false | _ => true end) (map (fun w => (w, xhits w text 0)) trie)).
Definition xfo : frame_orders := mkFO (fun l => l) (fun _ l => l) (fun _ l => l) (fun l => l) (fun _ l => l) (fun l => l) (fun _ _ l => l) (fun l => l).
Definition xfo_rev : frame_orders :=
  mkFO (@rev _) (fun _ => @rev _) (fun _ => @rev _) (@rev _) (fun _ => @rev _) (@rev _) (fun _ _ => @rev _) (@rev _).
Lemma xfo_ok : frame_orders_ok xfo.
Proof. repeat split; intros; apply Permutation_refl. Qed.
Lemma xfo_rev_ok : frame_orders_ok xfo_rev.
Proof. repeat split; intros; apply Permutation_rev. Qed.

(** tokens of a text with their byte positions *)
Fixpoint xplaced (i at_ : nat) (l : list string) : list token :=
  match l with
  | [] => []
  | s :: l' => mkTok s (if String.eqb s " " then KSpace else KWord) at_ (at_ + String.length s) i s s s
               :: xplaced (S i) (at_ + String.length s) l'
  end.
Definition xannotate (_ text : string) : res (list token) := Ret (xplaced 0 0 (xsplit text "")).

(** [play] = "play" <song> {nf.play($2)}; [twice] = "go" "go"; [shout] = "(?i)hey";
    <song> = "blue moon" | <song> <more>; <more> = "again" | <song>; *)
Definition text_frames : string :=
  ("[play] = " ++ quoted "play" ++ " <song> {nf.play($2)}; [twice] = " ++ quoted "go" ++ " " ++ quoted "go"
   ++ "; [shout] = " ++ quoted "(?i)hey" ++ "; <song> = " ++ quoted "blue moon" ++ " | <song> <more>; <more> = "
   ++ quoted "again" ++ " | <song>; <other> = " ++ quoted "x" ++ ";")%string.
(** #include "i" <a> = "foo"; with the file [fr] = "foo"; <b> = "x y"; *)
Definition text_included : string := ("#include " ++ quoted "i" ++ " <a> = " ++ quoted "foo" ++ ";")%string.
Definition file_included : list (string * string) :=
  [("./i", ("[fr] = " ++ quoted "foo" ++ "; [fx] = <b>; <b> = " ++ quoted "x y" ++ ";")%string)].

Definition the_grammar (r : res (option grammar * world)) : grammar :=
  match r with Ret (Some g, _) => g | _ => mkGrammar "" [] [] [] false [] [] [] [] end.
Definition g_frames_text : grammar := the_grammar (from_string (xenv [] keep) 400 9 text_frames "n" []).
Definition g_included : grammar := the_grammar (from_string (xenv file_included keep) 400 9 text_included "n" []).

Definition xframes (g : grammar) (fo : frame_orders) (text : string) : res frames :=
  MatchFrames g xkey xmulti fo xmatch (fun _ => id_ord) xannotate (fun _ => Ret None) 400 "" text.
Definition seen_frames (r : res frames) : option (list (string * bool * list (list (nat * nat * nat)))) :=
  match r with
  | Ret fs => Some (map (fun vf => (fst (fst vf), fr_complete (snd vf),
      map (fun ks => map (fun s => (sl_start s, sl_end s, length (sl_trees s))) (snd ks)) (fr_slots (snd vf)))) fs)
  | _ => None
  end.
Definition seen_index (ix : indexes) : list (string * list string * list string) :=
  map (fun ki => (fst ki, map fst (ix_frames (snd ki)), map fst (ix_rules (snd ki)))) ix.
Definition xframe_fmr (g : grammar) (fo : frame_orders) (text : string) : res (list string) :=
  FrameFMR g xkey xmulti fo xmatch (fun _ => id_ord) xannotate (fun _ => Ret None)
    (join " ") (fun _ => "") (fun _ => "") (fun _ => false) (fun _ _ => Err) 400 "" text.

(** outcomes *)
Definition panics {A} (r : res A) : bool := match r with Panic => true | _ => false end.

(** the rules of the two texts before refinement exist; used to instantiate the theorems *)
Lemma frames_text_index : exists rules, index_exact g_frames_text rules.
Proof.
  assert (E : exists w', from_string (xenv [] keep) 400 9 text_frames "n" [] = Ret (Some g_frames_text, w'))
    by (eexists; vm_compute; reflexivity).
  destruct E as (w' & E).
  destruct (env_index (xenv [] keep) (xenv_ok _ _ keep_ok) 400 9 text_frames "n" [] g_frames_text w') as [(ps & its & re & rules & H1 & _ & H2) H].
  - exact E.
  - exists rules. eapply H; eassumption.
Qed.
Lemma included_index : exists rules, index_exact g_included rules.
Proof.
  assert (E : exists w', from_string (xenv file_included keep) 400 9 text_included "n" [] = Ret (Some g_included, w'))
    by (eexists; vm_compute; reflexivity).
  destruct E as (w' & E).
  destruct (env_index (xenv file_included keep) (xenv_ok _ _ keep_ok) 400 9 text_included "n" [] g_included w') as [(ps & its & re & rules & H1 & _ & H2) H].
  - exact E.
  - exists rules. eapply H; eassumption.
Qed.

(** the key and the body of the only alternative of a frame *)
Definition frame_key (g : grammar) (x : string) : rbkey :=
  match lookup (g_frames g) x with Some r => match r_body r with (h, _) :: _ => (x, h) | [] => (x, 0%N) end | None => (x, 0%N) end.
Definition frame_alt (g : grammar) (x : string) : rulebody :=
  match frame_body g (frame_key g x) with Ret b => b | _ => mkRb [] None end.

Definition plain_b (t : term) : bool :=
  match t_type t with
  | TTerminal | TNonterminal => match t_meta t with MNil => String.eqb (trim_space (t_value t)) (t_value t) | _ => false end
  | _ => true
  end.
Lemma plain_b_ok ts : forallb plain_b ts = true -> Forall plain_term ts.
Proof.
  intros H. apply Forall_forall. intros t Ht. rewrite forallb_forall in H. specialize (H t Ht). unfold plain_b in H.
  intros [E|E]; rewrite E in H; destruct (t_meta t); try discriminate; apply String.eqb_eq in H; auto.
Qed.
(** for grammars without includes *)
Lemma frame_is_ok g v b : g_includes g = [] -> NoDup (map fst (g_frames g)) ->
  forallb (fun xr => String.eqb (fst xr) (r_name (snd xr))) (g_frames g) = true ->
  (forall r, lookup (g_frames g) (fst v) = Some r -> NoDup (map fst (r_body r))) ->
  frame_body g v = Ret b -> frame_is g v b.
Proof.
  intros Hi N Hn Hb H. rewrite forallb_forall in Hn. split; [exact H|]. split.
  - intros r L. apply lookup_in in L. specialize (Hn _ L). apply String.eqb_eq in Hn. cbn [fst snd] in Hn. congruence.
  - rewrite Hi. cbn [map]. intros m x r b' [<-|[]] Hr Hv Hb'. pose proof (Hn _ Hr) as E. apply String.eqb_eq in E. cbn [fst snd] in E.
    rewrite Hv in E. subst x. apply ProofRefine.in_lookup in Hr; [|exact N]. unfold frame_body in H. rewrite Hr in H.
    specialize (Hb _ Hr). revert H Hb' Hb. clear. induction (r_body r) as [|[h b1] l IH]; cbn [get_N In map fst]; [intros _ []|].
    destruct (N.eqb_spec h (snd v)) as [->|E]; intros H Hb N; inversion N; subst.
    + inversion H; subst. destruct Hb as [Hb|Hb]; [congruence|]. destruct H2. apply in_map_iff. exists (snd v, b'). auto.
    + destruct Hb as [Hb|Hb]; [congruence|]. auto.
Qed.

Definition text_song : string := "play blue moon again go hey".
Definition xstarts (g : grammar) (fo : frame_orders) (text : string) : res (list string) :=
  '(_, starts) <- get_candidates g xkey xmulti fo 100 text ;; Ret starts.

(** the frames [play] and [twice] meet the hypotheses of the theorems on frames *)
Lemma play_frame : frame_is g_frames_text (frame_key g_frames_text "play") (frame_alt g_frames_text "play").
Proof.
  apply frame_is_ok; try (vm_compute; reflexivity).
  - vm_compute. repeat constructor; cbn; intuition discriminate.
  - intros r H. vm_compute in H. inversion H; subst r. vm_compute. repeat constructor; cbn; tauto.
Qed.
Lemma twice_frame : frame_is g_frames_text (frame_key g_frames_text "twice") (frame_alt g_frames_text "twice").
Proof.
  apply frame_is_ok; try (vm_compute; reflexivity).
  - vm_compute. repeat constructor; cbn; intuition discriminate.
  - intros r H. vm_compute in H. inversion H; subst r. vm_compute. repeat constructor; cbn; tauto.
Qed.
Lemma shout_frame : frame_is g_frames_text (frame_key g_frames_text "shout") (frame_alt g_frames_text "shout").
Proof.
  apply frame_is_ok; try (vm_compute; reflexivity).
  - vm_compute. repeat constructor; cbn; intuition discriminate.
  - intros r H. vm_compute in H. inversion H; subst r. vm_compute. repeat constructor; cbn; tauto.
Qed.
Lemma shout_complete : exists g rules v f b t fs,
  index_exact g rules /\ frame_is g v b /\ rb_terms b = [t] /\ t_type t = TTerminal /\
  xframes g xfo text_song = Ret fs /\ In (v, f) fs /\
  fr_complete f = true /\ slots_for xkey f t = [].
Proof.
  destruct frames_text_index as (rules & HI).
  exists g_frames_text, rules, (frame_key g_frames_text "shout").
  set (r := xframes g_frames_text xfo text_song).
  exists (match get_key (match r with Ret fs => fs | _ => [] end) (frame_key g_frames_text "shout") with Some f => f | None => mkFrame [] false end).
  exists (frame_alt g_frames_text "shout").
  exists (mkTerm "hey" TTerminal (match rb_terms (frame_alt g_frames_text "shout") with t :: _ => t_meta t | [] => MNil end)).
  exists (match r with Ret fs => fs | _ => [] end).
  split; [exact HI|]. split; [exact shout_frame|]. split; [vm_compute; reflexivity|]. split; [reflexivity|].
  split; [vm_compute; reflexivity|]. split; [vm_compute; right; right; left; reflexivity|]. split; vm_compute; reflexivity.
Qed.
Lemma included_example :
  (exists rules, index_exact g_included rules) /\
  xmulti (g_trie g_included) "foo" = Ret [("foo", [(0, 3)])]%string /\
  (exists v, mentioned (map g_frames (g_includes g_included)) TTerminal "foo" v) /\
  g_frames g_included = [] /\
  panics (xframes g_included xfo "foo") = true /\ panics (xframes g_included xfo "x y") = true.
Proof.
  split; [exact included_index|]. split; [vm_compute; reflexivity|]. split; [|split; [vm_compute; reflexivity|split; vm_compute; reflexivity]].
  set (ms := map g_frames (g_includes g_included)). vm_compute in ms. subst ms.
  eexists (_, _). do 4 eexists. split; [left; reflexivity|]. split; [left; reflexivity|]. split; [reflexivity|].
  split; [left; reflexivity|]. split; [discriminate|]. eexists. split; [left; reflexivity|]. split; vm_compute; reflexivity.
Qed.
