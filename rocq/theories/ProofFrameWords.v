(** A rule that matches is looked for, when its words are found. *)
From Coq Require Import Lia Permutation Sorted.
From Verif Require Import Base ModelTypes ModelText ModelEarley ModelTrees ModelApi ModelQuote ModelSem
  ModelReader ModelGrammar ModelFrames ModelLocal
  SpecTypes SpecText SpecGrammar SpecTree SpecNotation SpecRefine SpecConstruct SpecApi SpecSem SpecLocal SpecEnd SpecIndex SpecFrames SpecFrameText
  ProofUtf8 ProofTrim ProofReader ProofGrammar ProofRefine ProofConstruct ProofEnd ProofIndex ProofFrameText.
Local Open Scope list_scope.

(** ** names have no white space around them *)
Definition shown_rune (c : rune) : rune := if valid_rune c then c else RuneError.
Lemma shown_encode c : encode_rune c = encode_rune (shown_rune c) /\ valid_rune (shown_rune c) = true.
Proof.
  assert (V : valid_rune (shown_rune c) = true) by (unfold shown_rune; destruct (valid_rune c) eqn:E; [exact E|reflexivity]).
  split; [|exact V]. unfold encode_rune. rewrite V. reflexivity.
Qed.
Lemma shown_white c : is_space c = false -> is_space (shown_rune c) = false.
Proof. unfold shown_rune. destruct (valid_rune c); [auto|reflexivity]. Qed.
Lemma trim_same l : Forall (fun c => is_space c = false) l -> trim_space (encode l) = encode l.
Proof.
  intros F. apply trimmed_unique. split; [exists ""%string, ""%string|].
  - assert (blank "") by (exists []; split; [constructor|reflexivity]). cbn [String.append]. rewrite sappend_nil. auto.
  - intros r u Hr. split; intros E.
    + assert (S : starts_white (encode l)) by (exists r, u; auto). apply decode_white in S. destruct F as [|c l Hc F]; [discriminate S|].
      cbn [encode] in S. destruct (shown_encode c) as [Ec Ev]. rewrite Ec, (decode_encode _ _ Ev) in S. cbn [fst] in S.
      rewrite (shown_white c Hc) in S. discriminate.
    + assert (S : ends_white (encode l)) by (exists r, u; auto). apply decode_last_white in S.
      destruct l as [|c l _] using rev_ind; [discriminate S|]. apply Forall_app in F. destruct F as [_ F]. inversion F as [|? ? Hc _]; subst.
      rewrite encode_app in S. cbn [encode] in S. rewrite sappend_nil in S. destruct (shown_encode c) as [Ec Ev].
      rewrite Ec, (last_rune_valid _ _ Ev) in S. cbn [fst] in S. rewrite (shown_white c Hc) in S. discriminate.
Qed.

Section Names.
  Variables letter_hi digit_hi : rune -> bool.
  Hypothesis Htab : unicode_tables letter_hi digit_hi.
  Variable scan_float : string -> res bigf.
  Variable regexp_ok : string -> bool.
  Variable md5 : string -> string.
  Notation letter := (is_letter letter_hi).
  Notation digit := (is_digit digit_hi).
  Lemma name_trim x : name_text letter digit x -> trim_space (encode x) = encode x.
  Proof.
    intros H. apply trim_same. destruct x as [|c x]; [constructor|]. destruct H as [H1 H2].
    assert (K : forall c, name_char letter digit c -> is_space c = false).
    { intros a [Ha|[->|Ha]]; [eapply letter_not_space; eassumption|reflexivity|eapply digit_not_space; eassumption]. }
    constructor; [apply K; destruct H1; [left|right; left]; assumption|]. eapply Forall_impl; [exact K|exact H2].
  Qed.
  Lemma w_item_trim it re w : w_item letter digit scan_float regexp_ok md5 it re w -> trim_space (it_name it) = it_name it.
  Proof. intros H. inversion H; subst; cbn [it_name]; eapply name_trim; eassumption. Qed.
  Lemma w_items_trim its re w : w_items letter digit scan_float regexp_ok md5 its re w -> forall it, In it its -> trim_space (it_name it) = it_name it.
  Proof. induction 1 as [|g it re w l re' w' _ Hi _ IH]; intros i [<-|H] || intros i []; eauto using w_item_trim. Qed.
  Lemma w_file_trim ps its re w : w_file letter digit scan_float regexp_ok md5 ps its re w -> forall it, In it its -> trim_space (it_name it) = it_name it.
  Proof. induction 1; eauto using w_items_trim. Qed.
End Names.

(** ** a sequence of terminals matches token by token *)
Lemma seq_app alt acc toks co so a : forall b i k, derives_seq alt acc toks co so (a ++ b) i k ->
  exists j, derives_seq alt acc toks co so a i j /\ derives_seq alt acc toks co so b j k.
Proof.
  induction a as [|t a IH]; intros b i k H; cbn [app] in H; [exists i; split; [constructor|exact H]|].
  inversion H as [|? ? ? m ? H1 H2]; subst. destruct (IH _ _ _ H2) as (j & A & B). exists j. split; [econstructor; eauto|exact B].
Qed.
Lemma seq_terms alt tmatch toks co so ts : Forall (fun t => t_type t = TTerminal) ts -> forall i j,
  derives_seq alt (accepts_by tmatch) toks co so ts i j ->
  forall n u, nth_error ts n = Some u -> exists k, nth_error toks (i + n) = Some k /\ tmatch u (Some k) = true.
Proof.
  induction 1 as [|t ts Ht _ IH]; intros i j H n u Hn; [destruct n; discriminate|].
  inversion H as [|? ? ? m ? H1 H2]; subst. inversion H1; subst; try congruence.
  destruct n as [|n]; cbn [nth_error] in Hn.
  - injection Hn as <-. rewrite Nat.add_0_r. eauto.
  - destruct (IH _ _ H2 n u Hn) as (k & Hk & M). exists k. split; [rewrite <- Hk; f_equal; lia|exact M].
Qed.
Lemma token_terms_terminal m ks : Forall (fun t => t_type t = TTerminal) (token_terms m ks).
Proof. apply Forall_forall. intros t H. apply in_map_iff in H. destruct H as (k & <- & _). reflexivity. Qed.

Section Wanted.
  Variable tokenize : string -> res (list token).
  Variable tmatch : term -> option token -> bool.
  Variable gs : list grammar_rules.
  Variable find_all : string -> string -> option (list (nat * nat)).
  Variable regexps : list (string * string).
  Variable d : document.
  Variable matches : list (string * list (nat * nat)).
  (** maps as they are read: named by their keys, which are names *)
  Hypothesis Hnamed : forall m x r, In m gs -> lookup m x = Some r -> r_name r = x /\ x <> ""%string /\ trim_space x = x.
  Hypothesis Hanch : anchored gs find_all regexps d.
  Notation own := (text_only find_all regexps d).
  Hypothesis Hfound : words_found tokenize tmatch gs d matches.
  Notation seq := (derives_seq (doc_alt tokenize gs find_all regexps d) (accepts_by tmatch) (content d) own_range (fun _ _ => True)).
  Notation W := (wanted gs (map fst matches)).

  Lemma segment ts0 ts : split_terms tokenize ts0 ts -> forall t, In t ts0 -> t_type t = TTerminal ->
    forall i j, seq ts i j -> exists i', appears_at tokenize tmatch d t i'.
  Proof.
    induction 1 as [|u ts0 ks ts Hu Hk _ IH|u ts0 ts Hu _ IH]; intros t Ht Et i j D; [destruct Ht| |].
    - apply seq_app in D. destruct D as (k & D1 & D2). destruct Ht as [<-|Ht]; [|eauto].
      exists i, ks. split; [exact Hk|]. eapply seq_terms; [apply token_terms_terminal|exact D1].
    - inversion D; subst. destruct Ht as [<-|Ht]; [congruence|eauto].
  Qed.
  Lemma split_keeps ts0 ts : split_terms tokenize ts0 ts -> forall t, In t ts0 -> t_type t <> TTerminal -> In t ts.
  Proof.
    induction 1 as [|u ts0 ks ts Hu Hk _ IH|u ts0 ts Hu _ IH]; intros t Ht Et; [destruct Ht| |].
    - apply in_app_iff. right. destruct Ht as [<-|Ht]; [congruence|auto].
    - destruct Ht as [<-|Ht]; [left; reflexivity|right; auto].
  Qed.

  Lemma mention_body x b m r h t : In m gs -> lookup m x = Some r -> In (h, b) (r_body r) -> In t (rb_terms b) ->
    trim_space (t_value t) <> ""%string -> mentioned gs (t_type t) (trim_space (t_value t)) (x, h).
  Proof.
    intros Hm L Hb Ht Hn. exists m, x, r, b. cbn [fst snd]. split; [exact Hm|]. split; [apply lookup_some_in; exact L|].
    split; [apply (Hnamed m x r Hm L)|]. split; [exact Hb|]. split; [exact Hn|]. eauto.
  Qed.

  Lemma derived_wanted :
    (forall t i j, derives (doc_alt tokenize gs find_all regexps d) (accepts_by tmatch) (content d) own_range (fun _ _ => True) t i j ->
       t_type t = TNonterminal -> own (t_value t) -> W (t_value t) /\ t_value t <> ""%string /\ trim_space (t_value t) = t_value t) /\
    (forall ts i j, seq ts i j -> forall t, In t ts -> t_type t = TNonterminal -> own (t_value t) ->
       W (t_value t) /\ t_value t <> ""%string /\ trim_space (t_value t) = t_value t).
  Proof.
    apply derives_mutind.
    1: intros t i tok Et _ _ _ En; congruence.
    2: intros t i j Et _ _ _ En; congruence.
    2: intros t i j n Et _ _ _ _ En; congruence.
    - intros t i j ts _ H0 H1 H2 _ _ Hdoc. destruct H0 as [(ts0 & (b & (m & r & h & Hm & L & Hb) & <-) & Hs)|(b & Hb & _)]; [|destruct (Hdoc _ Hb)].
      split; [|apply (Hnamed _ _ _ Hm L)].
      destruct (Hanch (t_value t) b) as (u & Hu & [Eu|(Eu & Ou)]); [exists m, r, h; auto| |].
      + destruct (segment _ _ Hs u Hu Eu _ _ H1) as (i' & Hi). destruct (Hfound u i') as (N & F); [exists (t_value t), b; split; [exists m, r, h; auto|exact Hu]|exact Eu|exact Hi|].
        apply (wanted_word gs (map fst matches) (trim_space (t_value u)) (t_value t, h) F). rewrite <- Eu. eapply mention_body; eauto.
      + destruct (H2 u) as (Wu & N & T); [eapply split_keeps; eauto; congruence|exact Eu|exact Ou|].
        apply (wanted_use gs (map fst matches) (t_value u) (t_value t, h) Wu). rewrite <- T, <- Eu. eapply mention_body; eauto. rewrite T. exact N.
    - intros i t [].
    - intros t ts i j k _ IH1 _ IH2 u [<-|H3]; eauto.
  Qed.
  Lemma means_wanted x i j : own x -> Means tokenize tmatch gs find_all regexps d x i j -> W x.
  Proof. intros Hx H. apply (proj1 derived_wanted) in H; [apply H|reflexivity|exact Hx]. Qed.
End Wanted.

(** For the rules of a text *)
Lemma nothing_missed e d0 g L : e_parts e d0 g L -> unicode_tables (e_letter e) (e_digit e) -> forall tmatch find_all d matches,
  anchored (map rd_before L) find_all (g_regexps g) d ->
  words_found (e_tokenize e) tmatch (map rd_before L) d matches ->
  forall x i j, text_only find_all (g_regexps g) d x -> Means (e_tokenize e) tmatch (map rd_before L) find_all (g_regexps g) d x i j -> wanted (map rd_before L) (map fst matches) x.
Proof.
  intros HP Htab tmatch find_all d matches HA HW x i j. apply means_wanted; auto.
  destruct HP as (p & ps & -> & _ & (qs & its & re & T1 & _ & T3 & _) & HF). cbn [map].
  assert (K : forall b ps its re m x r, e_text e b ps its re -> denotes (e_hash e) its false m -> lookup m x = Some r ->
    r_name r = x /\ x <> ""%string /\ trim_space x = x).
  { clear - Htab. intros b ps its re m x r T D Lr. apply lookup_some_in in Lr. destruct (denotes_named _ _ _ _ _ _ D Lr) as (E & _ & it & Hit & <-).
    split; [exact E|]. destruct T as [(w & _ & _ & Hf)|(_ & _ & -> & _)]; [|destruct Hit].
    split; [eapply w_file_name; eauto|eapply w_file_trim; eauto]. }
  intros m y r [<-|Hm]; [eapply K; eauto|].
  intros Lr. apply in_map_iff in Hm. destruct Hm as (q & <- & Hq).
  clear HA HW. induction HF as [|ig q' igs ps' (_ & b & Hr & qs' & its' & re' & T1' & _ & T3' & _) HF IH]; [destruct Hq|].
  destruct Hq as [<-|Hq]; [eapply K; eauto|exact (IH Hq)].
Qed.

(** ** for grammars that were read *)
Lemma loads_index e : env_ok e -> forall d0 g, read_as e d0 g ->
  forall ps its re rules, e_text e d0 ps its re -> denotes (e_hash e) its false rules -> index_exact g rules.
Proof.
  intros HE d0 g (fuel & depth & name & gt & w' & [E|[Er E]]).
  - apply (env_index e HE _ _ _ _ _ _ _ E).
  - destruct (env_file_index e HE _ _ _ _ _ _ E) as (d & Ed & _ & K). rewrite Er in Ed. injection Ed as <-. exact K.
Qed.
Lemma loaded_frames :
  forall e, env_ok e -> forall d0 g, read_as e d0 g -> g_includes g = [] ->
  forall L, e_parts e d0 g L -> sound_texts (e_tokenize e) L ->
  forall key multi_match fo tmatch ords find_all span_text ord annotate ctx text d matches,
  call_ready e g multi_match fo ords find_all ord annotate ctx text d matches ->
  let call := MatchFrames g key multi_match fo tmatch ords (doc_tokens annotate)
                (doc_local (e_hash e) find_all span_text (g_regexps g) ord annotate ctx text) in
  let before := map rd_before L in
  ((forall x, ~ wanted before (map fst matches) x) -> exists n, forall fuel, n <= fuel -> call fuel ctx text = Err) /\
  ((exists x, wanted before (map fst matches) x) ->
    exists fs n, (forall fuel, n <= fuel -> call fuel ctx text = Ret fs) /\
      (forall v f, In (v, f) fs -> exists b, frame_body g v = Ret b) /\
      forall v b, frame_body g v = Ret b -> Forall plain_term (rb_terms b) -> NoDup (map key (rb_terms b)) ->
        (forall t, In t (rb_terms b) ->
           term_filled (e_tokenize e) tmatch before find_all (g_regexps g) d matches t
             (match get_key fs v with Some f => slots_for key f t | None => [] end)) /\
        ((exists f, In (v, f) fs /\ fr_complete f = true) <->
         forall t, In t (rb_terms b) -> term_seen (e_tokenize e) tmatch before find_all (g_regexps g) d matches t)).
Proof.
  intros e HE d0 g HL Hi L HP HS key mm fo tmatch ords find_all span_text ord annotate ctx text d matches
    (Hfo & Ho & Hord & Ht & Ha & Hf & Hio & Hm & Hn & Hw) call before.
  pose proof (loads_index e HE d0 g HL) as Hx. split.
  - eapply nothing_wanted; eassumption.
  - eapply frames_of_text; eassumption.
Qed.
