(** Grammar texts with frames, their rules, and documents made of words. *)
From Coq Require Import Permutation Ascii.
From Verif Require Import Base ModelTypes ModelText ModelEarley ModelTrees ModelApi ModelQuote ModelSem ModelReader ModelGrammar ModelFrames ModelLocal ModelMatch
  SpecTypes SpecGrammar SpecNotation SpecRefine SpecConstruct SpecApi SpecSem SpecLocal SpecEnd SpecIndex SpecFrames SpecFrameText
  ProofRefine ProofConstruct ProofLocal ProofRecognize ProofLoads ProofEnd ProofUnique ProofMeaning ProofShipped ProofIndex ProofFrameText ProofFrameWords
  Examples ExamplesSem ExamplesLocal ExamplesGrammar ExamplesFrames ExamplesArith.
Local Open Scope list_scope.

Definition fenv : env := xenv [] keep.
Lemma fenv_ok : env_ok fenv.
Proof. exact (xenv_ok _ _ keep_ok). Qed.
Definition fparse (t : string) := p_file [] [] 10 (runes_of t).
Lemma fparsed t ps its re : decodes t = true -> fparse t = Some (ps, its, re) -> e_text fenv t ps its re.
Proof.
  intros D H. apply decodes_ok in D as [D1 D2]. left. exists (runes_of t). split; [exact D1|]. split; [exact D2|].
  revert H. apply sound_file; [apply letters_ascii|apply digits_ascii|intros ? ? []|intros ? ? []].
Qed.

Definition own_text_name (x : string) : bool := negb (String.prefix "g_t" x) && negb (String.eqb x GammaRule).
Definition ok_term (t : term) : bool :=
  match t_type t with
  | TTerminal => match t_meta t, xtokenize (t_value t) with
                 | MNil, Ret ks => existsb (fun k => negb (is_space_token k)) ks
                 | _, _ => false
                 end
  | TNonterminal => own_text_name (t_value t)
  | TAny | TList => match t_meta t with MNil => own_text_name (t_value t) | _ => false end
  | _ => false
  end.
Definition ok_items (its : list item) : bool :=
  forallb (fun it => own_text_name (it_name it) && forallb (fun b => forallb ok_term (rb_terms b)) (it_bodies it)) its.

Section Plain.
  Variables (text : string) (its : list item) (fuel depth : nat) (g : grammar) (w : world).
  Hypothesis Hd : decodes text = true.
  Hypothesis Hp : fparse text = Some ([], its, []).
  Hypothesis Hok : ok_items its = true.
  Hypothesis Hg : from_string fenv fuel depth text "n" [] = Ret (Some g, w).

  Hypothesis Hinc : g_includes g = [].

  Lemma own_text_name_ok x : own_text_name x = true -> String.prefix "g_t" x = false /\ x <> GammaRule.
  Proof using Type.
    unfold own_text_name. intros H. apply andb_true_iff in H as [H1 H2]. apply negb_true_iff in H1, H2. apply String.eqb_neq in H2. auto.
  Qed.
  Lemma plain_parts : exists p, e_parts fenv text g [p] /\ sound_texts xtokenize [p] /\
    (forall x b, has_body [rd_before p] x b -> In b (written its false x)) /\
    (forall x b, In b (written its false x) -> NoDup (map xhash (written its false x)) -> has_body [rd_before p] x b) /\
    (forall ty k v, mentioned [rd_before p] ty k v -> exists b, has_body [rd_before p] (fst v) b /\ mentions ty k b) /\
    (forall ty k x b, has_body [rd_before p] x b -> mentions ty k b -> exists v, fst v = x /\ mentioned [rd_before p] ty k v).
  Proof.
    pose proof (fparsed _ _ _ _ Hd Hp) as T0.
    destruct (accepted fenv fenv_ok _ _ _ _ _ _ _ Hg) as ((L & HL) & _).
    pose proof HL as (p & ps & -> & _ & (ps' & its' & re' & T & _ & D & _ & _ & Rx) & F). rewrite Hinc in F. inversion F; subst ps.
    destruct (one_reading fenv fenv_ok _ _ _ _ _ _ _ T0 T) as (<- & W & RE).
    assert (Hn : forall x r, In (x, r) (rd_before p) -> r_name r = x) by (intros x r Hr; apply (denotes_named _ _ _ _ _ _ D Hr)).
    destruct D as (D1 & D2 & D3).
    assert (Hin : forall x b, has_body [rd_before p] x b -> In b (written its false x)).
    { intros x b (m & r & h & [<-|[]] & Hx & Hb). apply W. destruct (D3 x) as (r' & L' & _ & N' & H').
      { intros C. apply D2 in C. rewrite Hx in C. discriminate. }
      rewrite Hx in L'. injection L' as <-. pose proof (lookup_N_in _ _ _ N' Hb) as E. rewrite H' in E.
      apply find_some in E as [E _]. rewrite <- in_rev in E. exact E. }
    assert (Ht : forall t, occurs [rd_before p] t -> ok_term t = true).
    { intros t (x & b & Hb & Ht). apply Hin in Hb. unfold written in Hb. apply in_flat_map in Hb as (it & Hit & Hb).
      destruct (Bool.eqb (it_frame it) false && String.eqb (it_name it) x)%bool; [|destruct Hb].
      unfold ok_items in Hok. rewrite forallb_forall in Hok. apply Hok in Hit. apply andb_true_iff in Hit as [_ Hit].
      rewrite forallb_forall in Hit. apply Hit in Hb. rewrite forallb_forall in Hb. auto. }
    assert (Hm : forall x, lookup (rd_before p) x <> None -> own_text_name x = true).
    { intros x Hx. destruct (written its' false x) as [|b bs] eqn:E; [apply D2 in E; congruence|].
      assert (Hb : In b (written its false x)) by (apply W; rewrite E; left; reflexivity).
      unfold written in Hb. apply in_flat_map in Hb as (it & Hit & Hb).
      destruct (Bool.eqb (it_frame it) false && String.eqb (it_name it) x)%bool eqn:En; [|destruct Hb].
      apply andb_true_iff in En as [_ En]. apply String.eqb_eq in En. subst x.
      unfold ok_items in Hok. rewrite forallb_forall in Hok. apply Hok in Hit. apply andb_true_iff in Hit as [Hit _]. exact Hit. }
    exists p. split; [exact HL|]. split; [|split; [exact Hin|split; [|split]]].
    - unfold sound_texts. cbn [map]. split; [eapply env_single; [exact HL|exact Hinc]|]. split.
      { intros t t' Ho Ho' Et Et' _. apply Ht in Ho, Ho'. unfold ok_term in Ho, Ho'. rewrite Et in Ho. rewrite Et' in Ho'.
        destruct (t_meta t), (t_meta t'); try discriminate; reflexivity. }
      split.
      { intros t Ho Et P. apply Ht in Ho. unfold ok_term in Ho. destruct Et as [Et|Et]; rewrite Et in Ho; [|destruct (t_meta t); try discriminate];
          apply own_text_name_ok in Ho; destruct Ho; congruence. }
      split.
      { intros t Ho Et. apply Ht in Ho. unfold ok_term in Ho. destruct (t_type t); try discriminate; try congruence;
          try (destruct (t_meta t); try discriminate); apply own_text_name_ok in Ho; apply Ho. }
      split.
      { intros t t' Ho Ho' Et Ek. apply Ht in Ho, Ho'. unfold ok_term in Ho, Ho'. rewrite <- Et in Ho'.
        destruct Ek as [Ek|[Ek _]]; rewrite Ek in Ho, Ho'; destruct (t_meta t), (t_meta t'); try discriminate; reflexivity. }
      split.
      { split.
        - intros t ks Ho Et Ek. apply Ht in Ho. unfold ok_term in Ho. rewrite Et, Ek in Ho. destruct (t_meta t); try discriminate.
          apply existsb_exists in Ho as (k & K1 & K2). exists k. split; [exact K1|]. intros C. unfold is_space_token in K2. rewrite C in K2. discriminate.
        - intros t Ho Et. apply Ht in Ho. unfold ok_term in Ho. destruct Et as [Et|Et]; rewrite Et in Ho; destruct (t_meta t); try discriminate; cbn; lia. }
      intros m [<-|[]]. destruct (lookup (rd_before p) GammaRule) eqn:E; [|reflexivity].
      assert (C : own_text_name GammaRule = true) by (apply Hm; congruence). discriminate C.
    - intros x b Hb ND.
      assert (NE : written its' false x <> []) by (intros C; apply W in Hb; rewrite C in Hb; destruct Hb).
      destruct (D3 _ NE) as (r & L' & _ & N' & H').
      exists (rd_before p), r, (xhash b). split; [left; reflexivity|]. split; [exact L'|]. specialize (H' (xhash b)). cbn [fenv xenv e_hash] in H'.
      destruct (find _ (rev (written its' false x))) as [b'|] eqn:E.
      + apply find_some in E as [E1 E2]. apply N.eqb_eq in E2. rewrite <- in_rev in E1. apply W in E1.
        assert (b' = b) as ->; [|apply lookup_N_some; exact H'].
        clear - ND Hb E1 E2. revert ND Hb E1. generalize (written its false x) as l. induction l as [|a l IH]; intros ND; [intros []|].
        cbn [map] in ND. inversion ND as [|? ? N1 N2]; subst. intros [->|Hb] [->|Hb']; auto.
        * exfalso. apply N1. rewrite <- E2. apply in_map. exact Hb'.
        * exfalso. apply N1. rewrite E2. apply in_map. exact Hb.
      + exfalso. assert (H : In b (rev (written its' false x))) by (rewrite <- in_rev; apply W; auto).
        pose proof (find_none _ _ E b H) as C. cbn beta in C. rewrite N.eqb_refl in C. discriminate.
    - intros ty k v (m & x & r & b & [<-|[]] & Hr & En & Hb & Hk). exists b. split; [|exact Hk]. pose proof (Hn _ _ Hr) as E.
      rewrite <- En, E. exists (rd_before p), r, (snd v). split; [left; reflexivity|]. split; [apply in_lookup; assumption|exact Hb].
    - intros ty k x b (m & r & h & [<-|[]] & Lr & Hb) Hk. exists (x, h). split; [reflexivity|]. apply lookup_some_in in Lr.
      exists (rd_before p), x, r, b. cbn [fst snd]. split; [left; reflexivity|]. split; [exact Lr|]. split; [exact (Hn _ _ Lr)|]. auto.
  Qed.
End Plain.

(** [play] = "play" <song> <times> {nf.play($2)}; <song> = "blue moon" | <song> "again"; <times> = "twice" | (list<times>) "again"; *)
Definition text_play : string :=
  ("[play] = " ++ quoted "play" ++ " <song> <times> {nf.play($2)}; <song> = " ++ quoted "blue moon" ++ " | <song> " ++ quoted "again"
   ++ "; <times> = " ++ quoted "twice" ++ " | (list<times>) " ++ quoted "again" ++ ";")%string.
(** [play] = "play" <tune>; <tune> = (list<note>); <note> = "do" | "re"; *)
Definition text_tune : string :=
  ("[play] = " ++ quoted "play" ++ " <tune>; <tune> = (list<note>); <note> = " ++ quoted "do" ++ " | " ++ quoted "re" ++ ";")%string.
(** [play] = "play" <song>; <song> = "blue  moon"; *)
Definition text_wide : string := ("[play] = " ++ quoted "play" ++ " <song>; <song> = " ++ quoted "blue  moon" ++ ";")%string.

Definition loaded_of (t : string) : res (option grammar * world) := from_string fenv 400 9 t "n" [].
Definition items_in (t : string) : list item := match fparse t with Some (_, its, _) => its | None => [] end.
Definition world_of (r : res (option grammar * world)) : world := match r with Ret (_, w) => w | _ => mkW [] [] end.
Definition g_play : grammar := Eval vm_compute in the_grammar (loaded_of text_play).
Definition g_tune : grammar := Eval vm_compute in the_grammar (loaded_of text_tune).
Definition g_wide : grammar := Eval vm_compute in the_grammar (loaded_of text_wide).

(** the call: literal search, words of the document matched as they are *)
Definition frame_call (g : grammar) (fuel : nat) (text : string) : res frames :=
  MatchFrames g xkey xmulti xfo xmatch (fun _ => id_ord) (doc_tokens word_annotate)
    (doc_local xhash xfind xspan_text (g_regexps g) xorde word_annotate "" text) fuel "" text.
Definition found_words (g : grammar) (text : string) : list (string * list (nat * nat)) :=
  match xmulti (g_trie g) text with Ret m => m | _ => [] end.


Fixpoint nodup_b (l : list string) : bool := match l with [] => true | x :: l' => negb (mem x l') && nodup_b l' end.
Lemma nodup_b_ok l : nodup_b l = true -> NoDup l.
Proof.
  induction l as [|x l IH]; intros H; [constructor|]. cbn [nodup_b] in H. apply andb_true_iff in H as [H1 H2]. constructor; [|auto].
  intros C. apply negb_true_iff in H1. unfold mem in H1. assert (K : existsb (String.eqb x) l = true) by (apply existsb_exists; exists x; split; [exact C|apply String.eqb_refl]). congruence.
Qed.
Lemma xmulti_among trie text m : xmulti trie text = Ret m -> forall w, In w (map fst m) -> In w trie.
Proof.
  intros [= <-] w H. apply in_map_iff in H as ([w' h] & <- & H). apply filter_In in H as [H _]. apply in_map_iff in H as (w & [= <- <-] & H). exact H.
Qed.
Lemma ready g text : g_regexps g = [] -> trim_space text = text -> content (word_doc text) <> [] -> doc_ok_b (word_doc text) = true ->
  separates_b xhash (additions xfind xspan_text [] xorde (word_doc text)) = true -> in_order (content (word_doc text)) ->
  nodup_b (map fst (found_words g text)) = true ->
  call_ready fenv g xmulti xfo (fun _ => id_ord) xfind xorde word_annotate "" text (word_doc text) (found_words g text).
Proof.
  intros Hr Ht Hc H1 H2 Ho Hn. split; [exact xfo_ok|]. split; [intros i; exact id_ord_ok|]. split; [exact xorde_ok|]. rewrite Ht.
  split; [intros ->; destruct Hc; reflexivity|]. split; [reflexivity|]. split; [rewrite Hr; exact (proj1 (word_fit _ Hc H1 H2))|].
  split; [exact Ho|]. split; [reflexivity|]. split; [apply nodup_b_ok; exact Hn|]. apply (xmulti_among _ text). reflexivity.
Qed.

Definition in_order_b (toks : list token) : bool :=
  forallb (fun i => forallb (fun j => match nth_error toks i, nth_error toks j with
    | Some a, Some b => Nat.ltb j i || Nat.leb (tok_start a) (tok_end b) | _, _ => true end) (seq 0 (length toks))) (seq 0 (length toks)).
Lemma in_order_b_ok toks : in_order_b toks = true -> in_order toks.
Proof.
  unfold in_order_b. intros H i j a b Hij Ha Hb. rewrite forallb_forall in H.
  assert (Hi : i < length toks) by (apply nth_error_Some; congruence). assert (Hj : j < length toks) by (apply nth_error_Some; congruence).
  assert (Si : In i (seq 0 (length toks))) by (apply in_seq; lia). assert (Sj : In j (seq 0 (length toks))) by (apply in_seq; lia).
  apply H in Si. rewrite forallb_forall in Si. apply Si in Sj. clear H Si. rename Sj into H.
  rewrite Ha, Hb in H. apply orb_true_iff in H as [H|H]; [apply Nat.ltb_lt in H; lia|apply Nat.leb_le in H; exact H].
Qed.
(** only the classes of tokens have alternatives from such documents *)
Lemma word_text_only text x : ~ In x ["word"; "punct"; "symbol"; "letters"]%string -> text_only xfind [] (word_doc text) x.
Proof.
  intros Hx b Hb. inversion Hb as [k y Hk Hk'|sp m y Hs|sp m y items Hs|y s en Hr]; subst.
  - apply Hx. inversion Hk'; subst; cbn; auto.
  - destruct Hs.
  - destruct Hs.
  - destruct Hr as (pat & ms & a & b & k & l & [] & _).
Qed.
(** every terminal text of the rules was found *)
Definition all_found (its : list item) (matches : list (string * list (nat * nat))) : bool :=
  forallb (fun it => it_frame it || forallb (fun b => forallb (fun t => match t_type t with
    | TTerminal => negb (String.eqb (trim_space (t_value t)) "") && mem (trim_space (t_value t)) (map fst matches)
    | _ => true end) (rb_terms b)) (it_bodies it)) its.
Lemma all_found_ok its p d matches : (forall x b, has_body [rd_before p] x b -> In b (written its false x)) ->
  all_found its matches = true -> words_found xtokenize xmatch [rd_before p] d matches.
Proof.
  intros Hin H t i (x & b & Hb & Ht) Et _. apply Hin in Hb. unfold written in Hb. apply in_flat_map in Hb as (it & Hit & Hb).
  destruct (it_frame it) eqn:Ef; [destruct Hb|]. cbn [Bool.eqb andb] in Hb. destruct (String.eqb (it_name it) x); [|destruct Hb].
  unfold all_found in H. rewrite forallb_forall in H. apply H in Hit. rewrite Ef in Hit. cbn [orb] in Hit. rewrite forallb_forall in Hit.
  apply Hit in Hb. rewrite forallb_forall in Hb. apply Hb in Ht. rewrite Et in Ht. apply andb_true_iff in Ht as [H1 H2].
  apply negb_true_iff, String.eqb_neq in H1. split; [exact H1|apply mem_in; exact H2].
Qed.
Definition all_anchored (its : list item) : bool :=
  forallb (fun it => it_frame it || forallb (fun b => existsb (fun t => match t_type t with
    | TTerminal => true | TNonterminal => negb (mem (t_value t) ["word"; "punct"; "symbol"; "letters"]%string) | _ => false end) (rb_terms b)) (it_bodies it)) its.
Lemma all_anchored_ok its p text : (forall x b, has_body [rd_before p] x b -> In b (written its false x)) ->
  all_anchored its = true -> anchored [rd_before p] xfind [] (word_doc text).
Proof.
  intros Hin H x b Hb. apply Hin in Hb. unfold written in Hb. apply in_flat_map in Hb as (it & Hit & Hb).
  destruct (it_frame it) eqn:Ef; [destruct Hb|]. cbn [Bool.eqb andb] in Hb. destruct (String.eqb (it_name it) x); [|destruct Hb].
  unfold all_anchored in H. rewrite forallb_forall in H. apply H in Hit. rewrite Ef in Hit. cbn [orb] in Hit. rewrite forallb_forall in Hit.
  apply Hit in Hb. apply existsb_exists in Hb as (t & Ht & E). exists t. split; [exact Ht|]. destruct (t_type t); try discriminate; [right|left; reflexivity].
  split; [reflexivity|]. apply word_text_only. intros C. apply negb_true_iff in E. unfold mem in E.
  assert (K : existsb (String.eqb (t_value t)) ["word"; "punct"; "symbol"; "letters"]%string = true) by (apply existsb_exists; exists (t_value t); split; [exact C|apply String.eqb_refl]). congruence.
Qed.

Lemma loads_text t g w : from_string fenv 400 9 t "n" [] = Ret (Some g, w) -> read_as fenv t g.
Proof. intros H. exists 400, 9, "n"%string, [], w. left. exact H. Qed.
Ltac ready_word := apply ready; [reflexivity|reflexivity|discriminate|vm_compute; reflexivity|vm_compute; reflexivity|apply in_order_b_ok; vm_compute; reflexivity|vm_compute; reflexivity].
Definition w_play : world := Eval vm_compute in world_of (loaded_of text_play).
Lemma play_load : from_string fenv 400 9 text_play "n" [] = Ret (Some g_play, w_play).
Proof. vm_compute. reflexivity. Qed.
Definition w_tune : world := Eval vm_compute in world_of (loaded_of text_tune).
Lemma tune_load : from_string fenv 400 9 text_tune "n" [] = Ret (Some g_tune, w_tune).
Proof. vm_compute. reflexivity. Qed.
Definition w_wide : world := Eval vm_compute in world_of (loaded_of text_wide).
Lemma wide_load : from_string fenv 400 9 text_wide "n" [] = Ret (Some g_wide, w_wide).
Proof. vm_compute. reflexivity. Qed.

Definition play_text : string := "play blue moon again twice".
Definition tune_text : string := "play do re".
Definition wide_text : string := "play blue moon".
Lemma play_ready : call_ready fenv g_play xmulti xfo (fun _ => id_ord) xfind xorde word_annotate "" play_text (word_doc play_text) (found_words g_play play_text).
Proof. ready_word. Qed.
Lemma tune_ready : call_ready fenv g_tune xmulti xfo (fun _ => id_ord) xfind xorde word_annotate "" tune_text (word_doc tune_text) (found_words g_tune tune_text).
Proof. ready_word. Qed.
Lemma wide_ready : call_ready fenv g_wide xmulti xfo (fun _ => id_ord) xfind xorde word_annotate "" wide_text (word_doc wide_text) (found_words g_wide wide_text).
Proof. ready_word. Qed.

Lemma play_parts : exists p, e_parts fenv text_play g_play [p] /\ sound_texts xtokenize [p] /\
  anchored [rd_before p] xfind [] (word_doc play_text) /\ words_found xtokenize xmatch [rd_before p] (word_doc play_text) (found_words g_play play_text) /\
  exists x, wanted [rd_before p] (map fst (found_words g_play play_text)) x.
Proof.
  destruct (plain_parts text_play (items_in text_play) 400 9 g_play w_play) as (p & P1 & P2 & P3 & P4 & P5 & P6);
    [vm_compute; reflexivity|vm_compute; reflexivity|vm_compute; reflexivity|exact play_load|reflexivity|].
  exists p. split; [exact P1|]. split; [exact P2|]. split; [apply (all_anchored_ok (items_in text_play)); [exact P3|vm_compute; reflexivity]|].
  split; [apply (all_found_ok (items_in text_play)); [exact P3|vm_compute; reflexivity]|].
  exists "song"%string. destruct (P6 TTerminal "blue moon"%string "song"%string (mkRb [mkTerm "blue moon" TTerminal MNil] None)) as (v & Hv & M).
  - apply P4; [vm_compute; left; reflexivity|]. vm_compute. repeat constructor; cbn; intuition discriminate.
  - split; [discriminate|]. exists (mkTerm "blue moon" TTerminal MNil). split; [left; reflexivity|]. split; reflexivity.
  - rewrite <- Hv. eapply wanted_word; [|exact M]. vm_compute. tauto.
Qed.

(** <tune> matches "do re" but nothing looks for it *)
Lemma tune_missed : exists p, e_parts fenv text_tune g_tune [p] /\ sound_texts xtokenize [p] /\
  words_found xtokenize xmatch [rd_before p] (word_doc tune_text) (found_words g_tune tune_text) /\
  Means xtokenize xmatch [rd_before p] xfind [] (word_doc tune_text) "tune" 1 3 /\
  wanted [rd_before p] (map fst (found_words g_tune tune_text)) "note" /\
  ~ wanted [rd_before p] (map fst (found_words g_tune tune_text)) "tune".
Proof.
  destruct (plain_parts text_tune (items_in text_tune) 400 9 g_tune w_tune) as (p & P1 & P2 & P3 & P4 & P5 & P6);
    [vm_compute; reflexivity|vm_compute; reflexivity|vm_compute; reflexivity|exact tune_load|reflexivity|].
  exists p. split; [exact P1|]. split; [exact P2|]. split; [apply (all_found_ok (items_in text_tune)); [exact P3|vm_compute; reflexivity]|].
  assert (Hn : forall w, In w ["do"; "re"]%string -> has_body [rd_before p] "note" (mkRb [mkTerm w TTerminal MNil] None)).
  { intros w Hw. apply P4; [|vm_compute; repeat constructor; cbn; intuition discriminate].
    destruct Hw as [<-|[<-|[]]]; vm_compute; tauto. }
  assert (Dn : forall i w k, In w ["do"; "re"]%string -> nth_error (content (word_doc tune_text)) i = Some k -> tok_text k = w ->
    derives (doc_alt xtokenize [rd_before p] xfind [] (word_doc tune_text)) (accepts_by xmatch) (content (word_doc tune_text)) own_range (fun _ _ => True) (nonterm "note") i (S i)).
  { intros i w k Hw Hk E. eapply d_rule; [reflexivity|left; exists [mkTerm w TTerminal MNil]; split; [eexists; split; [apply Hn; exact Hw|reflexivity]|]|..].
    - eapply (sp_text xtokenize (mkTerm w TTerminal MNil) []); [reflexivity|reflexivity|constructor].
    - destruct Hw as [<-|[<-|[]]]; (eapply ds_cons; [eapply d_terminal; [reflexivity|exact Hk| |exact I]|constructor]);
        unfold accepts_by, xmatch; rewrite E; reflexivity.
    - exact I. }
  split; [|split].
  - eapply d_rule; [reflexivity|left; exists [mkTerm "note" TList MNil]; split|..].
    + eexists. split; [apply P4; [vm_compute; left; reflexivity|vm_compute; repeat constructor; cbn; tauto]|reflexivity].
    + apply sp_other; [discriminate|constructor].
    + eapply ds_cons; [|constructor]. eapply (d_list _ _ _ _ _ _ _ _ 2); [reflexivity|cbn; lia| |exact I].
      cbn [repeat]. eapply ds_cons; [eapply (Dn 1 "do"%string); [left; reflexivity|reflexivity|reflexivity]|].
      eapply ds_cons; [eapply (Dn 2 "re"%string); [right; left; reflexivity|reflexivity|reflexivity]|constructor].
    + exact I.
  - destruct (P6 TTerminal "do"%string "note"%string (mkRb [mkTerm "do" TTerminal MNil] None)) as (v & Hv & M); [apply Hn; left; reflexivity| |].
    + split; [discriminate|]. exists (mkTerm "do" TTerminal MNil). split; [left; reflexivity|]. split; reflexivity.
    + rewrite <- Hv. eapply wanted_word; [|exact M]. vm_compute. tauto.
  - assert (K : forall ty k v, ty <> TList -> mentioned [rd_before p] ty k v -> fst v <> "tune"%string).
    { intros ty k v Hty M E. apply P5 in M. destruct M as (b & Hb & _ & t & Ht & Et & _). apply P3 in Hb. rewrite E in Hb. vm_compute in Hb.
      destruct Hb as [<-|[]]. destruct Ht as [<-|[]]. cbn in Et. congruence. }
    intros H. inversion H as [k v H1 H2 E|x v H1 H2 E]; (eapply K; [|exact H2|exact E]); discriminate.
Qed.

(** <song> matches "blue moon" but its text is not found as it is written *)
Lemma wide_missed : exists p, e_parts fenv text_wide g_wide [p] /\ sound_texts xtokenize [p] /\
  anchored [rd_before p] xfind [] (word_doc wide_text) /\
  Means xtokenize xmatch [rd_before p] xfind [] (word_doc wide_text) "song" 1 3 /\
  forall x, ~ wanted [rd_before p] (map fst (found_words g_wide wide_text)) x.
Proof.
  destruct (plain_parts text_wide (items_in text_wide) 400 9 g_wide w_wide) as (p & P1 & P2 & P3 & P4 & P5 & P6);
    [vm_compute; reflexivity|vm_compute; reflexivity|vm_compute; reflexivity|exact wide_load|reflexivity|].
  exists p. split; [exact P1|]. split; [exact P2|]. split; [apply (all_anchored_ok (items_in text_wide)); [exact P3|vm_compute; reflexivity]|].
  split.
  - eapply d_rule; [reflexivity|left; exists [mkTerm "blue  moon" TTerminal MNil]; split|..].
    + eexists. split; [apply P4; [vm_compute; left; reflexivity|vm_compute; repeat constructor; cbn; tauto]|reflexivity].
    + eapply (sp_text xtokenize (mkTerm "blue  moon" TTerminal MNil) []); [reflexivity|reflexivity|constructor].
    + eapply ds_cons; [eapply d_terminal; [reflexivity|reflexivity|reflexivity|exact I]|].
      eapply ds_cons; [eapply d_terminal; [reflexivity|reflexivity|reflexivity|exact I]|constructor].
    + exact I.
  - assert (B : forall x b, has_body [rd_before p] x b -> b = mkRb [mkTerm "blue  moon" TTerminal MNil] None).
    { intros x b Hb. apply P3 in Hb. unfold written in Hb. apply in_flat_map in Hb as (it & Hit & Hb). vm_compute in Hit.
      destruct Hit as [<-|[<-|[]]]; [destruct Hb|]. cbn [it_frame it_name it_bodies Bool.eqb andb] in Hb. destruct (String.eqb "song" x); [|destruct Hb].
      destruct Hb as [<-|[]]. reflexivity. }
    intros x H. inversion H as [k v H1 H2 E|y v H1 H2 E]; apply P5 in H2; destruct H2 as (b & Hb & _ & t & Ht & Et & Ek); apply B in Hb; subst b;
      destruct Ht as [<-|[]]; [|discriminate Et]. vm_compute in Ek. subst k. vm_compute in H1. intuition discriminate.
Qed.

Lemma tune_refuted : exists p v b t fs n,
  env_ok fenv /\ read_as fenv text_tune g_tune /\ g_includes g_tune = [] /\ e_parts fenv text_tune g_tune [p] /\ sound_texts xtokenize [p] /\
  call_ready fenv g_tune xmulti xfo (fun _ => id_ord) xfind xorde word_annotate "" tune_text (word_doc tune_text) (found_words g_tune tune_text) /\
  words_found xtokenize xmatch [rd_before p] (word_doc tune_text) (found_words g_tune tune_text) /\
  frame_body g_tune v = Ret b /\ rb_terms b = [word_term "play"; t] /\ t = nonterm "tune" /\
  Means xtokenize xmatch [rd_before p] xfind (g_regexps g_tune) (word_doc tune_text) "tune" 1 3 /\
  (forall fuel, n <= fuel -> frame_call g_tune fuel tune_text = Ret fs) /\
  (match get_key fs v with Some f => slots_for xkey f t | None => [] end) = [] /\
  ~ exists f, In (v, f) fs /\ fr_complete f = true.
Proof.
  destruct tune_missed as (p & P1 & P2 & P3 & P4 & P5 & P6).
  destruct (loaded_frames fenv fenv_ok text_tune g_tune (loads_text _ _ _ tune_load) eq_refl [p] P1 P2 xkey xmulti xfo xmatch (fun _ => id_ord)
              xfind xspan_text xorde word_annotate ""%string tune_text _ _ tune_ready) as (_ & K).
  destruct (K (ex_intro _ _ P5)) as (fs & n & K1 & _ & K3).
  exists p, (frame_key g_tune "play"), (frame_alt g_tune "play"), (nonterm "tune"), fs, n.
  split; [exact fenv_ok|]. split; [exact (loads_text _ _ _ tune_load)|]. split; [reflexivity|]. split; [exact P1|]. split; [exact P2|].
  split; [exact tune_ready|]. split; [exact P3|]. split; [vm_compute; reflexivity|]. split; [vm_compute; reflexivity|]. split; [reflexivity|]. split; [exact P4|].
  split; [exact K1|].
  destruct (K3 (frame_key g_tune "play") (frame_alt g_tune "play")) as (F1 & F2).
  { vm_compute. reflexivity. }
  { apply plain_b_ok. vm_compute. reflexivity. }
  { vm_compute. repeat constructor; cbn; intuition discriminate. }
  assert (Hin : In (nonterm "tune") (rb_terms (frame_alt g_tune "play"))) by (vm_compute; right; left; reflexivity).
  split.
  - destruct (F1 _ Hin) as (spans & _ & B & C). destruct C as [|ij s spans ss]; [reflexivity|]. exfalso. destruct ij as [i j].
    apply P6. apply (proj1 (B i j) (or_introl eq_refl)).
  - intros C. destruct (proj1 F2 C _ Hin) as (i & j & W & _). exact (P6 W).
Qed.
Lemma wide_refuted : exists p n,
  env_ok fenv /\ read_as fenv text_wide g_wide /\ g_includes g_wide = [] /\ e_parts fenv text_wide g_wide [p] /\ sound_texts xtokenize [p] /\
  call_ready fenv g_wide xmulti xfo (fun _ => id_ord) xfind xorde word_annotate "" wide_text (word_doc wide_text) (found_words g_wide wide_text) /\
  anchored [rd_before p] xfind (g_regexps g_wide) (word_doc wide_text) /\
  Means xtokenize xmatch [rd_before p] xfind (g_regexps g_wide) (word_doc wide_text) "song" 1 3 /\
  rb_terms (frame_alt g_wide "play") = [word_term "play"; nonterm "song"] /\
  In "play"%string (map fst (found_words g_wide wide_text)) /\
  forall fuel, n <= fuel -> frame_call g_wide fuel wide_text = Err.
Proof.
  destruct wide_missed as (p & P1 & P2 & P3 & P4 & P5).
  destruct (loaded_frames fenv fenv_ok text_wide g_wide (loads_text _ _ _ wide_load) eq_refl [p] P1 P2 xkey xmulti xfo xmatch (fun _ => id_ord)
              xfind xspan_text xorde word_annotate ""%string wide_text _ _ wide_ready) as (K & _).
  destruct (K P5) as (n & K1). exists p, n.
  split; [exact fenv_ok|]. split; [exact (loads_text _ _ _ wide_load)|]. split; [reflexivity|]. split; [exact P1|]. split; [exact P2|].
  split; [exact wide_ready|]. split; [exact P3|]. split; [exact P4|]. split; [vm_compute; reflexivity|]. split; [vm_compute; tauto|]. exact K1.
Qed.
