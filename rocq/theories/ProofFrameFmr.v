(** The texts of frames. *)
From Coq Require Import Lia Permutation Sorted.
From Verif Require Import Base ModelTypes ModelText ModelEarley ModelTrees ModelApi ModelQuote ModelSem
  ModelReader ModelGrammar ModelFrames SpecTypes SpecGrammar SpecTree SpecApi SpecSem SpecIndex SpecFrames SpecFrameFmr
  ProofEqual ProofSem ProofNodes ProofSemMain ProofTree ProofApi ProofApiLoops ProofApiMain ProofIndex ProofFrames ProofSlots.

Section Text.
  Variable join_words : list string -> string.
  Variable float_string : bigf -> string.
  Variable json : dval -> string.
  Variable is_print_hi : rune -> bool.
  Variable call : string -> list dval -> res dval.
  Notation semantic p := (semantic p join_words float_string json is_print_hi call).
  Notation fmr_str := (fmr_str float_string json is_print_hi).
  Notation sem_str := (sem_str float_string json is_print_hi).

  Section Kids.
    Variable kids : list (option (parse_t * node)).
    Notation FText := (FText join_words float_string json is_print_hi call kids).
    Notation AText := (AText join_words float_string json is_print_hi call kids).
    Notation ATexts := (ATexts join_words float_string json is_print_hi call kids).
    Definition sems : list (option (res string)) := map (option_map (fun pn => semantic (fst pn) (snd pn))) kids.

    Lemma nth_sems k : nth_error sems k = option_map (option_map (fun pn => semantic (fst pn) (snd pn))) (nth_error kids k).
    Proof. apply nth_error_map. Qed.
    Lemma len_sems : length sems = length kids.
    Proof. apply map_length. Qed.

    Lemma atexts_all args ss : Forall2 (fun a s => sem_str "" sems Panic a = Ret s) args ss ->
      sequence (map (sem_str "" sems Panic) args) = Ret ss.
    Proof. intros H. apply sequence_ret. induction H; constructor; auto. Qed.

    Lemma text_ret : (forall f s, FText f s -> fmr_str "" sems Panic f = Ret s) /\
      (forall args ss, ATexts args ss -> Forall2 (fun a s => sem_str "" sems Panic a = Ret s) args ss) /\
      (forall a s, AText a s -> sem_str "" sems Panic a = Ret s).
    Proof.
      apply FText_mutind.
      - intros a s _ IH. rewrite fmr_str_eq. exact IH.
      - intros fn args ss Hn _ IH. rewrite fmr_str_eq. apply String.eqb_neq in Hn. rewrite Hn, (atexts_all _ _ IH). reflexivity.
      - constructor.
      - intros. constructor; assumption.
      - reflexivity.
      - reflexivity.
      - reflexivity.
      - intros f s _ IH. exact IH.
      - apply sem_index_zero.
      - intros k Hk. rewrite (sem_index_child _ _ _ _ _ _ k None); [reflexivity|]. rewrite nth_sems, Hk. reflexivity.
      - intros k p n s Hk Hs. rewrite (sem_index_child _ _ _ _ _ _ k (Some (semantic p n))).
        + apply semantic_iff. exact Hs.
        + rewrite nth_sems, Hk. reflexivity.
    Qed.

    Lemma ret_text : forall f s, fmr_str "" sems Panic f = Ret s -> FText f s.
    Proof.
      intros f. induction f as [fn args IH] using fmr_ind'. intros s H. rewrite fmr_str_eq in H.
      assert (Ha : forall a s, In a args -> sem_str "" sems Panic a = Ret s -> AText a s).
      { intros a s' Hin Hs. rewrite Forall_forall in IH. specialize (IH a Hin).
        destruct (arg_forms a) as [F|F]; [|rewrite sem_malformed in Hs; [discriminate|exact F]].
        destruct F.
        - cbn in Hs. injection Hs as <-. constructor.
        - cbn [ModelSem.sem_str String.eqb Ascii.eqb Bool.eqb] in Hs. injection Hs as <-. constructor.
        - cbn in Hs. injection Hs as <-. constructor.
        - constructor. apply IH. exact Hs.
        - destruct (index_cases i (length sems)) as [B|[->|(k & Hk & ->)]].
          + rewrite sem_index_bad in Hs; [discriminate|exact B].
          + rewrite sem_index_zero in Hs. injection Hs as <-. constructor.
          + rewrite len_sems in Hk. destruct (nth_error kids k) as [c|] eqn:En; [|apply nth_error_None in En; lia].
            rewrite (sem_index_child _ _ _ _ _ _ k (option_map (fun pn => semantic (fst pn) (snd pn)) c)) in Hs
              by (rewrite nth_sems, En; reflexivity).
            destruct c as [[p n]|]; cbn [option_map fst snd] in Hs.
            * eapply at_tree; [exact En|]. apply semantic_iff. exact Hs.
            * injection Hs as <-. apply at_null. exact En.
        - discriminate. }
      destruct (String.eqb fn "nf.I") eqn:E.
      - apply eqb_yes in E. subst fn. destruct args as [|a [|b args]]; try discriminate. constructor. apply Ha; [left; reflexivity|exact H].
      - apply eqb_no in E. destruct (sequence _) as [ss| | |] eqn:Es; try discriminate. cbn [bind] in H. injection H as <-.
        constructor; [exact E|]. apply sequence_ret in Es. clear IH. revert ss Es.
        induction args as [|a args IHa]; intros ss F; cbn [map] in F; inversion F; subst; constructor.
        + apply Ha; [left; reflexivity|assumption].
        + apply IHa; [intros; apply Ha; [right|]; assumption|assumption].
    Qed.
    Lemma text_iff f s : fmr_str "" sems Panic f = Ret s <-> FText f s.
    Proof. split; [apply ret_text|apply text_ret]. Qed.

    (** functions that fit, on trees that have a meaning *)
    Lemma text_total f : fun_ok (length kids) f ->
      (forall p n, In (Some (p, n)) kids -> exists s, Sem p join_words float_string json is_print_hi call n s) ->
      exists s, FText f s.
    Proof.
      intros Hf Hk. revert Hf. induction f as [fn args IH] using fmr_ind'. intros Hf. inversion Hf as [fn' args' Hi Ha]; subst.
      assert (HA : forall a, In a args -> exists s, AText a s).
      { intros a Hin. rewrite Forall_forall in IH, Ha. specialize (IH a Hin). specialize (Ha a Hin). destruct Ha as [s|z|x|i Hr|f Hff].
        - eexists. constructor.
        - eexists. constructor.
        - eexists. constructor.
        - destruct (index_cases i (length kids)) as [B|[->|(k & Hlt & ->)]]; [lia|eexists; constructor|].
          destruct (nth_error kids k) as [c|] eqn:En; [|apply nth_error_None in En; lia].
          destruct c as [[p n]|].
          + destruct (Hk p n (nth_error_In _ _ En)) as (s & Hs). exists s. eapply at_tree; eassumption.
          + eexists. apply at_null. exact En.
        - destruct (IH Hff) as (s & Hs). exists s. constructor. exact Hs. }
      destruct (String.eqb fn "nf.I") eqn:E.
      - apply eqb_yes in E. subst fn. specialize (Hi eq_refl). destruct args as [|a [|b args]]; try discriminate.
        destruct (HA a (or_introl eq_refl)) as (s & Hs). exists s. constructor. exact Hs.
      - apply eqb_no in E. assert (K : exists ss, ATexts args ss).
        { clear - HA. induction args as [|a args IH]; [exists []; constructor|].
          destruct (HA a (or_introl eq_refl)) as (s & Hs). destruct IH as (ss & Hss); [intros; apply HA; right; assumption|].
          exists (s :: ss). constructor; assumption. }
        destruct K as (ss & Hss). eexists. constructor; eassumption.
    Qed.

    Lemma at_panics : (forall f, reaches_at (fun a => exists s, AText a s) f -> fmr_str "" sems Panic f = Panic) /\
      (forall a, reaches_at_arg (fun a => exists s, AText a s) a -> sem_str "" sems Panic a = Panic).
    Proof.
      apply reaches_mutind.
      - intros a _ IH. rewrite fmr_str_eq. exact IH.
      - intros fn l1 a l2 Hn H1 _ IH. rewrite fmr_str_eq. apply String.eqb_neq in Hn. rewrite Hn.
        assert (E : sequence (map (sem_str "" sems Panic) (l1 ++ a :: l2)) = Panic); [|rewrite E; reflexivity].
        induction H1 as [|b l1 (s & Hs) _ IH1]; cbn [app map sequence]; [rewrite IH; reflexivity|].
        apply text_ret in Hs. rewrite Hs. cbn [bind]. rewrite IH1. reflexivity.
      - reflexivity.
      - intros f _ IH. exact IH.
    Qed.
  End Kids.

  Lemma child_first key f t : child key (fr_slots f) t = first_tree (slots_for key f t).
  Proof.
    unfold child, slots_for, first_tree. destruct (get_N (fr_slots f) (key t)) as [[|s l]|]; try reflexivity.
  Qed.
  Notation frame_text kids := (frame_text join_words float_string json is_print_hi call kids).
  Lemma frame_string_sems g key v f b fm : frame_body g v = Ret b -> rb_f b = Some fm ->
    frame_string g key join_words float_string json is_print_hi call (v, f) = fmr_str "" (sems (kids_of key f b)) Panic fm.
  Proof.
    intros Hb Hf. unfold frame_string. cbn [fst snd]. rewrite Hb. cbn [bind]. rewrite Hf. f_equal.
    unfold sems, kids_of. rewrite map_map. apply map_ext. intros t. rewrite child_first. reflexivity.
  Qed.
  Lemma frame_string_iff g key v f b s : frame_body g v = Ret b ->
    (frame_string g key join_words float_string json is_print_hi call (v, f) = Ret s <-> frame_text (kids_of key f b) b s).
  Proof.
    intros Hb. unfold SpecFrameFmr.frame_text. destruct (rb_f b) as [fm|] eqn:Ef.
    - rewrite (frame_string_sems g key v f b fm Hb Ef). apply text_iff.
    - unfold frame_string. cbn [fst snd]. rewrite Hb. cbn [bind]. rewrite Ef. split; [intros E; injection E as <-; reflexivity|intros ->; reflexivity].
  Qed.
End Text.

Lemma sel_trees g key fo fuel v k ms ps s :
  In s (sel v k (flat_map (word_event g key fo) ms ++ parse_events g key fo fuel 0 ps)) ->
  forall p n, In (p, n) (sl_trees s) -> In p ps /\ tree_of_parse p n.
Proof.
  unfold sel. intros Hs p n Hn. apply in_concat in Hs. destruct Hs as (l & Hl & Hs). apply in_map_iff in Hl. destruct Hl as (e & <- & He).
  apply filter_In in He. destruct He as [He _]. apply in_app_or in He. destruct He as [He|He].
  - exfalso. apply in_flat_map in He. destruct He as ([w hits] & _ & He). unfold word_event in He. cbn [fst snd] in He.
    destruct (lookup (g_index g) w); [|destruct He]. apply in_map_iff in He. destruct He as (u & <- & _). cbn [snd] in Hs.
    apply in_map_iff in Hs. destruct Hs as (h & <- & _). destruct Hn.
  - assert (K : forall i, In e (parse_events g key fo fuel i ps) ->
      exists q ref i j, In q ps /\ In ref (p_finals q) /\ In e (final_event g key fo fuel i j q ref)).
    { clear. induction ps as [|q ps IH]; intros i H; cbn [parse_events] in H; [destruct H|]. apply in_app_or in H. destruct H as [H|H].
      - apply final_events_in in H. destruct H as (j & ref & H1 & H2). exists q, ref, i, j. cbn; auto.
      - apply IH in H. destruct H as (q' & ref & i' & j & H1 & H2). exists q', ref, i', j. cbn; auto. }
    destruct (K 0 He) as (q & ref & i & j & Hq & Hr & Hf). clear K. unfold final_event in Hf.
    destruct (final_slot fuel q ref) as [[tg sl]| | |] eqn:Ef; try destruct Hf.
    destruct (lookup (g_rule_index g) tg) as [ix|]; [|destruct Hf]. apply in_map_iff in Hf. destruct Hf as (u & <- & _). cbn [snd] in Hs.
    destruct Hs as [<-|[]]. unfold final_slot in Ef.
    destruct (p_state q ref) as [s0| | |]; cbn [bind] in Ef; try discriminate.
    destruct (tag s0) as [t0| | |]; cbn [bind] in Ef; try discriminate.
    destruct (boundary q s0) as [[a b]| | |]; cbn [bind] in Ef; try discriminate.
    destruct (get_trees (p_columns q) fuel ref) as [ts| | |] eqn:Eg; cbn [bind] in Ef; try discriminate. injection Ef as <- <-.
    cbn [sl_trees] in Hn. apply in_map_iff in Hn. destruct Hn as (t & E & Ht). injection E as <- <-.
    split; [exact Hq|]. exists ref, fuel, ts. auto.
Qed.

Section Calls.
  Variable g : grammar.
  Variable key : term -> N.
  Variable multi_match : list string -> string -> res (list (string * list (nat * nat))).
  Variable fo : frame_orders.
  Variable tmatch : term -> option token -> bool.
  Variable ords : nat -> order.
  Variable annotate : string -> string -> res (list token).
  Variable local_grammar : list token -> res (option grammar_rules).
  Variable join_words : list string -> string.
  Variable float_string : bigf -> string.
  Variable json : dval -> string.
  Variable is_print_hi : rune -> bool.
  Variable call : string -> list dval -> res dval.
  Notation MF := (MatchFrames g key multi_match fo tmatch ords annotate local_grammar).
  Notation FF := (FrameFMR g key multi_match fo tmatch ords annotate local_grammar join_words float_string json is_print_hi call).
  Notation FS := (frame_string g key join_words float_string json is_print_hi call).
  Notation frame_text kids := (frame_text join_words float_string json is_print_hi call kids).
  Notation text_of vf s := (exists b, frame_body g (fst vf) = Ret b /\ frame_text (kids_of key (snd vf) b) b s).

  Variables (fuel : nat) (ctx text : string) (fs : frames).
  Hypothesis Hm : MF fuel ctx text = Ret fs.

  Lemma text_of_iff vf s : In vf fs -> (FS vf = Ret s <-> text_of vf s).
  Proof.
    intros Hin. destruct vf as [v f]. cbn [fst snd].
    destruct (match_frames_left g key multi_match fo tmatch ords annotate local_grammar fuel ctx text fs Hm)
      as (ms & fs0 & starts & ps & _ & _ & _ & _ & _ & L).
    pose proof L as [N L']. assert (G : get_key fs v = Some f) by (apply get_key_in; assumption).
    specialize (L' v). rewrite G in L'. destruct L' as (_ & b & Hb & _).
    rewrite (frame_string_iff join_words float_string json is_print_hi call g key v f b s Hb). split.
    - intros H. exists b. auto.
    - intros (b' & Hb' & H). rewrite Hb in Hb'. injection Hb' as <-. exact H.
  Qed.

  Hypothesis Hfo : forall l, Permutation l (fo_result fo l).

  Lemma frame_fmr_ret l : FF fuel ctx text = Ret l <-> Forall2 (fun vf s => text_of vf s) (fo_result fo fs) l.
  Proof.
    unfold FrameFMR. rewrite Hm. cbn [bind]. rewrite sequence_ret.
    assert (K : forall vf, In vf (fo_result fo fs) -> In vf fs) by (intros vf H; eapply Permutation_in; [apply Permutation_sym, Hfo|exact H]).
    revert l K. induction (fo_result fo fs) as [|vf vs IH]; intros l K; cbn [map].
    - split; intros H; inversion H; constructor.
    - split; intros H; inversion H; subst; constructor.
      + apply text_of_iff; [apply K; left; reflexivity|assumption].
      + apply IH; [intros; apply K; right; assumption|assumption].
      + apply text_of_iff; [apply K; left; reflexivity|assumption].
      + apply IH; [intros; apply K; right; assumption|assumption].
  Qed.
  Lemma frame_fmr_texts l : FF fuel ctx text = Ret l ->
    exists vs, Permutation fs vs /\ Forall2 (fun vf s => text_of vf s) vs l.
  Proof. intros H. exists (fo_result fo fs). split; [apply Hfo|]. apply frame_fmr_ret. exact H. Qed.
  Lemma frame_fmr_all : (exists l, FF fuel ctx text = Ret l) <-> forall vf, In vf fs -> exists s, text_of vf s.
  Proof.
    split.
    - intros (l & H) vf Hin. apply frame_fmr_ret in H. assert (In vf (fo_result fo fs)) as Hin' by (eapply Permutation_in; [apply Hfo|exact Hin]).
      clear Hin. induction H; [destruct Hin'|]. destruct Hin' as [<-|Hin']; eauto.
    - intros H. assert (K : exists l, Forall2 (fun vf s => text_of vf s) (fo_result fo fs) l).
      { assert (H' : forall vf, In vf (fo_result fo fs) -> exists s, text_of vf s)
          by (intros vf Hin; apply H; eapply Permutation_in; [apply Permutation_sym, Hfo|exact Hin]).
        clear H. induction (fo_result fo fs) as [|vf vs IH]; [exists []; constructor|].
        destruct (H' vf (or_introl eq_refl)) as (s & Hs). destruct IH as (l & Hl); [intros; apply H'; right; assumption|].
        exists (s :: l). constructor; assumption. }
      destruct K as (l & Hl). exists l. apply frame_fmr_ret. exact Hl.
  Qed.

  (** @ in a frame *)
  Lemma at_frame_panics v f b fm : In (v, f) fs -> frame_body g v = Ret b -> rb_f b = Some fm ->
    reaches_at (fun a => exists s, AText join_words float_string json is_print_hi call (kids_of key f b) a s) fm ->
    (forall l, FF fuel ctx text <> Ret l) /\
    ((forall vf, In vf fs -> vf <> (v, f) -> exists s, text_of vf s) -> FF fuel ctx text = Panic).
  Proof.
    intros Hin Hb Hf Hr. pose proof (proj1 (at_panics join_words float_string json is_print_hi call (kids_of key f b)) fm Hr) as HP.
    rewrite <- (frame_string_sems join_words float_string json is_print_hi call g key v f b fm Hb Hf) in HP. split.
    - intros l E. pose proof (proj1 frame_fmr_all (ex_intro _ l E) (v, f) Hin) as (s & Hs).
      apply text_of_iff in Hs; [|exact Hin]. congruence.
    - intros Ho. unfold FrameFMR. rewrite Hm. cbn [bind].
      assert (H' : forall vf, In vf (fo_result fo fs) -> vf = (v, f) \/ exists s, FS vf = Ret s).
      { intros vf Hv. assert (In vf fs) as Hv' by (eapply Permutation_in; [apply Permutation_sym, Hfo|exact Hv]).
        destruct (FS vf) as [s| | |] eqn:E; eauto.
        all: left; destruct vf as [v' f'];
          pose proof (match_frames_left g key multi_match fo tmatch ords annotate local_grammar fuel ctx text fs Hm)
             as (ms & fs0 & starts & ps & _ & _ & _ & _ & _ & [N _]);
          destruct (rbkey_eqb v v') eqn:Ev;
          [apply rbkey_eqb_eq in Ev; subst v'; pose proof (proj2 (get_key_in fs v f N)) as G1; pose proof (proj2 (get_key_in fs v f' N)) as G2;
           rewrite (G1 Hin) in G2; specialize (G2 Hv'); congruence
          |exfalso; destruct (Ho (v', f') Hv') as (s & Hs);
           [intros X; inversion X; subst; rewrite rbkey_eqb_refl in Ev; discriminate|
            apply text_of_iff in Hs; [congruence|exact Hv']]]. }
      assert (Hin' : In (v, f) (fo_result fo fs)) by (eapply Permutation_in; [apply Hfo|exact Hin]).
      induction (fo_result fo fs) as [|vf vs IH]; [destruct Hin'|]. cbn [map sequence].
      destruct (H' vf (or_introl eq_refl)) as [->|(s & Hs)]; [rewrite HP; reflexivity|]. rewrite Hs. cbn [bind].
      destruct Hin' as [->|Hin']; [congruence|]. rewrite IH; [reflexivity|intros; apply H'; right; assumption|exact Hin'].
  Qed.

  (** all functions fit: no failure *)
  Lemma frame_fmr_total toks l : orders ords -> process annotate local_grammar ctx text = Ret (toks, l) ->
    (forall fs0 starts, get_candidates g key multi_match fo fuel text = Ret (fs0, starts) -> well_formed (with_local (all_rules g) l) starts) ->
    separated (with_local (all_rules g) l) -> functions_fit (with_local (all_rules g) l) -> frames_fit g ->
    exists out, FF fuel ctx text = Ret out /\ length out = length fs.
  Proof.
    intros Ho Hp Hwf Hs Hff Hfr. destruct (match_frames_left g key multi_match fo tmatch ords annotate local_grammar fuel ctx text fs Hm)
      as (ms & fs0 & starts & ps & _ & EC & EP & _ & _ & L).
    specialize (Hwf fs0 starts EC). pose proof L as [N L'].
    assert (K : exists out, FF fuel ctx text = Ret out).
    { apply frame_fmr_all. intros [v f] Hin. assert (G : get_key fs v = Some f) by (apply get_key_in; assumption).
      specialize (L' v). rewrite G in L'. destruct L' as (_ & b & Hb & _ & _ & Hsel & _). cbn [fst snd].
      assert (X : exists s, frame_text (kids_of key f b) b s).
      { unfold SpecFrameFmr.frame_text. destruct (rb_f b) as [fm|] eqn:Ef; [|eauto]. apply text_total.
        - unfold kids_of. rewrite map_length. eapply Hfr; eassumption.
        - intros p n Hpn. unfold kids_of in Hpn. apply in_map_iff in Hpn. destruct Hpn as (t & Ht & _).
          unfold first_tree in Ht. destruct (slots_for key f t) as [|sl sls] eqn:Esl; [discriminate|].
          destruct (sl_trees sl) as [|pn pns] eqn:Etr; [discriminate|]. cbn [hd_error] in Ht. injection Ht as ->.
          destruct (sel_trees g key fo fuel v (key t) (fo_matches fo ms) ps sl) with (p := p) (n := n) as [Hps Htr].
          { rewrite <- Hsel. unfold slots_for in Esl. rewrite Esl. left. reflexivity. }
          { rewrite Etr. left. reflexivity. }
          destruct (calls_parse_suffixes tmatch ords (all_rules g) annotate local_grammar ctx text starts toks l p Hp) as (fuel' & m & mf & i & _ & EE).
          { right. right. right. eauto. }
          destruct (tree_semantic_total tmatch ords (with_local (all_rules g) l) text fuel' m mf (skipn i toks) starts p
                     (Ho m) EE Hwf Hs join_words float_string json is_print_hi call n n Hff Htr (po_self n)) as (s & Es).
          exists s. apply semantic_iff. exact Es. }
      destruct X as (s & X). exists s, b. auto. }
    destruct K as (out & K). exists out. split; [exact K|]. apply frame_fmr_texts in K. destruct K as (vs & HP & HF).
    rewrite (Permutation_length HP). symmetry. clear - HF. induction HF; cbn [length]; auto.
  Qed.
End Calls.

(** texts whose words occur in no rule *)
Lemma no_rules_fail g rules : index_exact g rules ->
  forall key multi_match fo, frame_orders_ok fo ->
  forall tmatch ords annotate local_grammar fuel ctx text matches,
  multi_match (g_trie g) text = Ret matches ->
  (forall x, ~ wanted (rules :: map g_rules (g_includes g)) (map fst matches) x) ->
  (forall fs, MatchFrames g key multi_match fo tmatch ords annotate local_grammar fuel ctx text <> Ret fs) /\
  (forall fs starts toks l, get_candidates g key multi_match fo fuel text = Ret (fs, starts) ->
     process annotate local_grammar ctx text = Ret (toks, l) ->
     MatchFrames g key multi_match fo tmatch ords annotate local_grammar fuel ctx text = Err).
Proof.
  intros Hix key multi_match fo Hfo tmatch ords annotate local_grammar fuel ctx text matches Hm Hw.
  assert (K : forall fs starts, get_candidates g key multi_match fo fuel text = Ret (fs, starts) -> starts = []).
  { intros fs starts E. destruct (starts_exact g rules Hix key multi_match fo fuel text fs starts matches Hfo Hm E) as [_ H].
    destruct starts as [|x starts]; [reflexivity|]. destruct (Hw x). apply H. left. reflexivity. }
  assert (K2 : forall fs starts toks l, get_candidates g key multi_match fo fuel text = Ret (fs, starts) ->
     process annotate local_grammar ctx text = Ret (toks, l) ->
     MatchFrames g key multi_match fo tmatch ords annotate local_grammar fuel ctx text = Err).
  { intros fs starts toks l E Hp. pose proof (K _ _ E). subst starts. unfold MatchFrames. rewrite E. cbn [bind].
    unfold EarleyParseAll. rewrite Hp. cbn [bind]. pose proof (process_toks annotate local_grammar ctx text toks l Hp) as Hne.
    destruct toks as [|t toks]; [destruct Hne; reflexivity|]. reflexivity. }
  split; [|exact K2]. intros fs E. unfold MatchFrames in E.
  destruct (get_candidates g key multi_match fo fuel text) as [[fs0 starts]| | |] eqn:EC; cbn [bind] in E; try discriminate.
  unfold EarleyParseAll in E. destruct (process annotate local_grammar ctx text) as [[toks l]| | |] eqn:Ep; cbn [bind] in E; try discriminate.
  pose proof (K2 _ _ _ _ eq_refl eq_refl) as X. unfold MatchFrames in X. rewrite EC in X. cbn [bind] in X. unfold EarleyParseAll in X. rewrite Ep in X. cbn [bind] in X. 
  rewrite X in E. discriminate.
Qed.
