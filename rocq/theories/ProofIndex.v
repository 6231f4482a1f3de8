(** The index lists exactly what the bodies mention. *)
From Coq Require Import Lia.
From Verif Require Import Base ModelTypes ModelText ModelEarley ModelReader ModelGrammar ProofUtf8
  SpecGrammar SpecNotation SpecRefine SpecConstruct SpecIndex ProofTerm ProofRefine ProofReader ProofReaderMain ProofGrammar ProofConstruct.

Lemma rbkey_eqb_eq a b : rbkey_eqb a b = true <-> a = b.
Proof.
  destruct a as [a n], b as [b m]. unfold rbkey_eqb. cbn [fst snd]. rewrite andb_true_iff, String.eqb_eq, N.eqb_eq.
  split; [intros [-> ->]; reflexivity|intros E; inversion E; auto].
Qed.
Lemma in_set_add {A} (eqb : A -> A -> bool) (Heq : forall a b, eqb a b = true <-> a = b) l a x :
  In x (set_add eqb l a) <-> In x l \/ x = a.
Proof.
  unfold set_add. destruct (existsb (eqb a) l) eqn:E.
  - apply existsb_exists in E. destruct E as (b & Hb & E). apply Heq in E. subst b. split; [auto|]. intros [H| ->]; auto.
  - rewrite in_app_iff. cbn [In]. intuition.
Qed.
Lemma nodup_set_add {A} (eqb : A -> A -> bool) (Heq : forall a b, eqb a b = true <-> a = b) l a :
  NoDup l -> NoDup (set_add eqb l a).
Proof.
  intros N. unfold set_add. destruct (existsb (eqb a) l) eqn:E; [exact N|].
  apply NoDup_snoc; [exact N|]. intros H. assert (K : existsb (eqb a) l = true) by (apply existsb_exists; exists a; split; [exact H|apply Heq; reflexivity]).
  congruence.
Qed.

Lemma lists_update ix k c v c' k' v' :
  lists (update_index ix k c v) c' k' v' <-> lists ix c' k' v' \/ (c' = c /\ k' = k /\ v' = v).
Proof.
  unfold lists, update_index. rewrite lookup_put. destruct (String.eqb k k') eqn:E.
  - apply String.eqb_eq in E. subst k'. split.
    + intros (i & H & Hv). inversion H; subst i. clear H. destruct (lookup ix k) as [i|] eqn:L.
      * destruct c, c'; cbn [ix_frames ix_rules] in Hv; try (apply in_set_add in Hv; [destruct Hv as [Hv| ->]|apply rbkey_eqb_eq]); eauto.
      * destruct c, c'; cbn [ix_frames ix_rules] in Hv; try (apply in_set_add in Hv; [destruct Hv as [Hv| ->]|apply rbkey_eqb_eq]);
          try destruct Hv; auto.
    + intros [(i & H & Hv)|(-> & _ & ->)]; eexists; (split; [reflexivity|]).
      * rewrite H. destruct c, c'; cbn [ix_frames ix_rules]; try exact Hv; apply in_set_add; auto using rbkey_eqb_eq.
      * destruct c; cbn [ix_frames ix_rules]; apply in_set_add; auto using rbkey_eqb_eq.
  - apply String.eqb_neq in E. split; [auto|]. intros [H|(_ & H & _)]; [exact H|congruence].
Qed.
Lemma update_wf ix k c v : index_wf ix -> index_wf (update_index ix k c v).
Proof.
  intros [N W]. split; [apply put_nodup; exact N|]. intros k' i. unfold update_index. rewrite lookup_put.
  destruct (String.eqb k k'); [|apply W]. intros H. inversion H; subst i. clear H.
  assert (K : NoDup (ix_frames match lookup ix k with Some i => i | None => mkIndex [] [] end) /\
              NoDup (ix_rules match lookup ix k with Some i => i | None => mkIndex [] [] end)).
  { destruct (lookup ix k) as [i|] eqn:L; [exact (W k i L)|]. split; constructor. }
  destruct K. destruct c; cbn [ix_frames ix_rules]; split; try apply nodup_set_add; auto using rbkey_eqb_eq.
Qed.
Lemma has_update ix k c v k' : lookup (update_index ix k c v) k' <> None <-> lookup ix k' <> None \/ k' = k.
Proof.
  unfold update_index. rewrite lookup_put. destruct (String.eqb k k') eqn:E.
  - apply String.eqb_eq in E. subst. split; [auto|]. intros _. discriminate.
  - apply String.eqb_neq in E. split; [auto|]. intros [H|H]; congruence.
Qed.

Section Index.
  Variable trie_accepts : string -> bool.
  Definition part (ty : ttype) (s : index_state) : indexes :=
    let '(_, ix, rix) := s in match ty with TTerminal => ix | TNonterminal => rix | _ => [] end.
  Definition tidy_state (s : index_state) : Prop :=
    let '(trie, ix, rix) := s in
    index_wf ix /\ index_wf rix /\ (forall k, In k trie <-> lookup ix k <> None) /\
    (forall k, lookup ix k <> None -> exists c v, lists ix c k v).
  (** [s'] is [s] with the entries [New] added *)
  Definition step (s s' : index_state) (New : ttype -> cate -> string -> rbkey -> Prop) : Prop :=
    (tidy_state s -> tidy_state s') /\
    forall ty c k v, (ty = TTerminal \/ ty = TNonterminal) -> (lists (part ty s') c k v <-> lists (part ty s) c k v \/ New ty c k v).
  Lemma step_refl s (New : ttype -> cate -> string -> rbkey -> Prop) :
    (forall ty c k v, ty = TTerminal \/ ty = TNonterminal -> ~ New ty c k v) -> step s s New.
  Proof. intros H. split; [auto|]. intros ty c k v Ht. specialize (H ty c k v Ht). tauto. Qed.
  Lemma step_trans s1 s2 s3 (A B C : ttype -> cate -> string -> rbkey -> Prop) : step s1 s2 A -> step s2 s3 B ->
    (forall ty c k v, C ty c k v <-> A ty c k v \/ B ty c k v) -> step s1 s3 C.
  Proof.
    intros [T1 H1] [T2 H2] HC. split; [auto|]. intros ty c k v Ht. rewrite (H2 ty c k v Ht), (H1 ty c k v Ht), HC. tauto.
  Qed.

  Definition of_terms (c : cate) (v : rbkey) (ts : list term) (ty : ttype) (c' : cate) (k : string) (v' : rbkey) : Prop :=
    c' = c /\ v' = v /\ k <> ""%string /\ exists t, In t ts /\ t_type t = ty /\ trim_space (t_value t) = k.
  Lemma index_term_step c v t s s' : index_term trie_accepts c v t s = Ret s' -> step s s' (of_terms c v [t]).
  Proof.
    unfold index_term. destruct s as [[tr ix] rix]. set (val := trim_space (t_value t)).
    destruct (String.eqb val "") eqn:Ev.
    - intros E. inversion E; subst s'. apply step_refl. intros ty c' k v' _ (_ & _ & Hk & t' & [<-|[]] & _ & Hk').
      apply String.eqb_eq in Ev. fold val in Hk'. congruence.
    - apply String.eqb_neq in Ev.
      assert (Hno : t_type t <> TTerminal -> t_type t <> TNonterminal -> step (tr, ix, rix) (tr, ix, rix) (of_terms c v [t])).
      { intros H1 H2. apply step_refl. intros ty c' k v' Ht (_ & _ & _ & t' & [<-|[]] & Ht' & _). destruct Ht; congruence. }
      destruct (t_type t) eqn:Et; try (intros E; inversion E; subst s'; apply Hno; discriminate).
      + intros E. inversion E; subst s'. clear E Hno. split.
        * intros (W1 & W2 & W3 & W4). cbn [tidy_state]. split; [exact W1|]. split; [apply update_wf; exact W2|]. auto.
        * intros ty c' k v' [-> | ->]; cbn [part].
          -- split; [auto|]. intros [H|(_ & _ & _ & t' & [<-|[]] & Ht' & _)]; [exact H|congruence].
          -- rewrite lists_update. unfold of_terms. split; intros [H|H]; auto; right.
             ++ destruct H as (-> & -> & ->). repeat split; auto. exists t. cbn; auto.
             ++ destruct H as (-> & -> & _ & t' & [<-|[]] & _ & <-). auto.
      + destruct (trie_accepts val); [|discriminate]. intros E. inversion E; subst s'. clear E Hno. split.
        * intros (W1 & W2 & W3 & W4). cbn [tidy_state]. split; [apply update_wf; exact W1|]. split; [exact W2|]. split.
          -- intros k. rewrite (in_set_add String.eqb String.eqb_eq), has_update, W3. reflexivity.
          -- intros k H. apply has_update in H. destruct H as [H| ->].
             ++ destruct (W4 k H) as (c1 & v1 & H1). exists c1, v1. apply lists_update. auto.
             ++ exists c, v. apply lists_update. auto.
        * intros ty c' k v' [-> | ->]; cbn [part].
          -- rewrite lists_update. unfold of_terms. split; intros [H|H]; auto; right.
             ++ destruct H as (-> & -> & ->). repeat split; auto. exists t. cbn; auto.
             ++ destruct H as (-> & -> & _ & t' & [<-|[]] & _ & <-). auto.
          -- split; [auto|]. intros [H|(_ & _ & _ & t' & [<-|[]] & Ht' & _)]; [exact H|congruence].
  Qed.
  Lemma index_terms_step c v ts : forall s s', index_terms trie_accepts c v ts s = Ret s' -> step s s' (of_terms c v ts).
  Proof.
    induction ts as [|t ts IH]; intros s s'; cbn [index_terms].
    - intros E. inversion E; subst. apply step_refl. intros ty c' k v' _ (_ & _ & _ & t & [] & _).
    - destruct (index_term trie_accepts c v t s) as [s1| | |] eqn:E1; cbn [bind]; try discriminate. intros E.
      eapply step_trans; [apply index_term_step; exact E1|apply IH; exact E|].
      intros ty c' k v'. unfold of_terms. split.
      + intros (-> & -> & Hk & t' & [->|Ht] & H1 & H2); [left|right]; repeat split; auto; exists t'; cbn; auto.
      + intros [(-> & -> & Hk & t' & [->|[]] & H1 & H2)|(-> & -> & Hk & t' & Ht & H1 & H2)]; repeat split; auto; exists t'; cbn; auto.
  Qed.
  Definition of_bodies (c : cate) (x : string) (l : list (N * rulebody)) (ty : ttype) (c' : cate) (k : string) (v : rbkey) : Prop :=
    c' = c /\ fst v = x /\ exists b, In (snd v, b) l /\ mentions ty k b.
  Lemma index_bodies_step c x l : forall s s', index_bodies trie_accepts c x l s = Ret s' -> step s s' (of_bodies c x l).
  Proof.
    induction l as [|[h b] l IH]; intros s s'; cbn [index_bodies].
    - intros E. inversion E; subst. apply step_refl. intros ty c' k v' _ (_ & _ & b & [] & _).
    - destruct (index_terms trie_accepts c (x, h) (rb_terms b) s) as [s1| | |] eqn:E1; cbn [bind]; try discriminate. intros E.
      eapply step_trans; [apply index_terms_step; exact E1|apply IH; exact E|].
      intros ty c' k [y h']. unfold of_bodies, of_terms, mentions. cbn [fst snd]. split.
      + intros (-> & -> & b' & [Eb|Hb] & Hk & H); [left; inversion Eb; subst|right; eauto 6]. auto.
      + intros [(-> & Ev & Hk & H)|(-> & -> & b' & Hb & H)]; [inversion Ev; subst|]; split; auto; split; auto.
        * exists b. cbn; auto.
        * exists b'. cbn; auto.
  Qed.
  Definition of_rules (c : cate) (m : grammar_rules) (ty : ttype) (c' : cate) (k : string) (v : rbkey) : Prop :=
    c' = c /\ mentioned [m] ty k v.
  Lemma index_rules_step c m : forall s s', index_rules trie_accepts c m s = Ret s' -> step s s' (of_rules c m).
  Proof.
    induction m as [|[x r] m IH]; intros s s'; cbn [index_rules].
    - intros E. inversion E; subst. apply step_refl. intros ty c' k v' _ (_ & m & y & r & b & [<-|[]] & [] & _).
    - destruct (index_bodies trie_accepts c (r_name r) (r_body r) s) as [s1| | |] eqn:E1; cbn [bind]; try discriminate. intros E.
      eapply step_trans; [apply index_bodies_step; exact E1|apply IH; exact E|].
      intros ty c' k v. unfold of_rules, of_bodies, mentioned. split.
      + intros (-> & m' & y & r' & b & [<-|[]] & [Hr|Hr] & Hn & Hb & Hm).
        * inversion Hr; subst. left. eauto 6.
        * right. split; [reflexivity|]. exists m, y, r', b. cbn; auto.
      + intros [(-> & Hn & b & Hb & Hm)|(-> & m' & y & r' & b & [<-|[]] & Hr & Hn & Hb & Hm)].
        * split; [reflexivity|]. exists ((x, r) :: m), x, r, b. cbn; auto 8.
        * split; [reflexivity|]. exists ((x, r) :: m), y, r', b. cbn; auto 8.
  Qed.
  Definition of_grammars (gs : list (grammar_rules * grammar_rules)) (ty : ttype) (c : cate) (k : string) (v : rbkey) : Prop :=
    mentioned (map (match c with CFrame => fst | CRule => snd end) gs) ty k v.
  Lemma mentioned_cons m ms ty k v : mentioned (m :: ms) ty k v <-> mentioned [m] ty k v \/ mentioned ms ty k v.
  Proof.
    unfold mentioned. split.
    - intros (m' & x & r & b & [<-|Hm] & H); [left|right]; [exists m|exists m']; exists x, r, b; cbn; auto.
    - intros [(m' & x & r & b & [<-|[]] & H)|(m' & x & r & b & Hm & H)]; [exists m|exists m']; exists x, r, b; cbn; auto.
  Qed.
  Lemma index_grammars_step gs : forall s s', index_grammars trie_accepts gs s = Ret s' -> step s s' (of_grammars gs).
  Proof.
    induction gs as [|[f r] gs IH]; intros s s'; cbn [index_grammars].
    - intros E. inversion E; subst. apply step_refl. intros ty c k v _ (m & x & r & b & Hm & _). destruct c; destruct Hm.
    - destruct (index_rules trie_accepts CFrame f s) as [s1| | |] eqn:E1; cbn [bind]; try discriminate.
      destruct (index_rules trie_accepts CRule r s1) as [s2| | |] eqn:E2; cbn [bind]; try discriminate. intros E.
      eapply step_trans; [eapply (step_trans _ _ _ _ _ (fun ty c k v => of_rules CFrame f ty c k v \/ of_rules CRule r ty c k v));
        [apply index_rules_step; exact E1|apply index_rules_step; exact E2|reflexivity]|apply IH; exact E|].
      intros ty c k v. unfold of_grammars, of_rules. cbn [map]. rewrite mentioned_cons. destruct c; cbn [fst snd]; intuition; discriminate.
  Qed.
  Lemma index_grammars_exact gs tr ix rix : index_grammars trie_accepts gs ([], [], []) = Ret (tr, ix, rix) ->
    tidy_state (tr, ix, rix) /\
    (forall c k v, lists ix c k v <-> mentioned (map (match c with CFrame => fst | CRule => snd end) gs) TTerminal k v) /\
    (forall c k v, lists rix c k v <-> mentioned (map (match c with CFrame => fst | CRule => snd end) gs) TNonterminal k v).
  Proof.
    intros E. apply index_grammars_step in E. destruct E as [T S]. split; [|split].
    - apply T. cbn [tidy_state]. repeat split; try constructor; try discriminate; cbn; try tauto; try congruence.
    - intros c k v. rewrite (S TTerminal c k v (or_introl eq_refl)). unfold of_grammars. cbn [part].
      split; [|auto]. intros [(i & H & _)|H]; [discriminate|exact H].
    - intros c k v. rewrite (S TNonterminal c k v (or_intror eq_refl)). unfold of_grammars. cbn [part].
      split; [|auto]. intros [(i & H & _)|H]; [discriminate|exact H].
  Qed.
End Index.

Lemma lookup_N_some {A} (m : list (N * A)) k a : lookup_N m k = Some a -> In (k, a) m.
Proof.
  induction m as [|[k' a'] m IH]; cbn [lookup_N]; [discriminate|]. destruct (N.eqb k' k) eqn:E.
  - apply N.eqb_eq in E. subst. intros H. inversion H; subst. left. reflexivity.
  - intros H. right. auto.
Qed.
(** two maps that denote the same items mention the same *)
Lemma denotes_mentioned hash its frame m m' ms ty k v : denotes hash its frame m -> denotes hash its frame m' ->
  mentioned (m :: ms) ty k v -> mentioned (m' :: ms) ty k v.
Proof.
  intros D D' (m0 & x & r & b & [<-|Hm] & Hr & Hn & Hb & M).
  - destruct D as (D1 & D2 & D3). destruct D' as (D1' & D2' & D3').
    assert (L : lookup m x = Some r) by (apply in_lookup; assumption).
    assert (W : written its frame x <> []) by (intros W; rewrite (D2 x W) in L; discriminate).
    destruct (D3 x W) as (r0 & L0 & E0 & N0 & F0). rewrite L in L0. inversion L0; subst r0. clear L0.
    destruct (D3' x W) as (r' & L' & E' & N' & F').
    exists m', x, r', b. split; [left; reflexivity|]. split; [apply lookup_in; exact L'|]. split; [congruence|].
    split; [|exact M]. apply (lookup_N_in _ _ _ N0) in Hb. rewrite F0, <- F' in Hb. apply lookup_N_some. exact Hb.
  - exists m0, x, r, b. cbn; auto 6.
Qed.

Section Gfs.
  Variables letter_hi digit_hi : rune -> bool.
  Variable scan_float : string -> res bigf.
  Variable regexp_ok : string -> bool.
  Variable md5 : string -> string.
  Variable hash : rulebody -> N.
  Variable trie_accepts : string -> bool.
  Variable tokenize : string -> res (list token).
  Variable ascii_name : string -> string.
  Variable read_file : string -> res string.
  Variable abs_dir : string -> res string.
  Variable join_path : string -> string -> string.
  Variable ord : grammar_rules -> grammar_rules.
  Variable fuel : nat.
  Hypothesis Htab : unicode_tables letter_hi digit_hi.
  Local Notation gfs := (grammar_from_string letter_hi digit_hi scan_float regexp_ok md5 hash trie_accepts tokenize ascii_name
    read_file abs_dir join_path ord fuel).
  Local Notation text_of := (text_of letter_hi digit_hi scan_float regexp_ok md5).

  Lemma finish_index name rules frames regexps includes gt g gt' :
    finish hash trie_accepts tokenize ascii_name ord fuel name rules frames regexps includes gt = Ret (g, gt') ->
    g_frames g = frames /\ g_includes g = includes /\ index_exact g rules.
  Proof.
    unfold finish. destruct (index_grammars _ _ _) as [[[tr ix] rix]| | |] eqn:E; cbn [bind]; try discriminate.
    destruct (refine _ _ _ _ _ _ _) as [[r' gt1]| | |]; cbn [bind]; try discriminate. intros H. inversion H; subst g gt1. clear H.
    cbn [g_frames g_includes]. split; [reflexivity|]. split; [reflexivity|].
    apply index_grammars_exact in E. destruct E as ((W1 & W2 & W3 & W4) & H1 & H2).
    assert (M : forall c, map (match c with CFrame => fst | CRule => snd end) ((frames, rules) :: map (fun g => (g_frames g, g_rules g)) includes)
                = match c with CFrame => frames :: map g_frames includes | CRule => rules :: map g_rules includes end).
    { intros []; cbn [map fst snd]; rewrite map_map; reflexivity. }
    unfold index_exact. cbn [g_frames g_includes g_index g_rule_index g_trie]. split; [|split; [exact W3|split; [|split; assumption]]].
    - intros k v. rewrite !H1, !H2, (M CFrame), (M CRule). tauto.
    - intros k. split; [apply W4|]. intros (c & v & i & L & _). congruence.
  Qed.
  Lemma exact_denotes its g m m' : denotes hash its false m -> denotes hash its false m' -> index_exact g m -> index_exact g m'.
  Proof.
    intros D D' (H & R). split; [|exact R]. intros k v. destruct (H k v) as (H1 & H2 & H3 & H4).
    split; [exact H1|]. split; [|split; [exact H3|]]; [rewrite H2|rewrite H4]; split; apply denotes_mentioned with (hash := hash) (its := its) (frame := false); assumption.
  Qed.
  Lemma gfs_index depth d name dir w g w' ps its re rules : text_of d ps its re ->
    gfs depth d name dir w = Ret (Some g, w') -> denotes hash its false rules -> index_exact g rules.
  Proof.
    intros HT. destruct depth as [|depth]; [discriminate|].
    rewrite (gfs_unfold letter_hi digit_hi scan_float regexp_ok md5 hash trie_accepts tokenize ascii_name read_file abs_dir join_path ord fuel).
    destruct (Nat.leb 2 _); [discriminate|].
    destruct (read_text_ _ _ _ _ _ _ _ _ _ _) as [v| | |] eqn:RT; cbn [bind]; try discriminate.
    apply (read_text_at_ret letter_hi digit_hi scan_float regexp_ok md5 hash fuel Htab _ _ d _ ps its re v HT) in RT. revert RT.
    destruct (load_all _ _ _ _ _) as [[[inc w1] re1]| | |]; cbn [bind]; try discriminate. intros RT. injection RT as <-.
    destruct (finish _ _ _ _ _ _ _ _ _ _ _ _) as [[g' gt']| | |] eqn:F; cbn [bind]; try discriminate.
    intros E D. inversion E; subst g' w'. apply finish_index in F. destruct F as (_ & _ & F).
    eapply exact_denotes; [|exact D|exact F].
    exact (text_denotes letter_hi digit_hi scan_float regexp_ok md5 hash d ps its re false HT).
  Qed.
End Gfs.

Section Env.
  Variable e : env.
  Hypothesis HE : env_ok e.
  Lemma env_index fuel depth d name gt g w' :
    from_string e fuel depth d name gt = Ret (Some g, w') ->
    (exists ps its re rules, e_text e d ps its re /\ denotes (e_hash e) its true (g_frames g) /\ denotes (e_hash e) its false rules) /\
    forall ps its re rules, e_text e d ps its re -> denotes (e_hash e) its false rules -> index_exact g rules.
  Proof.
    intros E. split.
    - destruct (env_string_files e HE _ _ _ _ _ _ _ E) as (g' & Eg & _ & _ & _ & H & _). inversion Eg; subst g'.
      destruct H as (rules & T & ps & its & re & H1 & H2 & H3 & _). exists ps, its, re, rules. auto.
    - intros ps its re rules T D. destruct HE as (H1 & _). eapply gfs_index; eauto.
  Qed.
  Lemma env_file_index fuel depth file gt g w' :
    from_file e fuel depth file gt = Ret (Some g, w') ->
    exists d, e_read e file = Ret d /\
    (exists ps its re rules, e_text e d ps its re /\ denotes (e_hash e) its true (g_frames g) /\ denotes (e_hash e) its false rules) /\
    forall ps its re rules, e_text e d ps its re -> denotes (e_hash e) its false rules -> index_exact g rules.
  Proof.
    intros E. destruct (env_file_files e HE _ _ _ _ _ _ E) as (g' & b' & dir' & Eg & Eb' & _ & _ & _ & _ & H & _).
    inversion Eg; subst g'. exists b'. split; [exact Eb'|]. split.
    - destruct H as (rules & T & ps & its & re & H1 & H2 & H3 & _). exists ps, its, re, rules. auto.
    - unfold from_file, GrammarFromFile in E. rewrite Eb' in E. cbn [bind] in E.
      intros ps its re rules T D. destruct HE as (H1 & _).
      destruct (e_abs e file) as [dir| | |]; cbn [bind] in E; try discriminate. eapply gfs_index; [exact H1|exact T|exact E|exact D].
  Qed.
End Env.
