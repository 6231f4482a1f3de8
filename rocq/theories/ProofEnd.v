(** Grammars accepted by the reader satisfy the hypotheses of the parsing theorems. *)
From Coq Require Import Permutation Sorted.
From Verif Require Import Base ModelTypes ModelText ModelEarley ModelTrees ModelApi ModelReader ModelGrammar ModelLocal
  SpecTypes SpecGrammar SpecTree SpecNotation SpecRefine SpecConstruct SpecApi SpecLocal SpecEnd
  ProofRefine ProofConstruct ProofLocal ProofLocalMatch ProofLocalApi ProofApi ProofApiMain ProofExtract ProofEmpty.

(** ** what is written *)
Section Written.
  Variables letter digit : rune -> bool.
  Variable scan_float : string -> res bigf.
  Variable regexp_ok : string -> bool.
  Variable md5 : string -> string.
  Notation w_arg := (w_arg letter digit scan_float).
  Notation w_args := (w_args letter digit scan_float).
  Notation w_fmr := (w_fmr letter digit scan_float).

  Scheme w_arg_mind := Induction for SpecNotation.w_arg Sort Prop
    with w_args_mind := Induction for SpecNotation.w_args Sort Prop
    with w_fmr_mind := Induction for SpecNotation.w_fmr Sort Prop.
  Combined Scheme w_arg_mutind from w_arg_mind, w_args_mind, w_fmr_mind.

  Lemma written_typed :
    (forall a w, w_arg a w -> wt_arg a) /\ (forall l w, w_args l w -> Forall wt_arg l) /\ (forall f w, w_fmr f w -> wt_fmr f).
  Proof. apply w_arg_mutind; intros; try (constructor; auto; fail). Qed.

  Definition written_term (t : term) : Prop :=
    t_type t = TTerminal \/ (t_type t = TNonterminal /\ t_meta t = MNil) \/ (t_type t = TAny /\ t_value t = "any"%string) \/ t_type t = TList.
  Lemma w_term_kind t re w : w_term letter digit regexp_ok md5 t re w -> written_term t.
  Proof. intros H. inversion H; subst; unfold written_term; cbn; auto. Qed.
  Lemma w_terms_kind ts re w : w_terms letter digit regexp_ok md5 ts re w -> ts <> [] /\ Forall written_term ts.
  Proof.
    induction 1 as [t re w g H _|t re w g ts re' w' H _ _ [_ IH]]; (split; [discriminate|]); constructor; eauto using w_term_kind.
  Qed.
  Definition written_body (b : rulebody) : Prop := rb_terms b <> [] /\ Forall written_term (rb_terms b) /\ wt_rb b.
  Lemma w_body_kind b re w : w_body letter digit scan_float regexp_ok md5 b re w -> written_body b.
  Proof.
    intros H. inversion H; subst; destruct (w_terms_kind _ _ _ H0) as [A B]; (split; [exact A|]); (split; [exact B|]).
    - intros f E. discriminate E.
    - intros f0 E. inversion E; subst. eapply written_typed; eauto.
  Qed.
  Lemma w_bodies_kind l re w : w_bodies letter digit scan_float regexp_ok md5 l re w -> Forall written_body l.
  Proof. induction 1; constructor; eauto using w_body_kind. Qed.
  Lemma w_items_kind its re w it b : w_items letter digit scan_float regexp_ok md5 its re w -> In it its -> In b (it_bodies it) ->
    written_body b.
  Proof.
    induction 1 as [|g it' re w l re' w' _ Hi _ IH]; intros Hin Hb; [destruct Hin|].
    destruct Hin as [->|Hin]; [|auto]. inversion Hi; subst; cbn [it_bodies] in Hb;
      (eapply Forall_forall; [eapply w_bodies_kind; eauto|exact Hb]).
  Qed.
  Lemma w_file_kind ps its re w it b : w_file letter digit scan_float regexp_ok md5 ps its re w -> In it its -> In b (it_bodies it) ->
    written_body b.
  Proof. induction 1; [eapply w_items_kind; eauto|auto]. Qed.
End Written.

Section Parts.
  Variable e : env.
  Variables (d0 : string) (g : grammar) (L : list refined).
  Hypothesis HP : e_parts e d0 g L.
  Notation before := (map rd_before L).

  (** every part was written in some text *)
  Lemma part_written p : In p L -> exists d1 ig,
    written_as (e_letter e) (e_digit e) (e_scan e) (e_regexp_ok e) (e_md5 e) (e_hash e) (e_tokenize e) (e_ascii e) d1 ig (rd_before p) (rd_table p)
    /\ rd_after p = g_rules ig.
  Proof using HP.
    destruct HP as (q & ps & -> & E & Hw & HF). intros [<-|Hp]; [exists d0, g; auto|].
    clear - HF Hp. induction HF as [|ig r l l' [H1 (b & _ & H2)] _ IH]; [destruct Hp|].
    destruct Hp as [<-|Hp]; [exists b, ig; auto|auto].
  Qed.
  Lemma before_written p x r : In p L -> lookup (rd_before p) x = Some r ->
    r_name r = x /\ forall h b, In (h, b) (r_body r) -> written_body b.
  Proof using HP.
    intros Hp Lx. destruct (part_written p Hp) as (d1 & ig & (ps & its & re & Ht & _ & Hd & _) & _).
    pose proof Hd as (D1 & D2 & D3). split.
    - destruct (written its false x) eqn:E; [rewrite (D2 x E) in Lx; discriminate|].
      destruct (D3 x) as (r' & Lr & En & _); [congruence|]. congruence.
    - intros h b Hb. apply lookup_some_in in Lx.
      destruct (denotes_written _ _ _ _ _ _ _ _ Hd Lx Hb) as (Hw & _).
      apply in_written in Hw. destruct Hw as (it & Hit & Hb').
      destruct Ht as [(w & _ & _ & Hf)|(_ & _ & -> & _)]; [|destruct Hit]. eapply w_file_kind; eauto.
  Qed.
  Lemma before_body p x b : In p L -> has_body [rd_before p] x b -> has_body before x b /\ written_body b.
  Proof using HP.
    intros Hp (m & r & h & [<-|[]] & Lx & Hb). split.
    - exists (rd_before p), r, h. split; [apply in_map; exact Hp|auto].
    - eapply (proj2 (before_written p x r Hp Lx)); eauto.
  Qed.
  Lemma part_refined p : In p L -> refined_by (e_tokenize e) (e_hash e) (rd_table p) (rd_before p) (rd_after p)
    /\ forall x, In x (map snd (rd_table p)) -> String.prefix "g_t" x = true.
  Proof using HP. intros Hp. eapply parts_refined; eauto. Qed.

  (** the alternatives after refinement *)
  Lemma after_body x b' : has_body (all_rules g) x b' ->
    (exists p b, In p L /\ has_body before x b /\ written_body b /\ replaced_body (rd_table p) b b') \/
    (exists v tk m t, e_tokenize e v = Ret tk /\ occurs before t /\ t_type t = TTerminal /\ t_value t = v /\ t_meta t = m /\
       b' = mkRb (token_terms m tk) None).
  Proof using HP.
    rewrite <- (parts_after _ _ _ _ _ _ _ _ _ d0 g L HP). intros (m & r' & h & Hm & Lx & Hb). apply in_map_iff in Hm. destruct Hm as (p & <- & Hp).
    destruct (part_refined p Hp) as ((R1 & R2 & R3 & R4 & R5 & R6 & R7) & _).
    destruct (lookup (rd_before p) x) as [r|] eqn:Lb.
    - left. destruct (R5 x r Lb) as (r2 & L2 & _ & _ & B). rewrite Lx in L2. inversion L2; subst r2.
      destruct (B h b' Hb) as (b & Hb2 & HF). exists p, b. split; [exact Hp|].
      destruct (before_body p x b Hp) as [H1 H2]; [exists (rd_before p), r, h; cbn; auto|]. auto.
    - right. destruct (in_dec string_dec x (map snd (rd_table p))) as [Hi|Hi]; [|rewrite (R7 x Lb Hi) in Lx; discriminate].
      apply in_map_iff in Hi. destruct Hi as ((v, x') & Ex & Hi). cbn [snd] in Ex. subst x'.
      destruct (R6 v x Hi) as (tk & m & E1 & Ho & Lk). cbv zeta in Lk. rewrite Lk in Lx. inversion Lx; subst r'. cbn [r_body] in Hb.
      destruct Hb as [Hb|[]]. inversion Hb; subst b'.
      destruct (occurs_part L p v m Hp Ho) as (t & O1 & O2 & O3 & O4).
      exists v, tk, m, t. auto 7.
  Qed.

  Lemma after_named : named_rules (all_rules g).
  Proof using HP.
    rewrite <- (parts_after _ _ _ _ _ _ _ _ _ d0 g L HP). intros m x r Hm Lx. apply in_map_iff in Hm. destruct Hm as (p & <- & Hp).
    destruct (part_refined p Hp) as ((R1 & R2 & R3 & R4 & R5 & R6 & R7) & _).
    destruct (lookup (rd_before p) x) as [r0|] eqn:Lb.
    - destruct (R5 x r0 Lb) as (r2 & L2 & En & _). rewrite Lx in L2. inversion L2; subst r2. rewrite En.
      eapply before_written; eauto.
    - destruct (in_dec string_dec x (map snd (rd_table p))) as [Hi|Hi]; [|rewrite (R7 x Lb Hi) in Lx; discriminate].
      apply in_map_iff in Hi. destruct Hi as ((v, x') & Ex & Hi). cbn [snd] in Ex. subst x'.
      destruct (R6 v x Hi) as (tk & m & E1 & Ho & Lk). cbv zeta in Lk. rewrite Lk in Lx. inversion Lx. reflexivity.
  Qed.
  Lemma after_typed : typed_args (all_rules g).
  Proof using HP.
    intros x b' Hb. apply after_body in Hb. destruct Hb as [(p & b & _ & _ & (_ & _ & Hw) & (Ef & _))|(v & tk & m & t & _ & _ & _ & _ & _ & ->)].
    - unfold wt_rb in *. rewrite Ef. exact Hw.
    - intros f E. discriminate E.
  Qed.
  (** a term after refinement *)
  Lemma after_term x b' t' : has_body (all_rules g) x b' -> In t' (rb_terms b') ->
    t_type t' = TTerminal \/ (exists p x', In p L /\ In x' (map snd (rd_table p)) /\ t_type t' = TNonterminal /\ t_value t' = x')
    \/ (occurs before t' /\ t_type t' <> TTerminal /\ written_term t').
  Proof using HP.
    intros Hb Ht. apply after_body in Hb. destruct Hb as [(p & b & Hp & Hb & (_ & Hw & _) & (_ & HF))|(v & tk & m & t & _ & _ & _ & _ & _ & ->)].
    - right. destruct (Forall2_in_r _ _ _ _ HF Ht) as (t & Hin & [(Et & y & Hy & ->)|(Et & ->)]).
      + left. exists p, y. split; [exact Hp|]. split; [apply in_map_iff; exists (t_value t, y); auto|auto].
      + right. split; [exists x, b; auto|]. split; [exact Et|]. eapply Forall_forall; eauto.
    - left. cbn [rb_terms] in Ht. exact (proj1 (Forall_forall _ _) (token_terms_terminal m tk) t' Ht).
  Qed.
  Lemma after_separated : separated (all_rules g).
  Proof using HP.
    intros x b' Hb. apply after_body in Hb. destruct Hb as [(p & b & Hp & Hb & (_ & Hw & _) & (_ & HF))|(v & tk & m & t & _ & _ & _ & _ & _ & ->)].
    - right. intros t' Ht. destruct (Forall2_in_r _ _ _ _ HF Ht) as (t & Hin & [(Et & y & Hy & ->)|(Et & ->)]); [cbn; auto|].
      pose proof (proj1 (Forall_forall _ _) Hw t Hin) as [H|[(H & _)|[(H & _)|H]]]; auto. congruence.
    - left. cbn [rb_terms]. apply Forall_forall, token_terms_terminal.
  Qed.
  Lemma after_any : any_named (all_rules g).
  Proof using HP.
    intros t (x & b & Hb & Ht) Ety. destruct (after_term x b t Hb Ht) as [E|[(p & y & _ & _ & E & _)|(_ & _ & [E|[(E & _)|[(_ & E)|E]]])]]; congruence.
  Qed.
  Lemma after_special t : occurs (all_rules g) t -> t_type t = TAny \/ t_type t = TList -> occurs before t.
  Proof using HP.
    intros (x & b & Hb & Ht) Ety. destruct (after_term x b t Hb Ht) as [E|[(p & y & _ & _ & E & _)|(H & _)]]; [destruct Ety; congruence|destruct Ety; congruence|exact H].
  Qed.
  Lemma after_uniform : uniform_ranges before -> uniform_ranges (all_rules g).
  Proof using HP.
    intros HU t t' Ho Ho' Ety Hk.
    assert (H1 : t_type t = TAny \/ t_type t = TList) by (destruct Hk as [H|(H & _)]; auto).
    apply HU; auto using after_special. apply after_special; [exact Ho'|]. rewrite <- Ety. exact H1.
  Qed.
  Lemma after_unreserved starts : unreserved before -> ~ In GammaRule starts -> no_reserved (all_rules g) starts.
  Proof using HP.
    intros HU Hs. split; [|exact Hs]. intros t (x & b & Hb & Ht) Ety.
    destruct (after_term x b t Hb Ht) as [E|[(p & y & Hp & Hy & _ & E)|(H & _)]]; [contradiction| |apply HU; auto].
    rewrite E. intros ->. apply (part_refined p Hp) in Hy. vm_compute in Hy. discriminate.
  Qed.
  Lemma after_no_empty : texts_nonempty (e_tokenize e) before -> no_empty (all_rules g).
  Proof using HP.
    intros [H1 H2]. split.
    - intros x b' Hb. apply after_body in Hb. destruct Hb as [(p & b & Hp & Hb & (Hn & Hw & _) & (_ & HF))|(v & tk & m & t & Ek & Ho & Et & Ev & Em & ->)].
      + intros E. rewrite E in HF. inversion HF. congruence.
      + cbn [rb_terms]. destruct (H1 t tk Ho Et) as (k & Hk & Hs); [rewrite Ev; exact Ek|]. intros E.
        assert (Hi : In (mkTerm (tok_text k) TTerminal m) (token_terms m tk)).
        { unfold token_terms. apply in_map_iff. exists k. split; [reflexivity|]. apply filter_In. split; [exact Hk|].
          unfold is_space_token. destruct (tok_type k); try reflexivity. congruence. }
        rewrite E in Hi. destruct Hi.
    - intros t Ho Ety. apply H2; [apply after_special; auto|exact Ety].
  Qed.
  Lemma own_not_generated x : compatible L -> own_name before x -> ~ generated L x.
  Proof using HP.
    intros HC [(m & Hm & Hx)|Hx] G.
    - apply in_map_iff in Hm. destruct Hm as (q & <- & Hq). apply Hx. apply (proj1 HC); assumption.
    - destruct G as (p & Hp & Hi). apply (part_refined p Hp) in Hi. congruence.
  Qed.
End Parts.

Lemma accepted_parts e d g L : e_parts e d g L ->
  named_rules (all_rules g) /\ typed_args (all_rules g) /\ separated (all_rules g) /\ any_named (all_rules g) /\
  (uniform_ranges (map rd_before L) -> uniform_ranges (all_rules g)) /\
  (texts_nonempty (e_tokenize e) (map rd_before L) -> no_empty (all_rules g)) /\
  (forall starts, unreserved (map rd_before L) -> ~ In GammaRule starts -> no_reserved (all_rules g) starts).
Proof.
  intros HP. split; [eapply after_named; eauto|]. split; [eapply after_typed; eauto|]. split; [eapply after_separated; eauto|].
  split; [eapply after_any; eauto|]. split; [eapply after_uniform; eauto|]. split; [eapply after_no_empty; eauto|].
  eapply after_unreserved; eauto.
Qed.

(** ** the language of a text for a document *)
Section Call.
  Variable e : env.
  Variables (d0 : string) (g : grammar) (L : list refined).
  Hypothesis HP : e_parts e d0 g L.
  Hypothesis HC : compatible L.
  Hypothesis HU : uniform_flags (map rd_before L).
  Hypothesis HD : no_dangling "g_t" (map rd_before L).
  Variable tmatch : term -> option token -> bool.
  Variable hash : rulebody -> N.
  Variable find_all : string -> string -> option (list (nat * nat)).
  Variable span_text : document -> nat -> nat -> string.
  Variable ord : nat -> list (string * entry) -> list (string * entry).
  Variable d : document.
  Hypothesis Hord : forall i l, Permutation l (ord i l).
  Hypothesis Hok : doc_ok d.
  Hypothesis Hhash : hash_separates find_all (g_regexps g) d hash.
  Hypothesis Hnames : local_names find_all (g_regexps g) d.
  Variable l : option grammar_rules.
  Hypothesis Hl : local_grammar hash find_all span_text (g_regexps g) ord d = Ret l.
  Notation before := (map rd_before L).
  Notation means := (Means (e_tokenize e) tmatch before find_all (g_regexps g) d).

  Lemma means_language x i j : own_name before x ->
    (Match tmatch (with_local (all_rules g) l) (content d) x i j <-> means x i j).
  Proof using All.
    intros Hx. unfold Match, Derives, Means.
    set (loc := fun x ts => exists b, local_alt find_all (g_regexps g) d x b /\ rb_terms b = ts).
    rewrite (derives_alt (has_alt (with_local (all_rules g) l)) (fun x ts => has_alt (map rd_after L) x ts \/ loc x ts)).
    - apply (refine_language_with (e_tokenize e) (e_hash e) tmatch (content d) L) with (loc := loc).
      + intros p Hp. apply (part_refined e d0 g L HP p Hp).
      + exact HC.
      + exact HU.
      + apply dangling_free; auto. intros p y Hp Hy. apply (part_refined e d0 g L HP p Hp). exact Hy.
      + intros y ts (b & Hb & <-). split.
        * apply (own_not_generated e d0 g L HP y HC). right. eapply Hnames; eauto.
        * destruct (local_alt_words _ _ _ _ _ Hb) as (ss & ->). apply Forall_forall. intros t Ht.
          apply in_map_iff in Ht. destruct Ht as (s & <- & _). reflexivity.
      + apply (own_not_generated e d0 g L HP x HC Hx).
    - intros y ts. rewrite with_local_app, (parts_after _ _ _ _ _ _ _ _ _ d0 g L HP). unfold loc, has_alt. split.
      + intros (b & Hb & E). apply has_body_app in Hb. destruct Hb as [Hb|Hb]; [left; exists b; auto|right].
        exists b. split; [|exact E]. apply (local_exact hash find_all span_text (g_regexps g) ord Hord d l Hok Hhash Hl). exact Hb.
      + intros [(b & Hb & E)|(b & Hb & E)]; exists b; (split; [|exact E]); apply has_body_app; [left; exact Hb|right].
        apply (local_exact hash find_all span_text (g_regexps g) ord Hord d l Hok Hhash Hl). exact Hb.
  Qed.

  Lemma call_hypotheses starts :
    unreserved before -> ~ In GammaRule starts -> well_formed (with_local (all_rules g) l) starts.
  Proof using HP Hord Hok Hl.
    intros H1 H2. destruct (accepted_parts e d0 g L HP) as (A1 & _ & _ & _ & _ & _ & A7).
    apply (local_keeps hash find_all span_text (g_regexps g) ord Hord d Hok l Hl (all_rules g)). split; auto.
  Qed.
  Lemma call_separated : separated (with_local (all_rules g) l) /\ any_named (with_local (all_rules g) l).
  Proof using HP Hord Hok Hl.
    destruct (accepted_parts e d0 g L HP) as (_ & _ & A3 & A4 & _).
    destruct (local_keeps hash find_all span_text (g_regexps g) ord Hord d Hok l Hl (all_rules g)) as (_ & _ & K3 & K4 & _). auto.
  Qed.
  Lemma call_typed : string_items d -> typed_args (with_local (all_rules g) l).
  Proof using HP Hord Hok Hl.
    destruct (accepted_parts e d0 g L HP) as (_ & A2 & _).
    apply (local_keeps hash find_all span_text (g_regexps g) ord Hord d Hok l Hl (all_rules g)). exact A2.
  Qed.
  Lemma call_uniform : uniform_ranges before -> uniform_ranges (with_local (all_rules g) l).
  Proof using HP Hord Hok Hl.
    destruct (accepted_parts e d0 g L HP) as (_ & _ & _ & _ & A5 & _). intros H.
    apply (local_keeps hash find_all span_text (g_regexps g) ord Hord d Hok l Hl (all_rules g)). auto.
  Qed.
  Lemma call_nonempty : texts_nonempty (e_tokenize e) before -> no_empty_spans find_all (g_regexps g) d ->
    no_empty (with_local (all_rules g) l).
  Proof using HP Hord Hok Hl.
    destruct (accepted_parts e d0 g L HP) as (_ & _ & _ & _ & _ & A6 & _). intros H.
    apply (local_keeps hash find_all span_text (g_regexps g) ord Hord d Hok l Hl (all_rules g)). auto.
  Qed.
End Call.

(** ** trees *)
Section TreeText.
  Variable e : env.
  Variables (d0 : string) (g : grammar) (L : list refined).
  Hypothesis HP : e_parts e d0 g L.
  Hypothesis HC : compatible L.
  Hypothesis HU : uniform_flags (map rd_before L).
  Hypothesis HD : no_dangling "g_t" (map rd_before L).
  Hypothesis HG : uniform_ranges (map rd_before L).
  Variable tmatch : term -> option token -> bool.
  Variable hash : rulebody -> N.
  Variable find_all : string -> string -> option (list (nat * nat)).
  Variable span_text : document -> nat -> nat -> string.
  Variable ord : nat -> list (string * entry) -> list (string * entry).
  Variable d : document.
  Hypothesis Hord : forall i l, Permutation l (ord i l).
  Hypothesis Hok : doc_ok d.
  Hypothesis Hnames : local_names find_all (g_regexps g) d.
  Variable l : option grammar_rules.
  Hypothesis Hl : local_grammar hash find_all span_text (g_regexps g) ord d = Ret l.
  Variable toks : list token.
  Notation before := (map rd_before L).
  Notation G := (with_local (all_rules g) l).
  Notation TT := (text_tree (e_tokenize e) tmatch before find_all (g_regexps g) d toks).
  Notation TTs := (text_trees (e_tokenize e) tmatch before find_all (g_regexps g) d toks).

  Lemma words_of ts i j kids : trees_of G (accepts_by tmatch) toks (some_range G) ts i j kids -> words ts -> words_at tmatch toks ts i j kids.
  Proof using.
    intros H. induction H as [|t ts i j k p ps Ht _ IH]; intros Hw; [constructor|]. inversion Hw; subst.
    inversion Ht; subst; try congruence. econstructor; eauto.
  Qed.
  Lemma all_body x b : has_body G x b -> has_body (all_rules g) x b \/ local_alt find_all (g_regexps g) d x b.
  Proof using Hord Hok Hl.
    rewrite with_local_app. intros Hb. apply has_body_app in Hb. destruct Hb as [Hb|Hb]; [auto|right].
    apply (local_sound hash find_all span_text (g_regexps g) ord Hord d l x b Hok Hl). exact Hb.
  Qed.
  Lemma local_words x b : local_alt find_all (g_regexps g) d x b -> words (rb_terms b).
  Proof using.
    intros Hb. destruct (local_alt_words _ _ _ _ _ Hb) as (ss & ->). apply Forall_forall. intros t Ht.
    apply in_map_iff in Ht. destruct Ht as (s & <- & _). reflexivity.
  Qed.
  Lemma HR p : In p L -> refined_by (e_tokenize e) (e_hash e) (rd_table p) (rd_before p) (rd_after p).
  Proof using HP. intros Hp. apply (part_refined e d0 g L HP p Hp). Qed.

  (** the only alternative of a generated rule *)
  Lemma generated_body p t x b : In p L -> In (t_value t, x) (rd_table p) -> occurs before t -> t_type t = TTerminal ->
    has_body G x b -> exists ks, e_tokenize e (t_value t) = Ret ks /\ b = mkRb (token_terms (t_meta t) ks) None.
  Proof using HP HC HU Hord Hok Hnames Hl.
    intros Hp Hx Ho Et Hb.
    assert (Gx : generated L x) by (exists p; split; [exact Hp|apply in_map_iff; exists (t_value t, x); auto]).
    apply all_body in Hb. destruct Hb as [Hb|Hb].
    - assert (Ha : has_alt (map rd_after L) x (rb_terms b)).
      { rewrite (parts_after _ _ _ _ _ _ _ _ _ d0 g L HP). exists b. auto. }
      apply (new_alt (e_tokenize e) (e_hash e) L HR HC HU p (t_value t) x t (rb_terms b) Hp Hx Ho Et eq_refl) in Ha.
      destruct Ha as (ks & Ek & Eb). exists ks. split; [exact Ek|].
      destruct (after_body e d0 g L HP x b Hb) as [(q & b0 & Hq & (m & r & h & Hm & Lx & _) & _)|(v & tk & m & t0 & _ & _ & _ & _ & _ & E)].
      + exfalso. apply in_map_iff in Hm. destruct Hm as (q' & <- & Hq'). rewrite (proj1 HC x q' Gx Hq') in Lx. discriminate.
      + rewrite E in Eb |- *. cbn [rb_terms] in Eb. rewrite Eb. reflexivity.
    - exfalso. apply Hnames in Hb. destruct Gx as (q & Hq & Hi). apply (part_refined e d0 g L HP q Hq) in Hi. congruence.
  Qed.

  Lemma own_count t n : occurs before t -> t_type t = TAny \/ t_type t = TList -> some_range G t n -> range_allows (t_meta t) n.
  Proof using HP HG Hord Hok Hl.
    intros Ho Ety (t' & (x & b & Hb & Hin) & Et & Ev & Hr).
    assert (Ho' : occurs before t').
    { apply (after_special e d0 g L HP); [|rewrite Et; exact Ety]. apply all_body in Hb. destruct Hb as [Hb|Hb]; [exists x, b; auto|].
      exfalso. pose proof (local_words x b Hb) as Hw. unfold words in Hw. rewrite Forall_forall in Hw. rewrite (Hw t' Hin) in Et. destruct Ety; congruence. }
    rewrite (HG t t' Ho Ho'); [exact Hr|congruence|]. destruct Ety as [E|E]; [left; exact E|right].
    split; [exact E|]. symmetry. exact (Ev E).
  Qed.

  Definition fits_text (t t' : term) : Prop :=
    (t_type t = TTerminal /\ occurs before t /\ exists p x, In p L /\ In (t_value t, x) (rd_table p) /\ t' = mkTerm x TNonterminal (t_meta t))
    \/ (t_type t <> TTerminal /\ t' = t /\
        (t_type t = TNonterminal \/ t_type t = TList -> ~ generated L (t_value t)) /\ (t_type t = TAny \/ t_type t = TList -> occurs before t)).

  Lemma text_trees_of :
    (forall t' i j p, tree_of G (accepts_by tmatch) toks (some_range G) t' i j p -> forall t, fits_text t t' -> TT t i j p) /\
    (forall ts' i j ps, trees_of G (accepts_by tmatch) toks (some_range G) ts' i j ps -> forall ts, Forall2 fits_text ts ts' -> TTs ts i j ps).
  Proof using HP HC HU HD HG Hord Hok Hnames Hl.
    apply tree_of_mutind.
    - intros t' i tok E _ _ t [(_ & _ & p & x & _ & _ & ->)|(Hn & -> & _)]; [discriminate|congruence].
    - intros t' i j E Hij Hc t [(_ & _ & p & x & _ & _ & ->)|(Hn & -> & _ & Ho)]; [discriminate|]. apply tt_any; auto.
      apply own_count; auto.
    - intros t' i j b kids E Hb Hk IH t [(Et & Ho & p & x & Hp & Hx & ->)|(Hn & -> & Hf & _)].
      + cbn [t_value] in *. destruct (generated_body p t x b Hp Hx Ho Et Hb) as (ks & Ek & ->).
        apply tt_text; auto. apply words_of; [exact Hk|apply token_terms_terminal].
      + apply all_body in Hb. destruct Hb as [Hb|Hb].
        * destruct (after_body e d0 g L HP _ b Hb) as [(q & b0 & Hq & Hb0 & (_ & Hw & _) & (Ef & HF))|(v & tk & m & t0 & _ & _ & _ & _ & _ & Eb)].
          -- eapply tt_rule; [exact E|exact Hb0|exact Ef|]. apply IH.
             assert (Hocc : forall u, In u (rb_terms b0) -> occurs before u) by (intros u Hu; exists (t_value t), b0; auto).
             clear - HF Hocc Hq HP HC HD. induction HF as [|u u' us us' Hr _ IHF]; constructor.
             ++ assert (Hu : occurs before u) by (apply Hocc; left; reflexivity).
                destruct Hr as [(Et & y & Hy & ->)|(Et & ->)]; [left|right].
                ** split; [exact Et|]. split; [exact Hu|]. exists q, y. auto.
                ** split; [exact Et|]. split; [reflexivity|]. split; [|auto]. apply dangling_free; auto.
                   intros p y Hp Hy. apply (part_refined e d0 g L HP p Hp). exact Hy.
             ++ apply IHF. intros v Hv. apply Hocc. right. exact Hv.
          -- exfalso. apply (Hf (or_introl E)). clear IH Hk.
             rewrite <- (parts_after _ _ _ _ _ _ _ _ _ d0 g L HP) in Hb. destruct Hb as (mm & r & h & Hm & Lx & Hin).
             apply in_map_iff in Hm. destruct Hm as (q & <- & Hq).
             destruct (HR q Hq) as (_ & _ & _ & _ & R5 & _ & R7).
             destruct (lookup (rd_before q) (t_value t)) as [r0|] eqn:Lb.
             ++ exfalso. destruct (R5 _ _ Lb) as (r2 & L2 & _ & _ & B). rewrite Lx in L2. inversion L2; subst r2.
                destruct (B h b Hin) as (b1 & Hb1 & (_ & HF)).
                pose proof (proj2 (before_written e d0 g L HP q _ _ Hq Lb) h b1 Hb1) as (Hne & _ & _).
                rewrite Eb in HF. cbn [rb_terms] in HF. pose proof (token_terms_terminal m tk) as Hw.
                inversion HF as [|u u' us us' Hr HF' E1 E2]; [congruence|]. rewrite <- E2 in Hw. inversion Hw as [|? ? Hw1 _]; subst.
                destruct Hr as [(_ & y & _ & ->)|(Hc & ->)]; [discriminate|congruence].
             ++ destruct (in_dec string_dec (t_value t) (map snd (rd_table q))) as [Hi|Hi]; [exists q; auto|].
                rewrite (R7 _ Lb Hi) in Lx. discriminate.
        * eapply tt_local; [exact E|exact Hb|]. apply words_of; [exact Hk|]. eapply local_words; exact Hb.
    - intros t' i j n kids E Hc Hk IH t [(_ & _ & p & x & _ & _ & ->)|(Hn & -> & Hf & Ho)]; [discriminate|].
      apply tt_list with (n := n); [exact E|apply own_count; auto|]. apply IH.
      assert (Hx : ~ generated L (t_value t)) by auto. clear - Hx. induction n; constructor; [|assumption].
      right. split; [discriminate|]. split; [reflexivity|]. split; [intros _; exact Hx|]. intros [H|H]; discriminate H.
    - intros i ts HF. inversion HF; subst. constructor.
    - intros t' ts' i j k p ps _ IH _ IHs ts HF. inversion HF; subst. econstructor; eauto.
  Qed.
End TreeText.

(** ** the calls *)
Section Calls.
  Variable e : env.
  Variables (d0 : string) (g : grammar) (L : list refined).
  Hypothesis HP : e_parts e d0 g L.
  Variable starts : list string.
  Hypothesis HU : usable (e_tokenize e) L starts.
  Variable tmatch : term -> option token -> bool.
  Variable ords : nat -> order.
  Hypothesis Hords : orders ords.
  Variable find_all : string -> string -> option (list (nat * nat)).
  Variable span_text : document -> nat -> nat -> string.
  Variable ord : nat -> list (string * entry) -> list (string * entry).
  Hypothesis Hord : forall i l, Permutation l (ord i l).
  Variable annotate : string -> string -> res document.
  Variables (ctx text : string) (d : document).
  Hypothesis Ht : trim_space text <> "".
  Hypothesis Ha : annotate ctx (trim_space text) = Ret d.
  Hypothesis Hfit : fit_document (e_hash e) find_all (g_regexps g) d.
  Notation before := (map rd_before L).
  Notation means := (Means (e_tokenize e) tmatch before find_all (g_regexps g) d).
  Notation local_ := (doc_local (e_hash e) find_all span_text (g_regexps g) ord annotate ctx text).

  Lemma call_setup : exists l,
    process (doc_tokens annotate) local_ ctx text = Ret (content d, l) /\
    well_formed (with_local (all_rules g) l) starts /\ uniform_ranges (with_local (all_rules g) l) /\
    no_empty (with_local (all_rules g) l) /\ typed_args (with_local (all_rules g) l) /\
    separated (with_local (all_rules g) l) /\ any_named (with_local (all_rules g) l) /\
    (forall S i j, In S starts -> (Match tmatch (with_local (all_rules g) l) (content d) S i j <-> means S i j)).
  Proof using HP HU Hord Ht Ha Hfit.
    destruct HU as (U1 & U2 & U3 & U4 & U5 & U6 & U7 & U8). destruct Hfit as (F1 & F2 & F3 & F4 & F5 & F6 & F7).
    destruct (local_process (e_hash e) find_all span_text (g_regexps g) ord annotate ctx text d Ht Ha F2) as (_ & _ & P).
    destruct (P F1 F3) as (l & P1 & P2). exists l. split; [exact P1|].
    split. { eapply call_hypotheses; eauto. intros H. destruct (U8 _ H) as [K _]. exact (K eq_refl). }
    split; [eapply call_uniform; eauto|]. split; [eapply call_nonempty; eauto|]. split; [eapply call_typed; eauto|].
    split; [eapply call_separated; eauto|]. split; [eapply call_separated; eauto|].
    intros S i j HS. eapply means_language; eauto. apply U8. exact HS.
  Qed.

  Lemma end_all : exists ps n, (forall fuel, n <= fuel ->
      EarleyParseAll tmatch ords (all_rules g) (doc_tokens annotate) local_ fuel ctx text starts = Ret ps) /\
    exists is, StronglySorted lt is
      /\ Forall2 (fun i p => parsed_tokens p (skipn i (content d))
            /\ forall S k, reports p S k <-> In S starts /\ means S i (i + k)) is ps
      /\ (forall i, In i is <-> i < length (content d) /\ exists S j, In S starts /\ means S i j).
  Proof using HP HU Hords Hord Ht Ha Hfit.
    destruct call_setup as (l & P & H1 & H2 & H3 & H4 & _ & _ & HM).
    destruct (all_call_terminates tmatch ords (all_rules g) _ _ ctx text starts _ l Hords P H4) as (ps & n & E); [apply HU|].
    exists ps, n. split; [exact E|].
    destruct (all_exact tmatch ords (all_rules g) _ _ ctx text starts _ l Hords P H1 n ps H2 H3 (E n (le_n n))) as (is & S1 & S2 & S3).
    exists is. split; [exact S1|]. split.
    - eapply Forall2_impl; [|exact S2]. intros i p [A B]. split; [exact A|]. intros S k. rewrite (B S k).
      split; intros [C D]; (split; [exact C|]); apply (HM S _ _ C); exact D.
    - intros i. rewrite (S3 i). unfold match_at. split; intros (A & S & j & C & D); (split; [exact A|]); exists S, j; (split; [exact C|]);
        apply (HM S _ _ C); exact D.
  Qed.

  Lemma end_max : exists ps n, (forall steps fuel, n <= fuel -> length (content d) < steps ->
      EarleyParseMaxAll tmatch ords (all_rules g) (doc_tokens annotate) local_ steps fuel ctx text starts = Ret ps) /\
    exists spans, tiles 0 spans
      /\ Forall2 (fun im p => fst im < length (content d) /\ 0 < snd im /\ parsed_tokens p (skipn (fst im) (content d))
            /\ (exists S, In S starts /\ means S (fst im) (fst im + snd im))
            /\ (forall S j, In S starts -> means S (fst im) j -> j <= fst im + snd im)
            /\ (forall k, (exists S, reports p S k) <-> k = snd im)) spans ps
      /\ (forall x S j, x < length (content d) -> ~ covered spans x -> In S starts -> ~ means S x j).
  Proof using HP HU Hords Hord Ht Ha Hfit.
    destruct call_setup as (l & P & H1 & H2 & H3 & H4 & _ & _ & HM).
    destruct (max_call_terminates tmatch ords (all_rules g) _ _ ctx text starts _ l Hords P H1 H4) as (ps & n & E); [apply HU| |].
    { intros S i _ _. apply no_empty_lax; exact H3. }
    exists ps, n. split; [exact E|].
    destruct (max_exact tmatch ords (all_rules g) _ _ ctx text starts _ l Hords P H1 (Datatypes.S (length (content d))) n ps H2 H3)
      as (spans & S1 & S2 & S3); [apply E; lia|].
    exists spans. split; [exact S1|]. split.
    - eapply Forall2_impl; [|exact S2]. intros im p (A & B & C & ((S & D1 & D2) & D3) & F).
      split; [exact A|]. split; [exact B|]. split; [exact C|]. split.
      { exists S. split; [exact D1|]. apply (HM S _ _ D1). exact D2. }
      split; [|exact F]. intros S' j HS Hm. apply (D3 S' j HS). apply (HM S' _ _ HS). exact Hm.
    - intros x S j Hx Hc HS Hm. apply (S3 x Hx Hc). exists S, j. split; [exact HS|]. apply (HM S _ _ HS). exact Hm.
  Qed.

  Lemma end_any : exists p i n, (forall fuel, n <= fuel ->
      EarleyParseAny tmatch ords (all_rules g) (doc_tokens annotate) local_ fuel ctx text starts = Ret (Some p)) /\
    i < length (content d) /\ parsed_tokens p (skipn i (content d))
    /\ (forall i' S j, i' < i -> In S starts -> ~ means S i' j)
    /\ (forall k, (exists S, reports p S k) <->
          (exists S, In S starts /\ means S i (i + k)) /\ forall S j, In S starts -> means S i j -> j <= i + k)
    /\ (p_finals p <> [] <-> exists i' S j, i' < length (content d) /\ In S starts /\ means S i' j).
  Proof using HP HU Hords Hord Ht Ha Hfit.
    destruct call_setup as (l & P & H1 & H2 & H3 & H4 & _ & _ & HM).
    destruct (any_call_terminates tmatch ords (all_rules g) _ _ ctx text starts _ l Hords P H4) as (r & n & E); [apply HU|].
    destruct (any_leftmost tmatch ords (all_rules g) _ _ ctx text starts _ l Hords P H1 n r H2 H3 (E n (le_n n)))
      as (p & i & -> & A1 & A2 & A3 & A4 & A5).
    exists p, i, n. split; [exact E|]. split; [exact A1|]. split; [exact A2|].
    split. { intros i' S j Hi HS Hm. apply (A3 i' Hi). exists S, j. split; [exact HS|]. apply (HM S _ _ HS). exact Hm. }
    split.
    - intros k. rewrite (A4 k). unfold longest_at. split; intros ((S & HS & Hm) & B); (split; [exists S; split; [exact HS|apply (HM S _ _ HS); exact Hm]|]);
        intros S' j HS' Hm'; apply (B S' j HS'); apply (HM S' _ _ HS'); exact Hm'.
    - rewrite A5. split.
      + intros (i' & Hi & S & j & HS & Hm). exists i', S, j. split; [exact Hi|]. split; [exact HS|]. apply (HM S _ _ HS). exact Hm.
      + intros (i' & S & j & Hi & HS & Hm). exists i'. split; [exact Hi|]. exists S, j. split; [exact HS|]. apply (HM S _ _ HS). exact Hm.
  Qed.

  Lemma end_extract : exists outs n, (forall fuel, n <= fuel ->
      ExtractAll tmatch ords (all_rules g) (doc_tokens annotate) local_ fuel ctx text starts = Ret outs) /\
    (forall p t, In (p, t) outs -> exists i k S kid, i < length (content d) /\ In S starts /\
       parsed_tokens p (skipn i (content d)) /\ erase t = PRule GammaRule (gamma_body S) 0 k [kid] /\
       text_tree (e_tokenize e) tmatch before find_all (g_regexps g) d (skipn i (content d)) (nonterm S) 0 k kid) /\
    (forall S i j, i < length (content d) -> In S starts -> means S i j ->
       exists p t kid, In (p, t) outs /\ parsed_tokens p (skipn i (content d)) /\
       erase t = PRule GammaRule (gamma_body S) 0 (j - i) [kid]).
  Proof using HP HU Hords Hord Ht Ha Hfit.
    destruct HU as (U1 & U2 & U3 & U4 & U5 & U6 & U7 & U8). destruct Hfit as (F1 & F2 & F3 & F4 & F5 & F6 & F7).
    destruct (local_process (e_hash e) find_all span_text (g_regexps g) ord annotate ctx text d Ht Ha F2) as (_ & _ & Pl).
    destruct (Pl F1 F3) as (l & P & P2).
    assert (H1 : well_formed (with_local (all_rules g) l) starts).
    { eapply call_hypotheses; eauto. intros H. destruct (U8 _ H) as [K _]. exact (K eq_refl). }
    pose proof (call_nonempty e d0 g L HP (e_hash e) find_all span_text ord d Hord F2 l P2 U6 F5) as H3.
    pose proof (call_typed e d0 g L HP (e_hash e) find_all span_text ord d Hord F2 l P2 F4) as H4.
    destruct (call_separated e d0 g L HP (e_hash e) find_all span_text ord d Hord F2 l P2) as (H5 & H6).
    destruct (extract_all_terminates tmatch ords (all_rules g) _ _ ctx text starts _ l Hords P H1 H5 H4 U7) as (outs & n & E).
    exists outs, n. split; [exact E|]. split.
    - intros p t Hin. destruct (extract_all_sound tmatch ords (all_rules g) _ _ ctx text starts _ l Hords P H1 H5 n outs p t (E n (le_n n)) Hin)
        as (i & k & S & Hi & HS & Hp & kid & Ek & Hk).
      exists i, k, S, kid. split; [exact Hi|]. split; [exact HS|]. split; [exact Hp|]. split; [exact Ek|].
      eapply (proj1 (text_trees_of e d0 g L HP U1 U2 U3 U5 tmatch (e_hash e) find_all span_text ord d Hord F2 F7 l P2 _)); [exact Hk|].
      right. split; [discriminate|]. split; [reflexivity|]. split; [|intros [H|H]; discriminate H].
      intros _. apply (own_not_generated e d0 g L HP S U1). apply U8. exact HS.
    - intros S i j Hi HS Hm.
      assert (HM : Match tmatch (with_local (all_rules g) l) (content d) S i j) by (eapply means_language; eauto; apply U8; exact HS).
      destruct (match_match_nonempty tmatch _ _ H3 S i j HM) as [_ HM'].
      destruct (extract_all_complete tmatch ords (all_rules g) _ _ ctx text starts _ l Hords P H1 H5 n outs S i j H6 (E n (le_n n)) Hi HS HM')
        as (p & t & Hin & Hp & kid & Ek & _).
      exists p, t, kid. auto.
  Qed.
End Calls.

Lemma accepted e : env_ok e -> forall fuel depth text name gt g w',
  from_string e fuel depth text name gt = Ret (Some g, w') ->
  (exists L, e_parts e text g L) /\
  named_rules (all_rules g) /\ typed_args (all_rules g) /\ separated (all_rules g) /\ any_named (all_rules g) /\
  forall L, e_parts e text g L ->
    (uniform_ranges (map rd_before L) -> uniform_ranges (all_rules g)) /\
    (texts_nonempty (e_tokenize e) (map rd_before L) -> no_empty (all_rules g)) /\
    (forall starts, unreserved (map rd_before L) -> ~ In GammaRule starts -> no_reserved (all_rules g) starts).
Proof.
  intros He fuel depth text name gt g w' E.
  destruct (env_fresh e He fuel depth text name gt g w' E) as ((L & HL & _) & _).
  destruct (accepted_parts e text g L HL) as (A1 & A2 & A3 & A4 & _).
  split; [exists L; exact HL|]. split; [exact A1|]. split; [exact A2|]. split; [exact A3|]. split; [exact A4|].
  intros L' HL'. destruct (accepted_parts e text g L' HL') as (_ & _ & _ & _ & B). exact B.
Qed.
