(** Construction succeeds when every file reached is readable and a grammar text. *)
From Verif Require Import Base ModelTypes ModelText ModelEarley ModelReader ModelGrammar
  SpecGrammar SpecNotation SpecRefine SpecConstruct ProofUtf8 ProofReader ProofReaderMain ProofRefine ProofGrammar ProofConstruct ProofFuel.

Section Index_.
  Variable trie_accepts : string -> bool.
  Hypothesis Htrie : forall v, v <> ""%string -> trie_accepts v = true.
  Lemma index_term_loads c v t s : exists s', index_term trie_accepts c v t s = Ret s'.
  Proof.
    unfold index_term. destruct s as [[tr ix] rix]. destruct (String.eqb_spec (trim_space (t_value t)) ""); [eauto|].
    rewrite (Htrie _ n). destruct (t_type t); eauto.
  Qed.
  Lemma index_terms_loads c v ts : forall s, exists s', index_terms trie_accepts c v ts s = Ret s'.
  Proof.
    induction ts as [|t ts IH]; intro s; cbn [index_terms]; [eauto|]. destruct (index_term_loads c v t s) as (s' & ->). apply IH.
  Qed.
  Lemma index_bodies_loads c x l : forall s, exists s', index_bodies trie_accepts c x l s = Ret s'.
  Proof.
    induction l as [|(h, b) l IH]; intro s; cbn [index_bodies]; [eauto|].
    destruct (index_terms_loads c (x, h) (rb_terms b) s) as (s' & ->). apply IH.
  Qed.
  Lemma index_rules_loads c (l : grammar_rules) : forall s, exists s', index_rules trie_accepts c l s = Ret s'.
  Proof.
    induction l as [|(x, r) l IH]; intro s; cbn [index_rules]; [eauto|].
    destruct (index_bodies_loads c (r_name r) (r_body r) s) as (s' & ->). apply IH.
  Qed.
  Lemma index_grammars_loads gs : forall s, exists s', index_grammars trie_accepts gs s = Ret s'.
  Proof.
    induction gs as [|(f, r) gs IH]; intro s; cbn [index_grammars]; [eauto|].
    destruct (index_rules_loads CFrame f s) as (s1 & ->). cbn [bind].
    destruct (index_rules_loads CRule r s1) as (s2 & ->). apply IH.
  Qed.
End Index_.

Section Loads.
  Variables letter_hi digit_hi : rune -> bool.
  Variable scan_float : string -> res bigf.
  Variable regexp_ok : string -> bool.
  Variable md5 : string -> string.
  Variable hash : rulebody -> N.
  Variable trie_accepts : string -> bool.
  Variable tokenize : string -> res (list token).
  Variable ascii_name : string -> string.
  Variable read_file : string -> res string.
  Variable abs_dir : string -> res string.
  Variable join_path : string -> string -> string.
  Variable ord : grammar_rules -> grammar_rules.
  Variable fuel : nat.
  Hypothesis Htab : unicode_tables letter_hi digit_hi.
  Hypothesis Hord : is_rule_order ord.
  Hypothesis Htrie : forall v, v <> ""%string -> trie_accepts v = true.
  Hypothesis Htk : forall v, exists tk, tokenize v = Ret tk.
  Local Notation gfs := (grammar_from_string letter_hi digit_hi scan_float regexp_ok md5 hash trie_accepts tokenize ascii_name
    read_file abs_dir join_path ord fuel).
  Local Notation text_of := (text_of letter_hi digit_hi scan_float regexp_ok md5).
  Local Notation reached := (reached letter_hi digit_hi scan_float regexp_ok md5 read_file abs_dir join_path).

  Definition readable_text (f : string) : Prop :=
    exists b fdir ps its re, read_file f = Ret b /\ abs_dir f = Ret fdir /\ text_of b ps its re.

  Lemma reached_trans d dir f b fdir f' : reached d dir f -> read_file f = Ret b -> abs_dir f = Ret fdir ->
    reached b fdir f' -> reached d dir f'.
  Proof.
    intros H1 H2 H3 H. induction H as [ps its re p HT Hp|f1 b1 fdir1 ps its re p H IH E1 E2 HT Hp].
    - eapply re_step; eassumption.
    - eapply re_step; [exact IH|exact E1|exact E2|exact HT|exact Hp].
  Qed.

  Lemma finish_loads name rules frames re gs gt : proper rules ->
    finish hash trie_accepts tokenize ascii_name ord fuel name rules frames re gs gt <> Err.
  Proof.
    intros HP. unfold finish.
    destruct (index_grammars_loads trie_accepts Htrie ((frames, rules) :: map (fun g => (g_frames g, g_rules g)) gs) ([], [], [])) as ([[tr ix] rix] & ->).
    cbn [bind].
    pose proof (refine_err hash tokenize ascii_name fuel (ord rules) "g" gt Htk (reordered_proper _ _ (Hord rules) HP)) as RE.
    destruct (refine _ _ _ _ _ _ _) as [[r' gt']| | |]; cbn [bind]; congruence.
  Qed.


  Hypothesis Htok : forall t, calm (tokenize t).
  Variable fset : list string.
  Hypothesis Hsize : forall f b, In f fset -> read_file f = Ret b -> String.length b < fuel.
  Local Notation unread := (unread fset).

  Lemma load_all_loads depth dir ps : forall w gs re, unread w <= depth ->
    (forall fs p, In p ps -> unread fs <= depth -> exists og fs', include_file read_file abs_dir join_path (gfs depth) dir fs p = Ret (og, fs')) ->
    exists r, load_all (include_file read_file abs_dir join_path (gfs depth) dir) w gs re ps = Ret r.
  Proof using Type.
    induction ps as [|p ps IH]; intros w gs re Hw H; cbn [load_all]; [eauto|].
    destruct (H w p (or_introl eq_refl) Hw) as (og & fs' & E). rewrite E. cbn [bind].
    assert (U : unread fs' <= depth).
    { eapply Nat.le_trans; [apply unread_grows|exact Hw]. eapply include_grows; [apply gfs_grows|exact E]. }
    destruct og as [[l r]|]; (apply IH; [exact U|]; intros fs q Hq; apply H; right; exact Hq).
  Qed.

  Lemma gfs_loads depth : forall d name dir w ps its re, unread w < depth -> String.length d < fuel -> text_of d ps its re ->
    (forall f, reached d dir f -> In f fset /\ readable_text f) ->
    exists og w', gfs depth d name dir w = Ret (og, w') /\ (count (w_files w) name < 2 -> og <> None).
  Proof.
    induction depth as [|depth IH]; intros d name dir w ps its re Hu Hl HT HR; [lia|].
    rewrite gfs_unfold. destruct (Nat.leb 2 _) eqn:L2.
    { apply Nat.leb_le in L2. exists None, w. split; [reflexivity|]. lia. }
    rewrite (read_text_at letter_hi digit_hi scan_float regexp_ok md5 hash Htab fuel _ _ d _ ps its re HT Hl).
    destruct (load_all_loads depth dir ps w [] []) as ([[gs w1] re1] & E); [lia| |].
    { intros fs p Hp Hfs. unfold include_file. set (f := join_path dir p).
      destruct (Nat.leb 2 (count (w_files (bump fs f)) f)) eqn:EL; [eauto|].
      apply Nat.leb_gt in EL. rewrite count_bump, String.eqb_refl in EL.
      assert (Rp : reached d dir f) by (eapply re_direct; eassumption).
      destruct (HR _ Rp) as (Fin & b & fdir & ps' & its' & re' & E1 & E2 & HT'). rewrite E1, E2. cbn [bind].
      pose proof (unread_bump fset fs f Fin ltac:(lia)) as U.
      destruct (IH b f fdir (bump fs f) ps' its' re' ltac:(lia) (Hsize _ _ Fin E1) HT'
                    (fun f Hf => HR f (reached_trans _ _ _ _ _ _ Rp E1 E2 Hf))) as (og & w' & EG & _). rewrite EG. cbn [bind].
      destruct og; eauto. }
    rewrite E. cbn [bind].
    assert (HP : proper (add_items hash false [] its))
      by exact (denotes_proper _ _ _ _ (text_denotes letter_hi digit_hi scan_float regexp_ok md5 hash d ps its re false HT)).
    pose proof (finish_loads name (add_items hash false [] its) (add_items hash true [] its) (put_all re1 re) gs (w_tokens w1) HP) as F.
    pose proof (finish_ok hash trie_accepts tokenize ascii_name ord fuel Htok Hord name (add_items hash false [] its) (add_items hash true [] its) (put_all re1 re) gs (w_tokens w1) HP) as K.
    destruct (finish _ _ _ _ _ _ _ _ _ _ _ _) as [[g gt']| | |]; cbn [bind]; [|congruence|destruct K|].
    - eexists. eexists. split; [reflexivity|]. discriminate.
    - pose proof (add_items_size hash false its []) as S. cbn [terms_of length] in S.
      destruct (text_size letter_hi digit_hi scan_float regexp_ok md5 _ _ _ _ HT) as [S' _]. lia.
  Qed.
End Loads.

Section WithEnv.
  Variable e : env.
  Hypothesis HE : env_ok e.
  Hypothesis Htrie : forall v, v <> ""%string -> e_trie e v = true.
  Hypothesis Htk : forall v, exists tk, e_tokenize e v = Ret tk.

  Definition sizes (files : list string) : nat := list_sum (map (file_size (e_read e)) files).
  Lemma sizes_ok files f b : In f files -> e_read e f = Ret b -> String.length b < sizes files.
  Proof.
    unfold sizes. intros Hin E.
    assert (K : file_size (e_read e) f <= list_sum (map (file_size (e_read e)) files)).
    { induction files as [|g l IH]; [destruct Hin|]. 
      change (list_sum (map (file_size (e_read e)) (g :: l))) with (file_size (e_read e) g + list_sum (map (file_size (e_read e)) l)).
      destruct Hin as [->|Hin]; [lia|]. specialize (IH Hin). lia. }
    unfold file_size in K at 1. rewrite E in K. lia.
  Qed.
  Lemma unread_le (files : list string) w : unread files w <= length files.
  Proof. unfold unread. induction files as [|f l IH]; cbn [filter length]; [lia|]. destruct (Nat.eqb _ _); cbn [length]; lia. Qed.

  Lemma string_loads files d ps its re name gt : e_text e d ps its re ->
    (forall f, e_reached e d "." f -> In f files /\
       exists b dir ps its re, e_read e f = Ret b /\ e_abs e f = Ret dir /\ e_text e b ps its re) ->
    exists n, forall fuel depth, n <= fuel -> n <= depth ->
      exists g w', from_string e fuel depth d name gt = Ret (Some g, w').
  Proof.
    intros HT HR. exists (S (length files) + S (String.length d) + sizes files). intros fuel depth Hf Hd.
    destruct HE as (H1 & H2 & H3 & H4 & H5 & H6 & H7). unfold from_string, GrammarFromString.
    assert (Hsz : sizes files <= fuel) by lia.
    pose proof (unread_le files (mkW [] gt)).
    destruct (gfs_loads (e_letter e) (e_digit e) (e_scan e) (e_regexp_ok e) (e_md5 e) (e_hash e) (e_trie e)
      (e_tokenize e) (e_ascii e) (e_read e) (e_abs e) (e_join e) (e_ord e) fuel H1 H7 Htrie Htk H4 files
      (fun f b Hin E => Nat.lt_le_trans _ _ _ (sizes_ok files f b Hin E) Hsz) depth d name "." (mkW [] gt) ps its re
      ltac:(lia) ltac:(lia) HT HR) as (og & w' & E & Ho).
    rewrite E. destruct og as [g|]; [eauto|]. exfalso. apply Ho; [cbn; lia|reflexivity].
  Qed.
  Lemma file_loads files file d dir ps its re gt : e_read e file = Ret d -> e_abs e file = Ret dir -> e_text e d ps its re ->
    (forall f, e_reached e d dir f -> In f files /\
       exists b dir ps its re, e_read e f = Ret b /\ e_abs e f = Ret dir /\ e_text e b ps its re) ->
    exists n, forall fuel depth, n <= fuel -> n <= depth ->
      exists g w', from_file e fuel depth file gt = Ret (Some g, w').
  Proof.
    intros Ed Edir HT HR. exists (S (length files) + S (String.length d) + sizes files). intros fuel depth Hf Hd.
    destruct HE as (H1 & H2 & H3 & H4 & H5 & H6 & H7). unfold from_file, GrammarFromFile. rewrite Ed, Edir. cbn [bind].
    assert (Hsz : sizes files <= fuel) by lia.
    pose proof (unread_le files (mkW [(file, 1)] gt)).
    destruct (gfs_loads (e_letter e) (e_digit e) (e_scan e) (e_regexp_ok e) (e_md5 e) (e_hash e) (e_trie e)
      (e_tokenize e) (e_ascii e) (e_read e) (e_abs e) (e_join e) (e_ord e) fuel H1 H7 Htrie Htk H4 files
      (fun f b Hin E => Nat.lt_le_trans _ _ _ (sizes_ok files f b Hin E) Hsz) depth d file dir (mkW [(file, 1)] gt) ps its re
      ltac:(lia) ltac:(lia) HT HR) as (og & w' & E & Ho).
    rewrite E. destruct og as [g|]; [eauto|]. exfalso. apply Ho; [unfold count; cbn [w_files lookup]; rewrite String.eqb_refl; lia|reflexivity].
  Qed.
  Lemma env_string_loads files d ps its re name gt : e_text e d ps its re ->
    (forall f, e_reached e d "." f -> In f files /\
       exists b dir ps its re, e_read e f = Ret b /\ e_abs e f = Ret dir /\ e_text e b ps its re) ->
    exists g w' n, forall fuel depth, n <= fuel -> n <= depth ->
      from_string e fuel depth d name gt = Ret (Some g, w').
  Proof.
    intros HT HR. destruct (string_loads files d ps its re name gt HT HR) as (n & H).
    destruct (H n n) as (g & w' & E); [lia..|]. exists g, w', n. intros fuel depth Hf Hd.
    exact (le_ret _ _ _ (string_fuel e n n fuel depth d name gt Hf Hd) E).
  Qed.
  Lemma env_file_loads files file d dir ps its re gt : e_read e file = Ret d -> e_abs e file = Ret dir -> e_text e d ps its re ->
    (forall f, e_reached e d dir f -> In f files /\
       exists b dir ps its re, e_read e f = Ret b /\ e_abs e f = Ret dir /\ e_text e b ps its re) ->
    exists g w' n, forall fuel depth, n <= fuel -> n <= depth ->
      from_file e fuel depth file gt = Ret (Some g, w').
  Proof.
    intros Ed Edir HT HR. destruct (file_loads files file d dir ps its re gt Ed Edir HT HR) as (n & H).
    destruct (H n n) as (g & w' & E); [lia..|]. exists g, w', n. intros fuel depth Hf Hd.
    exact (le_ret _ _ _ (file_fuel e n n fuel depth file gt Hf Hd) E).
  Qed.
  (** a set of readable grammar texts that is closed under #include contains all files reached *)
  Lemma reached_within (S : string -> Prop) d dir ps its re : e_text e d ps its re -> (forall p, In p ps -> S (e_join e dir p)) ->
    (forall f, S f -> exists b fdir ps its re, e_read e f = Ret b /\ e_abs e f = Ret fdir /\ e_text e b ps its re /\
       forall p, In p ps -> S (e_join e fdir p)) ->
    forall f, e_reached e d dir f -> S f.
  Proof.
    assert (D : forall t ps its re ps' its' re', e_text e t ps its re -> e_text e t ps' its' re' -> ps' = ps).
    { intros t ps0 its0 re0 ps' its' re' A B. destruct HE as (H1 & _).
      exact (text_paths (e_letter e) (e_digit e) (e_scan e) (e_regexp_ok e) (e_md5 e) (e_hash e) H1
               t ps0 its0 re0 ps' its' re' A B). }
    intros HT Hp HS f Hf. induction Hf as [ps' its' re' p T' Hin|f b fdir ps' its' re' p Hr IH E1 E2 T' Hin].
    - apply Hp. rewrite <- (D _ _ _ _ _ _ _ HT T'). exact Hin.
    - destruct (HS f IH) as (b0 & fdir0 & ps0 & its0 & re0 & F1 & F2 & F3 & F4).
      rewrite E1 in F1. rewrite E2 in F2. injection F1 as <-. injection F2 as <-. apply F4. rewrite <- (D _ _ _ _ _ _ _ F3 T'). exact Hin.
  Qed.
End WithEnv.
