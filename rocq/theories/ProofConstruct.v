(** Constructing a grammar, at the level of the public calls. *)
From Coq Require Import Lia.
From Verif Require Import Base ModelTypes ModelText ModelEarley ModelReader ModelGrammar ProofUtf8
  SpecGrammar SpecNotation SpecRefine SpecConstruct ProofRefine ProofReader ProofReaderMain ProofGrammar ProofFuel.

Lemma clean_newline w : Forall good w -> clean (encode (w ++ [10%Z])).
Proof.
  intros H. exists (w ++ [10%Z]). split.
  - apply Forall_app. split; [exact H|]. constructor; [split; [reflexivity|discriminate]|constructor].
  - split; [reflexivity|]. intros (a & b & E & Hb). apply Hb.
    destruct b as [|x b] using rev_ind.
    + assert (K : last (w ++ [10%Z]) 0%Z = last (a ++ [47; 47]%Z ++ []) 0%Z) by (rewrite E; reflexivity).
      rewrite last_last in K. change (a ++ [47; 47]%Z ++ []) with (a ++ ([47]%Z ++ [47]%Z)) in K. rewrite app_assoc, last_last in K. discriminate.
    + rewrite !app_assoc in E. apply app_inj_tail in E. destruct E as [_ <-]. apply in_or_app. right. left. reflexivity.
Qed.

Lemma undecodable_not_encoded w : Forall good w -> String (Ascii.ascii_of_nat 255) "no grammar" <> encode w.
Proof.
  intros Hw E. pose proof (encode_no_error [] (String (Ascii.ascii_of_nat 255) "no grammar") 1 w (Forall_nil _) Hw E ltac:(vm_compute; reflexivity)).
  discriminate.
Qed.

Section Index_.
  Variable trie_accepts : string -> bool.
  Lemma index_terms_ret c v ts : (forall t, In t ts -> t_type t = TTerminal -> trie_accepts (trim_space (t_value t)) = true) ->
    forall s, exists s', index_terms trie_accepts c v ts s = Ret s'.
  Proof.
    induction ts as [|t ts IH]; intros H s; cbn [index_terms]; [eauto|].
    assert (K : exists s', index_term trie_accepts c v t s = Ret s').
    { unfold index_term. destruct s as [[tr ix] rix]. destruct (String.eqb _ _); [eauto|].
      destruct (t_type t) eqn:E; eauto. rewrite (H t (or_introl eq_refl) E). eauto. }
    destruct K as (s' & ->). cbn [bind]. apply IH. intros t' Ht'. apply H. right. exact Ht'.
  Qed.
  Lemma index_rules_ret c (l : grammar_rules) :
    (forall x r h b t, In (x, r) l -> In (h, b) (r_body r) -> In t (rb_terms b) -> t_type t = TTerminal ->
       trie_accepts (trim_space (t_value t)) = true) ->
    forall s, exists s', index_rules trie_accepts c l s = Ret s'.
  Proof.
    induction l as [|(x, r) l IH]; intros H s; cbn [index_rules]; [eauto|].
    assert (K : forall bs, (forall h b, In (h, b) bs -> In (h, b) (r_body r)) ->
                forall s, exists s', index_bodies trie_accepts c (r_name r) bs s = Ret s').
    { induction bs as [|(h, b) bs IHb]; intros Hb s0; cbn [index_bodies]; [eauto|].
      destruct (index_terms_ret c (r_name r, h) (rb_terms b)) with (s := s0) as (s1 & ->).
      { intros t Ht. eapply (H x r h b); [left; reflexivity|apply Hb; left; reflexivity|exact Ht]. }
      cbn [bind]. apply IHb. intros h' b' Hb'. apply Hb. right. exact Hb'. }
    destruct (K (r_body r) ltac:(auto) s) as (s' & ->). cbn [bind]. apply IH.
    intros y r' h b t Hr. apply (H y r'). right. exact Hr.
  Qed.
End Index_.

Lemma lookup_N_in {A} (m : list (N * A)) h a : NoDup (map fst m) -> In (h, a) m -> lookup_N m h = Some a.
Proof.
  induction m as [|(k, b) m IH]; intros N H; [destruct H|]. cbn [map fst] in N. inversion N; subst. cbn [lookup_N].
  destruct H as [H|H].
  - inversion H; subst. rewrite N.eqb_refl. reflexivity.
  - destruct (N.eqb k h) eqn:E; [|apply IH; assumption]. apply N.eqb_eq in E. subst. destruct H2. apply in_map_iff. exists (h, a). auto.
Qed.
(** every alternative of the map was written *)
Lemma denotes_written hash its frame m x r h b : denotes hash its frame m -> In (x, r) m -> In (h, b) (r_body r) ->
  In b (written its frame x) /\ r_name r = x /\ h = hash b.
Proof.
  intros (D1 & D2 & D3) Hr Hb. apply (in_lookup m x r D1) in Hr.
  destruct (written its frame x) eqn:E; [rewrite (D2 x E) in Hr; discriminate|]. rewrite <- E in *.
  destruct (D3 x) as (r' & L & En & N & D); [congruence|]. rewrite Hr in L. inversion L; subst r'.
  rewrite <- En in *. clear En. specialize (D h). rewrite (lookup_N_in _ _ _ N Hb) in D. symmetry in D. apply find_some in D.
  destruct D as [D1' D2']. apply in_rev in D1'. apply N.eqb_eq in D2'. auto.
Qed.
Lemma in_written its frame x b : In b (written its frame x) -> exists it, In it its /\ In b (it_bodies it).
Proof.
  intros H. apply in_flat_map in H. destruct H as (it & Hit & H). exists it. split; [exact Hit|].
  destruct (_ && _); [exact H|destruct H].
Qed.

Section Api.
  Variables letter_hi digit_hi : rune -> bool.
  Variable scan_float : string -> res bigf.
  Variable regexp_ok : string -> bool.
  Variable md5 : string -> string.
  Variable hash : rulebody -> N.
  Variable trie_accepts : string -> bool.
  Variable tokenize : string -> res (list token).
  Variable ascii_name : string -> string.
  Variable read_file : string -> res string.
  Variable abs_dir : string -> res string.
  Variable join_path : string -> string -> string.
  Variable ord : grammar_rules -> grammar_rules.
  Variable fuel : nat.
  Hypothesis Htab : unicode_tables letter_hi digit_hi.
  Hypothesis Hscan : forall t, calm (scan_float t).
  Hypothesis Hmd5 : forall t, 16 <= String.length (md5 t).
  Hypothesis Htok : forall t, calm (tokenize t).
  Hypothesis Hread : forall t, calm (read_file t).
  Hypothesis Habs : forall t, calm (abs_dir t).
  Hypothesis Hord : is_rule_order ord.
  Local Notation gfs := (grammar_from_string letter_hi digit_hi scan_float regexp_ok md5 hash trie_accepts tokenize ascii_name
    read_file abs_dir join_path ord fuel).
  Local Notation text_of := (text_of letter_hi digit_hi scan_float regexp_ok md5).
  Local Notation GFS := (GrammarFromString letter_hi digit_hi scan_float regexp_ok md5 hash trie_accepts tokenize ascii_name
    read_file abs_dir join_path ord fuel).
  Local Notation GFF := (GrammarFromFile letter_hi digit_hi scan_float regexp_ok md5 hash trie_accepts tokenize ascii_name
    read_file abs_dir join_path ord fuel).
  Local Notation reached := (reached letter_hi digit_hi scan_float regexp_ok md5 read_file abs_dir join_path).
  Local Notation holds := (holds letter_hi digit_hi scan_float regexp_ok md5 hash tokenize ascii_name).
  Local Notation written_as := (written_as letter_hi digit_hi scan_float regexp_ok md5 hash tokenize ascii_name).
  Local Notation parts := (parts letter_hi digit_hi scan_float regexp_ok md5 hash tokenize ascii_name read_file).

  Lemma refine_err rules prefix gt : (forall v, exists tk, tokenize v = Ret tk) ->
    proper rules -> refine tokenize ascii_name hash fuel prefix rules gt <> Err.
  Proof.
    intros Ht HP E. pose proof (refine_ok tokenize ascii_name hash rules fuel prefix gt HP) as K. rewrite E in K.
    destruct K as (v & K). destruct (Ht v) as (tk & Ht'). congruence.
  Qed.

  (** reading a text without #include directives *)
  Lemma plain_read depth d name gt its l :
    text_of d [] its l -> String.length d < fuel ->
    (forall v, exists tk, tokenize v = Ret tk) ->
    (forall it b t, In it its -> In b (it_bodies it) -> In t (rb_terms b) -> t_type t = TTerminal ->
       trie_accepts (trim_space (t_value t)) = true) ->
    exists g w', GFS (S depth) d name gt = Ret (Some g, w') /\
      g_name g = name /\ g_includes g = [] /\ denotes hash its true (g_frames g) /\
      denotes_regexps l (g_regexps g) /\
      exists rules T, denotes hash its false rules /\ refined_by tokenize hash T rules (g_rules g) /\
        forall x, In x (map snd T) -> String.prefix "g_t" x = true.
  Proof.
    intros HT Hl Htk Htr. unfold GrammarFromString.
    rewrite (gfs_unfold letter_hi digit_hi scan_float regexp_ok md5 hash trie_accepts tokenize ascii_name read_file abs_dir join_path ord fuel).
    cbn [count w_files lookup]. change (Nat.leb 2 0) with false. cbn match.
    rewrite (read_text_at letter_hi digit_hi scan_float regexp_ok md5 hash Htab fuel _ _ d _ [] its l HT Hl).
    cbn [load_all bind].
    set (rules := add_items hash false [] its). set (frames := add_items hash true [] its).
    pose proof (text_denotes letter_hi digit_hi scan_float regexp_ok md5 hash d [] its l false HT) as Dr. fold rules in Dr.
    pose proof (text_denotes letter_hi digit_hi scan_float regexp_ok md5 hash d [] its l true HT) as Df. fold frames in Df.
    pose proof (finish_ok hash trie_accepts tokenize ascii_name ord fuel Htok Hord name rules frames (put_all [] l) []
                  gt (denotes_proper _ _ _ _ Dr)) as K.
    assert (F : exists g gt', finish hash trie_accepts tokenize ascii_name ord fuel name rules frames (put_all [] l) [] gt = Ret (g, gt')).
    { assert (SZ : terms_of rules + length rules <= fuel).
      { pose proof (proj1 (text_size letter_hi digit_hi scan_float regexp_ok md5 d [] its l HT)) as Z1.
        pose proof (add_items_size hash false its []) as Z2. fold rules in Z2. cbn in Z2. lia. }
      destruct (finish _ _ _ _ _ _ _ _ _ _ _ _) as [[g gt']| | |] eqn:E; [eauto| |destruct K|lia].
      exfalso. clear K. unfold finish in E. cbn [map index_grammars] in E.
      assert (W : forall frame m, denotes hash its frame m -> forall x r h b t, In (x, r) m -> In (h, b) (r_body r) -> In t (rb_terms b) ->
                  t_type t = TTerminal -> trie_accepts (trim_space (t_value t)) = true).
      { intros fr m D x r h b t H1 H2 H3 H4. destruct (denotes_written _ _ _ _ _ _ _ _ D H1 H2) as (Hw & _).
        apply in_written in Hw. destruct Hw as (it & Hit & Hb). eauto. }
      destruct (index_rules_ret trie_accepts CFrame frames (W true frames Df) ([], [], [])) as (s1 & E1). rewrite E1 in E. cbn [bind] in E.
      destruct (index_rules_ret trie_accepts CRule rules (W false rules Dr) s1) as (((tr & ix) & rix) & E2). rewrite E2 in E. cbn [bind] in E.
      pose proof (refine_err (ord rules) "g" gt Htk (reordered_proper _ _ (Hord rules) (denotes_proper _ _ _ _ Dr))) as RE.
      destruct (refine _ _ _ _ _ _ _) as [[r' gt']| | |]; cbn [bind] in E; try discriminate. congruence. }
    destruct F as (g & gt' & F). cbn [w_tokens]. rewrite F in *. cbn [bind]. destruct K as (K1 & K2 & K3 & K4 & _ & T & K5 & K6).
    exists g. eexists. split; [reflexivity|]. split; [exact K1|]. split; [exact K4|].
    rewrite K2, K3. split; [exact Df|]. split; [apply put_all_denotes|].
    exists rules, T. split; [exact Dr|]. split; [exact K5|]. eapply named_prefix. exact K6.
  Qed.

  (** *** the files *)

  Lemma string_files depth d name gt og w' :
    GFS depth d name gt = Ret (og, w') ->
    exists g, og = Some g /\ g_name g = name /\ NoDup (map g_name (g_includes g)) /\
      (forall f, In f (map g_name (g_includes g)) <-> reached d "." f) /\
      holds d g /\
      (forall ig, In ig (g_includes g) -> exists b, read_file (g_name ig) = Ret b /\ holds b ig).
  Proof.
    intros E.
    destruct (gfs_files letter_hi digit_hi scan_float regexp_ok md5 hash trie_accepts tokenize ascii_name read_file abs_dir join_path ord fuel
                Htab Hscan Hmd5 Htok Hread Habs Hord depth d name "." (mkW [] gt) og w' ltac:(cbn; lia)
                ltac:(intros f Hf; cbn in Hf; congruence) E) as (g & E1 & E2 & E3 & E4 & E5 & E6).
    exists g. split; [exact E1|]. split; [exact E2|]. split; [exact E3|]. split; [|auto].
    intros f. rewrite E4. cbn [w_files count lookup]. tauto.
  Qed.
  Lemma file_files depth file gt og w' :
    GFF depth file gt = Ret (og, w') ->
    exists g b dir, og = Some g /\ read_file file = Ret b /\ abs_dir file = Ret dir /\
      g_name g = file /\ NoDup (map g_name (g_includes g)) /\
      (forall f, In f (map g_name (g_includes g)) <-> reached b dir f /\ f <> file) /\
      holds b g /\
      (forall ig, In ig (g_includes g) -> exists b, read_file (g_name ig) = Ret b /\ holds b ig).
  Proof.
    unfold GrammarFromFile. intros E. destruct (read_file file) as [b| | |] eqn:Eb; cbn [bind] in E; try discriminate.
    destruct (abs_dir file) as [dir| | |] eqn:Ed; cbn [bind] in E; try discriminate.
    destruct (gfs_files letter_hi digit_hi scan_float regexp_ok md5 hash trie_accepts tokenize ascii_name read_file abs_dir join_path ord fuel
                Htab Hscan Hmd5 Htok Hread Habs Hord depth b file dir (mkW [(file, 1)] gt) og w'
                ltac:(unfold count; cbn [lookup w_files]; rewrite String.eqb_refl; lia)) with (2 := E) as (g & E1 & E2 & E3 & E4 & E5 & E6).
    { intros f Hf. unfold count in Hf. cbn [lookup w_files] in Hf. destruct (String.eqb file f) eqn:Ef; [|congruence].
      apply String.eqb_eq in Ef. subst f. auto. }
    exists g, b, dir. split; [exact E1|]. split; [reflexivity|]. split; [reflexivity|]. split; [exact E2|]. split; [exact E3|].
    split; [|auto]. intros f. rewrite E4. unfold count. cbn [w_files lookup].
    destruct (String.eqb file f) eqn:Ef.
    - apply String.eqb_eq in Ef. subst f. split; [intros [_ H]; discriminate|intros [_ H]; congruence].
    - apply String.eqb_neq in Ef. split; intros [H _]; split; auto.
  Qed.

  Lemma parts_exist d g : holds d g ->
    (forall ig, In ig (g_includes g) -> exists b, read_file (g_name ig) = Ret b /\ holds b ig) -> exists L, parts d g L.
  Proof.
    intros (rules & T & H) HI.
    assert (K : exists ps, Forall2 (fun ig q => rd_after q = g_rules ig /\
                 exists b, read_file (g_name ig) = Ret b /\ written_as b ig (rd_before q) (rd_table q)) (g_includes g) ps).
    { induction (g_includes g) as [|ig l IH]; [exists []; constructor|].
      destruct IH as (ps & IH); [intros ig' Hig; apply HI; right; exact Hig|].
      destruct (HI ig (or_introl eq_refl)) as (b & Eb & rules1 & T1 & H1).
      exists (mkRefined T1 rules1 (g_rules ig) :: ps). constructor; [|exact IH]. split; [reflexivity|]. exists b. auto. }
    destruct K as (ps & K). exists (mkRefined T rules (g_rules g) :: ps). exists (mkRefined T rules (g_rules g)), ps.
    split; [reflexivity|]. split; [reflexivity|]. auto.
  Qed.
  Lemma parts_after d g L : parts d g L -> map rd_after L = all_rules g.
  Proof.
    intros (p & ps & -> & E & _ & H). cbn [map]. unfold all_rules. rewrite E. f_equal. induction H as [|ig q l l' [H1 _] _ IH]; [reflexivity|].
    cbn [map]. rewrite H1, IH. reflexivity.
  Qed.
  Lemma parts_refined d g L : parts d g L -> forall p, In p L ->
    refined_by tokenize hash (rd_table p) (rd_before p) (rd_after p) /\ (forall x, In x (map snd (rd_table p)) -> String.prefix "g_t" x = true).
  Proof.
    intros (p & ps & -> & E & (ps0 & its & re & _ & _ & _ & H1 & H2 & _) & H) q [<-|Hq]; [rewrite E; split; [exact H1|eapply named_prefix; exact H2]|].
    induction H as [|ig r l l' [H3 (b & _ & ps1 & its1 & re1 & _ & _ & _ & H5 & H6 & _)] _ IH]; [destruct Hq|].
    destruct Hq as [<-|Hq]; [rewrite H3; split; [exact H5|eapply named_prefix; exact H6]|auto].
  Qed.
  Lemma parts_named d g L : parts d g L -> forall p, In p L -> named_by tokenize ascii_name (rd_table p) (rd_before p).
  Proof.
    intros (p & ps & -> & E & (ps0 & its & re & _ & _ & _ & H1 & H2 & _) & H) q [<-|Hq]; [exact H2|].
    induction H as [|ig r l l' [H3 (b & _ & ps1 & its1 & re1 & _ & _ & _ & H5 & H6 & _)] _ IH]; [destruct Hq|].
    destruct Hq as [<-|Hq]; auto.
  Qed.
  Lemma parts_language d g L tmatch toks x i j : parts d g L -> compatible L -> uniform_flags (map rd_before L) ->
    no_dangling "g_t" (map rd_before L) -> (exists m, In m (map rd_before L) /\ lookup m x <> None) ->
    (Derives tmatch (all_rules g) toks (nonterm x) i j <-> DerivesSplit tokenize tmatch (map rd_before L) toks (nonterm x) i j).
  Proof.
    intros HP HC HU HD (m & Hm & Hx). rewrite <- (parts_after d g L HP). eapply refine_language.
    - intros p Hp. apply (parts_refined d g L HP p Hp).
    - exact HC.
    - exact HU.
    - apply dangling_free; auto. intros p y Hp Hy. apply (parts_refined d g L HP p Hp). exact Hy.
    - intros G. apply in_map_iff in Hm. destruct Hm as (q & <- & Hq). apply Hx. apply (proj1 HC); assumption.
  Qed.
  Lemma parts_single d g L : parts d g L -> g_includes g = [] -> compatible L.
  Proof.
    intros HP E. pose proof (parts_refined d g L HP) as HR. destruct HP as (p & ps & -> & Ea & _ & H). rewrite E in H. inversion H; subst.
    destruct p as [T r r']. eapply compatible_one. apply (HR (mkRefined T r r')). left. reflexivity.
  Qed.
End Api.

Section Termination.
  Variables letter_hi digit_hi : rune -> bool.
  Variable scan_float : string -> res bigf.
  Variable regexp_ok : string -> bool.
  Variable md5 : string -> string.
  Variable hash : rulebody -> N.
  Variable trie_accepts : string -> bool.
  Variable tokenize : string -> res (list token).
  Variable ascii_name : string -> string.
  Variable read_file : string -> res string.
  Variable abs_dir : string -> res string.
  Variable join_path : string -> string -> string.
  Variable ord : grammar_rules -> grammar_rules.
  Hypothesis Htab : unicode_tables letter_hi digit_hi.
  Hypothesis Hscan : forall t, calm (scan_float t).
  Hypothesis Hmd5 : forall t, 16 <= String.length (md5 t).
  Hypothesis Htok : forall t, calm (tokenize t).
  Hypothesis Hread : forall t, calm (read_file t).
  Hypothesis Habs : forall t, calm (abs_dir t).
  Hypothesis Hord : is_rule_order ord.
  Variable files : list string.
  Hypothesis Hfiles : forall f b, read_file f = Ret b -> In f files /\ clean b.

  Definition file_size (f : string) : nat := match read_file f with Ret b => S (String.length b) | _ => 0 end.
  Lemma file_bound f b : read_file f = Ret b -> String.length b < list_sum (map file_size files).
  Proof.
    intros E. destruct (Hfiles f b E) as [Hin _].
    assert (K : file_size f <= list_sum (map file_size files)).
    { clear - Hin. induction files as [|g l IH]; [destruct Hin|]. cbn [map list_sum]. change (list_sum (file_size g :: map file_size l)) with (file_size g + list_sum (map file_size l)).
      destruct Hin as [->|Hin]; [lia|]. specialize (IH Hin). lia. }
    unfold file_size in K at 1. rewrite E in K. lia.
  Qed.
  Lemma gfs_stops d name dir w : clean d -> exists n, forall fuel depth, n <= fuel -> n <= depth ->
    grammar_from_string letter_hi digit_hi scan_float regexp_ok md5 hash trie_accepts tokenize ascii_name
      read_file abs_dir join_path ord fuel depth d name dir w <> Fuel.
  Proof.
    intros Hd. exists (S (length files) + S (String.length d) + list_sum (map file_size files)). intros fuel depth Hf Hdp.
    apply gfs_terminates with (fset := files); auto.
    - intros f b E. destruct (Hfiles f b E) as [H1 H2]. split; [exact H1|]. split; [exact H2|]. pose proof (file_bound f b E). lia.
    - unfold unread. assert (K : forall l : list string, length (filter (fun f => Nat.eqb (count (w_files w) f) 0) l) <= length l).
      { induction l as [|x l IH]; cbn [filter]; [lia|]. destruct (Nat.eqb _ _); cbn [length]; lia. }
      specialize (K files). lia.
    - lia.
  Qed.
  Lemma string_stops d name gt : clean d -> exists n, forall fuel depth, n <= fuel -> n <= depth ->
    GrammarFromString letter_hi digit_hi scan_float regexp_ok md5 hash trie_accepts tokenize ascii_name
      read_file abs_dir join_path ord fuel depth d name gt <> Fuel.
  Proof. intros H. apply gfs_stops. exact H. Qed.
  Lemma file_stops file gt : exists n, forall fuel depth, n <= fuel -> n <= depth ->
    GrammarFromFile letter_hi digit_hi scan_float regexp_ok md5 hash trie_accepts tokenize ascii_name
      read_file abs_dir join_path ord fuel depth file gt <> Fuel.
  Proof.
    unfold GrammarFromFile. destruct (read_file file) as [b| | |] eqn:E; cbn [bind]; try (exists 0; intros; discriminate).
    - destruct (abs_dir file) as [dir| | |] eqn:Ed; cbn [bind]; try (exists 0; intros; discriminate).
      + apply gfs_stops. apply (Hfiles file b E).
      + destruct (Habs file). congruence.
    - destruct (Hread file). congruence.
  Qed.
End Termination.

(** *** with the external code in one record *)
Section WithEnv.
  Variable e : env.
  Hypothesis HE : env_ok e.

  Lemma env_read_back fuel depth w name gt its re :
    Forall good w -> e_items e its re w -> String.length (encode w) < fuel ->
    (forall v, exists tk, e_tokenize e v = Ret tk) ->
    (forall it b t, In it its -> In b (it_bodies it) -> In t (rb_terms b) -> t_type t = TTerminal ->
       e_trie e (trim_space (t_value t)) = true) ->
    exists g w', from_string e fuel (S depth) (encode w) name gt = Ret (Some g, w') /\
      g_name g = name /\ g_includes g = [] /\ denotes (e_hash e) its true (g_frames g) /\
      denotes_regexps re (g_regexps g) /\
      exists rules T, denotes (e_hash e) its false rules /\ refined_by (e_tokenize e) (e_hash e) T rules (g_rules g) /\
        forall x, In x (map snd T) -> String.prefix "g_t" x = true.
  Proof.
    intros Hw Hi Hl Ht Htr. destruct HE as (H1 & H2 & H3 & H4 & H5 & H6 & H7).
    eapply plain_read; eauto. left. exists w. split; [exact Hw|]. split; [reflexivity|]. constructor. exact Hi.
  Qed.
  Lemma env_undecodable fuel depth d name gt : undecodable d -> String.length d < fuel ->
    exists g w', from_string e fuel (S depth) d name gt = Ret (Some g, w') /\
      g_rules g = [] /\ g_frames g = [] /\ g_includes g = [].
  Proof.
    intros (n & Hd) Hl. unfold from_string, GrammarFromString.
    rewrite (gfs_unfold (e_letter e) (e_digit e) (e_scan e) (e_regexp_ok e) (e_md5 e) (e_hash e) (e_trie e)
      (e_tokenize e) (e_ascii e) (e_read e) (e_abs e) (e_join e) (e_ord e) fuel).
    cbn [count w_files lookup]. change (Nat.leb 2 0) with false. cbn match.
    destruct HE as (H1 & H2 & H3 & H4 & H5 & H6 & H7).
    rewrite (read_text_at (e_letter e) (e_digit e) (e_scan e) (e_regexp_ok e) (e_md5 e) (e_hash e) H1 fuel _ _ d _ [] [] []);
      [|right; split; [exists n; exact Hd|auto]|exact Hl].
    cbn [load_all bind put_all fold_left]. unfold add_items. cbn [fold_left]. unfold finish. cbn [map index_grammars index_rules bind].
    assert (E : e_ord e [] = []).
    { destruct (H7 []) as (m & Hp & HF). apply Permutation.Permutation_nil in Hp. subst m. inversion HF. reflexivity. }
    rewrite E. unfold refine. cbn [refine_rules bind rf_rules rf_tokens fold_left]. eexists. eexists. split; [reflexivity|].
    cbn [g_rules g_frames g_includes]. auto.
  Qed.
  Lemma env_no_panic fuel depth d name gt : from_string e fuel depth d name gt <> Panic.
  Proof. destruct HE as (H1 & H2 & H3 & H4 & H5 & H6 & H7). unfold from_string, GrammarFromString. apply gfs_no_panic; auto. Qed.
  Lemma env_file_no_panic fuel depth f gt : from_file e fuel depth f gt <> Panic.
  Proof.
    destruct HE as (H1 & H2 & H3 & H4 & H5 & H6 & H7). unfold from_file, GrammarFromFile.
    destruct (e_read e f) as [b| | |] eqn:Eb; cbn [bind]; try discriminate; [|destruct (H5 f); congruence].
    destruct (e_abs e f) as [d| | |] eqn:Ed; cbn [bind]; try discriminate; [|destruct (H6 f); congruence].
    apply gfs_no_panic; auto.
  Qed.
  (** more fuel does not change a result *)
  Lemma string_fuel fuel depth fuel' depth' d name gt : fuel <= fuel' -> depth <= depth' ->
    le_res (from_string e fuel depth d name gt) (from_string e fuel' depth' d name gt).
  Proof using Type. intros Hf Hd. unfold from_string, GrammarFromString. apply gfs_mono; assumption. Qed.
  Lemma file_fuel fuel depth fuel' depth' file gt : fuel <= fuel' -> depth <= depth' ->
    le_res (from_file e fuel depth file gt) (from_file e fuel' depth' file gt).
  Proof using Type.
    intros Hf Hd. unfold from_file, GrammarFromFile. apply le_bind; [apply le_refl|]. intros b. apply le_bind; [apply le_refl|].
    intros dir. apply gfs_mono; assumption.
  Qed.
  Lemma string_steady d name gt :
    (exists n, forall fuel depth, n <= fuel -> n <= depth -> from_string e fuel depth d name gt <> Fuel) ->
    exists r n, r <> Fuel /\ forall fuel depth, n <= fuel -> n <= depth -> from_string e fuel depth d name gt = r.
  Proof using Type.
    intros (n & H). exists (from_string e n n d name gt), n. split; [apply H; lia|].
    intros fuel depth Hf Hd. apply le_out; [apply string_fuel; assumption|apply H; lia].
  Qed.
  Lemma file_steady file gt :
    (exists n, forall fuel depth, n <= fuel -> n <= depth -> from_file e fuel depth file gt <> Fuel) ->
    exists r n, r <> Fuel /\ forall fuel depth, n <= fuel -> n <= depth -> from_file e fuel depth file gt = r.
  Proof using Type.
    intros (n & H). exists (from_file e n n file gt), n. split; [apply H; lia|].
    intros fuel depth Hf Hd. apply le_out; [apply file_fuel; assumption|apply H; lia].
  Qed.
  Lemma env_stops files d name gt :
    (forall f b, e_read e f = Ret b -> In f files /\ clean b) -> clean d ->
    exists r n, r <> Fuel /\ forall fuel depth, n <= fuel -> n <= depth -> from_string e fuel depth d name gt = r.
  Proof.
    intros Hf Hd. apply string_steady. destruct HE as (H1 & H2 & H3 & H4 & H5 & H6 & H7). unfold from_string. eapply string_stops; eauto.
  Qed.
  Lemma env_newline files w name gt :
    (forall f b, e_read e f = Ret b -> In f files /\ clean b) -> Forall good w ->
    exists r n, r <> Fuel /\ forall fuel depth, n <= fuel -> n <= depth -> from_string e fuel depth (encode (w ++ [10%Z])) name gt = r.
  Proof. intros Hf Hd. eapply env_stops; eauto. apply clean_newline. exact Hd. Qed.
  Lemma env_file_stops files file gt :
    (forall f b, e_read e f = Ret b -> In f files /\ clean b) ->
    exists r n, r <> Fuel /\ forall fuel depth, n <= fuel -> n <= depth -> from_file e fuel depth file gt = r.
  Proof.
    intros Hf. apply file_steady. destruct HE as (H1 & H2 & H3 & H4 & H5 & H6 & H7). unfold from_file. eapply file_stops; eauto.
  Qed.
  Lemma env_string_files fuel depth d name gt og w' :
    from_string e fuel depth d name gt = Ret (og, w') ->
    exists g, og = Some g /\ g_name g = name /\ NoDup (map g_name (g_includes g)) /\
      (forall f, In f (map g_name (g_includes g)) <-> e_reached e d "." f) /\
      e_holds e d g /\
      (forall ig, In ig (g_includes g) -> exists b, e_read e (g_name ig) = Ret b /\ e_holds e b ig).
  Proof. intros E. destruct HE as (H1 & H2 & H3 & H4 & H5 & H6 & H7). eapply string_files; eauto. Qed.
  Lemma env_file_files fuel depth file gt og w' :
    from_file e fuel depth file gt = Ret (og, w') ->
    exists g b dir, og = Some g /\ e_read e file = Ret b /\ e_abs e file = Ret dir /\
      g_name g = file /\ NoDup (map g_name (g_includes g)) /\
      (forall f, In f (map g_name (g_includes g)) <-> e_reached e b dir f /\ f <> file) /\
      e_holds e b g /\
      (forall ig, In ig (g_includes g) -> exists b, e_read e (g_name ig) = Ret b /\ e_holds e b ig).
  Proof. intros E. destruct HE as (H1 & H2 & H3 & H4 & H5 & H6 & H7). eapply file_files; eauto. Qed.
  Lemma env_complete fuel depth d name gt og w' :
    from_string e fuel depth d name gt = Ret (og, w') -> exists ps its re, e_text e d ps its re.
  Proof.
    intros E. destruct (env_string_files fuel depth d name gt og w' E) as (g & _ & _ & _ & _ & (r & T & ps & its & re & H & _) & _).
    exists ps, its, re. exact H.
  Qed.
  Lemma env_fresh fuel depth d name gt g w' :
    from_string e fuel depth d name gt = Ret (Some g, w') ->
    (exists L, e_parts e d g L /\ map rd_after L = all_rules g) /\
    forall L, e_parts e d g L -> forall p, In p L ->
      refined_by (e_tokenize e) (e_hash e) (rd_table p) (rd_before p) (rd_after p).
  Proof.
    intros E. destruct (env_string_files fuel depth d name gt _ w' E) as (g0 & E0 & _ & _ & _ & Hh & Hi).
    injection E0 as <-. split.
    - destruct (parts_exist _ _ _ _ _ _ _ _ _ d g Hh Hi) as (L & HL). exists L. split; [exact HL|]. eapply parts_after; exact HL.
    - intros L HL p Hp. eapply parts_refined; eauto.
  Qed.
  Lemma env_language d g L tmatch toks x i j : e_parts e d g L -> compatible L -> uniform_flags (map rd_before L) ->
    no_dangling "g_t" (map rd_before L) -> (exists m, In m (map rd_before L) /\ lookup m x <> None) ->
    (Derives tmatch (all_rules g) toks (nonterm x) i j <->
     DerivesSplit (e_tokenize e) tmatch (map rd_before L) toks (nonterm x) i j).
  Proof. apply parts_language. Qed.
  Lemma env_single d g L : e_parts e d g L -> g_includes g = [] -> compatible L.
  Proof. apply parts_single. Qed.
End WithEnv.
