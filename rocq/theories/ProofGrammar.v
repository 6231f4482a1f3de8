(** Grammar construction: reading a text with its #include directives. *)
From Coq Require Import Lia Permutation.
From Verif Require Import Base ModelTypes ModelText ModelEarley ModelReader ModelGrammar ProofUtf8
  SpecGrammar SpecNotation SpecRefine SpecConstruct ProofFuel ProofReader ProofReaderSafe ProofReaderBack
  ProofReaderMain ProofRefine.

Lemma append_nil_r s : (s ++ "")%string = s.
Proof. induction s; cbn; congruence. Qed.

(** an encoded text of good runes contains no error *)
Lemma encode_no_error pre : forall tail n w, Forall good pre -> Forall good w ->
  (encode pre ++ tail)%string = encode w -> decode_rune tail = (RuneError, n) -> tail = ""%string.
Proof.
  induction pre as [|x pre IH]; intros tail n w Hpre Hw E D.
  - cbn [encode append] in E. destruct w as [|y w]; [exact E|]. exfalso. inversion Hw as [|? ? [V N] _]; subst.
    cbn [encode] in D. rewrite (decode_encode y (encode w) V) in D. inversion D. auto.
  - inversion Hpre as [|? ? [V N] Hpre']; subst. cbn [encode] in E. rewrite string_app_assoc in E.
    destruct w as [|y w].
    + exfalso. pose proof (encode_rune_length x). apply (f_equal String.length) in E.
      rewrite string_length_append in E. cbn [encode String.length] in E. lia.
    + inversion Hw as [|? ? [Vy Ny] Hw']; subst. cbn [encode] in E.
      pose proof (decode_encode x (encode pre ++ tail)%string V) as D1.
      pose proof (decode_encode y (encode w) Vy) as D2. rewrite E, D2 in D1. inversion D1; subst y.
      apply append_inj_l in E. eapply IH; eauto.
Qed.

(** ** sizes *)
Fixpoint items_size (its : list item) : nat :=
  match its with
  | [] => 0
  | it :: its' => S (list_sum (map (fun b => length (rb_terms b)) (it_bodies it))) + items_size its'
  end.
Lemma terms_in_put m k b : terms_in (put_N m k b) <= terms_in m + length (rb_terms b).
Proof.
  induction m as [|[k0 b0] m IH]; cbn [put_N terms_in]; [lia|].
  destruct (N.eqb k0 k); cbn [terms_in]; lia.
Qed.
Lemma terms_in_bodies hash bs : forall m,
  terms_in (put_bodies hash m bs) <= terms_in m + list_sum (map (fun b => length (rb_terms b)) bs).
Proof.
  induction bs as [|b bs IH]; intros m; cbn [map list_sum fold_right]; [cbn; lia|].
  unfold put_bodies. cbn [fold_left]. fold (put_bodies hash (put_N m (hash b) b) bs).
  pose proof (IH (put_N m (hash b) b)). pose proof (terms_in_put m (hash b) b). unfold list_sum in *. cbn [fold_right]. lia.
Qed.
Lemma terms_in_merge (l : list (N * rulebody)) : forall m,
  terms_in (fold_left (fun m kb => put_N m (fst kb) (snd kb)) l m) <= terms_in m + terms_in l.
Proof.
  induction l as [|[k b] l IH]; intros m; cbn [fold_left terms_in fst snd]; [lia|].
  pose proof (IH (put_N m k b)). pose proof (terms_in_put m k b). lia.
Qed.
Lemma terms_of_put (m : grammar_rules) x r :
  match lookup m x with
  | Some r0 => terms_of (put m x r) + terms_in (r_body r0) = terms_of m + terms_in (r_body r) /\ length (put m x r) = length m
  | None => terms_of (put m x r) = terms_of m + terms_in (r_body r) /\ length (put m x r) = S (length m)
  end.
Proof.
  induction m as [|[x0 r0] m IH]; cbn [put lookup terms_of length]; [lia|].
  destruct (String.eqb x0 x); cbn [terms_of length]; [lia|].
  destruct (lookup m x); lia.
Qed.
Lemma add_items_size hash frame its : forall m,
  terms_of (add_items hash frame m its) + length (add_items hash frame m its) <= terms_of m + length m + items_size its.
Proof.
  induction its as [|it its IH]; intros m; [cbn; lia|].
  unfold add_items. cbn [fold_left items_size]. fold (add_items hash frame).
  set (m' := if Bool.eqb (it_frame it) frame then add_rule m (item_rule hash it) else m).
  assert (K : terms_of m' + length m' <= terms_of m + length m + S (list_sum (map (fun b => length (rb_terms b)) (it_bodies it)))).
  { unfold m'. destruct (Bool.eqb (it_frame it) frame); [|lia]. unfold add_rule. cbn [item_rule r_name r_body].
    pose proof (terms_in_bodies hash (it_bodies it) []) as K1. cbn [terms_in] in K1.
    destruct (lookup m (it_name it)) as [r0|] eqn:L.
    - pose proof (terms_in_merge (put_bodies hash [] (it_bodies it)) (r_body r0)) as K2.
      pose proof (terms_of_put m (it_name it) (mkRule (r_name r0) (fold_left (fun m kb => put_N m (fst kb) (snd kb)) (put_bodies hash [] (it_bodies it)) (r_body r0)))) as K3.
      rewrite L in K3. cbn [r_body] in K3. destruct K3 as [K3 K3'].
      eapply Nat.le_trans; [apply Nat.eq_le_incl; reflexivity|]. lia.
    - pose proof (terms_of_put m (it_name it) (item_rule hash it)) as K3. rewrite L in K3. cbn [item_rule r_body] in K3. unfold item_rule in *. lia. }
  specialize (IH m'). unfold add_items in IH. unfold m' in *. lia.
Qed.

Section Size.
  Variables letter digit : rune -> bool.
  Variable scan_float : string -> res bigf.
  Variable regexp_ok : string -> bool.
  Variable md5 : string -> string.
  Lemma w_term_size t l w : w_term letter digit regexp_ok md5 t l w -> 1 <= length w.
  Proof.
    intros []; try match goal with H : w_literal _ _ _ _ ?w |- _ => destruct H end;
      cbn [app length]; lia.
  Qed.
  Lemma w_terms_size ts l w : w_terms letter digit regexp_ok md5 ts l w -> length ts <= length w.
  Proof.
    induction 1 as [t l w g H _|t l w g ts l' w' H _ _ IH]; apply w_term_size in H;
      rewrite ?app_length; cbn [length]; lia.
  Qed.
  Lemma w_body_size b l w : w_body letter digit scan_float regexp_ok md5 b l w -> length (rb_terms b) <= length w.
  Proof. intros [? ? ? H|? ? ? ? ? ? ? ? H]; apply w_terms_size in H; rewrite ?app_length; cbn [rb_terms]; lia. Qed.
  Lemma w_bodies_size bs l w : w_bodies letter digit scan_float regexp_ok md5 bs l w ->
    list_sum (map (fun b => length (rb_terms b)) bs) <= length w.
  Proof.
    induction 1 as [b l w H|b l w g bs l' w' H _ _ IH]; apply w_body_size in H; unfold list_sum in *;
      cbn [map fold_right]; rewrite ?app_length; lia.
  Qed.
  Lemma w_item_size it l w : w_item letter digit scan_float regexp_ok md5 it l w ->
    S (list_sum (map (fun b => length (rb_terms b)) (it_bodies it))) <= length w /\ it_bodies it <> [].
  Proof.
    intros [x g1 g2 bs re w' _ _ _ H|x g1 g2 bs re w' _ _ _ H];
      (split; [apply w_bodies_size in H; rewrite !app_length; cbn [length it_bodies]; lia
              |cbn [it_bodies]; destruct H; discriminate]).
  Qed.
  Lemma w_items_size its l w : w_items letter digit scan_float regexp_ok md5 its l w ->
    items_size its <= length w /\ Forall (fun it => it_bodies it <> []) its.
  Proof.
    induction 1 as [g _|g it l w its l' w' _ H _ [IH1 IH2]]; [split; [cbn; lia|constructor]|].
    apply w_item_size in H. destruct H as [H1 H2]. rewrite !app_length. cbn [items_size].
    split; [lia|constructor; assumption].
  Qed.
  Lemma w_file_size ps its l w : w_file letter digit scan_float regexp_ok md5 ps its l w ->
    items_size its <= length w /\ Forall (fun it => it_bodies it <> []) its.
  Proof.
    induction 1 as [its l w H|g sp1 sp2 fl p w ps its l w' _ _ _ _ _ [IH1 IH2]]; [eapply w_items_size; eauto|].
    rewrite !app_length. split; [lia|assumption].
  Qed.
End Size.

(** ** a denoted map is proper *)
Lemma denotes_proper hash its frame m : denotes hash its frame m -> proper m.
Proof.
  intros (D1 & D2 & D3). split; [exact D1|]. intros x r Hr. apply (in_lookup m x r D1) in Hr.
  destruct (written its frame x) eqn:E; [rewrite (D2 x E) in Hr; discriminate|].
  destruct (D3 x) as (r' & L & _ & N & _); [congruence|]. rewrite Hr in L. inversion L; subst. exact N.
Qed.

(** ** the index *)
Section IndexSafe.
  Variable trie_accepts : string -> bool.
  Lemma calm_bind {A B} (x : res A) (k : A -> res B) : calm x -> (forall a, x = Ret a -> calm (k a)) -> calm (bind x k).
  Proof. intros [H1 H2] H. destruct x; cbn [bind]; try congruence; [apply H; reflexivity|split; discriminate]. Qed.
  Lemma index_terms_calm c v ts : forall s, calm (index_terms trie_accepts c v ts s).
  Proof.
    induction ts as [|t ts IH]; intros s; cbn [index_terms]; [split; discriminate|]. apply calm_bind; [|auto].
    unfold index_term. destruct s as [[tr ix] rix]. destruct (String.eqb _ _); [split; discriminate|].
    destruct (t_type t); try (split; discriminate). destruct (trie_accepts _); split; discriminate.
  Qed.
  Lemma index_bodies_calm c x l : forall s, calm (index_bodies trie_accepts c x l s).
  Proof.
    induction l as [|[h b] l IH]; intros s; cbn [index_bodies]; [split; discriminate|].
    apply calm_bind; [apply index_terms_calm|auto].
  Qed.
  Lemma index_rules_calm c l : forall s, calm (index_rules trie_accepts c l s).
  Proof.
    induction l as [|[x r] l IH]; intros s; cbn [index_rules]; [split; discriminate|].
    apply calm_bind; [apply index_bodies_calm|auto].
  Qed.
  Lemma index_grammars_calm l : forall s, calm (index_grammars trie_accepts l s).
  Proof.
    induction l as [|[f r] l IH]; intros s; cbn [index_grammars]; [split; discriminate|].
    apply calm_bind; [apply index_rules_calm|]. intros s1 _. apply calm_bind; [apply index_rules_calm|auto].
  Qed.
End IndexSafe.

Section Grammar.
  Variables letter_hi digit_hi : rune -> bool.
  Variable scan_float : string -> res bigf.
  Variable regexp_ok : string -> bool.
  Variable md5 : string -> string.
  Variable hash : rulebody -> N.
  Variable trie_accepts : string -> bool.
  Variable tokenize : string -> res (list token).
  Variable ascii_name : string -> string.
  Variable read_file : string -> res string.
  Variable abs_dir : string -> res string.
  Variable join_path : string -> string -> string.
  Variable ord : grammar_rules -> grammar_rules.
  Variable fuel : nat.
  Hypothesis Htab : unicode_tables letter_hi digit_hi.
  Hypothesis Hscan : forall t, scan_float t <> Panic /\ scan_float t <> Fuel.
  Hypothesis Hmd5 : forall t, 16 <= String.length (md5 t).
  Hypothesis Htok : forall t, calm (tokenize t).
  Hypothesis Hread : forall t, calm (read_file t).
  Hypothesis Habs : forall t, calm (abs_dir t).
  Hypothesis Hord : is_rule_order ord.

  Local Notation text_of := (text_of letter_hi digit_hi scan_float regexp_ok md5).
  Local Notation finish := (finish hash trie_accepts tokenize ascii_name ord fuel).
  Local Notation gfs := (grammar_from_string letter_hi digit_hi scan_float regexp_ok md5 hash trie_accepts tokenize
                           ascii_name read_file abs_dir join_path ord fuel).
  Local Notation include := (include_file read_file abs_dir join_path).

  Lemma finish_ok name rules frames regexps includes gt : proper rules ->
    match finish name rules frames regexps includes gt with
    | Ret (g, _) => g_name g = name /\ g_frames g = frames /\ g_regexps g = regexps /\ g_includes g = includes
        /\ g_refined g = true
        /\ exists T, refined_by tokenize hash T rules (g_rules g)
             /\ named_by tokenize ascii_name T rules
    | Err => True
    | Panic => False
    | Fuel => fuel < terms_of rules + length rules
    end.
  Proof.
    intros HP. unfold ModelGrammar.finish.
    destruct (index_grammars_calm trie_accepts ((frames, rules) :: map (fun g => (g_frames g, g_rules g)) includes) ([], [], [])) as [C1 C2].
    destruct (index_grammars _ _ _) as [[[tr ix] rix]| | |]; cbn [bind]; try congruence; try exact I.
    pose proof (refine_ok tokenize ascii_name hash (ord rules) fuel "g" gt (reordered_proper _ _ (Hord rules) HP)) as K.
    destruct (refine _ _ _ _ _ _ _) as [[r' gt']| | |]; cbn [bind]; try exact I.
    - cbn [g_name g_frames g_regexps g_includes g_rules g_refined]. destruct K as (T & K1 & K2).
      repeat (split; [reflexivity|]). exists T. split; [eapply reordered_refined; [exact HP|apply Hord|exact K1]|].
      eapply reordered_named; [exact HP|apply Hord|]. apply first_named. exact K2.
    - destruct K as (v & K). destruct (Htok v). congruence.
    - destruct K as [(v & K)|K]; [destruct (Htok v); congruence|].
      destruct (reordered_size _ _ (Hord rules)) as [-> ->] in K. exact K.
  Qed.

  Section ReadText.
  Variable fl : nat.
  (** the two parts of [grammar] *)
  Definition read_text_ {F} (load : F -> string -> res (option (list grammar * list (string * string)) * F)) (d : string) (fs : F) :=
    ' ((includes, fs), s) <- includes_loop d letter_hi digit_hi fl load fl fs [] (mkRd 0 0 []) ;;
    ' ((rules, frames), regexps) <- rules_part d letter_hi digit_hi scan_float regexp_ok md5 hash fl s ;;
    Ret (includes, fs, rules, frames, regexps).

  Local Notation read_text := read_text_.
  Lemma text_size d ps its l : text_of d ps its l ->
    items_size its <= String.length d /\ Forall (fun it => it_bodies it <> []) its.
  Proof.
    intros [(w & _ & -> & H)|(_ & _ & -> & _)]; [|split; [cbn; lia|constructor]].
    apply w_file_size in H. pose proof (encode_length w). split; [lia|tauto].
  Qed.
  Lemma text_denotes d ps its l frame : text_of d ps its l -> denotes hash its frame (add_items hash frame [] its).
  Proof. intros H. apply add_items_denotes. eapply text_size. exact H. Qed.

  Lemma at_start all re : At all (mkRd 0 0 re) all re.
  Proof. split; [|reflexivity]. exists []. auto. Qed.

  Lemma read_text_at F (load : F -> string -> res (option (list grammar * list (string * string)) * F)) d fs ps its l :
    text_of d ps its l -> String.length d < fl ->
    read_text load d fs
    = ' ((includes, fs'), re) <- load_all load fs [] [] ps ;;
      Ret (includes, fs', add_items hash false [] its, add_items hash true [] its, put_all re l).
  Proof.
    intros [(w & Hw & -> & Hf)|((n & Hd) & -> & -> & ->)] Hfuel; unfold read_text_.
    - pose proof (encode_length w) as HL. assert (Hlen : length w < fl) by lia.
      pose proof (includes_at letter_hi digit_hi scan_float regexp_ok md5 Htab w Hw fl Hlen load ps its l w Hf
                    fl fs [] (mkRd 0 0 []) [] (at_start w []) Hlen) as K.
      destruct (load_all load fs [] [] ps) as [[[gs fs'] re]| | |]; cbn [bind]; try (rewrite K; reflexivity).
      destruct K as (s' & w' & E & Hi & HA). rewrite E. cbn [bind].
      rewrite (rules_part_at letter_hi digit_hi scan_float regexp_ok md5 hash Htab w Hw fl Hlen its l w' s' re Hi HA).
      reflexivity.
    - cbn [load_all bind]. rewrite (bad_start_includes d letter_hi digit_hi fl n F grammar load fs Hd ltac:(lia)).
      cbn [bind]. rewrite (bad_start_reads d letter_hi digit_hi scan_float regexp_ok md5 hash fl n Hd ltac:(lia)).
      reflexivity.
  Qed.


  Lemma read_text_safe F (load : F -> string -> res (option (list grammar * list (string * string)) * F)) pre tail fs :
    Forall good pre -> (tail = ""%string \/ exists w, decode_rune tail = (RuneError, w)) ->
    (forall fs p, load fs p <> Panic) ->
    let d := (encode pre ++ tail)%string in
    read_text load d fs <> Panic /\ (forall v, read_text load d fs = Ret v -> tail = ""%string \/ pre = []).
  Proof.
    intros Hpre Htail HP d. unfold read_text_, d.
    pose proof (includes_safe letter_hi digit_hi pre tail Hpre Htail fl F grammar load HP fl fs []
                  (mkRd 0 0 []) (inv_start pre tail [])) as K.
    destruct (includes_loop _ _ _ _ _ _ _ _ _) as [[[gs fs'] s]| | |]; cbn [bind safe] in *; try (split; [discriminate|intros; discriminate]).
    - pose proof (rules_part_safe letter_hi digit_hi scan_float regexp_ok md5 hash (fun t => proj1 (Hscan t)) Hmd5 pre tail Hpre Htail fl s K) as K2.
      destruct (rules_part _ _ _ _ _ _ _ _ s) as [[[r f] re]| | |]; cbn [bind] in *; try (split; [discriminate|intros; discriminate]).
      + split; [discriminate|auto].
      + destruct K2.
    - destruct K.
  Qed.

  Lemma read_text_out F (load : F -> string -> res (option (list grammar * list (string * string)) * F)) (J : F -> Prop) d fs :
    (forall fs p x fs', J fs -> load fs p = Ret (x, fs') -> J fs') ->
    (forall fs p, load fs p <> Panic) -> J fs -> String.length d < fl ->
    match read_text load d fs with
    | Ret (includes, fs', rules, frames, regexps) => exists ps its l re, text_of d ps its l
        /\ load_all load fs [] [] ps = Ret ((includes, fs'), re)
        /\ rules = add_items hash false [] its /\ frames = add_items hash true [] its /\ regexps = put_all re l
    | Err => True
    | Panic => False
    | Fuel => ~ clean d \/ exists fs p, J fs /\ load fs p = Fuel
    end.
  Proof.
    intros HJ HP Hfs Hfuel.
    destruct (good_prefix _ d (le_n _)) as (pre & tail & Ed & Hpre & Htail).
    pose proof (read_text_safe F load pre tail fs Hpre Htail HP) as SAFE. cbv zeta in SAFE. rewrite <- Ed in SAFE.
    destruct SAFE as [SP SR].
    assert (CASES : tail = ""%string \/ pre = [] \/ (tail <> ""%string /\ pre <> [])).
    { destruct tail; [auto|]. destruct pre; [auto|]. right. right. split; discriminate. }
    destruct CASES as [Et|[Ep|[Hnt Hnp]]].
    - subst tail. rewrite append_nil_r in Ed. clear SP SR Htail. subst d.
      pose proof (encode_length pre) as HL. assert (Hlen : length pre < fl) by lia. unfold read_text_.
      pose proof (includes_out letter_hi digit_hi scan_float regexp_ok md5 pre Hpre fl Hlen load J HJ
                    fl fs [] (mkRd 0 0 []) pre [] (at_start pre []) Hlen Hfs) as K.
      assert (NC : open_comment pre -> ~ clean (encode pre)).
      { intros Ho (w & Gw & E & Hn). apply encode_inj in E; auto. subst w. auto. }
      destruct (includes_loop _ _ _ _ _ _ _ _ _) as [[[gs fs'] s]| | |]; cbn [bind] in *; auto.
      + destruct K as (ps & w & r & re & E & L & HA & _ & W).
        pose proof (rules_part_out letter_hi digit_hi scan_float regexp_ok md5 hash Htab Hscan Hmd5 pre Hpre fl Hlen s r re HA) as K2.
        destruct (rules_part _ _ _ _ _ _ _ _ s) as [[[rules frames] re']| | |]; cbn [bind] in *; auto.
        * destruct K2 as (its & l & E2 & Hi & ->). inversion E2; subst. exists ps, its, l, re.
          split; [left; exists (w ++ r); auto|]. auto.
        * left. apply NC. rewrite E. apply hangs_app. exact K2.
      + destruct K as (fs0 & p & _ & K). exact (HP _ _ K).
      + destruct K as [K|K]; [left; apply NC; exact K|right; exact K].
    - subst pre. cbn [encode append] in Ed. subst tail.
      destruct Htail as [->|(n & Hd)].
      + assert (T : text_of ""%string [] [] []).
        { left. exists []. split; [constructor|]. split; [reflexivity|]. apply wfile_rules, wis_end, gap_nil. }
        rewrite (read_text_at F load ""%string fs [] [] [] T Hfuel). cbn [load_all bind].
        exists [], [], [], []. auto.
      + assert (T : text_of d [] [] []) by (right; split; [exists n; exact Hd|auto]).
        rewrite (read_text_at F load d fs [] [] [] T Hfuel). cbn [load_all bind].
        exists [], [], [], []. auto.
    - destruct (read_text load d fs) as [v| | |] eqn:E; [|exact I|congruence|].
      + destruct (SR v eq_refl); contradiction.
      + left. intros (w & Gw & Ed' & _). rewrite Ed in Ed'.
        destruct Htail as [?|(n & Hd)]; [contradiction|].
        apply Hnt. exact (encode_no_error pre tail n w Hpre Gw Ed' Hd).
  Qed.

  End ReadText.
  Local Notation read_text := (read_text_ fuel).
  (** whatever the fuel, a result is that of a text *)
  Lemma read_text_ret F (load : F -> string -> res (option (list grammar * list (string * string)) * F)) d fs includes fs' rules frames regexps :
    (forall fs p, load fs p <> Panic) ->
    read_text load d fs = Ret (includes, fs', rules, frames, regexps) ->
    exists ps its l re, text_of d ps its l
        /\ load_all load fs [] [] ps = Ret ((includes, fs'), re)
        /\ rules = add_items hash false [] its /\ frames = add_items hash true [] its /\ regexps = put_all re l.
  Proof.
    intros HP E.
    assert (M : le_res (read_text load d fs) (read_text_ (fuel + S (String.length d)) load d fs)).
    { unfold read_text_. apply le_bind.
      - apply includes_loop_mono; [lia|intros; apply le_refl|lia].
      - intros [[gs fs1] s]. apply le_bind; [apply rules_part_mono; lia|]. intros [[r f] re]. apply le_refl. }
    apply (le_ret _ _ _ M) in E.
    pose proof (read_text_out (fuel + S (String.length d)) F load (fun _ => True) d fs (fun _ _ _ _ _ _ => I) HP I ltac:(lia)) as K.
    rewrite E in K. exact K.
  Qed.

  Lemma read_text_at_ret F (load : F -> string -> res (option (list grammar * list (string * string)) * F)) d fs ps its l v :
    text_of d ps its l -> read_text load d fs = Ret v ->
    (' ((includes, fs'), re) <- load_all load fs [] [] ps ;;
     Ret (includes, fs', add_items hash false [] its, add_items hash true [] its, put_all re l)) = Ret v.
  Proof.
    intros T E. rewrite <- (read_text_at (fuel + S (String.length d)) F load d fs ps its l T ltac:(lia)).
    eapply le_ret; [|exact E]. unfold read_text_. apply le_bind.
    - apply includes_loop_mono; [lia|intros; apply le_refl|lia].
    - intros [[gs fs1] s]. apply le_bind; [apply rules_part_mono; lia|]. intros [[r f] re]. apply le_refl.
  Qed.

  Lemma gfs_unfold depth d name dir w :
    gfs (S depth) d name dir w
    = if Nat.leb 2 (count (w_files w) name) then Ret (None, w)
      else ' (includes, w1, rules, frames, regexps) <- read_text (include (gfs depth) dir) d w ;;
           ' (g, gt) <- finish name rules frames regexps includes (w_tokens w1) ;;
           Ret (Some g, bump (mkW (w_files w1) gt) name).
  Proof.
    cbn [grammar_from_string]. destruct (Nat.leb 2 _); [reflexivity|]. unfold read_text_.
    destruct (includes_loop _ _ _ _ _ _ _ _ _) as [[[gs w1] s]| | |]; cbn [bind]; try reflexivity.
    destruct (rules_part _ _ _ _ _ _ _ _ s) as [[[r f] re]| | |]; cbn [bind]; reflexivity.
  Qed.

  (** *** no panic *)
  Lemma refine_no_panic rules gt prefix : refine tokenize ascii_name hash fuel prefix rules gt <> Panic.
  Proof.
    unfold refine. set (old := fun x => _).
    assert (K1 : forall t s, refine_term tokenize ascii_name hash old fuel prefix t s <> Panic).
    { intros t s. unfold refine_term. destruct (t_type t); try discriminate.
      destruct (lookup _ _); [discriminate|]. destruct (tokenize (t_value t)) eqn:E; cbn [bind]; try discriminate.
      - pose proof (proj1 (fresh_from old (rf_names s) fuel (new_name ascii_name a (prefix ++ "_t")) 0)) as F. cbn [candidate] in F.
        destruct (fresh old fuel _ _ 0 (rf_names s)); cbn [bind]; try discriminate. congruence.
      - destruct (Htok (t_value t)). congruence. }
    assert (K2 : forall ts s, refine_terms tokenize ascii_name hash old fuel prefix ts s <> Panic).
    { induction ts as [|t ts IH]; intros s; cbn [refine_terms]; [discriminate|]. specialize (K1 t s).
      destruct (refine_term _ _ _ _ _ _ t s) as [[t' s1]| | |]; cbn [bind]; try congruence.
      specialize (IH s1). destruct (refine_terms _ _ _ _ _ _ ts s1) as [[ts' s2]| | |]; cbn [bind]; congruence. }
    assert (K3 : forall l s, refine_bodies tokenize ascii_name hash old fuel prefix l s <> Panic).
    { induction l as [|[h b] l IH]; intros s; cbn [refine_bodies]; [discriminate|]. specialize (K2 (rb_terms b) s).
      destruct (refine_terms _ _ _ _ _ _ _ s) as [[t' s1]| | |]; cbn [bind]; try congruence.
      specialize (IH s1). destruct (refine_bodies _ _ _ _ _ _ l s1) as [[ts' s2]| | |]; cbn [bind]; congruence. }
    assert (K4 : forall l s, refine_rules tokenize ascii_name hash old fuel prefix l s <> Panic).
    { induction l as [|[h b] l IH]; intros s; cbn [refine_rules]; [discriminate|]. specialize (K3 (r_body b) s).
      destruct (refine_bodies _ _ _ _ _ _ _ s) as [[t' s1]| | |]; cbn [bind]; try congruence.
      specialize (IH s1). destruct (refine_rules _ _ _ _ _ _ l s1) as [[ts' s2]| | |]; cbn [bind]; congruence. }
    specialize (K4 rules (mkR [] [] [] gt)).
    destruct (refine_rules _ _ _ _ _ _ rules _) as [[l s]| | |]; cbn [bind]; congruence.
  Qed.
  Lemma finish_no_panic name rules frames regexps includes gt : finish name rules frames regexps includes gt <> Panic.
  Proof.
    unfold ModelGrammar.finish.
    destruct (index_grammars_calm trie_accepts ((frames, rules) :: map (fun g => (g_frames g, g_rules g)) includes) ([], [], [])) as [C1 C2].
    destruct (index_grammars _ _ _) as [[[tr ix] rix]| | |]; cbn [bind]; try congruence.
    pose proof (refine_no_panic (ord rules) gt "g") as K.
    destruct (refine _ _ _ _ _ _ _) as [[r' gt']| | |]; cbn [bind]; congruence.
  Qed.

  Lemma include_no_panic read dir w p : (forall b f fd w, read b f fd w <> Panic) -> include read dir w p <> Panic.
  Proof.
    intros H. unfold include_file. destruct (Nat.leb 2 _); [discriminate|].
    destruct (Hread (join_path dir p)) as [R1 _]. destruct (read_file (join_path dir p)) as [b| | |]; cbn [bind]; try congruence.
    destruct (Habs (join_path dir p)) as [A1 _]. destruct (abs_dir (join_path dir p)) as [fd| | |]; cbn [bind]; try congruence.
    specialize (H b (join_path dir p) fd (bump w (join_path dir p))).
    destruct (read _ _ _ _) as [[[ig|] w']| | |]; cbn [bind]; congruence.
  Qed.
  Lemma gfs_no_panic depth : forall d name dir w, gfs depth d name dir w <> Panic.
  Proof.
    induction depth as [|depth IH]; intros d name dir w; [discriminate|]. rewrite gfs_unfold.
    destruct (Nat.leb 2 _); [discriminate|].
    destruct (good_prefix _ d (le_n _)) as (pre & tail & Ed & Hpre & Htail).
    destruct (read_text_safe fuel world (include (gfs depth) dir) pre tail w Hpre Htail) as [SP _].
    { intros. apply include_no_panic. exact IH. }
    rewrite <- Ed in SP.
    destruct (read_text _ d w) as [[[[[inc w1] r] f] re]| | |]; cbn [bind]; try congruence.
    pose proof (finish_no_panic name r f re inc (w_tokens w1)).
    destruct (ModelGrammar.finish _ _ _ _ _ _ name r f re inc _) as [[g gt]| | |]; cbn [bind]; congruence.
  Qed.

  (** *** counts only grow *)
  Lemma includes_inv F (load : F -> string -> res (option (list grammar * list (string * string)) * F)) (J : F -> Prop) d :
    (forall fs p x fs', J fs -> load fs p = Ret (x, fs') -> J fs') ->
    forall n fs gs s gs' fs' s', J fs ->
      includes_loop d letter_hi digit_hi fuel load n fs gs s = Ret ((gs', fs'), s') -> J fs'.
  Proof.
    intros HJ. induction n as [|n IH]; intros fs gs s gs' fs' s' H E; cbn [includes_loop] in E; [discriminate|].
    destruct (comments d fuel s) as [s1| | |]; cbn [bind] in E; try discriminate.
    destruct (peek d s1) as [[r s2]| | |]; cbn [bind] in E; try discriminate.
    destruct (negb _); [inversion E; subst; exact H|].
    destruct (next d s2) as [c s3].
    destruct (ws d fuel s3) as [s4| | |]; cbn [bind] in E; try discriminate.
    destruct (text d letter_hi digit_hi fuel s4) as [[x s5]| | |]; cbn [bind] in E; try discriminate.
    destruct (negb _); [discriminate|].
    destruct (ws d fuel s5) as [s6| | |]; cbn [bind] in E; try discriminate.
    destruct (terminal d letter_hi digit_hi fuel s6) as [[[y p] s7]| | |]; cbn [bind] in E; try discriminate.
    destruct (load fs p) as [[[[l re]|] fs1]| | |] eqn:EL; cbn [bind] in E; try discriminate;
      (eapply IH; [eapply HJ; [exact H|exact EL]|exact E]).
  Qed.

  Definition grows (w w' : world) : Prop := forall k, count (w_files w) k <= count (w_files w') k.
  Lemma grows_refl w : grows w w. Proof. intros k. lia. Qed.
  Lemma grows_trans a b c : grows a b -> grows b c -> grows a c.
  Proof. intros H1 H2 k. specialize (H1 k). specialize (H2 k). lia. Qed.
  Lemma count_bump w k k' : count (w_files (bump w k)) k' = (if String.eqb k k' then S (count (w_files w) k') else count (w_files w) k').
  Proof.
    unfold bump, count at 1. cbn [w_files]. rewrite lookup_put.
    destruct (String.eqb k k') eqn:E; [|reflexivity]. apply String.eqb_eq in E. subst k'. reflexivity.
  Qed.
  Lemma grows_bump w k : grows w (bump w k).
  Proof. intros x. rewrite count_bump. destruct (String.eqb k x); lia. Qed.

  Lemma include_grows read dir w p x w' : (forall b f fd w og w', read b f fd w = Ret (og, w') -> grows w w') ->
    include read dir w p = Ret (x, w') -> grows w w'.
  Proof.
    intros H. unfold include_file. set (f := join_path dir p). pose proof (grows_bump w f) as G.
    destruct (Nat.leb 2 _); [intros E; inversion E; subst; exact G|].
    destruct (read_file f) as [b| | |]; cbn [bind]; try discriminate.
    destruct (abs_dir f) as [fd| | |]; cbn [bind]; try discriminate.
    destruct (read b f fd (bump w f)) as [[[ig|] w1]| | |] eqn:ER; cbn [bind]; try discriminate;
      intros E; inversion E; subst; eapply grows_trans; eauto.
  Qed.
  Lemma gfs_grows depth : forall d name dir w og w', gfs depth d name dir w = Ret (og, w') -> grows w w'.
  Proof.
    induction depth as [|depth IH]; intros d name dir w og w'; [discriminate|]. rewrite gfs_unfold.
    destruct (Nat.leb 2 _); [intros E; inversion E; subst; apply grows_refl|].
    unfold read_text_.
    destruct (includes_loop _ _ _ _ _ _ _ _ _) as [[[gs w1] s]| | |] eqn:EI; cbn [bind]; try discriminate.
    apply (includes_inv world (include (gfs depth) dir) (grows w)) in EI; [|intros; eapply grows_trans; [eassumption|]; eapply include_grows; eauto|apply grows_refl].
    destruct (rules_part _ _ _ _ _ _ _ _ s) as [[[r f] re]| | |]; cbn [bind]; try discriminate.
    destruct (ModelGrammar.finish _ _ _ _ _ _ name r f re gs _) as [[g gt]| | |]; cbn [bind]; try discriminate.
    intros E. inversion E; subst. eapply grows_trans; [exact EI|]. exact (grows_bump (mkW (w_files w1) gt) name).
  Qed.

  (** *** what is loaded *)
  Lemma text_paths d ps its l ps' its' l' :
    text_of d ps its l -> text_of d ps' its' l' -> ps' = ps.
  Proof.
    intros T T'.
    set (load := fun (fs : list string) (p : string) => Ret (@None (list grammar * list (string * string)), fs ++ [p])).
    assert (A : forall ps fs gs re, load_all load fs gs re ps = Ret ((gs, fs ++ ps), re)).
    { clear. induction ps as [|p ps IH]; intros fs gs re; cbn [load_all]; [rewrite app_nil_r; reflexivity|].
      unfold load at 1. cbn [bind]. rewrite IH, <- app_assoc. reflexivity. }
    pose proof (read_text_at (S (String.length d)) _ load d [] ps its l T ltac:(lia)) as E1.
    pose proof (read_text_at (S (String.length d)) _ load d [] ps' its' l' T' ltac:(lia)) as E2.
    rewrite A in E1, E2. cbn [bind app] in E1, E2. rewrite E1 in E2. inversion E2. reflexivity.
  Qed.

  Definition has {A} (m : list (string * A)) (h : string) : Prop := lookup m h <> None.
  Lemma has_put_all l : forall m h, has (put_all m l) h <-> has m h \/ In h (map fst l).
  Proof.
    induction l as [|[k v] l IH]; intros m h; cbn [map fst In]; [unfold put_all; cbn; tauto|].
    unfold put_all. cbn [fold_left fst snd]. fold (put_all (put m k v) l). rewrite IH.
    unfold has. rewrite lookup_put. destruct (String.eqb k h) eqn:E.
    - apply String.eqb_eq in E. subst. split; intros; auto. left. discriminate.
    - apply String.eqb_neq in E. tauto.
  Qed.
  Lemma lookup_put_all l : forall m h v, lookup (put_all m l) h = Some v -> lookup m h = Some v \/ In (h, v) l.
  Proof.
    induction l as [|[k v0] l IH]; intros m h v H; [auto|].
    unfold put_all in H. cbn [fold_left fst snd] in H. fold (put_all (put m k v0) l) in H.
    apply IH in H. destruct H as [H|H]; [|right; right; exact H]. rewrite lookup_put in H.
    destruct (String.eqb k h) eqn:E; [|auto]. apply String.eqb_eq in E. subst. inversion H; subst. right. left. reflexivity.
  Qed.
  Lemma put_all_nodup l : forall m : list (string * string), NoDup (map fst m) -> NoDup (map fst (put_all m l)).
  Proof. induction l as [|[k v] l IH]; intros m H; [exact H|]. unfold put_all. cbn [fold_left]. apply IH, put_nodup, H. Qed.
  Lemma has_in {A} (m : list (string * A)) h : has m h <-> In h (map fst m).
  Proof.
    unfold has. pose proof (lookup_none_notin m h). destruct (in_dec string_dec h (map fst m)); tauto.
  Qed.

  (** grammar [g] holds text [d] of directory [dir], and what it includes has been counted in [w] *)
  Definition Holds (d dir : string) (g : grammar) (w : world) : Prop :=
    exists ps its l rules T, text_of d ps its l /\
      denotes hash its true (g_frames g) /\ denotes hash its false rules /\
      refined_by tokenize hash T rules (g_rules g) /\
      named_by tokenize ascii_name T rules /\
      (forall p, In p ps -> 1 <= count (w_files w) (join_path dir p)) /\
      (forall h, has (g_regexps g) h <->
         In h (map fst l) \/ exists ig, In ig (g_includes g) /\ has (g_regexps ig) h) /\
      (forall h v, lookup (g_regexps g) h = Some v ->
         In (h, v) l \/ exists ig, In ig (g_includes g) /\ lookup (g_regexps ig) h = Some v) /\
      NoDup (map fst (g_regexps g)).
  Definition loaded_file (w : world) (ig : grammar) : Prop :=
    exists b fd, read_file (g_name ig) = Ret b /\ abs_dir (g_name ig) = Ret fd /\ Holds b fd ig w.
  Lemma Holds_grows d dir g w w' : grows w w' -> Holds d dir g w -> Holds d dir g w'.
  Proof.
    intros G (ps & its & l & rules & T & H1 & H2 & H3 & H4 & H5 & H6 & H7). exists ps, its, l, rules, T.
    repeat (split; [assumption|]). split; [|exact H7]. intros p Hp. specialize (H6 p Hp). specialize (G (join_path dir p)). lia.
  Qed.
  Lemma loaded_file_grows w w' ig : grows w w' -> loaded_file w ig -> loaded_file w' ig.
  Proof. intros G (b & fd & H1 & H2 & H3). exists b, fd. split; [exact H1|]. split; [exact H2|]. eapply Holds_grows; eauto. Qed.

  Definition loaded (w w' : world) (l : list grammar) : Prop :=
    NoDup (map g_name l) /\
    (forall f, In f (map g_name l) <-> count (w_files w) f = 0 /\ 1 <= count (w_files w') f) /\
    Forall (loaded_file w') l.
  Lemma loaded_none w w' : (forall f, count (w_files w) f = 0 -> count (w_files w') f = 0) -> loaded w w' [].
  Proof. intros H. split; [constructor|]. split; [|constructor]. intros f. cbn [map In]. split; [tauto|]. intros [H1 H2]. rewrite (H f H1) in H2. lia. Qed.
  Lemma loaded_app a b c l l' : grows a b -> grows b c -> loaded a b l -> loaded b c l' -> loaded a c (l ++ l').
  Proof.
    intros G1 G2 (A1 & A2 & A3) (B1 & B2 & B3). rewrite map_app || unfold loaded. unfold loaded. rewrite map_app. split; [|split].
    - assert (Hd : forall x, In x (map g_name l) -> ~ In x (map g_name l')).
      { intros x Hx Hx'. apply A2 in Hx. apply B2 in Hx'. lia. }
      clear - A1 B1 Hd. induction (map g_name l) as [|y m IH]; [exact B1|]. inversion A1; subst. cbn [app]. constructor.
      + intros Hin. apply in_app_or in Hin. destruct Hin as [Hin|Hin]; [auto|]. apply (Hd y); [left; reflexivity|exact Hin].
      + apply IH; [assumption|]. intros x Hx. apply Hd. right. exact Hx.
    - intros f. rewrite in_app_iff, A2, B2. specialize (G1 f). specialize (G2 f). lia.
    - apply Forall_app. split; [|exact B3]. eapply Forall_impl; [|exact A3]. intros g. apply loaded_file_grows. exact G2.
  Qed.

  Definition result_ok (d dir name : string) (w : world) (g : grammar) (w' : world) : Prop :=
    exists w1, (forall k, count (w_files w') k = count (w_files (bump w1 name)) k) /\ grows w w1 /\
      loaded w w1 (g_includes g) /\ g_name g = name /\ Holds d dir g w1.


  Section Step.
    Variable read : string -> string -> string -> world -> res (option grammar * world).
    Hypothesis Hok : forall d name dir w og w', count (w_files w) name < 2 ->
      read d name dir w = Ret (og, w') -> exists g, og = Some g /\ result_ok d dir name w g w'.
    Variable dir : string.

    Lemma include_ok w p x w' : include read dir w p = Ret (x, w') ->
      grows w w' /\ 1 <= count (w_files w') (join_path dir p) /\
      match x with
      | None => loaded w w' []
      | Some (l, re) => loaded w w' l /\
          (forall h, has re h <-> exists ig, In ig l /\ has (g_regexps ig) h) /\
          (forall h v, lookup re h = Some v -> exists ig, In ig l /\ lookup (g_regexps ig) h = Some v) /\
          NoDup (map fst re)
      end.
    Proof.
      unfold include_file. set (f := join_path dir p). pose proof (grows_bump w f) as G.
      destruct (Nat.leb 2 (count (w_files (bump w f)) f)) eqn:EL.
      - intros E. inversion E; subst. apply Nat.leb_le in EL. split; [exact G|]. split; [lia|].
        rewrite count_bump, String.eqb_refl in EL. apply loaded_none. intros k Hk. rewrite count_bump.
        destruct (String.eqb f k) eqn:Ek; [|exact Hk]. apply String.eqb_eq in Ek. subst k. lia.
      - apply Nat.leb_gt in EL.
        destruct (read_file f) as [b| | |] eqn:ER; cbn [bind]; try discriminate.
        destruct (abs_dir f) as [fd| | |] eqn:EA; cbn [bind]; try discriminate.
        destruct (read b f fd (bump w f)) as [[og w2]| | |] eqn:EG; cbn [bind]; try discriminate.
        destruct (Hok _ _ _ _ _ _ EL EG) as (ig & -> & w1 & C & G1 & (L1 & L2 & L3) & EN & HH).
        intros E. inversion E; subst. clear E. rewrite count_bump, String.eqb_refl in EL.
        assert (G2 : grows w1 w').
        { intros k. rewrite C. apply (grows_bump w1 f k). }
        assert (C1 : forall k, count (w_files w') k = if String.eqb f k then S (count (w_files w1) k) else count (w_files w1) k).
        { intros k. rewrite C, count_bump. reflexivity. }
        split; [eapply grows_trans; [exact G|]; eapply grows_trans; eauto|].
        split; [rewrite C1, String.eqb_refl; lia|].
        assert (FF : loaded_file w' ig).
        { exists b, fd. rewrite EN. split; [exact ER|]. split; [exact EA|]. eapply Holds_grows; eauto. }
        split; [|split; [|split]].
        + split; [|split].
          * cbn [map]. constructor; [|exact L1]. rewrite EN. intros Hin. apply L2 in Hin. rewrite count_bump, String.eqb_refl in Hin. lia.
          * intros k. cbn [map In]. rewrite L2, C1, count_bump, EN.
            destruct (String.eqb f k) eqn:Ek.
            -- apply String.eqb_eq in Ek. subst k. split; [lia|]. intros _. left. reflexivity.
            -- apply String.eqb_neq in Ek. split; [intros [?|?]; [contradiction|lia]|right; lia].
          * constructor; [exact FF|]. eapply Forall_impl; [|exact L3]. intros g. apply loaded_file_grows. exact G2.
        + destruct HH as (ps & its & l & rules & T & _ & _ & _ & _ & _ & _ & H7 & _). intros h. split.
          * intros H. exists ig. split; [left; reflexivity|exact H].
          * intros (ig' & [<-|Hin] & H); [exact H|]. apply H7. right. exists ig'. auto.
        + intros h v H. exists ig. split; [left; reflexivity|exact H].
        + destruct HH as (ps & its & l & rules & T & _ & _ & _ & _ & _ & _ & _ & _ & H9). exact H9.
    Qed.

    Lemma load_all_ok ps : forall w gs re gs' w' re',
      load_all (include read dir) w gs re ps = Ret ((gs', w'), re') -> NoDup (map fst re) ->
      exists new, NoDup (map fst re') /\ gs' = gs ++ new /\ grows w w' /\ loaded w w' new /\
        (forall p, In p ps -> 1 <= count (w_files w') (join_path dir p)) /\
        (forall h, has re' h <-> has re h \/ exists ig, In ig new /\ has (g_regexps ig) h) /\
        (forall h v, lookup re' h = Some v -> lookup re h = Some v \/ exists ig, In ig new /\ lookup (g_regexps ig) h = Some v).
    Proof.
      induction ps as [|p ps IH]; intros w gs re gs' w' re' E Hre; cbn [load_all] in E.
      - inversion E; subst. exists []. split; [exact Hre|]. split; [rewrite app_nil_r; reflexivity|]. split; [apply grows_refl|].
        split; [apply loaded_none; auto|]. split; [intros p []|]. split; [|auto].
        intros h. split; [auto|]. intros [H|(ig & [] & _)]. exact H.
      - destruct (include read dir w p) as [[x w1]| | |] eqn:EI; cbn [bind] in E; try discriminate.
        destruct (include_ok w p x w1 EI) as (G1 & C1 & X1).
        assert (M : exists n1 re1, load_all (include read dir) w1 (gs ++ n1) re1 ps = Ret ((gs', w'), re') /\ NoDup (map fst re1) /\ loaded w w1 n1 /\
          (forall h, has re1 h <-> has re h \/ exists ig, In ig n1 /\ has (g_regexps ig) h) /\
          (forall h v, lookup re1 h = Some v -> lookup re h = Some v \/ exists ig, In ig n1 /\ lookup (g_regexps ig) h = Some v)).
        { destruct x as [[l r]|].
          - destruct X1 as (X1 & X2 & X3 & X4). exists l, (put_all re r). split; [exact E|]. split; [apply put_all_nodup; exact Hre|]. split; [exact X1|]. split.
            + intros h. rewrite has_put_all, <- X2, (has_in r). tauto.
            + intros h v H. apply lookup_put_all in H. destruct H as [H|H]; [auto|right].
              apply X3. apply in_lookup; assumption.
          - exists [], re. rewrite app_nil_r. split; [exact E|]. split; [exact Hre|]. split; [exact X1|]. split; [|auto].
            intros h. split; [auto|]. intros [H|(ig & [] & _)]. exact H. }
        destruct M as (n1 & re1 & E1 & N1 & L1 & R1 & V1). destruct (IH _ _ _ _ _ _ E1 N1) as (n2 & N2 & -> & G2 & L2 & C2 & R2 & V2).
        exists (n1 ++ n2). split; [exact N2|]. split; [rewrite app_assoc; reflexivity|]. split; [eapply grows_trans; eauto|].
        split; [eapply loaded_app; eauto|]. split; [|split].
        + intros q [<-|Hq]; [|auto]. specialize (G2 (join_path dir p)). lia.
        + intros h. rewrite R2, R1. split.
          * intros [[H|(ig & H1 & H2)]|(ig & H1 & H2)]; [auto|right|right]; exists ig; rewrite in_app_iff; auto.
          * intros [H|(ig & H1 & H2)]; [auto|]. rewrite in_app_iff in H1. destruct H1; [left; right|right]; exists ig; auto.
        + intros h v H. apply V2 in H. destruct H as [H|(ig & H1 & H2)]; [apply V1 in H; destruct H as [H|(ig & H1 & H2)]|]; auto;
            right; exists ig; rewrite in_app_iff; auto.
    Qed.
  End Step.

  Lemma gfs_ok depth : forall d name dir w og w', count (w_files w) name < 2 ->
    gfs depth d name dir w = Ret (og, w') -> exists g, og = Some g /\ result_ok d dir name w g w'.
  Proof.
    induction depth as [|depth IH]; intros d name dir w og w' Hc; [discriminate|]. rewrite gfs_unfold.
    destruct (Nat.leb 2 (count (w_files w) name)) eqn:EL; [apply Nat.leb_le in EL; lia|].
    destruct (read_text _ d w) as [[[[[inc w1] r] f] re]| | |] eqn:RT; cbn [bind]; try discriminate.
    apply read_text_ret in RT; [|intros; apply include_no_panic; apply gfs_no_panic].
    destruct RT as (ps & its & l & re' & T & EA & -> & -> & ->).
    destruct (load_all_ok _ IH dir ps _ _ _ _ _ _ EA ltac:(constructor)) as (new & N1 & En & G & LD & C & R & V).
    cbn [app] in En. subst new.
    pose proof (text_denotes _ _ _ _ false T) as DR. pose proof (text_denotes _ _ _ _ true T) as DF.
    pose proof (finish_ok name (add_items hash false [] its) (add_items hash true [] its) (put_all re' l) inc (w_tokens w1)
                  (denotes_proper _ _ _ _ DR)) as KF.
    destruct (ModelGrammar.finish _ _ _ _ _ _ name _ _ _ inc _) as [[g gt]| | |]; cbn [bind]; try discriminate.
    destruct KF as (F1 & F2 & F3 & F4 & _ & T' & F5 & F6). intros E. inversion E; subst og w'. exists g. split; [reflexivity|].
    exists w1. split; [intros k; rewrite !count_bump; reflexivity|]. split; [exact G|]. rewrite F4. split; [exact LD|].
    split; [exact F1|]. exists ps, its, l, (add_items hash false [] its), T'. rewrite F2, F3, F4.
    split; [exact T|]. split; [exact DF|]. split; [exact DR|]. split; [exact F5|]. split; [exact F6|]. split; [exact C|].
    split; [|split].
    - intros h. rewrite has_put_all, R. unfold has at 1. cbn [lookup]. tauto.
    - intros h v H. apply lookup_put_all in H. destruct H as [H|H]; [|auto]. apply V in H. destruct H as [H|H]; [discriminate|auto].
    - apply put_all_nodup. exact N1.
  Qed.

  (** *** the files loaded are the files reached *)
  Local Notation reached := (reached letter_hi digit_hi scan_float regexp_ok md5 read_file abs_dir join_path).
  Lemma reached_trans d dir f b fd x : reached d dir f -> read_file f = Ret b -> abs_dir f = Ret fd ->
    reached b fd x -> reached d dir x.
  Proof.
    intros H1 Eb Ed H. induction H as [ps its re p T Hp|g b2 fd2 ps its re p Hr IH E1 E2 T Hp].
    - eapply re_step; eauto.
    - eapply re_step; eauto.
  Qed.
  Lemma gfs_reached depth : forall d name dir w g w',
    gfs depth d name dir w = Ret (Some g, w') -> forall ig, In ig (g_includes g) -> reached d dir (g_name ig).
  Proof.
    induction depth as [|depth IH]; intros d name dir w g w'; [discriminate|]. rewrite gfs_unfold.
    destruct (Nat.leb 2 (count (w_files w) name)) eqn:EL; [discriminate|].
    destruct (read_text _ d w) as [[[[[inc w1] r] f] re]| | |] eqn:RT; cbn [bind]; try discriminate.
    apply read_text_ret in RT; [|intros; apply include_no_panic; apply gfs_no_panic].
    destruct RT as (ps & its & l & re' & T & EA & -> & -> & ->).
    pose proof (finish_ok name (add_items hash false [] its) (add_items hash true [] its) (put_all re' l) inc (w_tokens w1)
                  (denotes_proper _ _ _ _ (text_denotes _ _ _ _ false T))) as KF.
    destruct (ModelGrammar.finish _ _ _ _ _ _ name _ _ _ inc _) as [[g' gt]| | |]; cbn [bind]; try discriminate.
    intros E. inversion E; subst g' w'. clear E. destruct KF as (_ & _ & _ & F4 & _). rewrite F4. clear F4.
    assert (L : forall qs, incl qs ps -> forall w gs re gs' w' re', load_all (include (gfs depth) dir) w gs re qs = Ret ((gs', w'), re') ->
              (forall ig, In ig gs -> reached d dir (g_name ig)) -> forall ig, In ig gs' -> reached d dir (g_name ig)).
    { clear - IH T Hread Habs Htab Hscan Hmd5 Htok Hord. induction qs as [|p qs IHq]; intros Hin w gs re gs' w' re' E H; cbn [load_all] in E.
      - inversion E; subst. exact H.
      - destruct (include (gfs depth) dir w p) as [[x w1]| | |] eqn:EI; cbn [bind] in E; try discriminate.
        assert (Hin' : incl qs ps) by (intros q Hq; apply Hin; right; exact Hq).
        destruct x as [[l0 re0]|]; [|eapply IHq; eauto].
        eapply IHq; [exact Hin'|exact E|]. intros ig Hig. apply in_app_or in Hig. destruct Hig as [Hig|Hig]; [auto|].
        unfold include_file in EI. set (f := join_path dir p) in *.
        assert (Hf : reached d dir f) by (eapply re_direct; [exact T|apply Hin; left; reflexivity]).
        destruct (Nat.leb 2 (count (w_files (bump w f)) f)) eqn:EL; [discriminate|].
        apply Nat.leb_gt in EL.
        destruct (read_file f) as [b| | |] eqn:ER; cbn [bind] in EI; try discriminate.
        destruct (abs_dir f) as [fd| | |] eqn:EA; cbn [bind] in EI; try discriminate.
        destruct (gfs depth b f fd (bump w f)) as [[[ig0|] w2]| | |] eqn:EG; cbn [bind] in EI; try discriminate.
        inversion EI; subst. clear EI. destruct Hig as [<-|Hig].
        + destruct (gfs_ok depth b f fd (bump w f) (Some ig0) w1 EL EG) as (g1 & E1 & w3 & _ & _ & _ & EN & _).
          inversion E1; subst g1. rewrite EN. exact Hf.
        + eapply reached_trans; [exact Hf|exact ER|exact EA|]. eapply IH; [exact EG|exact Hig]. }
    intros ig Hig. eapply (L ps (incl_refl _)); [exact EA| |exact Hig]. intros ig' [].
  Qed.

  (** the loaded grammars, from a world in which only the text itself may be counted *)
  Lemma gfs_files depth d name dir w og w' : count (w_files w) name < 2 ->
    (forall f, count (w_files w) f <> 0 -> read_file f = Ret d /\ abs_dir f = Ret dir) ->
    gfs depth d name dir w = Ret (og, w') ->
    exists g, og = Some g /\ g_name g = name /\ NoDup (map g_name (g_includes g)) /\
      (forall f, In f (map g_name (g_includes g)) <-> reached d dir f /\ count (w_files w) f = 0) /\
      holds letter_hi digit_hi scan_float regexp_ok md5 hash tokenize ascii_name d g /\
      (forall ig, In ig (g_includes g) -> exists b, read_file (g_name ig) = Ret b /\
         holds letter_hi digit_hi scan_float regexp_ok md5 hash tokenize ascii_name b ig).
  Proof.
    intros Hc H0 E. destruct (gfs_ok depth d name dir w og w' Hc E) as (g & -> & w1 & _ & G & (L1 & L2 & L3) & EN & HH).
    exists g. split; [reflexivity|]. split; [exact EN|]. split; [exact L1|].
    assert (TH : forall b fd g w, Holds b fd g w -> holds letter_hi digit_hi scan_float regexp_ok md5 hash tokenize ascii_name b g).
    { intros b fd g0 w0 (ps & its & l & rules & T & A & B & C & D & P & _ & R1 & R2 & R3). exists rules, T, ps, its, l.
      split; [exact A|]. split; [exact B|]. split; [exact C|]. split; [exact D|]. split; [exact P|]. split; [exact R3|]. split; [exact R1|exact R2]. }
    split; [|split; [eapply TH; exact HH|]].
    2: { intros ig Hig. rewrite Forall_forall in L3. destruct (L3 ig Hig) as (b & fd & E1 & E2 & E3). exists b. split; [exact E1|]. eapply TH; eauto. }
    assert (RC : forall f, reached d dir f -> 1 <= count (w_files w1) f).
    { induction 1 as [ps its re p T Hp|f b fd ps its re p Hr IH E1 E2 T Hp].
      - destruct HH as (ps' & its' & l' & rules & T' & A & _ & _ & _ & _ & C & _).
        rewrite (text_paths _ _ _ _ _ _ _ A T) in Hp. exact (C p Hp).
      - assert (HF : exists g2, Holds b fd g2 w1).
        { destruct (Nat.eq_dec (count (w_files w) f) 0) as [Ez|Ez].
          - assert (Hin : In f (map g_name (g_includes g))) by (apply L2; lia).
            apply in_map_iff in Hin. destruct Hin as (ig & <- & Hig). rewrite Forall_forall in L3.
            destruct (L3 ig Hig) as (b' & fd' & E3 & E4 & E5). rewrite E1 in E3. rewrite E2 in E4. inversion E3; inversion E4; subst. exists ig. exact E5.
          - destruct (H0 f Ez) as [E3 E4]. rewrite E1 in E3. rewrite E2 in E4. inversion E3; inversion E4; subst. exists g. exact HH. }
        destruct HF as (g2 & ps' & its' & l' & rules & T' & A & _ & _ & _ & _ & C & _).
        rewrite (text_paths _ _ _ _ _ _ _ A T) in Hp. exact (C p Hp). }
    intros f. rewrite L2. split.
    - intros [H1 H2]. split; [|exact H1]. assert (Hin : In f (map g_name (g_includes g))) by (apply L2; auto).
      apply in_map_iff in Hin. destruct Hin as (ig & <- & Hig). eapply gfs_reached; eauto.
    - intros [H1 H2]. split; [exact H2|]. apply RC. exact H1.
  Qed.

  (** *** termination *)
  Variable fset : list string.
  Definition unread (w : world) : nat := length (filter (fun f => Nat.eqb (count (w_files w) f) 0) fset).
  Lemma unread_grows w w' : grows w w' -> unread w' <= unread w.
  Proof.
    intros G. unfold unread. induction fset as [|f l IH]; cbn [filter length]; [lia|].
    specialize (G f). destruct (Nat.eqb (count (w_files w') f) 0) eqn:E1, (Nat.eqb (count (w_files w) f) 0) eqn:E2; cbn [length]; try lia.
    apply Nat.eqb_eq in E1. apply Nat.eqb_neq in E2. lia.
  Qed.
  Lemma unread_bump w f : In f fset -> count (w_files w) f = 0 -> unread (bump w f) < unread w.
  Proof.
    intros Hin Hc. unfold unread. induction fset as [|f0 l IH]; [destruct Hin|]. cbn [filter].
    rewrite !count_bump. pose proof (unread_grows w (bump w f) (grows_bump w f)) as _.
    assert (LE : length (filter (fun f1 => Nat.eqb (count (w_files (bump w f)) f1) 0) l) <= length (filter (fun f1 => Nat.eqb (count (w_files w) f1) 0) l)).
    { clear. induction l as [|x l IH]; cbn [filter length]; [lia|]. rewrite count_bump.
      destruct (String.eqb f x); destruct (Nat.eqb (count (w_files w) x) 0) eqn:E; cbn [Nat.eqb length]; try rewrite E; cbn [length]; lia. }
    destruct (String.eqb f f0) eqn:E0.
    - apply String.eqb_eq in E0. subst f0. rewrite Hc. cbn [Nat.eqb length]. lia.
    - destruct Hin as [<-|Hin]; [rewrite String.eqb_refl in E0; discriminate|]. specialize (IH Hin).
      destruct (Nat.eqb (count (w_files w) f0) 0); cbn [length]; lia.
  Qed.

  Hypothesis Hfiles : forall f b, read_file f = Ret b -> In f fset /\ clean b /\ String.length b < fuel.

  Lemma gfs_terminates depth : forall d name dir w, unread w < depth -> clean d -> String.length d < fuel ->
    gfs depth d name dir w <> Fuel.
  Proof.
    induction depth as [|depth IH]; intros d name dir w Hd Hc Hl; [lia|]. rewrite gfs_unfold.
    destruct (Nat.leb 2 _); [discriminate|].
    assert (HI : forall fs p, unread fs <= depth -> include (gfs depth) dir fs p <> Fuel).
    { intros fs p Hfs. unfold include_file. set (f := join_path dir p).
      destruct (Nat.leb 2 (count (w_files (bump fs f)) f)) eqn:EL; [discriminate|].
      apply Nat.leb_gt in EL. rewrite count_bump, String.eqb_refl in EL.
      destruct (Hread f) as [_ R]. destruct (read_file f) as [b| | |] eqn:ER; cbn [bind]; try congruence.
      destruct (Habs f) as [_ A]. destruct (abs_dir f) as [fd| | |]; cbn [bind]; try congruence.
      destruct (Hfiles f b ER) as (F1 & F2 & F3).
      pose proof (unread_bump fs f F1 ltac:(lia)) as U.
      pose proof (IH b f fd (bump fs f) ltac:(lia) F2 F3) as K.
      destruct (gfs depth b f fd (bump fs f)) as [[[ig|] w']| | |]; cbn [bind]; congruence. }
    pose proof (read_text_out fuel world (include (gfs depth) dir) (fun fs => unread fs <= depth) d w) as K.
    specialize (K ltac:(intros fs p x fs' Hu E; eapply Nat.le_trans; [apply unread_grows; eapply include_grows; [apply gfs_grows|exact E]|exact Hu])
                  ltac:(intros; apply include_no_panic; apply gfs_no_panic) ltac:(cbv beta; lia) Hl).
    destruct (read_text _ d w) as [[[[[inc w1] r] f] re]| | |]; cbn [bind]; try congruence.
    - destruct K as (ps & its & l & re' & T & _ & -> & -> & _).
      pose proof (finish_ok name (add_items hash false [] its) (add_items hash true [] its) re inc (w_tokens w1)
                    (denotes_proper _ _ _ _ (text_denotes _ _ _ _ false T))) as KF.
      destruct (ModelGrammar.finish _ _ _ _ _ _ name _ _ re inc _) as [[g gt]| | |]; cbn [bind]; try congruence.
      pose proof (add_items_size hash false its []) as S. cbn [terms_of length] in S.
      destruct (text_size _ _ _ _ T) as [S' _]. lia.
    - destruct K as [K|(fs & p & Hu & K)]; [contradiction|]. destruct (HI fs p Hu K).
  Qed.
End Grammar.
