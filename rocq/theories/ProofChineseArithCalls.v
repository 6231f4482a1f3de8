(** The calls on math.zh.grammar: texts of Chinese numerals and operations. *)
From Coq Require Import Permutation Sorted.
From Verif Require ProofTrim ProofPrint ProofRefine ProofWordArith ProofWordArithCalls.
From Verif Require Import Base ModelTypes ModelText ModelEarley ModelTrees ModelApi ModelQuote ModelSem ModelMath ModelFuncs ModelReader ModelGrammar ModelMatch ModelLocal
     SpecTypes SpecGrammar SpecTree SpecNotation SpecRefine SpecConstruct SpecSem SpecNode SpecApi SpecLocal SpecFuncs SpecEnd SpecMath SpecMeaning
     ModelShipped SpecShipped SpecNames
     ProofGrammar ProofConstruct ProofIndex ProofRecognize ProofShipped ProofShippedUsable ProofShippedMain ProofNames ProofUnique ProofMeaning ProofMeaningCalls SpecFrameText
     SpecArith SpecWorth ProofWorth ProofWorthCalls ProofReadings SpecChinese ProofChinese ProofChineseRules ProofChineseCalls SpecWordArith SpecChineseArith ProofChineseArith ProofChineseArithRules.
Local Open Scope list_scope.

Lemma chain_words ws n rest : cn_chain ws n rest -> forall w, In w ws -> In w cn_sum_words /\ w <> "点"%string.
Proof.
  assert (K : forall u m w, chinese u m -> In w u -> In w cn_sum_words /\ w <> "点"%string).
  { intros u m w H Hw. apply chinese_words in H as [H _]. rewrite Forall_forall in H. apply H in Hw.
    assert (A : forallb (fun w => existsb (String.eqb w) cn_sum_words && negb (String.eqb w "点")) alphabet8 = true) by (vm_compute; reflexivity).
    rewrite forallb_forall in A. specialize (A w Hw). apply andb_true_iff in A as [A1 A2]. apply existsb_exists in A1 as (w' & A1 & E). apply String.eqb_eq in E. subst w'.
    split; [exact A1|]. apply negb_true_iff in A2. apply String.eqb_neq in A2. exact A2. }
  induction 1 as [ws n H|ws n w o ws' m rest H Ho _ IH]; intros w' Hw; [exact (K _ _ _ H Hw)|].
  apply in_app_iff in Hw as [Hw|[<-|Hw]]; [exact (K _ _ _ H Hw)| |exact (IH _ Hw)].
  split; [apply in_app_iff; right; apply (in_map fst) in Ho; exact Ho|]. destruct Ho as [[= <- <-]|[[= <- <-]|[[= <- <-]|[]]]]; discriminate.
Qed.
Lemma chain_no_double tokenize gtokens to_lower d n rest : double_token tokenize -> cn_chain (map tok_text (content d)) n rest ->
  forall i j, ~ phrase tokenize (terminal_match gtokens to_lower) (content d) "万万" i j.
Proof.
  intros (ks & E & T) HW i j (ks' & E' & L & W). rewrite E in E'. injection E' as <-.
  assert (M : forall x tok, terminal_match gtokens to_lower (mkTerm x TTerminal MNil) (Some tok) = String.eqb x (tok_text tok)) by reflexivity.
  assert (Tt : token_terms MNil ks = map (fun x => mkTerm x TTerminal MNil) (map tok_text (filter (fun k => negb (is_space_token k)) ks))).
  { unfold token_terms. rewrite map_map. reflexivity. }
  rewrite Tt in L, W. destruct T as [T|T]; rewrite T in L, W; cbn [map length] in L, W.
  - destruct (W 0 _ eq_refl) as (_ & tok & N & Mt). rewrite M in Mt. apply String.eqb_eq in Mt. rewrite Nat.add_0_r in N.
    apply (map_nth_error tok_text) in N. apply nth_error_In in N. rewrite <- Mt in N.
    destruct (chain_words _ _ _ HW _ N) as [C _]. revert C. apply not_mem. vm_compute. reflexivity.
  - destruct (W 0 _ eq_refl) as (_ & tok & N & Mt). rewrite M in Mt. apply String.eqb_eq in Mt. rewrite Nat.add_0_r in N.
    destruct (W 1 _ eq_refl) as (_ & tok' & N' & Mt'). rewrite M in Mt'. apply String.eqb_eq in Mt'. rewrite Nat.add_1_r in N'.
    apply (map_nth_error tok_text) in N. apply (map_nth_error tok_text) in N'. rewrite <- Mt in N. rewrite <- Mt' in N'.
    destruct (chain_flat _ _ _ HW) as (u & l & Ef & Hu & Hr). rewrite Ef in N, N'. exact (apart_nth _ _ (flat_apart _ _ Hr _ _ Hu) N N').
Qed.

Section Files.
  Variable e : env.
  Hypothesis HE : env_ok e.
  Hypothesis Hfrac : fractions_scan e.
  Hypothesis Hpat : e_regexp_ok e sf_pattern = true.
  Variable dir : string.
  Hypothesis Hin : installed e dir dir_math.
  Variables (fuel0 depth0 : nat) (gt : list (string * token)) (g : grammar) (w' : world).
  Hypothesis Hload : from_file e fuel0 depth0 (e_join e dir "math.zh.grammar") gt = Ret (Some g, w').
  Hypothesis Hh1 : hashes_apart e math_math_zh.
  Hypothesis Hh2 : hashes_apart e math_number_zh.
  Lemma math_file : In ("math.zh.grammar"%string, math_math_zh) dir_math.
  Proof using. unfold dir_math. vm_compute. tauto. Qed.
  Lemma number_file : In ("number.zh.grammar"%string, math_number_zh) dir_math.
  Proof using. unfold dir_math. do 5 right. left. reflexivity. Qed.
  Lemma math_shipped : In dir_math shipped.
  Proof using. unfold shipped. do 4 right. left. reflexivity. Qed.
  Lemma number_among : file_among e math_math_zh dir math_number_zh.
  Proof using HE Hfrac Hpat Hin.
    right. exists (e_join e dir "number.zh.grammar"). split; [|exact (proj1 (Hin _ _ number_file))].
    apply (shipped_reached e HE Hfrac Hpat dir_math dir math_shipped Hin _ _ math_file ltac:(discriminate)). left. reflexivity.
  Qed.
  Lemma among_two text : file_among e math_math_zh dir text -> text = math_math_zh \/ text = math_number_zh.
  Proof using HE Hfrac Hpat Hin.
    intros [->|(f & Hf & Rf)]; [left; reflexivity|right].
    apply (shipped_reached e HE Hfrac Hpat dir_math dir math_shipped Hin _ _ math_file ltac:(discriminate)) in Hf. destruct Hf as [<-|[]].
    rewrite (proj1 (Hin _ _ number_file)) in Rf. injection Rf as <-. reflexivity.
  Qed.
  Lemma chinese_alternative x b : alternative_in e math_number_zh x b <-> In b (cn_alternatives x).
  Proof using HE.
    split; [|intros H; exists [], chinese_items, []; split; [exact (chinese_text e HE)|exact H]].
    intros (ps & its & re & T & H). destruct (one_reading e HE _ _ _ _ _ _ _ T (chinese_text e HE)) as (_ & W & _). apply W. exact H.
  Qed.
  Lemma two_files L : e_parts e math_math_zh g L -> exists gsE,
    (forall x b, has_body (map rd_before L) x b -> zh_class x b \/ In b (cn_alternatives x)) /\
    (forall x b, has_body gsE x b <-> In b (cn_alternatives x)) /\
    (forall x b, has_body gsE x b -> has_body (map rd_before L) x b) /\
    (forall w o, In (w, o) cn_operators -> has_body (map rd_before L) "number" (operator_body w o)).
  Proof using HE Hfrac Hpat Hin Hload Hh1 Hh2.
    intros HL. destruct (Hin _ _ math_file) as [R1 R2].
    destruct (files_rules e HE _ _ _ _ _ _ _ _ R1 R2 Hload L HL) as [K1 K2].
    destruct (parts_cover e HE _ _ _ _ _ _ _ _ R1 R2 Hload L HL _ number_among) as (q & ps & its & re & Hq & T & D).
    pose proof Hfrac as [(half & Hhalf) (cent & Hcent)].
    assert (Al : forall x b, In b (written its false x) <-> In b (cn_alternatives x)).
    { intros x b. destruct (one_reading e HE _ _ _ _ _ _ _ T (chinese_text e HE)) as (_ & W & _). apply W. }
    exists [rd_before q]. split; [|split; [|split]].
    - intros x b H. destruct (K1 x b H) as (text & Ht & A). apply among_two in Ht as [->| ->]; [left|right; apply chinese_alternative; exact A].
      destruct (shipped_alternative e HE half cent Hhalf Hcent Hpat dir_math _ _ x b math_shipped math_file ltac:(discriminate) A) as (it & Hit & _ & <- & Hb).
      exact (all_in _ _ _ (proj2 (all_in _ _ _ (zh_classes e half cent) Hit)) Hb).
    - intros x b. split; [intros H; apply Al; exact (denoted e _ _ _ _ D H)|]. intros H. apply (denoted_back e its); [exact D| |apply Al; exact H].
      intros b' Hb' Eh. apply (Hh2 x); [apply chinese_alternative, Al; exact Hb'|apply chinese_alternative; exact H|exact Eh].
    - intros x b (m & r & h & [<-|[]] & Hx & Hb). exists (rd_before q), r, h. split; [apply in_map; exact Hq|auto].
    - intros w o Ho. destruct (zh_operators e half cent w o Ho) as (it & Hit & F & N & Hb).
      pose proof (shipped_alternative_back e HE half cent Hhalf Hcent Hpat dir_math _ _ it _ math_shipped math_file ltac:(discriminate) Hit F Hb) as A. rewrite N in A.
      apply (K2 math_math_zh); [left; reflexivity|exact A|]. intros b' Hb' Eh. exact (Hh1 _ _ _ Hb' A Eh).
  Qed.
  (** The names that the reader makes up in the two files do not clash. *)
  Lemma snd_once (T : list (string * string)) v v' x : NoDup (map snd T) -> In (v, x) T -> In (v', x) T -> v = v'.
  Proof using.
    induction T as [|[a y] T IH]; intros ND H H'; [destruct H|]. cbn [map snd] in ND. inversion ND as [|? ? N1 N2]; subst.
    destruct H as [E|H], H' as [E'|H']; [congruence| | |auto]; exfalso; apply N1.
    - injection E as -> ->. apply (in_map snd) in H'. exact H'.
    - injection E' as -> ->. apply (in_map snd) in H. exact H.
  Qed.
  Lemma numbered_prefix ks j : String.prefix "g_t" (numbered (usual_name (e_ascii e) ks) j) = true.
  Proof using.
    destruct j as [|j]; [apply usual_prefix|]. unfold numbered, usual_name. rewrite ProofPrint.concat_cons. rewrite ProofTrim.sappend_assoc. apply ProofRefine.prefix_app.
  Qed.
  Lemma between_compatible L : names_between e math_math_zh math_number_zh -> e_parts e math_math_zh g L -> compatible L.
  Proof using HE Hfrac Hpat Hin Hload.
    intros HN HL. destruct (Hin _ _ math_file) as [R1 R2].
    pose proof Hfrac as [(half & Hhalf) (cent & Hcent)].
    assert (A0 : forall p, In p L -> exists text, (text = math_math_zh \/ text = math_number_zh) /\ forall x b, has_body [rd_before p] x b -> alternative_in e text x b).
    { intros p Hp. destruct (parts_files e HE _ _ _ _ _ _ _ _ R1 R2 Hload L HL p Hp) as (text & ps & its & re & Ht & Te & D).
      exists text. split; [exact (among_two _ Ht)|]. intros x b Hb. exists ps, its, re. split; [exact Te|]. exact (denoted e _ _ _ _ D Hb). }
    assert (A1 : forall p v x, In p L -> In (v, x) (rd_table p) -> exists ks k, e_tokenize e v = Ret ks /\ x = numbered (usual_name (e_ascii e) ks) k).
    { intros p v x Hp Hx. destruct (parts_named _ _ _ _ _ _ _ _ _ _ g L HL p Hp v x Hx) as (ks & k & K1 & K2 & _). eauto. }
    assert (A2 : forall p v x text, In p L -> In (v, x) (rd_table p) -> (forall x b, has_body [rd_before p] x b -> alternative_in e text x b) -> text_in e text v).
    { intros p v x text Hp Hx Ht. destruct (parts_refined _ _ _ _ _ _ _ _ _ _ g L HL p Hp) as [(_ & _ & _ & _ & _ & K & _) _].
      destruct (K v x Hx) as (ks & m & _ & (t & (y & b & Hb & Hi) & T1 & T2 & _) & _). exists y, b, t. split; [apply Ht; exact Hb|]. auto. }
    split.
    - intros x p (q & Hq & Hx) Hp. apply in_map_iff in Hx as ([v y] & E & Hx). cbn [snd] in E. subst y.
      destruct (A1 q v x Hq Hx) as (ks & k & _ & ->). set (y := numbered _ k).
      assert (Py : String.prefix "g_t" y = true) by (apply numbered_prefix).
      destruct (lookup (rd_before p) y) as [r|] eqn:E; [|reflexivity]. exfalso.
      destruct (parts_files e HE _ _ _ _ _ _ _ _ R1 R2 Hload L HL p Hp) as (tx & ps & its & re & Ht & Te & D1 & D2 & D3).
      destruct (written its false y) as [|b bs] eqn:W; [apply D2 in W; congruence|].
      assert (Ha : alternative_in e tx y b) by (exists ps, its, re; split; [exact Te|rewrite W; left; reflexivity]).
      assert (F : String.prefix "g_t" y = false); [|congruence].
      apply among_two in Ht as [->| ->];
        [apply (shipped_name e HE half cent Hhalf Hcent Hpat dir_math _ _ y b math_shipped math_file ltac:(discriminate) Ha)
        |apply (shipped_name e HE half cent Hhalf Hcent Hpat dir_math _ _ y b math_shipped number_file ltac:(discriminate) Ha)].
    - assert (One : forall p q, In p L -> In q L -> p = q \/
          exists T1 T2, (T1 = math_math_zh /\ T2 = math_number_zh \/ T1 = math_number_zh /\ T2 = math_math_zh) /\
            (forall x b, has_body [rd_before p] x b -> alternative_in e T1 x b) /\ (forall x b, has_body [rd_before q] x b -> alternative_in e T2 x b)).
      { destruct (env_file_files e HE _ _ _ _ _ _ Hload) as (g0 & b0 & dir' & E0 & Hr & Hd & _ & ND & Hi & _).
        injection E0 as <-. rewrite R1 in Hr. injection Hr as <-. rewrite R2 in Hd. injection Hd as <-.
        assert (Pt : forall f, In f (map g_name (g_includes g)) -> f = e_join e dir "number.zh.grammar").
        { intros f Hf. apply Hi in Hf as [Hf _]. apply (shipped_reached e HE Hfrac Hpat dir_math dir math_shipped Hin _ _ math_file ltac:(discriminate)) in Hf.
          destruct Hf as [<-|[]]. reflexivity. }
        destruct HL as (p0 & ps & -> & _ & (ps0 & its & re & T' & _ & D & _) & F).
        assert (M0 : forall x b, has_body [rd_before p0] x b -> alternative_in e math_math_zh x b).
        { intros x b Hb. exists ps0, its, re. split; [exact T'|]. exact (denoted e _ _ _ _ D Hb). }
        assert (M1 : (forall q, In q ps -> forall x b, has_body [rd_before q] x b -> alternative_in e math_number_zh x b) /\ forall p q, In p ps -> In q ps -> p = q).
        { destruct F as [|ig q1 igs qs [_ H] F]; [split; [intros q []|intros p q []]|].
          assert (igs = []) as ->.
          { destruct igs as [|ig' igs]; [reflexivity|]. exfalso. cbn [map] in ND, Pt. inversion ND as [|? ? N1 _]; subst. apply N1. left.
            rewrite (Pt (g_name ig) ltac:(left; reflexivity)). apply Pt. right. left. reflexivity. }
          inversion F; subst. destruct H as (b & Rb & ps1 & its1 & re1 & T1 & _ & D1 & _).
          rewrite (Pt (g_name ig) ltac:(left; reflexivity)), (proj1 (Hin _ _ number_file)) in Rb. injection Rb as <-.
          split; [|intros p q [<-|[]] [<-|[]]; reflexivity]. intros q [<-|[]] x b Hb. exists ps1, its1, re1. split; [exact T1|]. exact (denoted e _ _ _ _ D1 Hb). }
        destruct M1 as [M1 M2]. intros p q [<-|Hp] [<-|Hq]; auto; right.
        - exists math_math_zh, math_number_zh. split; [left; split; reflexivity|]. split; [exact M0|exact (M1 _ Hq)].
        - exists math_number_zh, math_math_zh. split; [right; split; reflexivity|]. split; [exact (M1 _ Hp)|exact M0]. }
      intros p q x v v' Hp Hq H1 H2. destruct (One p q Hp Hq) as [<-|(T1 & T2 & Tc & B1 & B2)].
      + destruct (parts_refined _ _ _ _ _ _ _ _ _ _ g L HL p Hp) as [(_ & ND & _) _]. exact (snd_once _ _ _ _ ND H1 H2).
      + exfalso. destruct (A1 p v x Hp H1) as (ks & k & K1 & K2). destruct (A1 q v' x Hq H2) as (ks' & k' & K1' & K2').
        pose proof (A2 _ _ _ _ Hp H1 B1) as I1. pose proof (A2 _ _ _ _ Hq H2 B2) as I2. rewrite K2 in K2'.
        destruct Tc as [[-> ->]|[-> ->]]; [exact (HN _ _ _ _ _ _ I1 I2 K1 K1' K2')|symmetry in K2'; exact (HN _ _ _ _ _ _ I2 I1 K1' K1 K2')].
  Qed.
  Lemma zh_usable : texts_have_tokens e -> String.prefix "g_t" (e_md5 e sf_pattern) = false -> names_between e math_math_zh math_number_zh ->
    exists L, e_parts e math_math_zh g L /\ functions_fit (map rd_before L) /\ usable (e_tokenize e) L ["number"%string].
  Proof using HE Hfrac Hpat Hin Hload.
    intros Ht Hm HN.
    destruct (shipped_usable e HE Hfrac Hpat Ht Hm dir_math dir math_shipped Hin _ _ math_file ltac:(discriminate) _ _ _ _ _ Hload) as (L & HL & _ & _ & HF & HU).
    exists L. split; [exact HL|]. split; [apply HF; discriminate|]. apply (HU (between_compatible L HN HL)); [discriminate|].
    intros S [<-|[]]. split; [discriminate|reflexivity].
  Qed.
End Files.

Lemma sum_text_only find_all re d x : In x cn_sum_names -> ~ tagged d x -> (forall pat, ~ In (x, pat) re) -> text_only find_all re d x.
Proof.
  intros Hx Htag Hre b H. inversion H as [k ? Hk Hc|sp m ? Hs Hv Hi|sp m ? items Hs Hv Hi|? s k Hr]; subst.
  - destruct Hx as [<-|[<-|Hx]]; [inversion Hc|inversion Hc|exact (chinese_no_class _ _ Hx Hc)].
  - apply Htag. exists sp, m, EOther. auto.
  - apply Htag. exists sp, m, (EList items). auto.
  - destruct Hr as (pat & ms & a & b & k' & l & C & _). exact (Hre _ C).
Qed.

Lemma sum_call e : env_ok e -> fractions_scan e -> e_regexp_ok e sf_pattern = true -> texts_have_tokens e -> words_are_tokens (e_tokenize e) cn_sum_words -> double_token (e_tokenize e) ->
  (forall v, In v cn_others -> foreign (e_tokenize e) cn_sum_words v) ->
  String.prefix "g_t" (e_md5 e sf_pattern) = false -> hashes_apart e math_math_zh -> hashes_apart e math_number_zh ->
  names_between e math_math_zh math_number_zh ->
  forall dir fuel0 depth0 gt g w', installed e dir dir_math ->
  from_file e fuel0 depth0 (e_join e dir "math.zh.grammar") gt = Ret (Some g, w') ->
  forall gtokens to_lower ords, orders ords ->
  forall find_all span_text ord, (forall i l, Permutation l (ord i l)) ->
  forall annotate ctx text d, trim_space text <> "" -> annotate ctx (trim_space text) = Ret d ->
  fit_document (e_hash e) find_all (g_regexps g) d -> (forall x, In x cn_sum_names -> ~ tagged d x /\ forall pat, ~ In (x, pat) (g_regexps g)) ->
  forall join_words float_string json is_print_hi scan rcall, scans_floats scan -> math_registered scan rcall ->
  forall n rest, cn_chain (map tok_text (content d)) n rest ->
  exists p ref ts N m, (forall steps fuel, N <= fuel -> length (content d) < steps ->
      EarleyParseMaxAll (terminal_match gtokens to_lower) ords (all_rules g) (doc_tokens annotate)
        (doc_local (e_hash e) find_all span_text (g_regexps g) ord annotate ctx text) steps fuel ctx text ["number"%string] = Ret [p]) /\
    p_finals p = [ref] /\ (forall fuel, m <= fuel -> get_trees (p_columns p) fuel ref = Ret ts) /\ ts <> [] /\
    forall t, In t ts -> exists b x, meant n rest b /\ value x = value b /\
      semantic p join_words float_string json is_print_hi (Call rcall) t = Ret (formula x) /\
      (modest b -> exists s, numeral (value b) s /\ eval p join_words float_string (Call rcall) t = Ret (DStr s)).
Proof.
  intros HE Hf Hp Ht Hw Hd Ho Hm Hh1 Hh2 Hsp dir fuel0 depth0 gt g w' Hi Hl gtokens to_lower ords Hor find_all span_text ord Hord annotate ctx text d H1 H2 H3 H4
    join_words float_string json is_print_hi scan rcall H5 H6 n rest Hc.
  set (tmatch := terminal_match gtokens to_lower).
  destruct (zh_usable e HE Hf Hp dir Hi _ _ _ _ _ Hl Ht Hm Hsp) as (L & HL & HF & HU').
  destruct (two_files e HE Hf Hp dir Hi _ _ _ _ _ Hl Hh1 Hh2 L HL) as (gsE & B1 & B2 & B3 & B4).
  pose proof (words_in (e_tokenize e) gtokens to_lower cn_sum_words d Hw) as Hws. fold tmatch in Hws.
  pose proof (chain_words _ _ _ Hc) as Hcw.
  assert (Hpoint : ~ In "点"%string (map tok_text (content d))) by (intros C; apply Hcw in C as [_ C]; congruence).
  pose proof (chain_no_double (e_tokenize e) gtokens to_lower d n rest Hd Hc) as Hdouble. fold tmatch in Hdouble.
  assert (Hother : forall v i j, In v cn_others -> ~ phrase (e_tokenize e) tmatch (content d) v i j).
  { intros v i j Hv. apply (ProofWordArithCalls.foreign_nowhere _ gtokens to_lower cn_sum_words _ _ _ _ (Ho v Hv)). intros w Hw'. apply Hcw. exact Hw'. }
  destruct (chain_readable (e_tokenize e) tmatch (map rd_before L) gsE d _ Hws B2 B3 B4 _ _ _ Hc [] [] ltac:(rewrite app_nil_r; reflexivity)) as (x0 & Hx0).
  cbn [length Nat.add] in Hx0. rewrite <- (proj1 Hws) in Hx0.
  destruct (worth_whole e math_math_zh g L HL ["number"%string] HU' HF tmatch ords Hor find_all span_text ord Hord annotate ctx text d H1 H2 H3
              (fun x => In x sum_counting) (sum_calculates _ _ _ _ _ _ Hws Hpoint Hother B1 B2)
              ltac:(intros x Hx; assert (Hn : In x cn_sum_names) by (destruct Hx as [<-|[<-|Hx]]; [left; reflexivity|right; left; reflexivity|right; right; apply cn_counting_names; exact Hx]);
                    destruct (H4 x Hn); apply sum_text_only; assumption)
              ltac:(intros S [<-|[]]; vm_compute; tauto) join_words float_string json is_print_hi scan rcall H5 H6 "number" x0
              ltac:(apply H3) ltac:(left; reflexivity) Hx0) as (p & ref & ts & N & m & E & F1 & F2 & F3 & F4).
  exists p, ref, ts, N, m. split; [exact E|]. split; [exact F1|]. split; [exact F2|]. split; [exact F3|].
  intros t Hin'. destruct (F4 t Hin') as (S & x & [<-|[]] & Hx & D1 & D2).
  destruct (sum_reading _ _ _ _ _ _ Hws Hpoint Hother Hdouble B1 B2 _ _ _ Hx) as (_ & u & l & Es & Hb).
  assert (Esl : sl (map tok_text (content d)) 0 (length (content d)) = map tok_text (content d))
    by (unfold sl; cbn [skipn]; rewrite Nat.sub_0_r, (proj1 Hws); apply firstn_all).
  rewrite Esl in Es. destruct (chain_flat _ _ _ Hc) as (u' & l' & Ef & Hu & Hr). rewrite Ef in Es.
  destruct (read_plain _ _ _ Hb) as [P1 P2].
  destruct (flat_unique l' u' u l) as [<- <-]; auto.
  { exact (chinese_plain _ _ Hu). }
  { clear - Hr. induction Hr as [|ou om l l' [_ H] _ IH]; constructor; [|exact IH]. exact (chinese_plain _ _ H). }
  destruct (read_meant _ _ _ Hb _ _ Hu Hr) as (b & M1 & M2 & M3). exists b, x. split; [exact M1|]. split; [exact M2|]. split; [exact D1|].
  intros Hmod. rewrite <- M2. apply D2, M3, Hmod.
Qed.

Lemma plus_call e : env_ok e -> fractions_scan e -> e_regexp_ok e sf_pattern = true -> texts_have_tokens e -> words_are_tokens (e_tokenize e) cn_sum_words -> double_token (e_tokenize e) ->
  (forall v, In v cn_others -> foreign (e_tokenize e) cn_sum_words v) ->
  String.prefix "g_t" (e_md5 e sf_pattern) = false -> hashes_apart e math_math_zh -> hashes_apart e math_number_zh ->
  names_between e math_math_zh math_number_zh ->
  forall dir fuel0 depth0 gt g w', installed e dir dir_math ->
  from_file e fuel0 depth0 (e_join e dir "math.zh.grammar") gt = Ret (Some g, w') ->
  forall gtokens to_lower ords, orders ords ->
  forall find_all span_text ord, (forall i l, Permutation l (ord i l)) ->
  forall annotate ctx text d, trim_space text <> "" -> annotate ctx (trim_space text) = Ret d ->
  fit_document (e_hash e) find_all (g_regexps g) d -> (forall x, In x cn_sum_names -> ~ tagged d x /\ forall pat, ~ In (x, pat) (g_regexps g)) ->
  forall join_words float_string json is_print_hi scan rcall, scans_floats scan -> math_registered scan rcall ->
  forall n rest, cn_chain (map tok_text (content d)) n rest -> Forall (fun om => fst om = Plus) rest ->
  exists p ref ts N m, (forall steps fuel, N <= fuel -> length (content d) < steps ->
      EarleyParseMaxAll (terminal_match gtokens to_lower) ords (all_rules g) (doc_tokens annotate)
        (doc_local (e_hash e) find_all span_text (g_regexps g) ord annotate ctx text) steps fuel ctx text ["number"%string] = Ret [p]) /\
    p_finals p = [ref] /\ (forall fuel, m <= fuel -> get_trees (p_columns p) fuel ref = Ret ts) /\ ts <> [] /\
    forall t, In t ts -> exists x, value x = sum_of n rest /\
      semantic p join_words float_string json is_print_hi (Call rcall) t = Ret (formula x) /\
      ((sum_of n rest < 10 ^ 10)%Z -> exists s, numeral (sum_of n rest) s /\ eval p join_words float_string (Call rcall) t = Ret (DStr s)).
Proof.
  intros HE Hf Hp Ht Hw Hd Ho Hm Hh1 Hh2 Hsp dir fuel0 depth0 gt g w' Hi Hl gtokens to_lower ords Hor find_all span_text ord Hord annotate ctx text d H1 H2 H3 H4
    join_words float_string json is_print_hi scan rcall H5 H6 n rest Hc Hplus.
  destruct (sum_call e HE Hf Hp Ht Hw Hd Ho Hm Hh1 Hh2 Hsp dir fuel0 depth0 gt g w' Hi Hl gtokens to_lower ords Hor find_all span_text ord Hord annotate ctx text d H1 H2 H3 H4
    join_words float_string json is_print_hi scan rcall H5 H6 n rest Hc) as (p & ref & ts & N & m & E & F1 & F2 & F3 & F4).
  exists p, ref, ts, N, m. split; [exact E|]. split; [exact F1|]. split; [exact F2|]. split; [exact F3|].
  intros t Hin'. destruct (F4 t Hin') as (b & x & M & V & D1 & D2). destruct (cn_chain_nonneg _ _ _ Hc) as [P1 P2].
  pose proof (ProofWordArith.sum_value _ _ _ M Hplus) as Vs. exists x. split; [congruence|]. split; [exact D1|]. intros Hs. rewrite <- Vs. apply D2. exact (ProofWordArith.sum_modest _ _ _ M Hplus P1 P2 Hs).
Qed.
Lemma one_call e : env_ok e -> fractions_scan e -> e_regexp_ok e sf_pattern = true -> texts_have_tokens e -> words_are_tokens (e_tokenize e) cn_sum_words -> double_token (e_tokenize e) ->
  (forall v, In v cn_others -> foreign (e_tokenize e) cn_sum_words v) ->
  String.prefix "g_t" (e_md5 e sf_pattern) = false -> hashes_apart e math_math_zh -> hashes_apart e math_number_zh ->
  names_between e math_math_zh math_number_zh ->
  forall dir fuel0 depth0 gt g w', installed e dir dir_math ->
  from_file e fuel0 depth0 (e_join e dir "math.zh.grammar") gt = Ret (Some g, w') ->
  forall gtokens to_lower ords, orders ords ->
  forall find_all span_text ord, (forall i l, Permutation l (ord i l)) ->
  forall annotate ctx text d, trim_space text <> "" -> annotate ctx (trim_space text) = Ret d ->
  fit_document (e_hash e) find_all (g_regexps g) d -> (forall x, In x cn_sum_names -> ~ tagged d x /\ forall pat, ~ In (x, pat) (g_regexps g)) ->
  forall join_words float_string json is_print_hi scan rcall, scans_floats scan -> math_registered scan rcall ->
  forall n o k, cn_chain (map tok_text (content d)) n [(o, k)] ->
  exists p ref ts N m, (forall steps fuel, N <= fuel -> length (content d) < steps ->
      EarleyParseMaxAll (terminal_match gtokens to_lower) ords (all_rules g) (doc_tokens annotate)
        (doc_local (e_hash e) find_all span_text (g_regexps g) ord annotate ctx text) steps fuel ctx text ["number"%string] = Ret [p]) /\
    p_finals p = [ref] /\ (forall fuel, m <= fuel -> get_trees (p_columns p) fuel ref = Ret ts) /\ ts <> [] /\
    forall t, In t ts -> exists x, value x = value (Binary o (Number n) (Number k)) /\
      semantic p join_words float_string json is_print_hi (Call rcall) t = Ret (formula x) /\
      (small n -> small k -> small (value x) -> exists s, numeral (value x) s /\ eval p join_words float_string (Call rcall) t = Ret (DStr s)).
Proof.
  intros HE Hf Hp Ht Hw Hd Ho Hm Hh1 Hh2 Hsp dir fuel0 depth0 gt g w' Hi Hl gtokens to_lower ords Hor find_all span_text ord Hord annotate ctx text d H1 H2 H3 H4
    join_words float_string json is_print_hi scan rcall H5 H6 n o k Hc.
  destruct (sum_call e HE Hf Hp Ht Hw Hd Ho Hm Hh1 Hh2 Hsp dir fuel0 depth0 gt g w' Hi Hl gtokens to_lower ords Hor find_all span_text ord Hord annotate ctx text d H1 H2 H3 H4
    join_words float_string json is_print_hi scan rcall H5 H6 n [(o, k)] Hc) as (p & ref & ts & N & m & E & F1 & F2 & F3 & F4).
  exists p, ref, ts, N, m. split; [exact E|]. split; [exact F1|]. split; [exact F2|]. split; [exact F3|].
  intros t Hin'. destruct (F4 t Hin') as (b & x & M & V & D1 & D2). destruct (cn_chain_nonneg _ _ _ Hc) as [P1 P2].
  apply ProofWordArithCalls.one_meant in M. subst b. exists x. split; [exact V|]. split; [exact D1|]. intros S1 S2 S3. rewrite V in *. apply D2.
  inversion P2 as [|? ? P3 _]; subst. cbn [snd] in P3. cbn [modest value]. split; [exact S1|]. split; [exact S2|]. split; [exact S3|]. intros _ _. auto.
Qed.
