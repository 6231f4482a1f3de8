(** The calls on math.en.grammar: texts of numerals and operations. *)
From Coq Require Import Permutation Sorted.
From Verif Require Import Base ModelTypes ModelText ModelEarley ModelTrees ModelApi ModelQuote ModelSem ModelMath ModelFuncs ModelReader ModelGrammar ModelMatch ModelLocal
     SpecTypes SpecGrammar SpecTree SpecNotation SpecRefine SpecConstruct SpecSem SpecNode SpecApi SpecLocal SpecFuncs SpecEnd SpecMath SpecMeaning
     ModelShipped SpecShipped SpecNames
     ProofGrammar ProofConstruct ProofIndex ProofRecognize ProofShipped ProofShippedUsable ProofShippedMain ProofNames ProofUnique ProofMeaning ProofMeaningCalls SpecFrameText
     SpecArith SpecWorth ProofWorth ProofWorthCalls ProofReadings SpecEnglish ProofEnglish ProofEnglishRules ProofEnglishCalls SpecWordArith ProofWordArith ProofWordArithRules.
Local Open Scope list_scope.

Lemma level_words u z : level12 u z -> forall w, In w u -> In w number_words /\ w <> "point"%string.
Proof.
  intros H w Hw. apply clean12 in H as (_ & _ & H & _). rewrite Forall_forall in H. apply H in Hw.
  assert (K : forallb (fun w => existsb (String.eqb w) number_words && negb (String.eqb w "point")) alphabet12 = true) by (vm_compute; reflexivity).
  rewrite forallb_forall in K. specialize (K w Hw). apply andb_true_iff in K as [K1 K2]. apply existsb_exists in K1 as (w' & K1 & E). apply String.eqb_eq in E. subst w'.
  split; [exact K1|]. apply negb_true_iff in K2. apply String.eqb_neq in K2. exact K2.
Qed.
Lemma chain_words ws n rest : chain ws n rest -> forall w, In w ws -> In w sum_words /\ w <> "point"%string.
Proof.
  assert (K : forall u m w, english u m -> In w u -> In w sum_words /\ w <> "point"%string).
  { intros u m w H Hw. apply english_level in H as (H & _). destruct (level_words _ _ H w Hw) as [A B]. split; [apply in_app_iff; left; exact A|exact B]. }
  induction 1 as [ws n H|ws n w o ws' m rest H Ho _ IH]; intros w' Hw; [exact (K _ _ _ H Hw)|].
  apply in_app_iff in Hw as [Hw|[<-|Hw]]; [exact (K _ _ _ H Hw)| |exact (IH _ Hw)].
  split; [apply in_app_iff; right; apply (in_map fst) in Ho; exact Ho|]. destruct Ho as [[= <- <-]|[[= <- <-]|[[= <- <-]|[]]]]; discriminate.
Qed.
Lemma foreign_nowhere tokenize gtokens to_lower V toks v i j : foreign tokenize V v -> (forall w, In w (map tok_text toks) -> In w V) ->
  ~ phrase tokenize (terminal_match gtokens to_lower) toks v i j.
Proof.
  intros (ks & k & E & Hk & Hs & Hv) HV (ks' & E' & Hm). rewrite E in E'. injection E' as <-. unfold words_match in Hm. destruct Hm as [_ Hm].
  unfold token_terms in Hm. assert (Hf : In k (filter (fun k => negb (is_space_token k)) ks)) by (apply filter_In; rewrite Hs; auto).
  apply (in_map (fun k => mkTerm (tok_text k) TTerminal MNil)) in Hf. apply In_nth_error in Hf as (n & Hn).
  destruct (Hm n _ Hn) as (_ & tok & Ht & M). change (String.eqb (tok_text k) (tok_text tok) = true) in M. apply String.eqb_eq in M.
  apply Hv, HV. rewrite M. apply in_map. eapply nth_error_In. exact Ht.
Qed.

Section Files.
  Variable e : env.
  Hypothesis HE : env_ok e.
  Hypothesis Hfrac : fractions_scan e.
  Hypothesis Hpat : e_regexp_ok e sf_pattern = true.
  Variable dir : string.
  Hypothesis Hin : installed e dir dir_math.
  Variables (fuel0 depth0 : nat) (gt : list (string * token)) (g : grammar) (w' : world).
  Hypothesis Hload : from_file e fuel0 depth0 (e_join e dir "math.en.grammar") gt = Ret (Some g, w').
  Hypothesis Hh1 : hashes_apart e math_math_en.
  Hypothesis Hh2 : hashes_apart e math_number_en.
  Lemma math_file : In ("math.en.grammar"%string, math_math_en) dir_math.
  Proof using. unfold dir_math. vm_compute. tauto. Qed.
  Lemma number_file : In ("number.en.grammar"%string, math_number_en) dir_math.
  Proof using. unfold dir_math. do 4 right. left. reflexivity. Qed.
  Lemma math_shipped : In dir_math shipped.
  Proof using. unfold shipped. do 4 right. left. reflexivity. Qed.
  Lemma number_among : file_among e math_math_en dir math_number_en.
  Proof using HE Hfrac Hpat Hin.
    right. exists (e_join e dir "number.en.grammar"). split; [|exact (proj1 (Hin _ _ number_file))].
    apply (shipped_reached e HE Hfrac Hpat dir_math dir math_shipped Hin _ _ math_file ltac:(discriminate)). left. reflexivity.
  Qed.
  Lemma among_two text : file_among e math_math_en dir text -> text = math_math_en \/ text = math_number_en.
  Proof using HE Hfrac Hpat Hin.
    intros [->|(f & Hf & Rf)]; [left; reflexivity|right].
    apply (shipped_reached e HE Hfrac Hpat dir_math dir math_shipped Hin _ _ math_file ltac:(discriminate)) in Hf. destruct Hf as [<-|[]].
    rewrite (proj1 (Hin _ _ number_file)) in Rf. injection Rf as <-. reflexivity.
  Qed.
  Lemma english_alternative x b : alternative_in e math_number_en x b <-> In b (alternatives x).
  Proof using HE.
    split; [|intros H; exists [], english_items, []; split; [exact (english_text e HE)|exact H]].
    intros (ps & its & re & T & H). destruct (one_reading e HE _ _ _ _ _ _ _ T (english_text e HE)) as (_ & W & _). apply W. exact H.
  Qed.
  Lemma two_files L : e_parts e math_math_en g L -> exists gsE,
    (forall x b, has_body (map rd_before L) x b -> math_class x b \/ In b (alternatives x)) /\
    (forall x b, has_body gsE x b <-> In b (alternatives x)) /\
    (forall x b, has_body gsE x b -> has_body (map rd_before L) x b) /\
    (forall w o, In (w, o) operator_words -> has_body (map rd_before L) "number" (operator_body w o)).
  Proof using HE Hfrac Hpat Hin Hload Hh1 Hh2.
    intros HL. destruct (Hin _ _ math_file) as [R1 R2].
    destruct (files_rules e HE _ _ _ _ _ _ _ _ R1 R2 Hload L HL) as [K1 K2].
    destruct (parts_cover e HE _ _ _ _ _ _ _ _ R1 R2 Hload L HL _ number_among) as (q & ps & its & re & Hq & T & D).
    pose proof Hfrac as [(half & Hhalf) (cent & Hcent)].
    assert (Al : forall x b, In b (written its false x) <-> In b (alternatives x)).
    { intros x b. destruct (one_reading e HE _ _ _ _ _ _ _ T (english_text e HE)) as (_ & W & _). apply W. }
    exists [rd_before q]. split; [|split; [|split]].
    - intros x b H. destruct (K1 x b H) as (text & Ht & A). apply among_two in Ht as [->| ->]; [left|right; apply english_alternative; exact A].
      destruct (shipped_alternative e HE half cent Hhalf Hcent Hpat dir_math _ _ x b math_shipped math_file ltac:(discriminate) A) as (it & Hit & _ & <- & Hb).
      exact (all_in _ _ _ (proj2 (all_in _ _ _ (math_classes e half cent) Hit)) Hb).
    - intros x b. split; [intros H; apply Al; exact (denoted e _ _ _ _ D H)|]. intros H. apply (denoted_back e its); [exact D| |apply Al; exact H].
      intros b' Hb' Eh. apply (Hh2 x); [apply english_alternative, Al; exact Hb'|apply english_alternative; exact H|exact Eh].
    - intros x b (m & r & h & [<-|[]] & Hx & Hb). exists (rd_before q), r, h. split; [apply in_map; exact Hq|auto].
    - intros w o Ho. destruct (math_operators e half cent w o Ho) as (it & Hit & F & N & Hb).
      pose proof (shipped_alternative_back e HE half cent Hhalf Hcent Hpat dir_math _ _ it _ math_shipped math_file ltac:(discriminate) Hit F Hb) as A. rewrite N in A.
      apply (K2 math_math_en); [left; reflexivity|exact A|]. intros b' Hb' Eh. exact (Hh1 _ _ _ Hb' A Eh).
  Qed.
End Files.

Lemma sum_text_only find_all re d x : In x sum_names -> ~ tagged d x -> (forall pat, ~ In (x, pat) re) -> text_only find_all re d x.
Proof.
  intros Hx Htag Hre b H. inversion H as [k ? Hk Hc|sp m ? Hs Hv Hi|sp m ? items Hs Hv Hi|? s k Hr]; subst.
  - destruct Hx as [<-|[<-|Hx]]; [inversion Hc|inversion Hc|exact (english_no_class _ _ Hx Hc)].
  - apply Htag. exists sp, m, EOther. auto.
  - apply Htag. exists sp, m, (EList items). auto.
  - destruct Hr as (pat & ms & a & b & k' & l & C & _). exact (Hre _ C).
Qed.

Lemma sum_call e : env_ok e -> fractions_scan e -> e_regexp_ok e sf_pattern = true -> texts_have_tokens e -> words_are_tokens (e_tokenize e) sum_words ->
  (forall v, In v other_texts -> foreign (e_tokenize e) sum_words v) ->
  String.prefix "g_t" (e_md5 e sf_pattern) = false -> hashes_apart e math_math_en -> hashes_apart e math_number_en ->
  spelled_apart (e_tokenize e) (e_ascii e) (shipped_text e dir_math "math.en.grammar") ->
  forall dir fuel0 depth0 gt g w', installed e dir dir_math ->
  from_file e fuel0 depth0 (e_join e dir "math.en.grammar") gt = Ret (Some g, w') ->
  forall gtokens to_lower ords, orders ords ->
  forall find_all span_text ord, (forall i l, Permutation l (ord i l)) ->
  forall annotate ctx text d, trim_space text <> "" -> annotate ctx (trim_space text) = Ret d ->
  fit_document (e_hash e) find_all (g_regexps g) d -> (forall x, In x sum_names -> ~ tagged d x /\ forall pat, ~ In (x, pat) (g_regexps g)) ->
  forall join_words float_string json is_print_hi scan rcall, scans_floats scan -> math_registered scan rcall ->
  forall n rest, chain (map tok_text (content d)) n rest ->
  exists p ref ts N m, (forall steps fuel, N <= fuel -> length (content d) < steps ->
      EarleyParseMaxAll (terminal_match gtokens to_lower) ords (all_rules g) (doc_tokens annotate)
        (doc_local (e_hash e) find_all span_text (g_regexps g) ord annotate ctx text) steps fuel ctx text ["number"%string] = Ret [p]) /\
    p_finals p = [ref] /\ (forall fuel, m <= fuel -> get_trees (p_columns p) fuel ref = Ret ts) /\ ts <> [] /\
    forall t, In t ts -> exists b x, meant n rest b /\ value x = value b /\
      semantic p join_words float_string json is_print_hi (Call rcall) t = Ret (formula x) /\
      (modest b -> exists s, numeral (value b) s /\ eval p join_words float_string (Call rcall) t = Ret (DStr s)).
Proof.
  intros HE Hf Hp Ht Hw Ho Hm Hh1 Hh2 Hsp dir fuel0 depth0 gt g w' Hi Hl gtokens to_lower ords Hor find_all span_text ord Hord annotate ctx text d H1 H2 H3 H4
    join_words float_string json is_print_hi scan rcall H5 H6 n rest Hc.
  set (tmatch := terminal_match gtokens to_lower).
  destruct (shipped_apart e HE Hf Hp Ht Hm dir_math dir math_shipped Hi _ _ math_file ltac:(discriminate) Hsp _ _ _ _ _ Hl) as (L & HL & _ & _ & HF & HU & _).
  specialize (HF ltac:(discriminate)). specialize (HU ["number"%string] ltac:(discriminate)).
  assert (HU' : usable (e_tokenize e) L ["number"%string]) by (apply HU; intros S [<-|[]]; split; [discriminate|reflexivity]). clear HU.
  destruct (two_files e HE Hf Hp dir Hi _ _ _ _ _ Hl Hh1 Hh2 L HL) as (gsE & B1 & B2 & B3 & B4).
  pose proof (words_in (e_tokenize e) gtokens to_lower sum_words d Hw) as Hws. fold tmatch in Hws.
  pose proof (chain_words _ _ _ Hc) as Hcw.
  assert (Hpoint : ~ In "point"%string (map tok_text (content d))) by (intros C; apply Hcw in C as [_ C]; congruence).
  assert (Hother : forall v i j, In v other_texts -> ~ phrase (e_tokenize e) tmatch (content d) v i j).
  { intros v i j Hv. apply (foreign_nowhere _ gtokens to_lower sum_words _ _ _ _ (Ho v Hv)). intros w Hw'. apply Hcw. exact Hw'. }
  destruct (chain_readable (e_tokenize e) tmatch (map rd_before L) gsE d _ Hws B2 B3 B4 _ _ _ Hc [] [] ltac:(rewrite app_nil_r; reflexivity)) as (x0 & Hx0).
  cbn [length Nat.add] in Hx0. rewrite <- (proj1 Hws) in Hx0.
  destruct (worth_whole e math_math_en g L HL ["number"%string] HU' HF tmatch ords Hor find_all span_text ord Hord annotate ctx text d H1 H2 H3
              (fun x => In x sum_counting) (sum_calculates _ _ _ _ _ _ Hws Hpoint Hother B1 B2)
              ltac:(intros x Hx; assert (Hn : In x sum_names) by (destruct Hx as [<-|[<-|Hx]]; [left; reflexivity|right; left; reflexivity|right; right; apply counting_names; exact Hx]);
                    destruct (H4 x Hn); apply sum_text_only; assumption)
              ltac:(intros S [<-|[]]; vm_compute; tauto) join_words float_string json is_print_hi scan rcall H5 H6 "number" x0
              ltac:(apply H3) ltac:(left; reflexivity) Hx0) as (p & ref & ts & N & m & E & F1 & F2 & F3 & F4).
  exists p, ref, ts, N, m. split; [exact E|]. split; [exact F1|]. split; [exact F2|]. split; [exact F3|].
  intros t Hin'. destruct (F4 t Hin') as (S & x & [<-|[]] & Hx & D1 & D2).
  destruct (sum_reading _ _ _ _ _ _ Hws Hpoint Hother B1 B2 _ _ _ Hx) as (_ & u & l & Es & Hb).
  assert (Esl : sl (map tok_text (content d)) 0 (length (content d)) = map tok_text (content d))
    by (unfold sl; cbn [skipn]; rewrite Nat.sub_0_r, (proj1 Hws); apply firstn_all).
  rewrite Esl in Es. destruct (chain_flat _ _ _ Hc) as (u' & l' & Ef & Hu & Hr). rewrite Ef in Es.
  destruct (read_plain _ _ _ Hb) as [P1 P2].
  destruct (flat_unique l' u' u l) as [<- <-]; auto.
  { apply english_level in Hu as (Hu & _). exact (level_plain _ _ Hu). }
  { clear - Hr. induction Hr as [|ou om l l' [_ H] _ IH]; constructor; [|exact IH]. apply english_level in H as (H & _). exact (level_plain _ _ H). }
  destruct (read_meant _ _ _ Hb _ _ Hu Hr) as (b & M1 & M2 & M3). exists b, x. split; [exact M1|]. split; [exact M2|]. split; [exact D1|].
  intros Hmod. rewrite <- M2. apply D2, M3, Hmod.
Qed.

Lemma plus_call e : env_ok e -> fractions_scan e -> e_regexp_ok e sf_pattern = true -> texts_have_tokens e -> words_are_tokens (e_tokenize e) sum_words ->
  (forall v, In v other_texts -> foreign (e_tokenize e) sum_words v) ->
  String.prefix "g_t" (e_md5 e sf_pattern) = false -> hashes_apart e math_math_en -> hashes_apart e math_number_en ->
  spelled_apart (e_tokenize e) (e_ascii e) (shipped_text e dir_math "math.en.grammar") ->
  forall dir fuel0 depth0 gt g w', installed e dir dir_math ->
  from_file e fuel0 depth0 (e_join e dir "math.en.grammar") gt = Ret (Some g, w') ->
  forall gtokens to_lower ords, orders ords ->
  forall find_all span_text ord, (forall i l, Permutation l (ord i l)) ->
  forall annotate ctx text d, trim_space text <> "" -> annotate ctx (trim_space text) = Ret d ->
  fit_document (e_hash e) find_all (g_regexps g) d -> (forall x, In x sum_names -> ~ tagged d x /\ forall pat, ~ In (x, pat) (g_regexps g)) ->
  forall join_words float_string json is_print_hi scan rcall, scans_floats scan -> math_registered scan rcall ->
  forall n rest, chain (map tok_text (content d)) n rest -> Forall (fun om => fst om = Plus) rest ->
  exists p ref ts N m, (forall steps fuel, N <= fuel -> length (content d) < steps ->
      EarleyParseMaxAll (terminal_match gtokens to_lower) ords (all_rules g) (doc_tokens annotate)
        (doc_local (e_hash e) find_all span_text (g_regexps g) ord annotate ctx text) steps fuel ctx text ["number"%string] = Ret [p]) /\
    p_finals p = [ref] /\ (forall fuel, m <= fuel -> get_trees (p_columns p) fuel ref = Ret ts) /\ ts <> [] /\
    forall t, In t ts -> exists x, value x = sum_of n rest /\
      semantic p join_words float_string json is_print_hi (Call rcall) t = Ret (formula x) /\
      ((sum_of n rest < 10 ^ 10)%Z -> exists s, numeral (sum_of n rest) s /\ eval p join_words float_string (Call rcall) t = Ret (DStr s)).
Proof.
  intros HE Hf Hp Ht Hw Ho Hm Hh1 Hh2 Hsp dir fuel0 depth0 gt g w' Hi Hl gtokens to_lower ords Hor find_all span_text ord Hord annotate ctx text d H1 H2 H3 H4
    join_words float_string json is_print_hi scan rcall H5 H6 n rest Hc Hplus.
  destruct (sum_call e HE Hf Hp Ht Hw Ho Hm Hh1 Hh2 Hsp dir fuel0 depth0 gt g w' Hi Hl gtokens to_lower ords Hor find_all span_text ord Hord annotate ctx text d H1 H2 H3 H4
    join_words float_string json is_print_hi scan rcall H5 H6 n rest Hc) as (p & ref & ts & N & m & E & F1 & F2 & F3 & F4).
  exists p, ref, ts, N, m. split; [exact E|]. split; [exact F1|]. split; [exact F2|]. split; [exact F3|].
  intros t Hin'. destruct (F4 t Hin') as (b & x & M & V & D1 & D2). destruct (chain_nonneg _ _ _ Hc) as [P1 P2].
  pose proof (sum_value _ _ _ M Hplus) as Vs. exists x. split; [congruence|]. split; [exact D1|]. intros Hs. rewrite <- Vs. apply D2. exact (sum_modest _ _ _ M Hplus P1 P2 Hs).
Qed.
Lemma one_meant n o k b : meant n [(o, k)] b -> b = Binary o (Number n) (Number k).
Proof.
  unfold meant. intros H. remember [(o, k)] as l eqn:E. destruct H as [a x H|a l o' b r x y Hx Hy]; [discriminate E|].
  destruct l as [|q [|q' l]]; cbn [app] in E; [|discriminate E|discriminate E]. injection E as -> -> ->.
  assert (K : forall c z, bracketing (fun n x => x = Number n) c [] z -> z = Number c).
  { clear. intros c z H. remember [] as l eqn:E. destruct H as [c z H|c l o b r x y _ _]; [exact H|destruct l; discriminate E]. }
  rewrite (K _ _ Hx), (K _ _ Hy). reflexivity.
Qed.
Lemma one_call e : env_ok e -> fractions_scan e -> e_regexp_ok e sf_pattern = true -> texts_have_tokens e -> words_are_tokens (e_tokenize e) sum_words ->
  (forall v, In v other_texts -> foreign (e_tokenize e) sum_words v) ->
  String.prefix "g_t" (e_md5 e sf_pattern) = false -> hashes_apart e math_math_en -> hashes_apart e math_number_en ->
  spelled_apart (e_tokenize e) (e_ascii e) (shipped_text e dir_math "math.en.grammar") ->
  forall dir fuel0 depth0 gt g w', installed e dir dir_math ->
  from_file e fuel0 depth0 (e_join e dir "math.en.grammar") gt = Ret (Some g, w') ->
  forall gtokens to_lower ords, orders ords ->
  forall find_all span_text ord, (forall i l, Permutation l (ord i l)) ->
  forall annotate ctx text d, trim_space text <> "" -> annotate ctx (trim_space text) = Ret d ->
  fit_document (e_hash e) find_all (g_regexps g) d -> (forall x, In x sum_names -> ~ tagged d x /\ forall pat, ~ In (x, pat) (g_regexps g)) ->
  forall join_words float_string json is_print_hi scan rcall, scans_floats scan -> math_registered scan rcall ->
  forall n o k, chain (map tok_text (content d)) n [(o, k)] ->
  exists p ref ts N m, (forall steps fuel, N <= fuel -> length (content d) < steps ->
      EarleyParseMaxAll (terminal_match gtokens to_lower) ords (all_rules g) (doc_tokens annotate)
        (doc_local (e_hash e) find_all span_text (g_regexps g) ord annotate ctx text) steps fuel ctx text ["number"%string] = Ret [p]) /\
    p_finals p = [ref] /\ (forall fuel, m <= fuel -> get_trees (p_columns p) fuel ref = Ret ts) /\ ts <> [] /\
    forall t, In t ts -> exists x, value x = value (Binary o (Number n) (Number k)) /\
      semantic p join_words float_string json is_print_hi (Call rcall) t = Ret (formula x) /\
      (small n -> small k -> small (value x) -> exists s, numeral (value x) s /\ eval p join_words float_string (Call rcall) t = Ret (DStr s)).
Proof.
  intros HE Hf Hp Ht Hw Ho Hm Hh1 Hh2 Hsp dir fuel0 depth0 gt g w' Hi Hl gtokens to_lower ords Hor find_all span_text ord Hord annotate ctx text d H1 H2 H3 H4
    join_words float_string json is_print_hi scan rcall H5 H6 n o k Hc.
  destruct (sum_call e HE Hf Hp Ht Hw Ho Hm Hh1 Hh2 Hsp dir fuel0 depth0 gt g w' Hi Hl gtokens to_lower ords Hor find_all span_text ord Hord annotate ctx text d H1 H2 H3 H4
    join_words float_string json is_print_hi scan rcall H5 H6 n [(o, k)] Hc) as (p & ref & ts & N & m & E & F1 & F2 & F3 & F4).
  exists p, ref, ts, N, m. split; [exact E|]. split; [exact F1|]. split; [exact F2|]. split; [exact F3|].
  intros t Hin'. destruct (F4 t Hin') as (b & x & M & V & D1 & D2). destruct (chain_nonneg _ _ _ Hc) as [P1 P2].
  apply one_meant in M. subst b. exists x. split; [exact V|]. split; [exact D1|]. intros S1 S2 S3. rewrite V in *. apply D2.
  inversion P2 as [|? ? P3 _]; subst. cbn [snd] in P3. cbn [modest value]. split; [exact S1|]. split; [exact S2|]. split; [exact S3|]. intros _ _. auto.
Qed.
