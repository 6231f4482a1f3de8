(** The calls on math.zh.grammar: the value from left to right is always among the returned ones. *)
From Coq Require Import Permutation Sorted.
From Verif Require ProofTrim ProofPrint ProofRefine ProofWordArith ProofWordArithCalls ProofWordArithLeft.
From Verif Require Import Base ModelTypes ModelText ModelEarley ModelTrees ModelApi ModelQuote ModelSem ModelMath ModelFuncs ModelReader ModelGrammar ModelMatch ModelLocal
     SpecTypes SpecGrammar SpecTree SpecNotation SpecRefine SpecConstruct SpecSem SpecNode SpecApi SpecLocal SpecFuncs SpecEnd SpecMath SpecMeaning
     ModelShipped SpecShipped SpecNames
     ProofGrammar ProofConstruct ProofIndex ProofRecognize ProofShipped ProofShippedUsable ProofShippedMain ProofNames ProofUnique ProofMeaning ProofMeaningCalls SpecFrameText
     SpecArith SpecWorth ProofWorth ProofWorthCalls ProofReadings SpecChinese ProofChinese ProofChineseRules ProofChineseCalls SpecWordArith SpecChineseArith ProofChineseArith ProofChineseArithRules ProofChineseArithCalls
     SpecLeast ProofLeastCalls ProofLeastExists ProofLeastFormula ProofChineseArithLeft.
Local Open Scope list_scope.

Lemma left_call e : env_ok e -> fractions_scan e -> e_regexp_ok e sf_pattern = true -> texts_have_tokens e -> words_are_tokens (e_tokenize e) cn_sum_words -> double_token (e_tokenize e) ->
  (forall v, In v cn_others -> foreign (e_tokenize e) cn_sum_words v) ->
  String.prefix "g_t" (e_md5 e sf_pattern) = false -> hashes_apart e math_math_zh -> hashes_apart e math_number_zh ->
  names_between e math_math_zh math_number_zh ->
  forall dir fuel0 depth0 gt g w', installed e dir dir_math ->
  from_file e fuel0 depth0 (e_join e dir "math.zh.grammar") gt = Ret (Some g, w') ->
  forall gtokens to_lower ords, orders ords ->
  forall find_all span_text ord, (forall i l, Permutation l (ord i l)) ->
  forall annotate ctx text d, trim_space text <> "" -> annotate ctx (trim_space text) = Ret d ->
  fit_document (e_hash e) find_all (g_regexps g) d -> (forall x, In x cn_sum_names -> ~ tagged d x /\ forall pat, ~ In (x, pat) (g_regexps g)) ->
  forall join_words float_string json is_print_hi scan rcall, scans_floats scan -> math_registered scan rcall ->
  forall n rest, cn_chain (map tok_text (content d)) n rest ->
  exists p ref ts N m, (forall steps fuel, N <= fuel -> length (content d) < steps ->
      EarleyParseMaxAll (terminal_match gtokens to_lower) ords (all_rules g) (doc_tokens annotate)
        (doc_local (e_hash e) find_all span_text (g_regexps g) ord annotate ctx text) steps fuel ctx text ["number"%string] = Ret [p]) /\
    p_finals p = [ref] /\ (forall fuel, m <= fuel -> get_trees (p_columns p) fuel ref = Ret ts) /\
    exists t x, In t ts /\ value x = value (from_left n rest) /\
      semantic p join_words float_string json is_print_hi (Call rcall) t = Ret (formula x) /\
      (modest (from_left n rest) -> exists s, numeral (value (from_left n rest)) s /\ eval p join_words float_string (Call rcall) t = Ret (DStr s)).
Proof.
  intros HE Hf Hp Ht Hw Hd Ho Hm Hh1 Hh2 Hsp dir fuel0 depth0 gt g w' Hi Hl gtokens to_lower ords Hor find_all span_text ord Hord annotate ctx text d H1 H2 H3 H4
    join_words float_string json is_print_hi scan rcall H5 H6 n rest Hc.
  set (tmatch := terminal_match gtokens to_lower).
  destruct (zh_usable e HE Hf Hp dir Hi _ _ _ _ _ Hl Ht Hm Hsp) as (L & HL & HF & HU').
  destruct (two_files e HE Hf Hp dir Hi _ _ _ _ _ Hl Hh1 Hh2 L HL) as (gsE & B1 & B2 & B3 & B4).
  pose proof (words_in (e_tokenize e) gtokens to_lower cn_sum_words d Hw) as Hws. fold tmatch in Hws.
  pose proof (chain_words _ _ _ Hc) as Hcw.
  assert (Hpoint : ~ In "点"%string (map tok_text (content d))) by (intros C; apply Hcw in C as [_ C]; congruence).
  pose proof (chain_no_double (e_tokenize e) gtokens to_lower d n rest Hd Hc) as Hdouble. fold tmatch in Hdouble.
  assert (Hother : forall v i j, In v cn_others -> ~ phrase (e_tokenize e) tmatch (content d) v i j).
  { intros v i j Hv. apply (ProofWordArithCalls.foreign_nowhere _ gtokens to_lower cn_sum_words _ _ _ _ (Ho v Hv)). intros w Hw'. apply Hcw. exact Hw'. }
  destruct (chain_readable (e_tokenize e) tmatch (map rd_before L) gsE d _ Hws B2 B3 B4 _ _ _ Hc [] [] ltac:(rewrite app_nil_r; reflexivity)) as (x0 & Hx0).
  cbn [length Nat.add] in Hx0. rewrite <- (proj1 Hws) in Hx0.
  destruct (least_whole e math_math_zh g L HL ["number"%string] HU' HF tmatch ords Hor find_all span_text ord Hord annotate ctx text d H1 H2 H3
              (fun x => In x sum_counting) (sum_calculates _ _ _ _ _ _ Hws Hpoint Hother B1 B2)
              ltac:(intros x Hx; assert (Hn : In x cn_sum_names) by (destruct Hx as [<-|[<-|Hx]]; [left; reflexivity|right; left; reflexivity|right; right; apply cn_counting_names; exact Hx]);
                    destruct (H4 x Hn); apply sum_text_only; assumption)
              ltac:(intros S [<-|[]]; vm_compute; tauto) join_words float_string json is_print_hi scan rcall H5 H6 "number" x0
              ltac:(apply H3) ltac:(left; reflexivity) Hx0) as (p & ref & ts & N & m & E & F1 & F2 & F3 & F4 & S & [<-|[]] & F5).
  exists p, ref, ts, N, m. split; [exact E|]. split; [exact F1|]. split; [exact F2|].
  destruct (chain_flat _ _ _ Hc) as (u & l & Ef & Hu & Hr).
  pose proof (left_least (e_tokenize e) tmatch (map rd_before L) gsE d _ Hws Hpoint Hother Hdouble B1 B2 B3 B4
                (fun x b t i j _ Hb Ht' HA => texts_take _ _ _ _ _ _ _ _ _ _ HU' Hb Ht' HA) (fun x b _ Hb => bodies_some _ _ _ _ _ _ HL Hb)
                l rest u n [] [] Hu Hr ltac:(cbn [app]; rewrite app_nil_r; exact Ef)) as K.
  destruct (find_tree (displays p join_words float_string json is_print_hi rcall)
              (fun x => value x = value (from_left n rest) /\ (modest (from_left n rest) -> modest x)) ts) as (t & x & T1 & [D1 D2] & V & M).
  - intros x. destruct (Z.eq_dec (value x) (value (from_left n rest))) as [A|A]; [|right; tauto].
    destruct (ProofWordArithLeft.modest_dec x) as [C|C]; [left; tauto|]. destruct (ProofWordArithLeft.modest_dec (from_left n rest)) as [D|D]; [right; tauto|left; tauto].
  - intros t Ht'. destruct (F4 t Ht') as (S & x & _ & _ & D). exists x. exact D.
  - intros t x y. apply displays_unique.
  - intros C. apply K. intros (v & k & V1 & V2 & V3 & V4). apply C.
    cbn [length Nat.add] in V1, V2. rewrite <- Ef, <- (proj1 Hws) in V1, V2.
    destruct (F5 v) as (t & T1 & T2); [exists k; auto|]. exists t, v. auto.
  - exists t, x. split; [exact T1|]. split; [exact V|]. split; [exact D1|]. intros Hmod. rewrite <- V. apply D2, M, Hmod.
Qed.

