(** Numerals of number.zh.grammar whose trees do not evaluate to their numbers, and readings
    without a tree. *)
From Coq Require Import Permutation.
From Verif Require Import Base ModelTypes ModelText ModelEarley ModelTrees ModelApi ModelSem ModelMath ModelFuncs ModelReader ModelGrammar ModelMatch ModelLocal
  SpecTypes SpecGrammar SpecTree SpecNotation SpecRefine SpecConstruct SpecSem SpecNode SpecApi SpecLocal SpecFuncs SpecEnd SpecMath SpecMeaning ModelShipped SpecShipped SpecFrameText
  ProofMeaning ProofMeaningCalls ProofShippedUsable ProofReadings ProofChinese ProofChineseRules ProofChineseCalls
  Examples ExamplesLocal ExamplesMath ExamplesGrammar ExamplesShipped ExamplesArith SpecArith SpecWorth SpecEnglish ExamplesEnglish SpecChinese ExamplesChinese.
Local Open Scope list_scope.

Lemma ten_billion_chinese : chinese (map tok_text (content (word_doc "一 百 亿"))) (10 ^ 10).
Proof.
  change (map tok_text (content (word_doc "一 百 亿"))) with (["一"; "百"]%string ++ ["亿"%string]).
  right. apply (cs_exact cn_myriads cn_myriads ["亿"%string] 100000000 ["一"; "百"]%string 100 "亿"); [|left; reflexivity].
  do 2 apply cs_up. apply (cs_exact one_unit cn_tens hundred_words 100 ["一"%string] 1 "百"); [constructor; left; reflexivity|left; reflexivity].
Qed.

Lemma chinese_not_large : ~ (forall e, env_ok e -> fractions_scan e -> e_regexp_ok e sf_pattern = true -> texts_have_tokens e ->
  words_are_tokens (e_tokenize e) cn_words -> double_token (e_tokenize e) ->
  String.prefix "g_t" (e_md5 e sf_pattern) = false ->
  (forall x, NoDup (map (e_hash e) (written chinese_items false x))) ->
  forall dir fuel0 depth0 gt g w', installed e dir dir_math ->
  from_file e fuel0 depth0 (e_join e dir "number.zh.grammar") gt = Ret (Some g, w') ->
  forall to_lower ords, orders ords ->
  forall find_all span_text ord, (forall i l, Permutation l (ord i l)) ->
  forall annotate ctx text d, trim_space text <> "" -> annotate ctx (trim_space text) = Ret d ->
  fit_document (e_hash e) find_all [] d -> (forall x, In x chinese_names -> ~ tagged d x) ->
  forall join_words float_string scan rcall, scans_floats scan -> math_registered scan rcall ->
  forall n, chinese (map tok_text (content d)) n ->
  forall steps fuel p ref m ts t, EarleyParseMaxAll (terminal_match (lookup (w_tokens w')) to_lower) ords (all_rules g) (doc_tokens annotate)
        (doc_local (e_hash e) find_all span_text (g_regexps g) ord annotate ctx text) steps fuel ctx text ["number"%string] = Ret [p] ->
  p_finals p = [ref] -> get_trees (p_columns p) m ref = Ret ts -> In t ts ->
  exists s, numeral n s /\ eval p join_words float_string (Call rcall) t = Ret (DStr s)).
Proof.
  intros H.
  destruct (word_fit "一 百 亿") as [H1 _]; [discriminate|vm_compute; reflexivity|vm_compute; reflexivity|].
  specialize (H (senv dir_math) (senv_ok _) (senv_fractions _) eq_refl (senv_texts _) (senv_chinese_tokens _) (senv_double _) eq_refl (senv_chinese_hashes _)
    "d"%string 4000 9 [] zh_grammar zh_world en_installed zh_load (fun s => s)
    (fun _ => id_ord) (fun _ => id_ord_ok) xfind xspan_text xorde xorde_ok word_annotate ""%string "一 百 亿"%string (word_doc "一 百 亿") ltac:(discriminate)
    eq_refl H1 (fun x _ => word_untagged _ x) (String.concat " ") (fun _ => ""%string) xscan_float xmath xscan_float_ok xmath_registered
    _ ten_billion_chinese 400 400).
  assert (Hp : exists p, zh_parses "一 百 亿" = Ret [p] /\ exists ref t ts, p_finals p = [ref] /\ get_trees (p_columns p) 400 ref = Ret (t :: ts) /\
    eval p (String.concat " ") (fun _ => ""%string) (Call xmath) t = Ret (DStr "1e+10")).
  { eexists. split; [vm_compute; reflexivity|]. eexists. eexists. eexists. split; [reflexivity|]. split; [vm_compute; reflexivity|]. vm_compute. reflexivity. }
  unfold zh_parses in Hp. destruct Hp as (p & Ep & ref & t & ts & Ef & Et & Ev).
  destruct (H p ref 400 (t :: ts) t Ep Ef Et (or_introl eq_refl)) as (s & Hs & Es). rewrite Ev in Es. injection Es as <-.
  destruct Hs as (ds & D & _ & _ & _ & E). cbn [Z.ltb] in E.
  destruct ds as [|a [|b ds]]; [discriminate E|discriminate E|]. cbn [chars_of] in E. change (((if (10 ^ 10 <? 0)%Z then "-" else "") ++ ?s)%string) with s in E.
  injection E as _ E _. inversion D as [|? ? _ D']; subst. inversion D' as [|? ? B _]; subst.
  assert (K : (b = 0 \/ b = 1 \/ b = 2 \/ b = 3 \/ b = 4 \/ b = 5 \/ b = 6 \/ b = 7 \/ b = 8 \/ b = 9)%Z) by lia.
  destruct K as [-> | [-> | [-> | [-> | [-> | [-> | [-> | [-> | [-> | ->]]]]]]]]]; discriminate E.
Qed.

(** ** A reading without a tree *)
(** the reading of 一百二 as 102 *)
Lemma second_reading tokenize tmatch gs d : in_words tokenize tmatch cn_words d ["一"; "百"; "二"]%string ->
  (forall x b, In b (cn_alternatives x) -> has_body gs x b) ->
  worth tokenize tmatch gs (content d) "number" 0 3 (Binary Plus (Binary Times (Number 1) (Number 100)) (Number 2)).
Proof.
  intros Hws HB. destruct (words_read tokenize tmatch gs d _ Hws HB) as (U & _ & _ & H2 & _).
  pose proof (fun x y b i j e => ProofChineseRules.read_up tokenize tmatch gs d HB x y b i j e) as Up.
  pose proof (U "一"%string 1%Z ltac:(vm_compute; tauto) [] _ eq_refl) as W1. pose proof (H2 "百"%string 100%Z ltac:(vm_compute; tauto) ["一"%string] _ eq_refl) as W2.
  pose proof (U "二"%string 2%Z ltac:(vm_compute; tauto) ["一"; "百"]%string [] eq_refl) as W3. cbn [length] in W1, W2, W3.
  eapply Up; [left; reflexivity|reflexivity|]. eapply Up; [do 4 right; left; reflexivity|reflexivity|]. eapply Up; [do 4 right; left; reflexivity|reflexivity|].
  eapply Up; [do 4 right; left; reflexivity|reflexivity|].
  eapply (wo_body _ _ _ _ _ _ _ _ _ [Some _; Some _; Some _]); [apply HB; do 2 right; left; reflexivity|reflexivity| |].
  - eapply (ws_rule _ _ _ _ (nonterm "cn_unit")); [reflexivity|exact W1|]. eapply (ws_rule _ _ _ _ (nonterm "cn_e2")); [reflexivity|exact W2|].
    eapply (ws_rule _ _ _ _ (nonterm "cn_e1s")); [reflexivity| |constructor]. eapply Up; [do 4 right; left; reflexivity|reflexivity|exact W3].
  - apply (fw_binary _ Plus); [constructor; apply (fw_binary _ Times); [apply (aw_part _ 0)|apply (aw_part _ 1)]|apply (aw_part _ 2)]; reflexivity.
Qed.

Lemma chinese_lost_reading : ~ (forall e, env_ok e -> fractions_scan e -> e_regexp_ok e sf_pattern = true -> texts_have_tokens e ->
  words_are_tokens (e_tokenize e) cn_words -> double_token (e_tokenize e) ->
  String.prefix "g_t" (e_md5 e sf_pattern) = false ->
  (forall x, NoDup (map (e_hash e) (written chinese_items false x))) ->
  forall dir fuel0 depth0 gt g w', installed e dir dir_math ->
  from_file e fuel0 depth0 (e_join e dir "number.zh.grammar") gt = Ret (Some g, w') ->
  forall to_lower ords, orders ords ->
  forall find_all span_text ord, (forall i l, Permutation l (ord i l)) ->
  forall annotate ctx text d, trim_space text <> "" -> annotate ctx (trim_space text) = Ret d ->
  fit_document (e_hash e) find_all [] d -> (forall x, In x chinese_names -> ~ tagged d x) ->
  forall join_words float_string json is_print_hi scan rcall, scans_floats scan -> math_registered scan rcall ->
  forall L x, e_parts e math_number_zh g L ->
  worth (e_tokenize e) (terminal_match (lookup (w_tokens w')) to_lower) (map rd_before L) (content d) "number" 0 (length (content d)) x ->
  forall steps fuel p ref m ts, EarleyParseMaxAll (terminal_match (lookup (w_tokens w')) to_lower) ords (all_rules g) (doc_tokens annotate)
        (doc_local (e_hash e) find_all span_text (g_regexps g) ord annotate ctx text) steps fuel ctx text ["number"%string] = Ret [p] ->
  p_finals p = [ref] -> get_trees (p_columns p) m ref = Ret ts ->
  exists t, In t ts /\ semantic p join_words float_string json is_print_hi (Call rcall) t = Ret (formula x)).
Proof.
  intros H.
  destruct (word_fit "一 百 二") as [H1 _]; [discriminate|vm_compute; reflexivity|vm_compute; reflexivity|].
  specialize (H (senv dir_math) (senv_ok _) (senv_fractions _) eq_refl (senv_texts _) (senv_chinese_tokens _) (senv_double _) eq_refl (senv_chinese_hashes _)
    "d"%string 4000 9 [] zh_grammar zh_world en_installed zh_load (fun s => s)
    (fun _ => id_ord) (fun _ => id_ord_ok) xfind xspan_text xorde xorde_ok word_annotate ""%string "一 百 二"%string (word_doc "一 百 二") ltac:(discriminate)
    eq_refl H1 (fun x _ => word_untagged _ x) (String.concat " ") (fun _ => ""%string) (fun _ => ""%string) (fun _ => true) xscan_float xmath xscan_float_ok xmath_registered).
  assert (Hfile : In ("number.zh.grammar"%string, math_number_zh) dir_math) by (unfold dir_math; do 5 right; left; reflexivity).
  destruct (en_installed _ _ Hfile) as [R1 R2].
  destruct (shipped_usable (senv dir_math) (senv_ok _) (senv_fractions _) eq_refl (senv_texts _) eq_refl dir_math "d" ltac:(unfold shipped; do 4 right; left; reflexivity) en_installed _ _ Hfile
              ltac:(discriminate) _ _ _ _ _ zh_load) as (L & HL & _).
  destruct (plain_rules (senv dir_math) (senv_ok _) _ _ (chinese_text _ (senv_ok _)) _ _ _ _ _ _ _ R1 R2 zh_load L HL) as (_ & Hre & HB & HB').
  pose proof (words_in (e_tokenize (senv dir_math)) (lookup (w_tokens zh_world)) (fun s => s) cn_words (word_doc "一 百 二") (senv_chinese_tokens _)) as Hws.
  assert (HB2 : forall x b, In b (cn_alternatives x) -> has_body (map rd_before L) x b) by (intros x b; apply HB'; apply senv_chinese_hashes).
  specialize (H L _ HL (second_reading _ _ _ _ Hws HB2) 400 400).
  assert (Hp : exists p, zh_parses "一 百 二" = Ret [p] /\ exists ref t, p_finals p = [ref] /\ get_trees (p_columns p) 400 ref = Ret [t] /\
    semantic p (String.concat " ") (fun _ => ""%string) (fun _ => ""%string) (fun _ => true) (Call xmath) t = Ret "nf.math.sum(nf.math.mul(1, 100), nf.math.mul(10, 2))"%string).
  { eexists. split; [vm_compute; reflexivity|]. eexists. eexists. split; [reflexivity|]. split; [vm_compute; reflexivity|]. vm_compute. reflexivity. }
  unfold zh_parses in Hp. destruct Hp as (p & Ep & ref & t & Ef & Et & Ev).
  destruct (H p ref 400 [t] Ep Ef Et) as (t' & [<-|[]] & Es). rewrite Ev in Es. vm_compute in Es. discriminate Es.
Qed.
