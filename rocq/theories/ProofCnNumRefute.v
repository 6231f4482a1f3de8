(** Chinese numerals that cn_num.grammar does not read as one number. *)
From Coq Require Import Permutation.
From Verif Require Import Base ModelTypes ModelText ModelEarley ModelTrees ModelApi ModelSem ModelMath ModelFuncs ModelReader ModelGrammar ModelMatch ModelLocal
  SpecTypes SpecGrammar SpecTree SpecNotation SpecRefine SpecConstruct SpecSem SpecNode SpecApi SpecLocal SpecFuncs SpecEnd SpecMath SpecMeaning ModelShipped SpecShipped SpecFrameText
  Examples ExamplesLocal ExamplesMath ExamplesGrammar ExamplesShipped ExamplesArith SpecArith SpecWorth SpecEnglish ExamplesEnglish SpecChinese ExamplesChinese SpecCnNum ExamplesCnNum.
Local Open Scope list_scope.

Lemma fifteen_chinese : chinese (map tok_text (content (word_doc "十 五"))) 15.
Proof.
  change (map tok_text (content (word_doc "十 五"))) with ["十"; "五"]%string.
  right. do 4 apply cs_up. apply (ct_teen "十" "五" 5); [left; reflexivity|vm_compute; tauto].
Qed.
Lemma gap_chinese : chinese (map tok_text (content (word_doc "一 万 零 一"))) 10001.
Proof.
  change (map tok_text (content (word_doc "一 万 零 一"))) with (["一"%string] ++ "万"%string :: "零"%string :: ["一"%string]).
  assert (U : cn_thousands ["一"%string] 1) by (do 2 apply cs_up; apply ct_unit; vm_compute; tauto).
  right. apply cs_up. apply (cs_gap cn_thousands cn_thousands ["万"%string] 10000 ["一"%string] 1 "万" "零" ["一"%string] 1); [exact U|left; reflexivity|left; reflexivity|exact U|lia].
Qed.
Definition read_whole (lo hi : Z) : Prop := forall e, env_ok e -> fractions_scan e -> e_regexp_ok e sf_pattern = true -> texts_have_tokens e ->
  words_are_tokens (e_tokenize e) s_words -> String.prefix "g_t" (e_md5 e sf_pattern) = false ->
  (forall x, NoDup (map (e_hash e) (written cn_num_items false x))) ->
  forall dir fuel0 depth0 gt g w', installed e dir dir_builtin ->
  from_file e fuel0 depth0 (e_join e dir "cn_num.grammar") gt = Ret (Some g, w') ->
  forall to_lower ords, orders ords ->
  forall find_all span_text ord, (forall i l, Permutation l (ord i l)) ->
  forall annotate ctx text d, trim_space text <> "" -> annotate ctx (trim_space text) = Ret d ->
  fit_document (e_hash e) find_all [] d -> (forall x, In x cn_num_names -> ~ tagged d x) ->
  forall n, (lo <= n <= hi)%Z -> chinese (map tok_text (content d)) n -> Forall (fun w => In w s_words) (map tok_text (content d)) ->
  forall steps fuel ps, EarleyParseMaxAll (terminal_match (lookup (w_tokens w')) to_lower) ords (all_rules g) (doc_tokens annotate)
        (doc_local (e_hash e) find_all span_text (g_regexps g) ord annotate ctx text) steps fuel ctx text ["number"%string] = Ret ps ->
  length ps = 1.
Lemma read_two lo hi n text ps : (lo <= n <= hi)%Z -> chinese (map tok_text (content (word_doc text))) n ->
  forallb (fun w => existsb (String.eqb w) s_words) (map tok_text (content (word_doc text))) = true ->
  fit_document ExamplesGrammar.xhash xfind [] (word_doc text) -> trim_space text <> "" -> trim_space text = text ->
  cnn_parses text = Ret ps -> length ps <> 1 -> ~ read_whole lo hi.
Proof.
  intros Hn Hc Hw Hf Hne Htr Hp Hl H. apply Hl.
  refine (H (senv dir_builtin) (senv_ok _) (senv_fractions _) eq_refl (senv_texts _) (senv_simple_tokens _) eq_refl (senv_cnn_hashes _)
    "d"%string 4000 9 [] cnn_grammar cnn_world cnn_installed cnn_load (fun s => s)
    (fun _ => id_ord) (fun _ => id_ord_ok) xfind xspan_text xorde xorde_ok word_annotate ""%string text (word_doc text) Hne
    _ Hf (fun x _ => word_untagged _ x) n Hn Hc _ 400 400 ps Hp).
  - rewrite Htr. reflexivity.
  - rewrite Forall_forall. intros w Hin. rewrite forallb_forall in Hw. apply Hw in Hin. apply existsb_exists in Hin as (w' & Hin & E). apply String.eqb_eq in E. subst w'. exact Hin.
Qed.
Lemma teens_lost : ~ read_whole 1 99.
Proof.
  eapply (read_two 1 99 15 "十 五"); [lia|exact fifteen_chinese|vm_compute; reflexivity| |discriminate|vm_compute; reflexivity|vm_compute; reflexivity|cbn [length]; discriminate].
  apply word_fit; [discriminate|vm_compute; reflexivity|vm_compute; reflexivity].
Qed.
Lemma gaps_lost : ~ read_whole 10000 99999999.
Proof.
  eapply (read_two 10000 99999999 10001 "一 万 零 一"); [lia|exact gap_chinese|vm_compute; reflexivity| |discriminate|vm_compute; reflexivity|vm_compute; reflexivity|cbn [length]; discriminate].
  apply word_fit; [discriminate|vm_compute; reflexivity|vm_compute; reflexivity].
Qed.
