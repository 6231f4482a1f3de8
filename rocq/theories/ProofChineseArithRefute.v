(** Arithmetic in Chinese words: the usual precedence is not kept. *)
From Coq Require Import Permutation.
From Verif Require Import Base ModelTypes ModelText ModelEarley ModelTrees ModelApi ModelSem ModelMath ModelFuncs ModelReader ModelGrammar ModelMatch ModelLocal
  SpecTypes SpecGrammar SpecTree SpecNotation SpecRefine SpecConstruct SpecSem SpecNode SpecApi SpecLocal SpecFuncs SpecEnd SpecMath SpecMeaning ModelShipped SpecShipped SpecNames SpecFrameText
  ProofMeaning ProofMeaningCalls ProofShippedUsable ProofReadings
  Examples ExamplesLocal ExamplesMath ExamplesGrammar ExamplesShipped ExamplesArith ExamplesEnglish ExamplesNames ExamplesChinese SpecArith SpecWorth SpecWordArith SpecChinese SpecChineseArith ExamplesChineseArith.
Local Open Scope list_scope.

Lemma no_precedence : ~ (forall e, env_ok e -> fractions_scan e -> e_regexp_ok e sf_pattern = true -> texts_have_tokens e -> words_are_tokens (e_tokenize e) cn_sum_words -> double_token (e_tokenize e) ->
  (forall v, In v cn_others -> foreign (e_tokenize e) cn_sum_words v) ->
  String.prefix "g_t" (e_md5 e sf_pattern) = false -> hashes_apart e math_math_zh -> hashes_apart e math_number_zh ->
  names_between e math_math_zh math_number_zh ->
  forall dir fuel0 depth0 gt g w', installed e dir dir_math ->
  from_file e fuel0 depth0 (e_join e dir "math.zh.grammar") gt = Ret (Some g, w') ->
  forall gtokens to_lower ords, orders ords ->
  forall find_all span_text ord, (forall i l, Permutation l (ord i l)) ->
  forall annotate ctx text d, trim_space text <> "" -> annotate ctx (trim_space text) = Ret d ->
  fit_document (e_hash e) find_all (g_regexps g) d -> (forall x, In x cn_sum_names -> ~ tagged d x /\ forall pat, ~ In (x, pat) (g_regexps g)) ->
  forall join_words float_string scan rcall, scans_floats scan -> math_registered scan rcall ->
  forall n rest, cn_chain (map tok_text (content d)) n rest ->
  forall steps fuel p ref m ts t, EarleyParseMaxAll (terminal_match gtokens to_lower) ords (all_rules g) (doc_tokens annotate)
        (doc_local (e_hash e) find_all span_text (g_regexps g) ord annotate ctx text) steps fuel ctx text ["number"%string] = Ret [p] ->
  p_finals p = [ref] -> get_trees (p_columns p) m ref = Ret ts -> In t ts ->
  exists s, numeral (usual_value n rest) s /\ eval p join_words float_string (Call rcall) t = Ret (DStr s)).
Proof.
  intros H.
  destruct (word_fit zm_text) as [H1 _]; [discriminate|vm_compute; reflexivity|vm_compute; reflexivity|].
  specialize (H (senv dir_math) (senv_ok _) (senv_fractions _) eq_refl (senv_texts _) (senv_cn_sum_words _) (senv_double _) (senv_cn_foreign _) eq_refl (proj1 zm_hashes) (proj2 zm_hashes) zm_between
    "d"%string 4000 9 [] zm_grammar zm_world en_installed zm_load (lookup (w_tokens zm_world)) (fun s => s)
    (fun _ => id_ord) (fun _ => id_ord_ok) xfind xspan_text xorde xorde_ok word_annotate ""%string zm_text (word_doc zm_text) ltac:(discriminate)
    eq_refl H1 (fun x _ => conj (word_untagged _ x) (fun pat C => C)) (String.concat " ") (fun _ => ""%string) xscan_float xmath xscan_float_ok xmath_registered
    _ _ zm_chain 400 400).
  assert (Hp : exists p, zm_parses zm_text = Ret [p] /\ exists ref t ts, p_finals p = [ref] /\ get_trees (p_columns p) 400 ref = Ret (t :: ts) /\
    eval p (String.concat " ") (fun _ => ""%string) (Call xmath) t = Ret (DStr "20")).
  { eexists. split; [vm_compute; reflexivity|]. eexists. eexists. eexists. split; [reflexivity|]. split; [vm_compute; reflexivity|]. vm_compute. reflexivity. }
  unfold zm_parses in Hp. destruct Hp as (p & Ep & ref & t & ts & Ef & Et & Ev).
  destruct (H p ref 400 (t :: ts) t Ep Ef Et (or_introl eq_refl)) as (s & Hs & Es). rewrite Ev in Es. injection Es as <-.
  change (usual_value 2 [(Plus, 3); (Times, 4)]%Z) with 14%Z in Hs.
  destruct Hs as (ds & D & _ & _ & V & E). change (((if (14 <? 0)%Z then "-" else "") ++ ?s)%string) with s in E.
  destruct ds as [|a [|b [|c ds]]]; try discriminate E. cbn [chars_of] in E. injection E as Ea Eb.
  inversion D as [|? ? A D']; subst. inversion D' as [|? ? B _]; subst.
  assert (K : (a = 0 \/ a = 1 \/ a = 2 \/ a = 3 \/ a = 4 \/ a = 5 \/ a = 6 \/ a = 7 \/ a = 8 \/ a = 9)%Z) by lia.
  destruct K as [-> | [-> | [-> | [-> | [-> | [-> | [-> | [-> | [-> | ->]]]]]]]]]; try discriminate Ea.
  assert (K : (b = 0 \/ b = 1 \/ b = 2 \/ b = 3 \/ b = 4 \/ b = 5 \/ b = 6 \/ b = 7 \/ b = 8 \/ b = 9)%Z) by lia.
  destruct K as [-> | [-> | [-> | [-> | [-> | [-> | [-> | [-> | [-> | ->]]]]]]]]]; try discriminate Eb. cbn in V. discriminate V.
Qed.
