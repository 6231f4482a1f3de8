(** An English numeral that builtin.grammar reads as another number. *)
From Coq Require Import Permutation.
From Verif Require Import Base ModelTypes ModelText ModelEarley ModelTrees ModelApi ModelSem ModelMath ModelFuncs ModelReader ModelGrammar ModelMatch ModelLocal
  SpecTypes SpecGrammar SpecTree SpecNotation SpecRefine SpecConstruct SpecSem SpecNode SpecApi SpecLocal SpecFuncs SpecEnd SpecMath SpecMeaning ModelShipped SpecShipped SpecFrameText
  ProofMath Examples ExamplesSem ExamplesLocal ExamplesMath ExamplesGrammar ExamplesShipped ExamplesArith SpecArith SpecWorth SpecEnglish ExamplesEnglish SpecChinese SpecSpoken ExamplesSpoken.
Local Open Scope list_scope.

Lemma quarter_million : english (map tok_text (content (word_doc "two hundred fifty thousand"))) 250000.
Proof.
  change (map tok_text (content (word_doc "two hundred fifty thousand"))) with (["two"; "hundred"; "fifty"]%string ++ ["thousand"%string]).
  right. do 3 apply gr_skip. apply (gr_exact "thousand" 1000 [] ["two"; "hundred"; "fifty"]%string 250).
  apply (bt_both "two" 2 [] ["fifty"%string] 50); [vm_compute; tauto|lia|left; reflexivity|]. apply bh_tens. vm_compute. tauto.
Qed.
Lemma thousands_lost : ~ (forall e, env_ok e -> fractions_scan e -> e_regexp_ok e sf_pattern = true -> texts_have_tokens e ->
  words_are_tokens (e_tokenize e) b_words -> String.prefix "g_t" (e_md5 e sf_pattern) = false ->
  (forall x, NoDup (map (e_hash e) (written builtin_items false x))) ->
  forall dir fuel0 depth0 gt g w', installed e dir dir_builtin ->
  from_file e fuel0 depth0 (e_join e dir "builtin.grammar") gt = Ret (Some g, w') ->
  forall to_lower ords, orders ords ->
  forall find_all span_text ord, (forall i l, Permutation l (ord i l)) ->
  forall annotate ctx text d, trim_space text <> "" -> annotate ctx (trim_space text) = Ret d ->
  fit_document (e_hash e) find_all [] d -> (forall x, In x amount_names -> ~ tagged d x) ->
  forall join_words float_string scan rcall, scans_floats scan -> math_registered scan rcall ->
  forall n, (n < 10 ^ 6)%Z -> english (map tok_text (content d)) n ->
  forall steps fuel p ref ts, EarleyParseMaxAll (terminal_match (lookup (w_tokens w')) to_lower) ords (all_rules g) (doc_tokens annotate)
        (doc_local (e_hash e) find_all span_text (g_regexps g) ord annotate ctx text) steps fuel ctx text ["number"%string] = Ret [p] ->
  p_finals p = [ref] -> get_trees (p_columns p) fuel ref = Ret ts ->
  exists t s, In t ts /\ numeral n s /\ eval p join_words float_string (Call rcall) t = Ret (DStr s)).
Proof.
  intros H.
  assert (K : exists p ref ts, bi_parses "two hundred fifty thousand" = Ret [p] /\ p_finals p = [ref] /\ get_trees (p_columns p) 400 ref = Ret ts /\
      forallb (fun t => match eval p (String.concat " ") (fun _ => ""%string) (Call xmath) t with Ret (DStr s) => String.eqb s "50200" | _ => false end) ts = true).
  { assert (C : match bi_parses "two hundred fifty thousand" with
      | Ret [p] => match p_finals p with
          | [ref] => match get_trees (p_columns p) 400 ref with
              | Ret ts => forallb (fun t => match eval p (String.concat " ") (fun _ => ""%string) (Call xmath) t with Ret (DStr s) => String.eqb s "50200" | _ => false end) ts
              | _ => false end
          | _ => false end
      | _ => false end = true) by (vm_compute; reflexivity).
    destruct (bi_parses "two hundred fifty thousand") as [[|p [|p' ps]]| | |]; try discriminate C.
    destruct (p_finals p) as [|ref [|ref' refs]] eqn:E2; try discriminate C.
    destruct (get_trees (p_columns p) 400 ref) as [ts| | |] eqn:E3; try discriminate C.
    exists p, ref, ts. split; [reflexivity|]. split; [exact E2|]. split; [exact E3|exact C]. }
  assert (Htr : word_annotate "" (trim_space "two hundred fifty thousand") = Ret (word_doc "two hundred fifty thousand")) by (vm_compute; reflexivity).
  assert (Hne : trim_space "two hundred fifty thousand" <> ""%string).
  { assert (E : trim_space "two hundred fifty thousand" = "two hundred fifty thousand"%string) by (vm_compute; reflexivity). rewrite E. discriminate. }
  assert (Hfit : fit_document ExamplesGrammar.xhash xfind [] (word_doc "two hundred fifty thousand")) by (apply word_fit; [discriminate|vm_compute; reflexivity|vm_compute; reflexivity]).
  assert (Hlt : (250000 < 10 ^ 6)%Z) by (vm_compute; reflexivity).
  destruct K as (p & ref & ts & E1 & E2 & E3 & E4). unfold bi_parses in E1.
  specialize (H (senv dir_builtin) (senv_ok _) (senv_fractions _) eq_refl (senv_texts _) (senv_spoken_tokens _) eq_refl (senv_spoken_hashes _)
    "d"%string 4000 9 [] bi_grammar bi_world bi_installed bi_load (fun s => s)
    (fun _ => id_ord) (fun _ => id_ord_ok) xfind xspan_text xorde xorde_ok word_annotate ""%string "two hundred fifty thousand"%string (word_doc "two hundred fifty thousand")
    Hne Htr Hfit (fun x _ => word_untagged _ x)
    (String.concat " ") (fun _ => ""%string) xscan_float xmath xscan_float_ok xmath_registered 250000%Z Hlt quarter_million 400 400 p ref ts E1 E2 E3).
  destruct H as (t & s & Ht & Hs & Hev). rewrite forallb_forall in E4. specialize (E4 t Ht). rewrite Hev in E4. apply String.eqb_eq in E4. subst s.
  apply (proj1 (numeral_nonzero 250000 "50200" ltac:(lia))) in Hs. vm_compute in Hs. discriminate Hs.
Qed.
