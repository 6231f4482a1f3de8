(** Runs of number.en.grammar, and number words whose trees do not evaluate to their numbers. *)
From Coq Require Import Permutation.
From Verif Require Import Base ModelTypes ModelText ModelEarley ModelTrees ModelApi ModelSem ModelMath ModelFuncs ModelReader ModelGrammar ModelMatch ModelLocal
  SpecTypes SpecGrammar SpecTree SpecNotation SpecRefine SpecConstruct SpecSem SpecNode SpecApi SpecLocal SpecFuncs SpecEnd SpecMath SpecMeaning ModelShipped SpecShipped SpecFrameText
  ProofMeaning ProofMeaningCalls ProofShippedUsable ProofReadings ProofEnglish ProofEnglishRules ProofEnglishCalls
  Examples ExamplesLocal ExamplesMath ExamplesGrammar ExamplesShipped ExamplesArith SpecArith SpecWorth SpecEnglish ExamplesEnglish.
Local Open Scope list_scope.

Lemma ten_billion_english : english (map tok_text (content (word_doc "ten billion"))) (10 ^ 10).
Proof.
  change (map tok_text (content (word_doc "ten billion"))) with (["ten"%string] ++ ["billion"%string]).
  right. apply gr_skip. apply (gr_exact "billion" 1000000000 _ ["ten"%string] 10). apply bt_small, bh_teen. vm_compute. tauto.
Qed.

Lemma english_not_large : ~ (forall e, env_ok e -> fractions_scan e -> e_regexp_ok e sf_pattern = true -> texts_have_tokens e -> words_are_tokens (e_tokenize e) number_words ->
  String.prefix "g_t" (e_md5 e sf_pattern) = false ->
  (forall name bs, In (name, bs) english_rules -> NoDup (map (e_hash e) bs)) ->
  forall dir fuel0 depth0 gt g w', installed e dir dir_math ->
  from_file e fuel0 depth0 (e_join e dir "number.en.grammar") gt = Ret (Some g, w') ->
  forall to_lower ords, orders ords ->
  forall find_all span_text ord, (forall i l, Permutation l (ord i l)) ->
  forall annotate ctx text d, trim_space text <> "" -> annotate ctx (trim_space text) = Ret d ->
  fit_document (e_hash e) find_all [] d -> (forall x, In x english_names -> ~ tagged d x) ->
  forall join_words float_string scan rcall, scans_floats scan -> math_registered scan rcall ->
  forall n, english (map tok_text (content d)) n ->
  forall steps fuel p ref m ts t, EarleyParseMaxAll (terminal_match (lookup (w_tokens w')) to_lower) ords (all_rules g) (doc_tokens annotate)
        (doc_local (e_hash e) find_all span_text (g_regexps g) ord annotate ctx text) steps fuel ctx text ["number"%string] = Ret [p] ->
  p_finals p = [ref] -> get_trees (p_columns p) m ref = Ret ts -> In t ts ->
  exists s, numeral n s /\ eval p join_words float_string (Call rcall) t = Ret (DStr s)).
Proof.
  intros H.
  destruct (word_fit "ten billion") as [H1 _]; [discriminate|vm_compute; reflexivity|vm_compute; reflexivity|].
  specialize (H (senv dir_math) (senv_ok _) (senv_fractions _) eq_refl (senv_texts _) (senv_words_are_tokens _) eq_refl (senv_english_hashes _)
    "d"%string 4000 9 [] en_grammar en_world en_installed en_load (fun s => s)
    (fun _ => id_ord) (fun _ => id_ord_ok) xfind xspan_text xorde xorde_ok word_annotate ""%string "ten billion"%string (word_doc "ten billion") ltac:(discriminate)
    eq_refl H1 (fun x _ => word_untagged _ x) (String.concat " ") (fun _ => ""%string) xscan_float xmath xscan_float_ok xmath_registered
    _ ten_billion_english 400 400).
  assert (Hp : exists p, en_parses "ten billion" = Ret [p] /\ exists ref t ts, p_finals p = [ref] /\ get_trees (p_columns p) 400 ref = Ret (t :: ts) /\
    eval p (String.concat " ") (fun _ => ""%string) (Call xmath) t = Ret (DStr "1e+10")).
  { eexists. split; [vm_compute; reflexivity|]. eexists. eexists. eexists. split; [reflexivity|]. split; [vm_compute; reflexivity|]. vm_compute. reflexivity. }
  unfold en_parses in Hp. destruct Hp as (p & Ep & ref & t & ts & Ef & Et & Ev).
  destruct (H p ref 400 (t :: ts) t Ep Ef Et (or_introl eq_refl)) as (s & Hs & Es). rewrite Ev in Es. injection Es as <-.
  destruct Hs as (ds & D & _ & _ & _ & E). cbn [Z.ltb] in E.
  destruct ds as [|a [|b ds]]; [discriminate E|discriminate E|]. cbn [chars_of] in E. change (((if (10 ^ 10 <? 0)%Z then "-" else "") ++ ?s)%string) with s in E.
  injection E as _ E _. inversion D as [|? ? _ D']; subst. inversion D' as [|? ? B _]; subst.
  assert (K : (b = 0 \/ b = 1 \/ b = 2 \/ b = 3 \/ b = 4 \/ b = 5 \/ b = 6 \/ b = 7 \/ b = 8 \/ b = 9)%Z) by lia.
  destruct K as [-> | [-> | [-> | [-> | [-> | [-> | [-> | [-> | [-> | ->]]]]]]]]]; discriminate E.
Qed.

Lemma xmath_only fn vs : ~ In fn registered_names -> xmath fn vs = Err.
Proof.
  intros H. unfold xmath. assert (K : forall x, In x registered_names -> String.eqb fn x = false) by (intros x Hx; apply String.eqb_neq; intros ->; auto).
  destruct vs as [|[] [|[] []]]; try reflexivity; rewrite ?(K "nf.math.sum"%string), ?(K "nf.math.sub"%string), ?(K "nf.math.mul"%string), ?(K "nf.math.neg"%string) by (vm_compute; tauto); reflexivity.
Qed.
Lemma english_no_decimals : ~ (forall e, env_ok e -> fractions_scan e -> e_regexp_ok e sf_pattern = true -> texts_have_tokens e -> words_are_tokens (e_tokenize e) number_words ->
  String.prefix "g_t" (e_md5 e sf_pattern) = false ->
  (forall name bs, In (name, bs) english_rules -> NoDup (map (e_hash e) bs)) ->
  forall dir fuel0 depth0 gt g w', installed e dir dir_math ->
  from_file e fuel0 depth0 (e_join e dir "number.en.grammar") gt = Ret (Some g, w') ->
  forall to_lower ords, orders ords ->
  forall find_all span_text ord, (forall i l, Permutation l (ord i l)) ->
  forall annotate ctx text d, trim_space text <> "" -> annotate ctx (trim_space text) = Ret d ->
  fit_document (e_hash e) find_all [] d -> (forall x, In x english_names -> ~ tagged d x) ->
  forall join_words float_string scan rcall, scans_floats scan -> math_registered scan rcall ->
  (forall fn vs, ~ In fn registered_names -> rcall fn vs = Err) ->
  forall ws n w k, english ws n -> In (w, k) units -> map tok_text (content d) = ws ++ ["point"%string; w] ->
  forall steps fuel p ref m ts t, EarleyParseMaxAll (terminal_match (lookup (w_tokens w')) to_lower) ords (all_rules g) (doc_tokens annotate)
        (doc_local (e_hash e) find_all span_text (g_regexps g) ord annotate ctx text) steps fuel ctx text ["number"%string] = Ret [p] ->
  p_finals p = [ref] -> get_trees (p_columns p) m ref = Ret ts -> In t ts ->
  exists v, eval p join_words float_string (Call rcall) t = Ret v).
Proof.
  intros H.
  destruct (word_fit "one point five") as [H1 _]; [discriminate|vm_compute; reflexivity|vm_compute; reflexivity|].
  assert (En : english ["one"%string] 1).
  { right. do 4 apply gr_skip. apply gr_last, bt_small, bh_unit; [vm_compute; tauto|discriminate]. }
  specialize (H (senv dir_math) (senv_ok _) (senv_fractions _) eq_refl (senv_texts _) (senv_words_are_tokens _) eq_refl (senv_english_hashes _)
    "d"%string 4000 9 [] en_grammar en_world en_installed en_load (fun s => s)
    (fun _ => id_ord) (fun _ => id_ord_ok) xfind xspan_text xorde xorde_ok word_annotate ""%string "one point five"%string (word_doc "one point five") ltac:(discriminate)
    eq_refl H1 (fun x _ => word_untagged _ x) (String.concat " ") (fun _ => ""%string) xscan_float xmath xscan_float_ok xmath_registered xmath_only
    _ _ "five"%string 5%Z En ltac:(vm_compute; tauto) eq_refl 400 400).
  assert (Hp : exists p, en_parses "one point five" = Ret [p] /\ exists ref t ts, p_finals p = [ref] /\ get_trees (p_columns p) 400 ref = Ret (t :: ts) /\
    eval p (String.concat " ") (fun _ => ""%string) (Call xmath) t = Err).
  { eexists. split; [vm_compute; reflexivity|]. eexists. eexists. eexists. split; [reflexivity|]. split; [vm_compute; reflexivity|]. vm_compute. reflexivity. }
  unfold en_parses in Hp. destruct Hp as (p & Ep & ref & t & ts & Ef & Et & Ev).
  destruct (H p ref 400 (t :: ts) t Ep Ef Et (or_introl eq_refl)) as (v & Es). rewrite Ev in Es. discriminate Es.
Qed.

Lemma en_calculates : exists L, e_parts (senv dir_math) math_number_en en_grammar L /\
  usable (e_tokenize (senv dir_math)) L ["number"%string] /\ functions_fit (map rd_before L) /\ g_regexps en_grammar = [] /\
  calculates (e_tokenize (senv dir_math)) (terminal_match (lookup (w_tokens en_world)) (fun s => s)) (map rd_before L) (content (word_doc en_text)) (fun x => In x counting) /\
  (forall x, In x counting -> text_only xfind (g_regexps en_grammar) (word_doc en_text) x) /\ In "number"%string counting /\
  (exists x, worth (e_tokenize (senv dir_math)) (terminal_match (lookup (w_tokens en_world)) (fun s => s)) (map rd_before L) (content (word_doc en_text)) "number" 0 10 x).
Proof.
  assert (Hfile : In ("number.en.grammar"%string, math_number_en) dir_math) by (unfold dir_math; do 4 right; left; reflexivity).
  destruct (en_installed _ _ Hfile) as [R1 R2].
  destruct (shipped_usable (senv dir_math) (senv_ok _) (senv_fractions _) eq_refl (senv_texts _) eq_refl dir_math "d" ltac:(unfold shipped; do 4 right; left; reflexivity) en_installed _ _ Hfile
              ltac:(discriminate) _ _ _ _ _ en_load) as (L & HL & _ & HC & HF & HU).
  destruct (plain_rules (senv dir_math) (senv_ok _) _ _ (english_text _ (senv_ok _)) _ _ _ _ _ _ _ R1 R2 en_load L HL) as (_ & Hre & HB & HB').
  pose proof (words_in (e_tokenize (senv dir_math)) (lookup (w_tokens en_world)) (fun s => s) number_words (word_doc en_text) (senv_words_are_tokens _)) as Hws.
  exists L. split; [exact HL|]. split; [apply HU; [exact (HC eq_refl)|discriminate|intros S [<-|[]]; split; [discriminate|reflexivity]]|].
  split; [apply HF; discriminate|]. split; [exact Hre|].
  split; [exact (english_calculates _ _ _ _ _ Hws (english_no_point _ _ en_english) HB)|].
  split; [rewrite Hre; intros x Hx; apply english_text_only; [apply counting_names; exact Hx|apply word_untagged]|].
  split; [vm_compute; tauto|].
  assert (HB2 : forall x b, In b (alternatives x) -> has_body (map rd_before L) x b) by (intros x b; apply HB'; apply english_written; apply senv_english_hashes).
  exact (readable_number _ _ _ _ _ Hws HB2 _ (proj1 (english_level _ _ en_english))).
Qed.
