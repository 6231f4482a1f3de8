(** Texts of simple Chinese numerals, and runs of cn_num.grammar. *)
From Coq Require Import Permutation.
From Verif Require Import Base ModelTypes ModelText ModelEarley ModelTrees ModelApi ModelQuote ModelSem ModelFuncs ModelPrint ModelReader ModelGrammar ModelLocal ModelMatch
  SpecTypes SpecGrammar SpecNotation SpecRefine SpecConstruct SpecApi SpecLocal SpecSem SpecFuncs SpecEnd SpecMath SpecMeaning ModelShipped SpecShipped
  ProofLocal Examples ExamplesSem ExamplesLocal ExamplesMath ExamplesGrammar ExamplesShipped ExamplesArith SpecArith SpecWorth SpecEnglish ExamplesEnglish SpecChinese ExamplesChinese SpecCnNum.

Definition cnn_loaded : res (option grammar * world) := Eval vm_compute in from_file (senv dir_builtin) 4000 9 "d/cn_num.grammar" [].
Definition cnn_grammar : grammar :=
  Eval vm_compute in match cnn_loaded with Ret (Some g, _) => g | _ => mkGrammar "" [] [] [] false [] [] [] [] end.
Definition cnn_world : world := Eval vm_compute in match cnn_loaded with Ret (_, w) => w | _ => mkW [] [] end.
Lemma cnn_load : from_file (senv dir_builtin) 4000 9 (e_join (senv dir_builtin) "d" "cn_num.grammar") [] = Ret (Some cnn_grammar, cnn_world).
Proof. vm_compute. reflexivity. Qed.
Lemma cnn_installed : installed (senv dir_builtin) "d" dir_builtin.
Proof. apply senv_installed. cbn. tauto. Qed.
Definition cnn_parses (text : string) : res (list parse_t) :=
  EarleyParseMaxAll (terminal_match (lookup (w_tokens cnn_world)) (fun s => s)) (fun _ => id_ord) (all_rules cnn_grammar) (doc_tokens word_annotate)
    (doc_local ExamplesGrammar.xhash xfind xspan_text (g_regexps cnn_grammar) xorde word_annotate "" text) 400 400 "" text ["number"%string].
Definition cnn_texts (text : string) : option (list (list (list (string * string)))) :=
  match cnn_parses text with Ret ps => Some (map tree_texts ps) | _ => None end.

Lemma senv_simple_tokens l : words_are_tokens (e_tokenize (senv l)) s_words.
Proof.
  assert (K : forallb (fun w => existsb (String.eqb w) cn_words) s_words = true) by (vm_compute; reflexivity).
  intros w Hw. rewrite forallb_forall in K. apply K in Hw. apply existsb_exists in Hw as (w' & Hw & E). apply String.eqb_eq in E. subst w'.
  apply (senv_chinese_tokens l). exact Hw.
Qed.
Lemma senv_cnn_hashes l x : NoDup (map (e_hash (senv l)) (written cn_num_items false x)).
Proof.
  change (NoDup (map xhash (written cn_num_items false x))).
  assert (K : forall L : list N, (if list_eq_dec N.eq_dec (nodup N.eq_dec L) L then true else false) = true -> NoDup L).
  { intros L H. destruct (list_eq_dec N.eq_dec (nodup N.eq_dec L) L) as [E|]; [|discriminate]. rewrite <- E. apply NoDup_nodup. }
  assert (H : forallb (fun x => let L := map xhash (written cn_num_items false x) in if list_eq_dec N.eq_dec (nodup N.eq_dec L) L then true else false) cn_num_names = true)
    by (vm_compute; reflexivity).
  destruct (in_dec string_dec x cn_num_names) as [Hx|Hx]; [rewrite forallb_forall in H; apply K; exact (H _ Hx)|].
  assert (E : written cn_num_items false x = []); [|rewrite E; constructor].
  unfold written, cn_num_items. rewrite flat_map_concat_map, map_map.
  assert (E : forall l, (forall r, In r l -> fst r <> x) -> concat (map (fun r : string * list rulebody => if Bool.eqb false false && String.eqb (fst r) x then snd r else []) l) = []).
  { induction l0 as [|r l0 IH]; intros Hl; [reflexivity|]. cbn [map concat]. rewrite IH by (intros r' Hr'; apply Hl; right; exact Hr').
    destruct (String.eqb (fst r) x) eqn:Er; [|reflexivity]. apply String.eqb_eq in Er. destruct (Hl r (or_introl eq_refl) Er). }
  apply E. intros r Hr <-. apply Hx. apply in_map. exact Hr.
Qed.

(** 200,305,012, a word that is no numeral, 102 and 15 *)
Definition cnn_text : string := "二 亿 零 三 十 万 五 千 零 一 十 二 和 一 百 二 和 一 十 五".
Lemma cnn_simple : simple ["二"; "亿"; "零"; "三"; "十"; "万"; "五"; "千"; "零"; "一"; "十"; "二"]%string 200305012.
Proof.
  assert (U : forall w z, In (w, z) s_units -> s_thousands [w] z) by (intros w z H; do 2 apply ss_up; apply st_unit; exact H).
  apply (ss_gap s_myriads s_myriads s_myriads "亿" 100000000 ["二"%string] 2 "零" ["三"; "十"; "万"; "五"; "千"; "零"; "一"; "十"; "二"]%string 305012); [|left; reflexivity|].
  - apply ss_up, U. vm_compute. tauto.
  - apply (ss_next s_thousands s_thousands (fun _ _ => False) "万" 10000 ["三"; "十"]%string 30 ["五"; "千"; "零"; "一"; "十"; "二"]%string 5012).
    + do 2 apply ss_up. apply (st_tens "三" 3). vm_compute. tauto.
    + apply (ss_gap s_one s_hundreds s_tens "千" 1000 ["五"%string] 5 "零" ["一"; "十"; "二"]%string 12); [constructor; vm_compute; tauto|left; reflexivity|].
      apply (st_both "一" 1 "二" 2); vm_compute; tauto.
Qed.
