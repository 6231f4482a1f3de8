(** Texts of Chinese numerals, and runs of number.zh.grammar. *)
From Coq Require Import Permutation.
From Verif Require Import Base ModelTypes ModelText ModelEarley ModelTrees ModelApi ModelQuote ModelSem ModelFuncs ModelPrint ModelReader ModelGrammar ModelLocal ModelMatch
  SpecTypes SpecGrammar SpecNotation SpecRefine SpecConstruct SpecApi SpecLocal SpecSem SpecFuncs SpecEnd SpecMath SpecMeaning ModelShipped SpecShipped
  ProofLocal Examples ExamplesSem ExamplesLocal ExamplesMath ExamplesGrammar ExamplesShipped ExamplesArith SpecArith SpecWorth SpecEnglish ExamplesEnglish SpecChinese.

Definition zh_loaded : res (option grammar * world) := Eval vm_compute in from_file (senv dir_math) 4000 9 "d/number.zh.grammar" [].
Definition zh_grammar : grammar :=
  Eval vm_compute in match zh_loaded with Ret (Some g, _) => g | _ => mkGrammar "" [] [] [] false [] [] [] [] end.
Definition zh_world : world := Eval vm_compute in match zh_loaded with Ret (_, w) => w | _ => mkW [] [] end.
Lemma zh_load : from_file (senv dir_math) 4000 9 (e_join (senv dir_math) "d" "number.zh.grammar") [] = Ret (Some zh_grammar, zh_world).
Proof. vm_compute. reflexivity. Qed.
Definition zh_parses (text : string) : res (list parse_t) :=
  EarleyParseMaxAll (terminal_match (lookup (w_tokens zh_world)) (fun s => s)) (fun _ => id_ord) (all_rules zh_grammar) (doc_tokens word_annotate)
    (doc_local ExamplesGrammar.xhash xfind xspan_text (g_regexps zh_grammar) xorde word_annotate "" text) 400 400 "" text ["number"%string].
Definition zh_texts (text : string) : option (list (list (list (string * string)))) :=
  match zh_parses text with Ret ps => Some (map tree_texts ps) | _ => None end.

Lemma senv_chinese_tokens l : words_are_tokens (e_tokenize (senv l)) cn_words.
Proof.
  assert (K : Forall (fun w => exists ks k, xtokenize w = Ret ks /\ filter (fun k => negb (is_space_token k)) ks = [k] /\ tok_text k = w) cn_words).
  { repeat (constructor; [eexists; eexists; split; [vm_compute; reflexivity|]; split; [vm_compute; reflexivity|reflexivity]|]). constructor. }
  intros w Hw. rewrite Forall_forall in K. exact (K w Hw).
Qed.
Lemma senv_double l : double_token (e_tokenize (senv l)).
Proof. eexists. split; [vm_compute; reflexivity|]. left. vm_compute. reflexivity. Qed.
Lemma senv_chinese_hashes l x : NoDup (map (e_hash (senv l)) (written chinese_items false x)).
Proof.
  change (NoDup (map xhash (written chinese_items false x))).
  assert (K : forall L : list N, (if list_eq_dec N.eq_dec (nodup N.eq_dec L) L then true else false) = true -> NoDup L).
  { intros L H. destruct (list_eq_dec N.eq_dec (nodup N.eq_dec L) L) as [E|]; [|discriminate]. rewrite <- E. apply NoDup_nodup. }
  assert (H : forallb (fun x => let L := map xhash (written chinese_items false x) in if list_eq_dec N.eq_dec (nodup N.eq_dec L) L then true else false) chinese_names = true)
    by (vm_compute; reflexivity).
  destruct (in_dec string_dec x chinese_names) as [Hx|Hx]; [rewrite forallb_forall in H; apply K; exact (H _ Hx)|].
  assert (E : written chinese_items false x = []); [|rewrite E; constructor].
  unfold written, chinese_items. rewrite flat_map_concat_map, map_map.
  assert (E : forall l, (forall r, In r l -> fst r <> x) -> concat (map (fun r : string * list rulebody => if Bool.eqb false false && String.eqb (fst r) x then snd r else []) l) = []).
  { induction l0 as [|r l0 IH]; intros Hl; [reflexivity|]. cbn [map concat]. rewrite IH by (intros r' Hr'; apply Hl; right; exact Hr').
    destruct (String.eqb (fst r) x) eqn:Er; [|reflexivity]. apply String.eqb_eq in Er. destruct (Hl r (or_introl eq_refl) Er). }
  apply E. intros r Hr <-. apply Hx. apply in_map. exact Hr.
Qed.

(** 200,305,012 *)
Definition zh_text : string := "二 亿 零 三 十 万 五 千 零 一 十 二".
Lemma zh_chinese : chinese (map tok_text (content (word_doc zh_text))) 200305012.
Proof.
  change (map tok_text (content (word_doc zh_text))) with ["二"; "亿"; "零"; "三"; "十"; "万"; "五"; "千"; "零"; "一"; "十"; "二"]%string.
  assert (U : forall w z, In (w, z) cn_units -> cn_thousands [w] z) by (intros w z H; do 2 apply cs_up; apply ct_unit; exact H).
  right. apply (cs_gap cn_myriads cn_myriads ["亿"%string] 100000000 ["二"%string] 2 "亿" "零" ["三"; "十"; "万"; "五"; "千"; "零"; "一"; "十"; "二"]%string 305012); [|left; reflexivity|left; reflexivity| |lia].
  - apply cs_up, U. vm_compute. tauto.
  - apply (cs_next cn_thousands cn_thousands ["万"%string] 10000 ["三"; "十"]%string 30 "万" ["五"; "千"; "零"; "一"; "十"; "二"]%string 5012); [|left; reflexivity| |lia].
    + do 2 apply cs_up. apply (ct_tens "三" 3 "十"); [vm_compute; tauto|left; reflexivity].
    + apply (cs_gap one_unit cn_hundreds thousand_words 1000 ["五"%string] 5 "千" "零" ["一"; "十"; "二"]%string 12); [constructor; vm_compute; tauto|left; reflexivity|left; reflexivity| |lia].
      apply cs_up. apply (ct_both "一" 1 "十" "二" 2); [vm_compute; tauto|left; reflexivity|vm_compute; tauto].
Qed.
