(** Texts of Chinese numerals and operations, and runs of math.zh.grammar. *)
From Coq Require Import Permutation.
From Verif Require Import Base ModelTypes ModelText ModelEarley ModelTrees ModelApi ModelQuote ModelSem ModelFuncs ModelPrint ModelReader ModelGrammar ModelLocal ModelMatch
  SpecTypes SpecGrammar SpecNotation SpecRefine SpecConstruct SpecApi SpecLocal SpecSem SpecFuncs SpecEnd SpecMath SpecMeaning ModelShipped SpecShipped SpecNames
  ProofLocal ProofConstruct ProofShipped ProofNames ProofChinese Examples ExamplesSem ExamplesLocal ExamplesMath ExamplesGrammar ExamplesShipped ExamplesArith ExamplesEnglish ExamplesNames ExamplesChinese
  SpecArith SpecWorth SpecEnglish SpecWordArith ExamplesWordArith SpecChinese SpecChineseArith ProofChineseArithCalls.
Local Open Scope list_scope.

Definition zm_loaded : res (option grammar * world) := Eval vm_compute in from_file (senv dir_math) 4000 9 "d/math.zh.grammar" [].
Definition zm_grammar : grammar :=
  Eval vm_compute in match zm_loaded with Ret (Some g, _) => g | _ => mkGrammar "" [] [] [] false [] [] [] [] end.
Definition zm_world : world := Eval vm_compute in match zm_loaded with Ret (_, w) => w | _ => mkW [] [] end.
Lemma zm_load : from_file (senv dir_math) 4000 9 (e_join (senv dir_math) "d" "math.zh.grammar") [] = Ret (Some zm_grammar, zm_world).
Proof. vm_compute. reflexivity. Qed.
Definition zm_parses (text : string) : res (list parse_t) :=
  EarleyParseMaxAll (terminal_match (lookup (w_tokens zm_world)) (fun s => s)) (fun _ => id_ord) (all_rules zm_grammar) (doc_tokens word_annotate)
    (doc_local ExamplesGrammar.xhash xfind xspan_text (g_regexps zm_grammar) xorde word_annotate "" text) 400 400 "" text ["number"%string].
Definition zm_texts (text : string) : option (list (list (list (string * string)))) :=
  match zm_parses text with Ret ps => Some (map tree_texts ps) | _ => None end.

Lemma senv_cn_sum_words l : words_are_tokens (e_tokenize (senv l)) cn_sum_words.
Proof.
  intros w Hw. apply in_app_iff in Hw as [Hw|Hw]; [exact (senv_chinese_tokens l w Hw)|].
  destruct Hw as [<-|[<-|[<-|[]]]]; (eexists; eexists; split; [vm_compute; reflexivity|]; split; [vm_compute; reflexivity|reflexivity]).
Qed.
Definition cn_foreign_check (v : string) : bool :=
  match xtokenize v with Ret ks => existsb (fun k => negb (is_space_token k) && negb (existsb (String.eqb (tok_text k)) cn_sum_words)) ks | _ => false end.
Lemma senv_cn_foreign l v : In v cn_others -> foreign (e_tokenize (senv l)) cn_sum_words v.
Proof.
  change (In v cn_others -> foreign xtokenize cn_sum_words v).
  assert (K : forallb cn_foreign_check cn_others = true) by (vm_compute; reflexivity).
  intros Hv. rewrite forallb_forall in K. specialize (K v Hv). unfold cn_foreign_check in K. destruct (xtokenize v) as [ks| | |] eqn:E; try discriminate K.
  apply existsb_exists in K as (k & Hk & K). apply andb_true_iff in K as [K1 K2]. apply negb_true_iff in K1, K2.
  exists ks, k. split; [exact E|]. split; [exact Hk|]. split; [exact K1|]. apply not_mem. exact K2.
Qed.
Lemma zm_hashes : hashes_apart (senv dir_math) math_math_zh /\ hashes_apart (senv dir_math) math_number_zh.
Proof.
  split; [apply (hashes_checked "math.zh.grammar"); [exact math_file|discriminate|vm_compute; reflexivity]
         |apply (hashes_checked "number.zh.grammar"); [exact number_file|discriminate|vm_compute; reflexivity]].
Qed.

(** the first seven bytes of a name: g_t_ and a character *)
Fixpoint first_bytes (n : nat) (s : string) : string := match n, s with S n', String c s' => String c (first_bytes n' s') | _, _ => ""%string end.
Lemma first_app n : forall s s', n <= String.length s -> first_bytes n (s ++ s') = first_bytes n s.
Proof. induction n as [|n IH]; intros s s' H; [reflexivity|]. destruct s as [|c s]; [cbn in H; lia|]. cbn [append first_bytes]. rewrite IH; [reflexivity|cbn in H; lia]. Qed.
Lemma first_numbered x j : 7 <= String.length x -> first_bytes 7 (SpecRefine.numbered x j) = first_bytes 7 x.
Proof. intros H. destruct j; [reflexivity|]. apply first_app. exact H. Qed.
Definition zm_heads (T : string) : list (option string) :=
  map (fun v => match xtokenize v with Ret ks => let x := usual_name (fun s => s) ks in if Nat.leb 7 (String.length x) then Some (first_bytes 7 x) else None | _ => None end)
    (texts_in (senv dir_math) (BigF 1 (-1)) (BigF 1 (-1)) T).
Lemma zm_between : names_between (senv dir_math) math_math_zh math_number_zh.
Proof.
  assert (H1 : forallb (fun h => match h with Some s => negb (existsb (fun h' => match h' with Some s' => String.eqb s s' | None => true end) (zm_heads math_number_zh)) | None => false end)
                 (zm_heads math_math_zh) = true) by (vm_compute; reflexivity).
  assert (K : forall name T v, In (name, T) dir_math -> name <> rejected -> text_in (senv dir_math) T v -> In v (texts_in (senv dir_math) (BigF 1 (-1)) (BigF 1 (-1)) T)).
  { intros name T v Hn Hr (x & b & t & A & Ht & Ty & Tv).
    destruct (shipped_alternative (senv dir_math) (senv_ok _) (BigF 1 (-1)) (BigF 1 (-1)) eq_refl eq_refl eq_refl dir_math _ _ x b math_shipped Hn Hr A) as (it & Hit & _ & _ & Hb).
    apply in_flat_map. exists it. split; [exact Hit|]. apply in_flat_map. exists b. split; [exact Hb|]. apply in_flat_map. exists t. split; [exact Ht|]. rewrite Ty. left. exact Tv. }
  intros v v' ks ks' j j' Hv Hv' E E' C.
  apply (K _ _ _ math_file ltac:(discriminate)) in Hv. apply (K _ _ _ number_file ltac:(discriminate)) in Hv'.
  change (xtokenize v = Ret ks) in E. change (xtokenize v' = Ret ks') in E'. change (e_ascii (senv dir_math)) with (fun s : string => s) in C.
  rewrite forallb_forall in H1.
  set (head := fun v => match xtokenize v with Ret ks => let x := usual_name (fun s => s) ks in if Nat.leb 7 (String.length x) then Some (first_bytes 7 x) else None | _ => None end) in *.
  specialize (H1 (head v) (in_map head _ _ Hv)). unfold head in H1 at 1. rewrite E in H1. cbv zeta in H1.
  destruct (Nat.leb 7 (String.length (usual_name (fun s => s) ks))) eqn:L; [|discriminate H1]. apply Nat.leb_le in L.
  apply negb_true_iff in H1. rewrite <- not_true_iff_false in H1. apply H1. apply existsb_exists. exists (head v').
  split; [exact (in_map head _ _ Hv')|]. unfold head. rewrite E'. cbv zeta.
  destruct (Nat.leb 7 (String.length (usual_name (fun s => s) ks'))) eqn:L'; [|reflexivity]. apply Nat.leb_le in L'. apply String.eqb_eq.
  rewrite <- (first_numbered _ j L), C. apply first_numbered. exact L'.
Qed.

Lemma unit_chinese w z : In (w, z) cn_units -> chinese [w] z.
Proof. intros H. right. do 4 apply cs_up. apply ct_unit. exact H. Qed.
(** 2 + 3 * 4 *)
Definition zm_text : string := "二 加 三 乘 四".
Lemma zm_chain : cn_chain (map tok_text (content (word_doc zm_text))) 2 [(Plus, 3); (Times, 4)]%Z.
Proof.
  change (map tok_text (content (word_doc zm_text))) with (["二"%string] ++ "加"%string :: ["三"%string] ++ "乘"%string :: ["四"%string]).
  apply cc_more; [apply unit_chinese; vm_compute; tauto|vm_compute; tauto|].
  apply cc_more; [apply unit_chinese; vm_compute; tauto|vm_compute; tauto|].
  apply cc_one, unit_chinese; vm_compute; tauto.
Qed.
(** 20000 + 305 + 12 *)
Definition zm_sum : string := "二 万 加 三 百 零 五 加 十 二".
Lemma zm_sum_chain : cn_chain (map tok_text (content (word_doc zm_sum))) 20000 [(Plus, 305); (Plus, 12)]%Z.
Proof.
  change (map tok_text (content (word_doc zm_sum))) with ((["二"%string] ++ ["万"%string]) ++ "加"%string :: ["三"; "百"; "零"; "五"]%string ++ "加"%string :: ["十"; "二"]%string).
  apply cc_more; [|vm_compute; tauto|].
  - right. apply cs_up. apply (cs_exact cn_thousands cn_thousands ["万"%string] 10000 ["二"%string] 2); [|left; reflexivity]. do 2 apply cs_up. apply ct_unit. vm_compute. tauto.
  - apply cc_more; [|vm_compute; tauto|].
    + right. do 3 apply cs_up. apply (cs_gap one_unit cn_tens hundred_words 100 ["三"%string] 3 "百" "零" ["五"%string] 5); [constructor; vm_compute; tauto|left; reflexivity|left; reflexivity| |lia].
      apply ct_unit. vm_compute. tauto.
    + apply cc_one. right. do 4 apply cs_up. apply (ct_teen "十" "二" 2); [left; reflexivity|vm_compute; tauto].
Qed.
Definition zm_less : string := "十 减 十 二".
Lemma zm_less_chain : cn_chain (map tok_text (content (word_doc zm_less))) 10 [(Minus, 12)]%Z.
Proof.
  change (map tok_text (content (word_doc zm_less))) with (["十"%string] ++ "减"%string :: ["十"; "二"]%string).
  apply cc_more; [|vm_compute; tauto|apply cc_one]; right; do 4 apply cs_up; [apply ct_ten; left; reflexivity|apply (ct_teen "十" "二" 2); [left; reflexivity|vm_compute; tauto]].
Qed.
