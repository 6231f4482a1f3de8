(** Texts of numerals and operations, and runs of math.en.grammar. *)
From Coq Require Import Permutation.
From Verif Require Import Base ModelTypes ModelText ModelEarley ModelTrees ModelApi ModelQuote ModelSem ModelFuncs ModelPrint ModelReader ModelGrammar ModelLocal ModelMatch
  SpecTypes SpecGrammar SpecNotation SpecRefine SpecConstruct SpecApi SpecLocal SpecSem SpecFuncs SpecEnd SpecMath SpecMeaning ModelShipped SpecShipped SpecNames
  ProofLocal ProofConstruct ProofShipped ProofNames ProofEnglish ProofWordArithCalls Examples ExamplesSem ExamplesLocal ExamplesMath ExamplesGrammar ExamplesShipped ExamplesArith ExamplesEnglish ExamplesNames
  SpecArith SpecWorth SpecEnglish SpecWordArith.
Local Open Scope list_scope.

Definition ma_parses (text : string) : res (list parse_t) :=
  EarleyParseMaxAll (terminal_match (lookup (w_tokens ma_world)) (fun s => s)) (fun _ => id_ord) (all_rules ma_grammar) (doc_tokens word_annotate)
    (doc_local ExamplesGrammar.xhash xfind xspan_text (g_regexps ma_grammar) xorde word_annotate "" text) 400 400 "" text ["number"%string].
Definition ma_texts (text : string) : option (list (list (list (string * string)))) :=
  match ma_parses text with Ret ps => Some (map tree_texts ps) | _ => None end.

Lemma senv_sum_words l : words_are_tokens (e_tokenize (senv l)) sum_words.
Proof.
  intros w Hw. apply in_app_iff in Hw as [Hw|Hw]; [exact (senv_words_are_tokens l w Hw)|].
  destruct Hw as [<-|[<-|[<-|[]]]]; (eexists; eexists; split; [vm_compute; reflexivity|]; split; [vm_compute; reflexivity|reflexivity]).
Qed.
Definition foreign_check (v : string) : bool :=
  match xtokenize v with Ret ks => existsb (fun k => negb (is_space_token k) && negb (existsb (String.eqb (tok_text k)) sum_words)) ks | _ => false end.
Lemma senv_foreign l v : In v other_texts -> foreign (e_tokenize (senv l)) sum_words v.
Proof.
  change (In v other_texts -> foreign xtokenize sum_words v).
  assert (K : forallb foreign_check other_texts = true) by (vm_compute; reflexivity).
  intros Hv. rewrite forallb_forall in K. specialize (K v Hv). unfold foreign_check in K. destruct (xtokenize v) as [ks| | |] eqn:E; try discriminate K.
  apply existsb_exists in K as (k & Hk & K). apply andb_true_iff in K as [K1 K2]. apply negb_true_iff in K1, K2.
  exists ks, k. split; [exact E|]. split; [exact Hk|]. split; [exact K1|]. apply not_mem. exact K2.
Qed.

Definition hash_list (T : string) : list (string * N) :=
  flat_map (fun it => map (fun b => (it_name it, xhash b)) (it_bodies it)) (items_of (senv dir_math) (BigF 1 (-1)) (BigF 1 (-1)) T).
Definition pair_dec (a b : string * N) : {a = b} + {a <> b}.
Proof. decide equality; [apply N.eq_dec|apply string_dec]. Defined.
Lemma nodup_flat {A B K} (f : A -> list B) (key : A -> B -> K) (l : list A) : NoDup (flat_map (fun a => map (key a) (f a)) l) ->
  forall a a' b b', In a l -> In a' l -> In b (f a) -> In b' (f a') -> key a b = key a' b' -> b = b'.
Proof.
  assert (M : forall a l0 b b', NoDup (map (key a) l0) -> In b l0 -> In b' l0 -> key a b = key a b' -> b = b').
  { intros a l0. induction l0 as [|x l0 IH]; intros b b' ND Hb Hb' E; [destruct Hb|]. cbn [map] in ND. inversion ND as [|? ? N1 N2]; subst.
    destruct Hb as [->|Hb], Hb' as [->|Hb']; [reflexivity| | |eauto].
    - exfalso. apply N1. rewrite E. apply in_map. exact Hb'.
    - exfalso. apply N1. rewrite <- E. apply in_map. exact Hb. }
  assert (D : forall (u v : list K) x, NoDup (u ++ v) -> In x u -> In x v -> False).
  { induction u as [|y u IH]; intros v x ND Hu Hv; [destruct Hu|]. cbn [app] in ND. inversion ND as [|? ? N1 N2]; subst. destruct Hu as [->|Hu]; [|eauto].
    apply N1, in_app_iff. right. exact Hv. }
  assert (T : forall u v : list K, NoDup (u ++ v) -> NoDup u /\ NoDup v).
  { induction u as [|y u IH]; intros v ND; [split; [constructor|exact ND]|]. cbn [app] in ND. inversion ND as [|? ? N1 N2]; subst. destruct (IH v N2) as [H1 H2].
    split; [constructor; [intros C; apply N1, in_app_iff; left; exact C|exact H1]|exact H2]. }
  induction l as [|x l IH]; intros ND a a' b b' Ha Ha' Hb Hb' E; [destruct Ha|]. cbn [flat_map] in ND. destruct (T _ _ ND) as [T1 T2].
  assert (I : forall a b, In a l -> In b (f a) -> In (key a b) (flat_map (fun a => map (key a) (f a)) l)).
  { intros a0 b0 H1 H2. apply in_flat_map. exists a0. split; [exact H1|]. apply in_map. exact H2. }
  destruct Ha as [->|Ha], Ha' as [->|Ha'].
  - exact (M _ _ _ _ T1 Hb Hb' E).
  - exfalso. refine (D _ _ (key a b) ND (in_map _ _ _ Hb) _). rewrite E. apply I; assumption.
  - exfalso. refine (D _ _ (key a' b') ND (in_map _ _ _ Hb') _). rewrite <- E. apply I; assumption.
  - exact (IH T2 _ _ _ _ Ha Ha' Hb Hb' E).
Qed.
Lemma hashes_checked name T : In (name, T) dir_math -> name <> rejected ->
  (if list_eq_dec pair_dec (nodup pair_dec (hash_list T)) (hash_list T) then true else false) = true -> hashes_apart (senv dir_math) T.
Proof.
  intros Hn Hr Hc x b b' A A' E.
  assert (ND : NoDup (hash_list T)) by (destruct (list_eq_dec pair_dec (nodup pair_dec (hash_list T)) (hash_list T)) as [<-|]; [apply NoDup_nodup|discriminate Hc]). clear Hc.
  destruct (shipped_alternative (senv dir_math) (senv_ok _) (BigF 1 (-1)) (BigF 1 (-1)) eq_refl eq_refl eq_refl dir_math _ _ x b math_shipped Hn Hr A) as (it & Hit & _ & N & Hb).
  destruct (shipped_alternative (senv dir_math) (senv_ok _) (BigF 1 (-1)) (BigF 1 (-1)) eq_refl eq_refl eq_refl dir_math _ _ x b' math_shipped Hn Hr A') as (it' & Hit' & _ & N' & Hb').
  unfold hash_list in ND. refine (nodup_flat it_bodies (fun it b => (it_name it, xhash b)) _ ND it it' b b' Hit Hit' Hb Hb' _).
  cbn beta. rewrite N, N'. f_equal. exact E.
Qed.
Lemma ma_hashes : hashes_apart (senv dir_math) math_math_en /\ hashes_apart (senv dir_math) math_number_en.
Proof.
  split; [apply (hashes_checked "math.en.grammar"); [exact math_file|discriminate|vm_compute; reflexivity]
         |apply (hashes_checked "number.en.grammar"); [exact number_file|discriminate|vm_compute; reflexivity]].
Qed.

Lemma unit_english w z : In (w, z) units -> z <> 0%Z -> english [w] z.
Proof. intros H Hz. right. do 4 apply gr_skip. apply gr_last, bt_small, bh_unit; assumption. Qed.
(** 2 + 3 * 4 *)
Definition ma_text : string := "two plus three times four".
Lemma ma_chain : chain (map tok_text (content (word_doc ma_text))) 2 [(Plus, 3); (Times, 4)]%Z.
Proof.
  change (map tok_text (content (word_doc ma_text))) with (["two"%string] ++ "plus"%string :: ["three"%string] ++ "times"%string :: ["four"%string]).
  apply ch_more; [apply unit_english; [vm_compute; tauto|discriminate]|vm_compute; tauto|].
  apply ch_more; [apply unit_english; [vm_compute; tauto|discriminate]|vm_compute; tauto|].
  apply ch_one, unit_english; [vm_compute; tauto|discriminate].
Qed.
(** 2000000 + 300 + 12 *)
Definition ma_sum : string := "two million plus three hundred plus twelve".
Lemma ma_sum_chain : chain (map tok_text (content (word_doc ma_sum))) 2000000 [(Plus, 300); (Plus, 12)]%Z.
Proof.
  change (map tok_text (content (word_doc ma_sum))) with ((["two"%string] ++ ["million"%string]) ++ "plus"%string :: ["three"%string; "hundred"%string] ++ "plus"%string :: ["twelve"%string]).
  apply ch_more; [|vm_compute; tauto|].
  - right. do 2 apply gr_skip. apply (gr_exact "million" 1000000 _ ["two"%string] 2). apply bt_small, bh_unit; [vm_compute; tauto|discriminate].
  - apply ch_more; [|vm_compute; tauto|].
    + right. do 4 apply gr_skip. apply gr_last. apply (bt_hundreds "three" 3); [vm_compute; tauto|discriminate].
    + apply ch_one. right. do 4 apply gr_skip. apply gr_last, bt_small, bh_teen. vm_compute. tauto.
Qed.
Definition ma_less : string := "ten minus twelve".
Lemma ma_less_chain : chain (map tok_text (content (word_doc ma_less))) 10 [(Minus, 12)]%Z.
Proof.
  change (map tok_text (content (word_doc ma_less))) with (["ten"%string] ++ "minus"%string :: ["twelve"%string]).
  apply ch_more; [|vm_compute; tauto|apply ch_one]; right; do 4 apply gr_skip; apply gr_last, bt_small, bh_teen; vm_compute; tauto.
Qed.
