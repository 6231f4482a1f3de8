(** Texts of number words, and runs of number.en.grammar. *)
From Coq Require Import Permutation.
From Verif Require Import Base ModelTypes ModelText ModelEarley ModelTrees ModelApi ModelQuote ModelSem ModelFuncs ModelPrint ModelReader ModelGrammar ModelLocal ModelMatch
  SpecTypes SpecGrammar SpecNotation SpecRefine SpecConstruct SpecApi SpecLocal SpecSem SpecFuncs SpecEnd SpecMath SpecMeaning ModelShipped SpecShipped
  ProofLocal Examples ExamplesSem ExamplesLocal ExamplesMath ExamplesGrammar ExamplesShipped ExamplesArith SpecArith SpecWorth SpecEnglish.

Definition en_loaded : res (option grammar * world) := Eval vm_compute in from_file (senv dir_math) 4000 9 "d/number.en.grammar" [].
Definition en_grammar : grammar :=
  Eval vm_compute in match en_loaded with Ret (Some g, _) => g | _ => mkGrammar "" [] [] [] false [] [] [] [] end.
Definition en_world : world := Eval vm_compute in match en_loaded with Ret (_, w) => w | _ => mkW [] [] end.
Lemma en_load : from_file (senv dir_math) 4000 9 (e_join (senv dir_math) "d" "number.en.grammar") [] = Ret (Some en_grammar, en_world).
Proof. vm_compute. reflexivity. Qed.
Definition en_parses (text : string) : res (list parse_t) :=
  EarleyParseMaxAll (terminal_match (lookup (w_tokens en_world)) (fun s => s)) (fun _ => id_ord) (all_rules en_grammar) (doc_tokens word_annotate)
    (doc_local ExamplesGrammar.xhash xfind xspan_text (g_regexps en_grammar) xorde word_annotate "" text) 400 400 "" text ["number"%string].
Definition en_texts (text : string) : option (list (list (list (string * string)))) :=
  match en_parses text with Ret ps => Some (map tree_texts ps) | _ => None end.

Lemma senv_words_are_tokens l : words_are_tokens (e_tokenize (senv l)) number_words.
Proof.
  assert (K : Forall (fun w => exists ks k, xtokenize w = Ret ks /\ filter (fun k => negb (is_space_token k)) ks = [k] /\ tok_text k = w) number_words).
  { repeat (constructor; [eexists; eexists; split; [vm_compute; reflexivity|]; split; [vm_compute; reflexivity|reflexivity]|]). constructor. }
  intros w Hw. rewrite Forall_forall in K. exact (K w Hw).
Qed.
Lemma senv_english_hashes l name bs : In (name, bs) english_rules -> NoDup (map (e_hash (senv l)) bs).
Proof.
  change (In (name, bs) english_rules -> NoDup (map xhash bs)). revert name bs.
  assert (K : forall L : list N, (if list_eq_dec N.eq_dec (nodup N.eq_dec L) L then true else false) = true -> NoDup L).
  { intros L H. destruct (list_eq_dec N.eq_dec (nodup N.eq_dec L) L) as [E|]; [|discriminate]. rewrite <- E. apply NoDup_nodup. }
  assert (H : forallb (fun r => let L := map xhash (snd r) in if list_eq_dec N.eq_dec (nodup N.eq_dec L) L then true else false) english_rules = true)
    by (vm_compute; reflexivity).
  intros name bs Hin. rewrite forallb_forall in H. apply K. exact (H _ Hin).
Qed.
Lemma en_installed : installed (senv dir_math) "d" dir_math.
Proof. apply senv_installed. cbn. tauto. Qed.
Lemma word_untagged text x : ~ tagged (word_doc text) x.
Proof. intros (sp & m & e & [] & _). Qed.

(** 956,001,002 *)
Definition en_text : string := "nine hundred and fifty - six million one thousand two".
Lemma en_english : english (map tok_text (content (word_doc en_text))) 956001002.
Proof.
  change (map tok_text (content (word_doc en_text))) with ["nine"; "hundred"; "and"; "fifty"; "-"; "six"; "million"; "one"; "thousand"; "two"]%string.
  right. apply gr_skip, gr_skip.
  apply (gr_both "million" 1000000 [("thousand"%string, 1000%Z)] ["nine"; "hundred"; "and"; "fifty"; "-"; "six"]%string 956 [] ["one"; "thousand"; "two"]%string 1002).
  - apply (bt_both "nine" 9 ["and"%string] ["fifty"; "-"; "six"]%string 56); [vm_compute; tauto|discriminate|right; reflexivity|].
    apply (bh_hyphen "fifty" 50 "six" 6); [vm_compute; tauto|vm_compute; tauto|discriminate].
  - left. reflexivity.
  - apply (gr_both "thousand" 1000 [] ["one"%string] 1 [] ["two"%string] 2).
    + apply bt_small, bh_unit; [vm_compute; tauto|discriminate].
    + left. reflexivity.
    + apply gr_last, bt_small, bh_unit; [vm_compute; tauto|discriminate].
Qed.
