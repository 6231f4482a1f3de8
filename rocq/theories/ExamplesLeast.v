(** The rules of math.en.grammar calculate, and read "two plus three times four". *)
From Coq Require Import Permutation.
From Verif Require Import Base ModelTypes ModelText ModelEarley ModelTrees ModelApi ModelQuote ModelSem ModelFuncs ModelPrint ModelReader ModelGrammar ModelLocal ModelMatch
  SpecTypes SpecGrammar SpecNotation SpecRefine SpecConstruct SpecApi SpecLocal SpecSem SpecFuncs SpecEnd SpecMath SpecMeaning ModelShipped SpecShipped SpecNames SpecFrameText
  ProofLocal ProofConstruct ProofShipped ProofShippedMain ProofNames ProofReadings ProofEnglish ProofEnglishCalls ProofWordArithRules ProofWordArithCalls ProofWordArithLeftCalls Examples ExamplesSem ExamplesLocal ExamplesMath ExamplesGrammar ExamplesShipped ExamplesArith ExamplesEnglish ExamplesNames
  SpecArith SpecWorth SpecEnglish SpecWordArith SpecLeast ExamplesWordArith.
Local Open Scope list_scope.

Definition ma_match := terminal_match (lookup (w_tokens ma_world)) (fun s => s).
Lemma ma_calculates : exists L, e_parts (senv dir_math) math_math_en ma_grammar L /\
  usable (e_tokenize (senv dir_math)) L ["number"%string] /\ functions_fit (map rd_before L) /\
  calculates (e_tokenize (senv dir_math)) ma_match (map rd_before L) (content (word_doc ma_text)) (fun x => In x sum_counting) /\
  (forall x, In x sum_counting -> text_only xfind (g_regexps ma_grammar) (word_doc ma_text) x) /\ In "number"%string sum_counting /\
  (exists x, worth (e_tokenize (senv dir_math)) ma_match (map rd_before L) (content (word_doc ma_text)) "number" 0 (length (content (word_doc ma_text))) x).
Proof.
  exact (sum_setup (senv dir_math) (senv_ok _) (senv_fractions _) eq_refl (senv_texts _) (senv_sum_words _) (senv_foreign _) eq_refl (proj1 ma_hashes) (proj2 ma_hashes) math_en_apart
    "d"%string 4000 9 [] ma_grammar ma_world en_installed ma_load (lookup (w_tokens ma_world)) (fun s => s) xfind (word_doc ma_text)
    (fun x _ => conj (word_untagged _ x) (fun pat C => C)) _ _ ma_chain).
Qed.
