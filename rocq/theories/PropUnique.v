(** C50: a grammar text has one reading. *)
From Verif Require Import Base ModelTypes ModelText ModelEarley ModelTrees ModelApi ModelReader ModelGrammar
  SpecTypes SpecGrammar SpecTree SpecNotation SpecRefine SpecConstruct SpecEnd ModelShipped SpecShipped
  ProofUnique ExamplesGrammar ExamplesShipped ExamplesArith.

(** Two readings of a text have the same include paths, the same alternatives of every
    rule and frame, and the same regular expressions. *)
Theorem C50_one_reading : forall e, env_ok e -> forall text ps its re ps' its' re',
  e_text e text ps its re -> e_text e text ps' its' re' ->
  ps = ps' /\ (forall frame x b, In b (written its frame x) <-> In b (written its' frame x)) /\
  (forall h, In h (map fst re) <-> In h (map fst re')).
Proof. exact one_reading. Qed.
Print Assumptions C50_one_reading.

(** GrammarFromFile: the grammar is that of the text of the file. *)
Theorem C50_file_text : forall e, env_ok e -> forall fuel depth file gt g w',
  from_file e fuel depth file gt = Ret (Some g, w') ->
  exists text, e_read e file = Ret text /\ exists L, e_parts e text g L /\ map rd_after L = all_rules g.
Proof. exact file_fresh. Qed.
Print Assumptions C50_file_text.

Example C50_example : env_ok (senv dir_arithmetic) /\
  from_file (senv dir_arithmetic) 4000 9 "d/arithmetic.grammar" [] = Ret (Some arith_grammar, arith_world) /\
  e_read (senv dir_arithmetic) "d/arithmetic.grammar" = Ret arithmetic_arithmetic /\
  exists ps its re, e_text (senv dir_arithmetic) arithmetic_arithmetic ps its re /\ length (written its false "number") = 30.
Proof.
  split; [apply senv_ok|]. split; [vm_compute; reflexivity|]. split; [vm_compute; reflexivity|]. exact arith_example_reading.
Qed.
