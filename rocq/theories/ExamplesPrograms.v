(** Runs of the programs examples/math and examples/builtin. *)
From Coq Require Import Permutation.
From Verif Require Import Base ModelTypes ModelText ModelEarley ModelTrees ModelApi ModelQuote ModelSem ModelMath ModelFuncs ModelPrint ModelReader ModelGrammar ModelMatch ModelLocal ModelProgram ModelExamples
     SpecTypes SpecGrammar SpecTree SpecNotation SpecRefine SpecConstruct SpecSem SpecNode SpecApi SpecLocal SpecFuncs SpecEnd SpecMeaning SpecText
     ModelShipped SpecShipped ProofLocal ProofProgram Examples ExamplesSem ExamplesMath ExamplesGrammar ExamplesShipped ExamplesLocal ExamplesArith
     SpecArith SpecProgram SpecExamples.
Local Open Scope list_scope.

(** A machine that answers with the number of scripts it has seen, has an error on
    formulas of more than 29 bytes and panics on those of more than 60 bytes. *)
Definition js_run (m : nat) (s : string) : option (bool * string * nat) :=
  if Nat.ltb 60 (String.length s) then None
  else Some (negb (Nat.ltb 29 (String.length s)), dec_N (N.of_nat m), S m).
Definition math_run (ev : bool) (input : string) (ie : input_end) : io nat :=
  math_program nat js_run 0 (fun s => s) (fun _ _ => id_ord) ExamplesGrammar.xhash xfind xspan_text (fun _ => xorde) word_annotate
    (String.concat " ") (fun _ => ""%string) (fun _ => ""%string) (fun _ => true) (Call xmath) "number" ev 400 20
    arith_loaded (Ret "the script"%string) (Ret (input, ie)).
Definition builtin_run (input : string) (ie : input_end) : io unit :=
  builtin_program nat js_run 0 (fun s => s) (fun _ _ => id_ord) ExamplesGrammar.xhash xfind xspan_text (fun _ => xorde) word_annotate
    (String.concat " ") (fun _ => ""%string) (fun _ => ""%string) (fun _ => true) (Call xmath) "number" "oops" 400 20
    arith_loaded (Ret "the script"%string) (Ret (input, ie)).

Definition programs_input : string := ("one plus two" ++ newline ++ "hello minus three minus one foo ten" ++ newline ++ newline ++ "four")%string.
Lemma programs_lines l : line_of l programs_input -> trim_space l <> ""%string ->
  line_fits (senv dir_arithmetic) (g_regexps arith_grammar) xfind word_annotate l \/ line_refused word_annotate l.
Proof.
  intros H Ht. left. assert (K : readable_line (senv dir_arithmetic) xfind word_annotate l).
  { assert (K : forall l, content (word_doc (trim_space l)) <> [] -> doc_ok_b (word_doc (trim_space l)) = true ->
              separates_b ExamplesGrammar.xhash (additions xfind xspan_text [] xorde (word_doc (trim_space l))) = true ->
              readable_line (senv dir_arithmetic) xfind word_annotate l).
    { intros l0 H1 H2 H3. exists (word_doc (trim_space l0)). split; [reflexivity|]. exact (word_fit _ H1 H2 H3). }
    apply line_of_first in H. destruct H as (l' & rest & E & H). vm_compute in E. injection E as <- <-.
    destruct H as [->|H]; [apply K; [discriminate|vm_compute; reflexivity|vm_compute; reflexivity]|].
    apply line_of_first in H. destruct H as (l' & rest & E & H). vm_compute in E. injection E as <- <-.
    destruct H as [->|H]; [apply K; [discriminate|vm_compute; reflexivity|vm_compute; reflexivity]|].
    apply line_of_first in H. destruct H as (l' & rest & E & H). vm_compute in E. injection E as <- <-.
    destruct H as [->|H]; [contradiction Ht; vm_compute; reflexivity|].
    apply line_of_first in H. destruct H as (l' & rest & E & H). vm_compute in E. discriminate E. }
  destruct K as (d & K1 & K2 & _). exists d. split; [exact K1|exact K2].
Qed.
