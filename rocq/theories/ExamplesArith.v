(** Documents, a machine and runs for the arithmetic example. *)
From Coq Require Import Permutation Ascii.
From Verif Require Import Base ModelTypes ModelText ModelEarley ModelTrees ModelApi ModelQuote ModelSem ModelFuncs ModelPrint ModelReader ModelGrammar ModelLocal ModelMatch ModelProgram
  SpecTypes SpecGrammar SpecNotation SpecRefine SpecConstruct SpecApi SpecLocal SpecSem SpecFuncs SpecEnd SpecMath SpecMeaning ModelShipped SpecShipped
  ProofLocal ProofArith ProofArithCalls ProofProgram Examples ExamplesSem ExamplesLocal ExamplesMath ExamplesGrammar ExamplesShipped SpecArith SpecProgram.

(** words and blanks with their positions, no spans *)
Fixpoint placed (i at_ : nat) (l : list string) : list token :=
  match l with
  | [] => []
  | s :: l' => ltok i s (if String.eqb s " " then KSpace else KWord) at_ :: placed (S i) (at_ + String.length s) l'
  end.
Definition word_doc (text : string) : document := mkDoc text (placed 0 0 (xsplit text "")) [].
Definition word_annotate (ctx text : string) : res document := Ret (word_doc text).

Lemma word_fit text : content (word_doc text) <> [] -> doc_ok_b (word_doc text) = true ->
  separates_b ExamplesGrammar.xhash (additions xfind xspan_text [] xorde (word_doc text)) = true ->
  fit_document ExamplesGrammar.xhash xfind [] (word_doc text) /\ ~ tagged (word_doc text) "number".
Proof.
  intros Hc H1 H2. assert (Hok : doc_ok (word_doc text)) by (apply doc_ok_b_ok; exact H1).
  split; [|intros (sp & m & e & [] & _)].
  split; [exact Hc|]. split; [exact Hok|]. split; [apply spans_ok_b_ok; reflexivity|].
  split; [intros sp m x items []|]. split.
  { split; [intros sp m x en []|]. intros x s en (pat & ms & a & b & k & l & [] & _). }
  split; [exact (separates_ok ExamplesGrammar.xhash xfind xspan_text [] xorde _ xorde_ok Hok H2)|].
  intros x b Hb. inversion Hb as [k y Hk Hk'|sp m y Hs|sp m y items Hs|y s en Hr]; subst.
  - inversion Hk'; subst; reflexivity.
  - destruct Hs.
  - destruct Hs.
  - destruct Hr as (pat & ms & a & b & k & l & [] & _).
Qed.

Lemma senv_words l : words_have_tokens (e_tokenize (senv l)).
Proof.
  intros w ks Hw. change (xtokenize w = Ret ks -> exists k, In k ks /\ tok_type k <> KSpace).
  intros E. assert (K : existsb (fun k => negb (is_space_token k)) ks = true).
  { injection E as <-. revert w Hw. apply Forall_forall. vm_compute. repeat constructor. }
  apply existsb_exists in K. destruct K as (k & K1 & K2). exists k. split; [exact K1|]. intros C. unfold is_space_token in K2. rewrite C in K2. discriminate.
Qed.
Lemma senv_hashes l : NoDup (map (e_hash (senv l)) bodies).
Proof.
  change (NoDup (map xhash bodies)). assert (K : forall L : list N, (if list_eq_dec N.eq_dec (nodup N.eq_dec L) L then true else false) = true -> NoDup L).
  { intros L H. destruct (list_eq_dec N.eq_dec (nodup N.eq_dec L) L) as [E|]; [|discriminate]. rewrite <- E. apply NoDup_nodup. }
  apply K. vm_compute. reflexivity.
Qed.

(** The grammar *)
Definition arith_loaded : res (option grammar * world) := Eval vm_compute in from_file (senv dir_arithmetic) 4000 9 "d/arithmetic.grammar" [].
Lemma arith_loaded_eq : from_file (senv dir_arithmetic) 4000 9 "d/arithmetic.grammar" [] = arith_loaded.
Proof. vm_compute. reflexivity. Qed.
Definition arith_grammar : grammar := 
  Eval vm_compute in match arith_loaded with Ret (Some g, _) => g | _ => mkGrammar "" [] [] [] false [] [] [] [] end.
Definition arith_world : world := match arith_loaded with Ret (_, w) => w | _ => mkW [] [] end.

(** the meanings and values of the trees of a call *)
Definition arith_parses (ord : order) (text : string) : res (list parse_t) :=
  EarleyParseMaxAll (terminal_match (lookup (w_tokens arith_world)) (fun s => s)) (fun _ => ord) (all_rules arith_grammar) (doc_tokens word_annotate)
    (doc_local ExamplesGrammar.xhash xfind xspan_text [] xorde word_annotate "" text) 400 400 "" text ["number"%string].
Definition tree_texts (p : parse_t) : list (list (string * string)) :=
  map (fun ref => match get_trees (p_columns p) 400 ref with
    | Ret ts => map (fun t =>
        (match semantic p (String.concat " ") (fun _ => ""%string) (fun _ => ""%string) (fun _ => true) (Call xmath) t with Ret s => s | _ => "?"%string end,
         match eval p (String.concat " ") (fun _ => ""%string) (Call xmath) t with Ret (DStr s) => s | _ => "?"%string end)) ts
    | _ => []
    end) (p_finals p).
Definition arith_texts (ord : order) (text : string) : option (list (list (list (string * string)))) :=
  match arith_parses ord text with Ret ps => Some (map tree_texts ps) | _ => None end.

(** A machine that answers with the number of scripts it has seen, and has no answer to
    formulas of more than 60 bytes. *)
Definition count_run (m : nat) (s : string) : res (string * nat) :=
  if Nat.ltb 60 (String.length s) then Err else Ret (dec_N (N.of_nat m), S m).
Lemma count_calm m s : calm (count_run m s).
Proof. unfold count_run. destruct (Nat.ltb 60 _); split; discriminate. Qed.
Definition program_run (input : string) (ie : input_end) : io nat :=
  main_program nat count_run 0 (fun s => s) (fun _ _ => id_ord) ExamplesGrammar.xhash xfind xspan_text (fun _ => xorde) word_annotate
    (String.concat " ") (fun _ => ""%string) (fun _ => ""%string) (fun _ => true) (Call xmath) 400 20
    arith_loaded (Ret "the script"%string) (Ret (input, ie)).

Lemma arith_load : from_file (senv dir_arithmetic) 4000 9 (e_join (senv dir_arithmetic) "d" "arithmetic.grammar") [] = Ret (Some arith_grammar, arith_world).
Proof. vm_compute. reflexivity. Qed.
Lemma arith_installed : installed (senv dir_arithmetic) "d" dir_arithmetic.
Proof. apply senv_installed. cbn. tauto. Qed.
Lemma arith_example_parts : exists L, e_parts (senv dir_arithmetic) arithmetic_arithmetic arith_grammar L /\ usable xtokenize L ["number"%string] /\
  functions_fit (map rd_before L).
Proof.
  destruct (arith_parts (senv dir_arithmetic) (senv_ok _) "d" 4000 9 [] arith_grammar arith_world arith_installed arith_load) as (q & Q1 & Q2 & Q3 & Q4 & Q5 & Q6).
  exists [q]. split; [exact Q1|]. split; [exact (arith_usable (senv dir_arithmetic) (senv_words _) q Q2 Q4 Q6)|]. exact (arith_fit [rd_before q] Q4).
Qed.
Lemma arith_example_reading : exists ps its re, e_text (senv dir_arithmetic) arithmetic_arithmetic ps its re /\ length (written its false "number") = 30.
Proof. exists [], [mkItem false "number" bodies], []. split; [apply arith_text; apply senv_ok|]. reflexivity. Qed.

Definition example_input : string := ("one plus two" ++ newline ++ "hello minus three minus one foo ten" ++ newline ++ "four")%string.
Definition example_output : string :=
  ("one plus two" ++ newline ++ newline ++
   "p0 tree number:1" ++ newline ++ "nf.math.sum(1, 2) = 1" ++ newline ++ newline ++
   "hello minus three minus one foo ten" ++ newline ++ newline ++
   "p0 tree number:2" ++ newline ++ "nf.math.sub(nf.math.neg(3), 1) = 2" ++ newline ++ "nf.math.neg(nf.math.sub(3, 1)) = 3" ++ newline ++
   "p1 tree number:1" ++ newline ++ "10 = 4" ++ newline ++ newline)%string.
Lemma line_of_first l input : line_of l input -> exists l' rest, read_line input = Some (l', rest) /\ (l = l' \/ line_of l rest).
Proof.
  intros H. inversion H as [l0 rest Hp|l0 l' rest Hp Hr]; subst.
  - exists (l0 ++ newline)%string, rest. split; [apply read_line_at; exact Hp|]. left. reflexivity.
  - exists (l' ++ newline)%string, rest. split; [apply read_line_at; exact Hp|]. right. exact Hr.
Qed.
Lemma example_lines l : line_of l example_input -> trim_space l <> ""%string -> readable_line (senv dir_arithmetic) xfind word_annotate l.
Proof.
  assert (K : forall l, content (word_doc (trim_space l)) <> [] -> doc_ok_b (word_doc (trim_space l)) = true ->
            separates_b ExamplesGrammar.xhash (additions xfind xspan_text [] xorde (word_doc (trim_space l))) = true ->
            readable_line (senv dir_arithmetic) xfind word_annotate l).
  { intros l0 H1 H2 H3. exists (word_doc (trim_space l0)). split; [reflexivity|]. exact (word_fit _ H1 H2 H3). }
  intros H _. apply line_of_first in H. destruct H as (l' & rest & E & H). vm_compute in E. injection E as <- <-.
  destruct H as [->|H]; [apply K; [discriminate|vm_compute; reflexivity|vm_compute; reflexivity]|].
  apply line_of_first in H. destruct H as (l' & rest & E & H). vm_compute in E. injection E as <- <-.
  destruct H as [->|H]; [apply K; [discriminate|vm_compute; reflexivity|vm_compute; reflexivity]|].
  apply line_of_first in H. destruct H as (l' & rest & E & H). vm_compute in E. discriminate E.
Qed.
