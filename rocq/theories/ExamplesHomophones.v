(** Loading two of the shipped grammars with names that clash between files. *)
From Coq Require Import Permutation Ascii.
From Verif Require Import Base ModelTypes ModelText ModelEarley ModelTrees ModelApi ModelSem ModelFuncs ModelReader ModelGrammar ModelLocal ModelMatch
  SpecNotation SpecRefine SpecConstruct SpecLocal SpecMath ModelShipped SpecShipped
  Examples ExamplesSem ExamplesLocal ExamplesMath ExamplesGrammar ExamplesShipped ExamplesArith.
Local Open Scope list_scope.

Definition henv (l : list (string * string)) (tokenize : string -> res (list token)) (ascii : string -> string)
    (ord : grammar_rules -> grammar_rules) : env :=
  mkEnv (fun _ => false) (fun _ => false) (fun _ => Ret (BigF 1 (-1))) (fun _ => true) (fun _ => "0123456789abcdef0123"%string)
        xhash (fun _ => true) tokenize ascii (xread (map (fun nt => ("d/" ++ fst nt, snd nt)%string) l))
        (fun _ => Ret "d"%string) (fun d p => (d ++ "/" ++ p)%string) ord.

(** Transliterations: 千, 仟 (a thousand) and 前 (before) are all pronounced qian. *)
Definition pinyin (s : string) : string := if existsb (String.eqb s) ["千"; "仟"; "前"]%string then "Qian"%string else s.
(** A tokenizer for which the signs in the list are punctuation *)
Definition sign_tokenize (s : string) : res (list token) :=
  if existsb (String.eqb s) ["-"; "*"; "/"; "("; ")"]%string then Ret [mkTok s KPunct 0 0 0 s s s] else xtokenize s.
(** An order of maps in which MulExp comes first *)
Definition mul_first (m : grammar_rules) : grammar_rules :=
  filter (fun xr => String.eqb (fst xr) "MulExp") m ++ filter (fun xr => negb (String.eqb (fst xr) "MulExp")) m.

Lemma mul_first_ok : is_rule_order mul_first.
Proof.
  intros m. destruct (reordered_refl (mul_first m)) as (m1 & H1 & H2). exists m1. split; [|exact H2].
  eapply Permutation_trans; [|exact H1]. unfold mul_first. clear. induction m as [|xr m IH]; [constructor|].
  cbn [filter]. destruct (String.eqb (fst xr) "MulExp"); cbn [negb app].
  - constructor. exact IH.
  - apply Permutation_cons_app. exact IH.
Qed.
Lemma henv_ok l tokenize ascii ord : (forall t, calm (tokenize t)) -> is_rule_order ord -> env_ok (henv l tokenize ascii ord).
Proof.
  intros Ht Ho. split; [intros r _; split; discriminate|]. cbn [henv e_scan e_md5 e_tokenize e_read e_abs e_ord].
  split; [intros t; split; discriminate|]. split; [intros t; cbn; lia|]. split; [exact Ht|].
  split; [intros f; unfold xread; destruct (lookup _ f); split; discriminate|].
  split; [intros f; split; discriminate|exact Ho].
Qed.
Lemma henv_installed l tokenize ascii ord : In l shipped -> installed (henv l tokenize ascii ord) "d" l.
Proof. intros H. exact (senv_installed l H). Qed.
Lemma x_calm t : calm (xtokenize t).
Proof. split; discriminate. Qed.
Lemma sign_calm t : calm (sign_tokenize t).
Proof. unfold sign_tokenize. destruct (existsb _ _); [split; discriminate|apply x_calm]. Qed.

(** The formulas of EarleyParse for a text of the given words, without blanks between them *)
Definition glued (l : list string) : document := mkDoc (String.concat "" l) (placed 0 0 l) [].
Definition formulas (r : res (option grammar * world)) (l : list string) (start : string) : option (list string) :=
  match r with
  | Ret (Some g, w) =>
      let annotate := fun _ _ : string => Ret (glued l) in
      match EarleyParse (terminal_match (lookup (w_tokens w)) (fun s => s)) (fun _ => id_ord) (all_rules g) (doc_tokens annotate)
              (doc_local ExamplesGrammar.xhash xfind xspan_text [] xorde annotate "" "x") 400 "" (String.concat "" l) [start] with
      | Ret p => Some (concat (map (map fst) (tree_texts p)))
      | _ => None
      end
  | _ => None
  end.
Definition time_loaded (ascii : string -> string) := from_file (henv dir_grammars xtokenize ascii keep) 4000 9 "d/time.grammar" [].
Definition math_loaded (ord : grammar_rules -> grammar_rules) := from_file (henv dir_math sign_tokenize (fun s => s) ord) 4000 9 "d/math.grammar" [].
