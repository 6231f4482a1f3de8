(** Parse, ParseAny and ExtractMaxAll with examples/arithmetic. *)
From Verif Require Import Base ModelTypes ModelText ModelEarley ModelTrees ModelApi ModelSem ModelFuncs ModelReader ModelGrammar ModelLocal
  ModelMatch SpecTypes SpecGrammar SpecConstruct SpecApi SpecLocal SpecEnd ModelShipped
  Examples ExamplesSem ExamplesLocal ExamplesMath ExamplesGrammar ExamplesShipped ExamplesArith.

(** the meanings of the trees of an outcome; None: no outcome *)
Definition easy_texts (r : res (list (parse_t * node))) : option (list string) :=
  match r with
  | Ret outs => Some (map (fun pt =>
      match semantic (fst pt) (String.concat " ") (fun _ => ""%string) (fun _ => ""%string) (fun _ => true) (Call xmath) (snd pt) with
      | Ret s => s | _ => "?"%string end) outs)
  | _ => None
  end.
Definition easy_match := terminal_match (lookup (w_tokens arith_world)) (fun s => s).
Definition easy_local (text : string) := doc_local ExamplesGrammar.xhash xfind xspan_text [] xorde word_annotate "" text.
Definition easy_parse (text : string) :=
  Parse easy_match (fun _ => id_ord) (all_rules arith_grammar) (doc_tokens word_annotate) (easy_local text) 400 "" text ["number"%string].
Definition easy_any (text : string) :=
  ParseAny easy_match (fun _ => id_ord) (all_rules arith_grammar) (doc_tokens word_annotate) (easy_local text) 400 "" text ["number"%string].
Definition easy_max (text : string) :=
  ExtractMaxAll easy_match (fun _ => id_ord) (all_rules arith_grammar) (doc_tokens word_annotate) (easy_local text) 400 400 "" text ["number"%string].

