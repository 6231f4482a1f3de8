(** Grammars and texts for the examples of PropMessages.v. *)
From Verif Require Import Base ModelTypes ModelText ModelEarley ModelTrees ModelApi ModelQuote ModelSem ModelReader ModelGrammar ModelFrames ModelLocal ModelContext ModelTermType
  SpecTypes SpecGrammar SpecTree SpecApi SpecNotation SpecRefine SpecConstruct SpecSem SpecIndex SpecFrames SpecText
  ProofEnd Examples ExamplesSem ExamplesGrammar ExamplesFrames ExamplesFrameFmr ModelMessages SpecMessages.
Local Open Scope list_scope.

(** <s> = <x> "a" {nf.f($1, $3)} | <x> "b" {nf.I($1, $2)} | <x> "c" {nf.I(nf.g($1))} | <x> "d" {nf.g(nf.f($2, 7), $9)}; <x> = "x"; *)
Definition text_says : string :=
  ("<s> = <x> " ++ quoted "a" ++ " {nf.f($1, $3)} | <x> " ++ quoted "b" ++ " {nf.I($1, $2)} | <x> " ++ quoted "c"
   ++ " {nf.I(nf.g($1))} | <x> " ++ quoted "d" ++ " {nf.g(nf.f($2, 7), $9)}; <x> = " ++ quoted "x" ++ ";")%string.
Definition g_says : grammar := the_grammar (from_string (xenv [] keep) 500 9 text_says "n" []).
(** the only function that can be called is nf.f; the others are not registered *)
Definition xcall (fn : string) (vs : list dval) : res dval := if String.eqb fn "nf.f" then Ret (DStr "f") else Err.
Definition xcall_says (fn : string) (_ : list dval) : string := ("no func " ++ fn)%string.
Definition xshow (_ : argval) : string := "?".
Definition xann_m (c t : string) : told (list token) := with_message (Theirs "tagger") (xannotate c t).
Definition xlocal_m (_ : list token) : told (option grammar_rules) := Gives None.
Definition says_parse (text : string) : told (list (parse_t * node)) :=
  ExtractMaxAll_m xmatch (fun _ => id_ord) (all_rules g_says) xann_m xlocal_m 50 400 "" text ["s"%string].
(** the messages of Eval and of Semantic on all trees *)
Definition msg {A} (r : told A) : option message := match r with Refuses m => Some m | _ => None end.
Definition says (text : string) : option (list (option message * option message)) :=

  match says_parse text with
  | Gives l => Some (map (fun q => (msg (eval_m (fst q) (join " ") (fun _ => ""%string) xcall xcall_says xshow (snd q)),
                                    msg (semantic_m (fst q) (join " ") (fun _ => ""%string) (fun _ => ""%string) (fun _ => true) xcall xshow (snd q)))) l)
  | _ => None
  end.
(** functions a grammar cannot spell: a number that is said to be a string, an unknown kind *)
Definition g_odd (a : arg) : list grammar_rules :=
  [[ ("s"%string, mkRule "s" [(0%N, mkRb [xT "x"] (Some (FMR "nf.f" [ix 1; a])))]) ]].
Definition odd_says (a : arg) : option (list (told dval)) :=
  match ExtractMaxAll_m xmatch (fun _ => id_ord) (g_odd a) xann_m xlocal_m 50 400 "" "x" ["s"%string] with
  | Gives l => Some (map (fun q => eval_m (fst q) (join " ") (fun _ => ""%string) xcall xcall_says (fun v => match v with VInt z => dec_Z z | _ => "?"%string end) (snd q)) l)
  | _ => None
  end.
(** the calls for one text and one list of start rules, without their results *)
Definition outcome {A} (r : told A) : told unit :=
  match r with Gives _ => Gives tt | Refuses m => Refuses m | Dies => Dies | Hangs => Hangs end.
Definition call_outcomes ann ctx text starts : list (told unit) :=
  [outcome (EarleyParse_m xmatch (fun _ => id_ord) (all_rules g_says) ann xlocal_m 400 ctx text starts);
   outcome (EarleyParseAny_m xmatch (fun _ => id_ord) (all_rules g_says) ann xlocal_m 400 ctx text starts);
   outcome (EarleyParseMaxAll_m xmatch (fun _ => id_ord) (all_rules g_says) ann xlocal_m 50 400 ctx text starts);
   outcome (EarleyParseAll_m xmatch (fun _ => id_ord) (all_rules g_says) ann xlocal_m 400 ctx text starts);
   outcome (Parse_m xmatch (fun _ => id_ord) (all_rules g_says) ann xlocal_m 400 ctx text starts);
   outcome (ParseAny_m xmatch (fun _ => id_ord) (all_rules g_says) ann xlocal_m 400 ctx text starts);
   outcome (ExtractMaxAll_m xmatch (fun _ => id_ord) (all_rules g_says) ann xlocal_m 50 400 ctx text starts);
   outcome (ExtractAll_m xmatch (fun _ => id_ord) (all_rules g_says) ann xlocal_m 400 ctx text starts)].
Definition all_eight (r : told unit) : list (told unit) := [r; r; r; r; r; r; r; r].
(** a tokenizer that sees spaces only *)
Definition spaces_m (_ _ : string) : told (list token) := Gives [mkTok "_" KSpace 0 1 0 "_" "_" "_"].
(** a context tagger given by a flag; its service cannot be reached *)
Definition xctx_m (flag : string) : string -> string -> told (list token) :=
  doc_tokens_m (context_annotate_m string unit (fun s => if String.eqb s "bad" then None else Some (s, ""%string)) (fun a q => (a ++ "?" ++ q)%string)
    (fun _ => None) (fun t => Ret (mkDoc t (xplaced 0 0 (xsplit t "")) [])) (fun _ t => Ret (mkDoc t [] [])) flag
    (fun s => ("parse " ++ s ++ ": invalid URI for request")%string) (fun s => ("unreachable " ++ s)%string) (fun _ => "plain"%string) (fun _ _ => "pro"%string)).
(** frames *)
Definition xframes_m (g : grammar) multi (text : string) : told frames :=
  MatchFrames_m g xkey multi (fun _ => "no text"%string) xfo xmatch (fun _ => id_ord) xann_m xlocal_m 400 "" text.
Definition xframe_fmr_m (g : grammar) (text : string) : told (list string) :=
  FrameFMR_m g xkey xmulti (fun _ => "no text"%string) xfo xmatch (fun _ => id_ord) xann_m xlocal_m
    (join " ") (fun _ => ""%string) (fun _ => ""%string) (fun _ => false) (fun _ _ => Err) xshow 400 "" text.
(** [play] = "play" <song> {nf.play($3)}; <song> = "blue"; *)
Definition text_far : string := ("[play] = " ++ quoted "play" ++ " <song> {nf.play($3)}; <song> = " ++ quoted "blue" ++ ";")%string.
Definition g_far : grammar := the_grammar (from_string (xenv [] keep) 500 9 text_far "n" []).
Definition xjson (data : string) : res string :=
  if String.prefix """" data then Ret (substring 1 (String.length data - 2) data) else Err.

Lemma multi_words trie text : forall ms w, xmulti trie text = Ret ms -> In w (map fst ms) -> In w trie.
Proof.
  intros ms w H Hw. unfold xmulti in H. injection H as <-. apply in_map_iff in Hw. destruct Hw as (wh & <- & Hw). apply filter_In in Hw.
  destruct Hw as [Hw _]. apply in_map_iff in Hw. destruct Hw as (w & <- & Hw). exact Hw.
Qed.
Lemma says_typed : typed_args (all_rules g_says).
Proof.
  assert (exists w', from_string (xenv [] keep) 500 9 text_says "n" [] = Ret (Some g_says, w')) as (w' & E) by (eexists; vm_compute; reflexivity).
  destruct (accepted (xenv [] keep) (xenv_ok _ _ keep_ok) _ _ _ _ _ _ _ E) as (_ & _ & T & _). exact T.
Qed.
