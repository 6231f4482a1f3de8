(** Concrete grammars and functions for the examples of PropFuncs.v. *)
From Verif Require Import Base ModelTypes ModelText ModelEarley ModelTrees ModelApi ModelQuote ModelSem ModelReader ModelGrammar
     ModelLocal ModelMatch ModelFuncs
     SpecTypes SpecGrammar SpecTree SpecApi SpecSem SpecNode SpecLocal SpecFuncs Examples ExamplesSem ExamplesNode ExamplesLocal.

(** the two built-in functions, and void without results *)
Definition xshow (v : dval) : string := match v with DStr s => s | _ => "?" end.
Definition xrcall (fn : string) (vs : list dval) : res (list dval) :=
  if String.eqb fn "fmr.list" then Ret [fmr_list vs]
  else if String.eqb fn "fmr.entity" then Ret [fmr_entity xshow vs]
  else if String.eqb fn "void" then Ret [] else Err.
Lemma xrcall_registered : registered xshow xrcall.
Proof. repeat split. Qed.

(** s = (list<n>); n = "1" { void($0) } | "2" *)
Definition g_numbers : list grammar_rules :=
  [[ xrule "s" [[xL1 "n"]];
     ("n", mkRule "n" [(0%N, mkRb [xT "1"] (Some (FMR "void" [ix 0]))); (1%N, mkRb [xT "2"] None)]) ]].
Definition list_nodes (r : res (list (parse_t * node))) : option (list (list (res string * res dval))) :=
  match r with
  | Ret l => Some (map (fun q =>
      map (fun m => (semantic (fst q) cat (fun _ => "") (fun _ => "") (fun _ => true) (Call xrcall) m,
                     eval (fst q) cat (fun _ => "") (Call xrcall) m))
          (filter (fun m => match t_type (s_term (n_value m)) with TList => true | _ => false end) (preorder (snd q)))) l)
  | _ => None
  end.

(** s = <amount>, on the tagged document: the meanings of all nodes for the rule amount *)
Definition g_amount : list grammar_rules := [[ xrule "s" [[xN "amount"]] ]].
Definition amounts : option (list (res string * res dval)) :=
  match local_grammar xhash xfind xspan_text xregexps xorde foo_doc with
  | Ret l =>
      match EarleyParseAll (terminal_match xgtokens xlower) (fun _ => id_ord) g_amount (doc_tokens foo_annotate)
          (doc_local xhash xfind xspan_text xregexps xorde foo_annotate "" "foo 12 foo,") 200 "" "foo 12 foo," ["s"] with
      | Ret ps =>
          match extract_parses 200 ps with
          | Ret l => Some (flat_map (fun q =>
              map (fun m => (semantic (fst q) cat (fun _ => "") (fun _ => "") (fun _ => true) (Call xrcall) m,
                             eval (fst q) cat (fun _ => "") (Call xrcall) m))
                (filter (fun m => String.eqb (label m) "amount") (preorder (snd q)))) l)
          | _ => None
          end
      | _ => None
      end
  | _ => None
  end.
