(** Concrete grammars for the examples of PropNode.v. *)
From Verif Require Import Base ModelTypes ModelText ModelEarley ModelTrees ModelApi ModelQuote ModelSem
     SpecTypes SpecGrammar SpecTree SpecApi SpecSem SpecNode ProofSem Examples ExamplesSem.

Definition nogamma_b (gs : list grammar_rules) : bool :=
  forallb (fun t => negb (String.eqb (t_value t) GammaRule)) (all_terms gs).
Lemma nogamma_b_ok gs : nogamma_b gs = true -> no_gamma gs.
Proof.
  intros H t Ht E. unfold nogamma_b in H. rewrite forallb_forall in H. specialize (H t (occurs_in _ _ Ht)).
  rewrite E in H. discriminate.
Qed.

(** s = <n> <p> <n> { f(@) }; n = "1" | "2" { num($0) }; p = "+", and a call
    that shows the arguments of f and fails otherwise *)
Definition at_arg : arg := Arg "context" (VStr "@").
Definition g_at : list grammar_rules :=
  [[ ("s", mkRule "s" [(0%N, mkRb [xN "n"; xN "p"; xN "n"] (Some (FMR "f" [at_arg])))]);
     ("n", mkRule "n" [(0%N, mkRb [xT "1"] None); (1%N, mkRb [xT "2"] (Some (FMR "num" [ix 0])))]);
     xrule "p" [[xT "+"]] ]].
Definition show_call (fn : string) (vs : list dval) : res dval :=
  if String.eqb fn "f" then Ret (DList vs) else Err.
Lemma show_call_returns : forall fn vs, show_call fn vs <> Panic /\ show_call fn vs <> Fuel.
Proof. intros fn vs. unfold show_call. destruct (String.eqb fn "f"); split; discriminate. Qed.

Definition views (r : res (list (parse_t * node))) : option (list (res dval * res string)) :=
  match r with
  | Ret l => Some (map (fun q => (tree_value (fst q) (snd q), bracketed (fst q) (fun _ => true) (snd q))) l)
  | _ => None
  end.
Definition roots (r : res (list (parse_t * node))) : option (list (res term * res (option fmr))) :=
  match r with
  | Ret l => Some (map (fun q => (node_term (snd q), node_f (snd q))) l)
  | _ => None
  end.

(** s = "ɣ" { f(@) } *)
Definition g_gamma_word : list grammar_rules :=
  [[ ("s", mkRule "s" [(0%N, mkRb [xT GammaRule] (Some (FMR "f" [at_arg])))]) ]].
(** s = "ɣ" <n> { f(@) }; n = "1" *)
Definition g_gamma_mixed : list grammar_rules :=
  [[ ("s", mkRule "s" [(0%N, mkRb [xT GammaRule; xN "n"] (Some (FMR "f" [at_arg])))]); xrule "n" [[xT "1"]] ]].
