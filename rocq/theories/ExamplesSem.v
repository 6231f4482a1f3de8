(** Concrete grammars with semantic functions, for the examples of PropSem.v. *)
From Verif Require Import Base ModelTypes ModelText ModelEarley ModelTrees ModelApi ModelQuote ModelSem
     SpecTypes SpecGrammar SpecTree SpecApi SpecSem ProofSem Examples.

(** The positions (and for nodes without children, the panics) of all nodes of
    the trees of a parse, in preorder. *)
Fixpoint preorder (n : node) : list node :=
  match n with Node v ch => n :: flat_map preorder ch end.
Definition positions (r : res parse_t) : option (list (list (string * res (nat * nat)))) :=
  match r with
  | Ret p =>
      match extract_parses 200 [p] with
      | Ret l => Some (map (fun q => map (fun m => (t_value (s_term (n_value m)), node_pos p m)) (preorder (snd q))) l)
      | _ => None
      end
  | _ => None
  end.
(** s = <x> (list<q>{0,3}) <y> (list<q>{0,3}); the list is empty twice: inside and at the end *)
Definition g_tail : list grammar_rules :=
  [[ xrule "s" [[xN "x"; xL "q" 0 3; xN "y"; xL "q" 0 3]];
     xrule "q" [[xT "q"]]; xrule "x" [[xT "x"]]; xrule "y" [[xT "y"]] ]].

Definition one_word (w : string) : string -> string -> res (list token) := fun _ _ => Ret (xtoks [w]).
Definition g_word : list grammar_rules := [[ xrule "s" [[xT "ab"]] ]].
Definition texts (r : res (list (parse_t * node))) : option (list (res string)) :=
  match r with Ret l => Some (map (fun q => original_text (fst q) (snd q)) l) | _ => None end.

(** e = <e> <p> <e> { add($1, neg($3), "x", 7, $0) } | <n> { nf.I($1) }; n = "1" | "2" { num($0) }; p = "+" *)
Definition ix (k : Z) : arg := Arg "index" (VIdx k).
Definition g_sem : list grammar_rules :=
  [[ ("e", mkRule "e" [(0%N, mkRb [xN "e"; xN "p"; xN "e"]
        (Some (FMR "add" [ix 1; Arg "func" (VFunc (FMR "neg" [ix 3])); Arg "string" (VStr "x"); Arg "int" (VInt 7); ix 0])));
       (1%N, mkRb [xN "n"] (Some (FMR "nf.I" [ix 1])))]);
     ("n", mkRule "n" [(0%N, mkRb [xT "1"] None); (1%N, mkRb [xT "2"] (Some (FMR "num" [ix 0])))]);
     xrule "p" [[xT "+"]] ]].
Fixpoint cat (l : list string) : string := match l with [] => "" | s :: l' => (s ++ cat l')%string end.
Definition meanings (r : res (list (parse_t * node))) : option (list (res string)) :=
  match r with
  | Ret l => Some (map (fun q => semantic (fst q) cat (fun _ => "") (fun _ => "") (fun _ => true) (fun _ _ => Err) (snd q)) l)
  | _ => None
  end.

Fixpoint fun_ok_b (n : nat) (f : fmr) : bool :=
  match f with
  | FMR fn args =>
      (negb (String.eqb fn "nf.I") || Nat.eqb (length args) 1)
      && forallb (fun a => match a with
           | Arg ty v =>
               match v with
               | VStr _ => String.eqb ty "string"
               | VInt _ => String.eqb ty "int"
               | VFloat _ => String.eqb ty "float"
               | VIdx i => String.eqb ty "index" && (Z.leb 0 i && Z.leb i (Z.of_nat n))
               | VFunc g => String.eqb ty "func" && fun_ok_b n g
               | _ => false
               end
           end) args
  end.
Lemma fun_ok_b_ok n : forall f, fun_ok_b n f = true -> fun_ok n f.
Proof.
  intros f. induction f as [fn args IH] using ProofEqual.fmr_ind'. intros H. cbn [fun_ok_b] in H.
  apply andb_prop in H. destruct H as [H1 H2]. constructor.
  - intros ->. simpl in H1. apply Nat.eqb_eq. exact H1.
  - rewrite forallb_forall in H2. rewrite Forall_forall in *. intros [ty v] Hin. specialize (H2 _ Hin). specialize (IH _ Hin).
    destruct v; try discriminate.
    + apply String.eqb_eq in H2. subst. constructor.
    + apply String.eqb_eq in H2. subst. constructor.
    + apply String.eqb_eq in H2. subst. constructor.
    + apply andb_prop in H2. destruct H2 as [H2 H3]. apply String.eqb_eq in H2. subst. constructor.
      apply andb_prop in H3. lia.
    + apply andb_prop in H2. destruct H2 as [H2 H3]. apply String.eqb_eq in H2. subst. constructor. apply IH. exact H3.
Qed.
Definition fits_b (gs : list grammar_rules) : bool :=
  forallb (fun b => match rb_f b with None => true | Some f => fun_ok_b (length (rb_terms b)) f end) (all_bodies gs).
Lemma fits_b_ok gs : fits_b gs = true -> functions_fit gs.
Proof.
  intros H x b f Hb Hf. unfold fits_b in H. rewrite forallb_forall in H. specialize (H b (has_body_in _ _ _ Hb)).
  rewrite Hf in H. apply fun_ok_b_ok. exact H.
Qed.
Lemma fits_no_contexts gs : functions_fit gs -> no_contexts gs.
Proof. intros H x b f Hb Hf. eapply fun_ok_no_context. eapply H; eauto. Qed.

(** An index out of range makes Semantic fail: s = "x" { f($3) } *)
Definition g_badindex : list grammar_rules :=
  [[ ("s", mkRule "s" [(0%N, mkRb [xT "x"] (Some (FMR "f" [ix 3])))]) ]].

(** a function table: add, neg and num build texts, everything else fails *)
Fixpoint show_all (l : list dval) : string :=
  match l with [] => "" | DStr s :: l' => (s ++ ";" ++ show_all l')%string | _ :: l' => show_all l' end.
Definition xcall (fn : string) (vs : list dval) : res dval :=
  if String.eqb fn "add" || String.eqb fn "neg" || String.eqb fn "num" then Ret (DStr (fn ++ "[" ++ show_all vs ++ "]")%string)
  else Err.
Definition values (call : string -> list dval -> res dval) (r : res (list (parse_t * node))) : option (list (res dval)) :=
  match r with
  | Ret l => Some (map (fun q => eval (fst q) cat (fun _ => "") call (snd q)) l)
  | _ => None
  end.
Definition tparse (gs : list grammar_rules) (text : string) (ws starts : list string) : res parse_t :=
  earley_parse_n xmatch (fun _ => id_ord) gs text 200 0 true (xtoks ws) starts.

(** A constituent covering no token at the end of the input makes Eval panic:
    s = <x> (list<q>{0,3}) { add($1, $2) } on "x" with q's rule evaluated by its text *)
Definition g_evtail : list grammar_rules :=
  [[ ("s", mkRule "s" [(0%N, mkRb [xN "x"; xN "o"] (Some (FMR "add" [ix 1; ix 2])))]);
     xrule "o" [[xL "q" 0 3]]; xrule "q" [[xT "q"]]; xrule "x" [[xT "x"]] ]].
