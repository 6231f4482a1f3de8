(** Examples for formulas. *)
From Coq Require Import Ascii.
From Verif Require Import Base ModelTypes ModelText ModelEarley ModelTrees ModelApi ModelQuote ModelSem SpecGrammar SpecTree SpecSem
  ProofQuote ProofSem ProofSemMain ProofFormula ProofFormulaJs SpecApi SpecFormula Examples ExamplesSem.
Local Open Scope list_scope.

(** printable above U+00FF: everything but a few *)
Definition xprint (r : rune) : bool := negb ((r =? 8232) || (r =? 8233) || (r =? 917505))%Z.
(** objects with one text *)
Definition xjson (v : dval) : string := ("{" ++ quote xprint (match v with DStr s => s | _ => "" end) ++ "}")%string.
Lemma xjson_ok : json_objects xjson.
Proof.
  split; [intros v; eexists; reflexivity|]. intros v w a b E. unfold xjson in *.
  rewrite !ProofQuote.append_assoc in E. apply (append_inj_l "{") in E.
  apply quote_inj in E. destruct E as [-> E]. injection E as ->. split; reflexivity.
Qed.
Definition xfloat (_ : ModelTypes.bigf) : string := "1.5"%string.
Lemma xfloat_ok x : xfloat x <> ""%string /\ plain_text (xfloat x).
Proof. split; [discriminate|]. intros c H K. vm_compute in H, K. intuition congruence. Qed.

Definition special_b (c : ascii) : bool := existsb (Ascii.eqb c) ["("; ")"; ","; "034"; "{"]%char.
Definition plain_b (s : string) : bool := forallb (fun c => negb (special_b c)) (list_ascii_of_string s).
Lemma plain_b_ok s : plain_b s = true -> plain_text s.
Proof.
  intros H c Hc K. unfold plain_b in H. rewrite forallb_forall in H. specialize (H c Hc). apply negb_true_iff in H.
  unfold special_b in H. assert (existsb (Ascii.eqb c) ["("; ")"; ","; "034"; "{"]%char = true); [|congruence].
  apply existsb_exists. exists c. split; [exact K|apply Ascii.eqb_refl].
Qed.
Fixpoint names_b (f : fmr) : bool :=
  match f with FMR fn args => plain_b fn && forallb (fun a => match a with Arg _ (VFunc g) => names_b g | _ => true end) args end.
Lemma names_b_ok f x : fun_name f x -> names_b f = true -> plain_text x.
Proof.
  induction 1 as [fn args|fn args f x Hin _ IH]; intros H; cbn [names_b] in H; apply andb_true_iff in H; destruct H as [H1 H2].
  - apply plain_b_ok. exact H1.
  - rewrite forallb_forall in H2. apply IH. exact (H2 _ Hin).
Qed.
Definition plain_functions_b (gs : list grammar_rules) : bool :=
  forallb (fun b => match rb_f b with None => true | Some f => names_b f end) (all_bodies gs).
Lemma plain_functions_b_ok gs : plain_functions_b gs = true -> plain_functions gs.
Proof.
  intros H f y (x & b & Hb & Hf) Hy. unfold plain_functions_b in H. rewrite forallb_forall in H. specialize (H b (has_body_in _ _ _ Hb)).
  rewrite Hf in H. eapply names_b_ok; eassumption.
Qed.

(** the formula of the only tree of "1+2" *)
Definition xformula : formula :=
  F_call "add" [F_text "1"; F_call "neg" [F_call "num" [F_text "2"]]; F_text "x"; F_number "7"; F_text "1+2"].
Definition xmeanings (r : res (list (parse_t * node))) : option (list (res string)) :=
  match r with
  | Ret l => Some (map (fun q => semantic (fst q) cat xfloat xjson xprint (fun _ _ => Err) (snd q)) l)
  | _ => None
  end.
Lemma xformula_plain : plain xjson xformula.
Proof.
  unfold xformula. repeat first [apply p_text | apply p_number; [discriminate|apply plain_b_ok; reflexivity]
    | apply p_call; [apply plain_b_ok; reflexivity|] | apply Forall_cons | apply Forall_nil].
Qed.
