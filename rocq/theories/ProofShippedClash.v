(** Two shipped grammars whose files use one generated name for different texts. *)
From Verif Require Import Base ModelTypes ModelText ModelEarley ModelReader ModelGrammar
  SpecGrammar SpecNotation SpecRefine SpecConstruct SpecSem ModelShipped SpecShipped ProofShipped ProofUnique
  ExamplesGrammar ExamplesShipped ExamplesHomophones.
Local Open Scope list_scope.

(** No alternative of a rule of the files [l] with function [fn] contains the text [w]. *)
Section Check.
  Variable e : env.
  Hypothesis HE : env_ok e.
  Variables half cent : bigf.
  Hypothesis Hhalf : e_scan e "0.5" = Ret half.
  Hypothesis Hcent : e_scan e "0.01" = Ret cent.
  Hypothesis Hpat : e_regexp_ok e sf_pattern = true.
  Definition lacks (fn w : string) (b : rulebody) : bool :=
    match rb_f b with
    | Some (FMR f _) => negb (String.eqb f fn) || forallb (fun t => negb (String.eqb (t_value t) w)) (rb_terms b)
    | None => true
    end.
  Definition check (l : list (string * string)) (fn w : string) : bool :=
    forallb (fun nt => decodes (snd nt) && match parse e half cent (snd nt) with
                       | Some (_, its, _) => forallb (fun it => forallb (lacks fn w) (it_bodies it)) its
                       | None => false
                       end) l.
  Lemma check_ok l fn w : check l fn w = true -> never_written e l fn w.
  Proof using HE Hhalf Hcent Hpat.
    unfold check. rewrite forallb_forall. intros H name text ps its re x b args t Hn HT Hb Hf Ht. specialize (H _ Hn). cbn [snd] in H.
    apply andb_true_iff in H as [H1 H2]. destruct (parse e half cent text) as [[[ps' its'] re']|] eqn:P; [|discriminate].
    pose proof (parsed e HE half cent Hhalf Hcent Hpat _ _ _ _ H1 P) as HT'.
    destruct (one_reading e HE _ _ _ _ _ _ _ HT HT') as (_ & W & _). apply W in Hb. rewrite forallb_forall in H2.
    unfold written in Hb. apply in_flat_map in Hb as (it & Hit & Hb). specialize (H2 it Hit).
    destruct (Bool.eqb (it_frame it) false && String.eqb (it_name it) x); [|destruct Hb].
    rewrite forallb_forall in H2. specialize (H2 b Hb). unfold lacks in H2. rewrite Hf, String.eqb_refl in H2. cbn [negb orb] in H2.
    rewrite forallb_forall in H2. specialize (H2 t Ht). intros C. rewrite C, String.eqb_refl in H2. discriminate.
  Qed.
End Check.

Lemma homophones :
  (forall ascii, env_ok (henv dir_grammars xtokenize ascii keep) /\ installed (henv dir_grammars xtokenize ascii keep) "d" dir_grammars /\
     never_written (henv dir_grammars xtokenize ascii keep) dir_grammars "nf.sql.where" "千" /\
     never_written (henv dir_grammars xtokenize ascii keep) dir_grammars "nf.math.mul" "前") /\
  formulas (time_loaded (fun s => s)) ["三"; "千"]%string "before" = Some [] /\
  formulas (time_loaded pinyin) ["三"; "千"]%string "before" = Some ["nf.sql.where(""<"", 3)"]%string /\
  formulas (time_loaded (fun s => s)) ["三"; "前"]%string "number" = Some ["3"]%string /\
  formulas (time_loaded pinyin) ["三"; "前"]%string "number" = Some ["nf.math.mul(3, 1000)"]%string.
Proof.
  split.
  - intros ascii. assert (HE : env_ok (henv dir_grammars xtokenize ascii keep)) by (apply henv_ok; [exact x_calm|exact keep_ok]).
    split; [exact HE|]. split; [apply henv_installed; cbn; tauto|].
    split; apply (check_ok _ HE (BigF 1 (-1)) (BigF 1 (-1)) eq_refl eq_refl eq_refl); vm_compute; reflexivity.
  - do 3 (split; [vm_compute; reflexivity|]). vm_compute. reflexivity.
Qed.

Lemma signs_clash :
  (forall ord, is_rule_order ord -> env_ok (henv dir_math sign_tokenize (fun s => s) ord) /\
     installed (henv dir_math sign_tokenize (fun s => s) ord) "d" dir_math /\
     never_written (henv dir_math sign_tokenize (fun s => s) ord) dir_math "nf.math.mul" "-") /\
  is_rule_order keep /\ is_rule_order mul_first /\
  formulas (math_loaded keep) ["two"; "-"; "three"]%string "Exp" = Some ["nf.math.sub(2, 3)"]%string /\
  formulas (math_loaded mul_first) ["two"; "-"; "three"]%string "Exp" = Some ["nf.math.mul(2, 3)"; "nf.math.sub(2, 3)"]%string.
Proof.
  split.
  - intros ord Ho. assert (HE : env_ok (henv dir_math sign_tokenize (fun s => s) ord)) by (apply henv_ok; [exact sign_calm|exact Ho]).
    split; [exact HE|]. split; [apply henv_installed; cbn; tauto|].
    apply (check_ok _ HE (BigF 1 (-1)) (BigF 1 (-1)) eq_refl eq_refl eq_refl); vm_compute; reflexivity.
  - split; [exact keep_ok|]. split; [exact mul_first_ok|]. split; vm_compute; reflexivity.
Qed.
