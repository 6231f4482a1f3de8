(** Texts of spoken English amounts, and runs of builtin.grammar. *)
From Coq Require Import Permutation.
From Verif Require Import Base ModelTypes ModelText ModelEarley ModelTrees ModelApi ModelQuote ModelSem ModelFuncs ModelPrint ModelReader ModelGrammar ModelLocal ModelMatch
  SpecTypes SpecGrammar SpecNotation SpecRefine SpecConstruct SpecApi SpecLocal SpecSem SpecFuncs SpecEnd SpecMath SpecMeaning ModelShipped SpecShipped
  ProofLocal Examples ExamplesSem ExamplesLocal ExamplesMath ExamplesGrammar ExamplesShipped ExamplesArith SpecArith SpecWorth SpecEnglish ExamplesEnglish SpecChinese SpecSpoken ProofSpoken.

Definition bi_loaded : res (option grammar * world) := Eval vm_compute in from_file (senv dir_builtin) 4000 9 "d/builtin.grammar" [].
Definition bi_grammar : grammar :=
  Eval vm_compute in match bi_loaded with Ret (Some g, _) => g | _ => mkGrammar "" [] [] [] false [] [] [] [] end.
Definition bi_world : world := Eval vm_compute in match bi_loaded with Ret (_, w) => w | _ => mkW [] [] end.
Lemma bi_load : from_file (senv dir_builtin) 4000 9 (e_join (senv dir_builtin) "d" "builtin.grammar") [] = Ret (Some bi_grammar, bi_world).
Proof. vm_compute. reflexivity. Qed.
Lemma bi_installed : installed (senv dir_builtin) "d" dir_builtin.
Proof. apply senv_installed. cbn. tauto. Qed.
Definition bi_parses (text : string) : res (list parse_t) :=
  EarleyParseMaxAll (terminal_match (lookup (w_tokens bi_world)) (fun s => s)) (fun _ => id_ord) (all_rules bi_grammar) (doc_tokens word_annotate)
    (doc_local ExamplesGrammar.xhash xfind xspan_text (g_regexps bi_grammar) xorde word_annotate "" text) 400 400 "" text ["number"%string].
Definition bi_texts (text : string) : option (list (list (list (string * string)))) :=
  match bi_parses text with Ret ps => Some (map tree_texts ps) | _ => None end.

Lemma senv_spoken_tokens l : words_are_tokens (e_tokenize (senv l)) b_words.
Proof.
  assert (K : Forall (fun w => exists ks k, xtokenize w = Ret ks /\ filter (fun k => negb (is_space_token k)) ks = [k] /\ tok_text k = w) b_words).
  { repeat (constructor; [eexists; eexists; split; [vm_compute; reflexivity|]; split; [vm_compute; reflexivity|reflexivity]|]). constructor. }
  intros w Hw. rewrite Forall_forall in K. exact (K w Hw).
Qed.
Lemma senv_spoken_hashes l x : NoDup (map (e_hash (senv l)) (written builtin_items false x)).
Proof.
  change (NoDup (map xhash (written builtin_items false x))).
  assert (K : forall L : list N, (if list_eq_dec N.eq_dec (nodup N.eq_dec L) L then true else false) = true -> NoDup L).
  { intros L H. destruct (list_eq_dec N.eq_dec (nodup N.eq_dec L) L) as [E|]; [|discriminate]. rewrite <- E. apply NoDup_nodup. }
  assert (H : forallb (fun x => let L := map xhash (written builtin_items false x) in if list_eq_dec N.eq_dec (nodup N.eq_dec L) L then true else false) (map fst builtin_rules) = true)
    by (vm_compute; reflexivity).
  destruct (in_dec string_dec x (map fst builtin_rules)) as [Hx|Hx]; [rewrite forallb_forall in H; apply K; exact (H _ Hx)|].
  assert (E : written builtin_items false x = []); [|rewrite E; constructor].
  unfold written, builtin_items. rewrite flat_map_concat_map, map_map.
  assert (E : forall l, (forall r, In r l -> fst r <> x) -> concat (map (fun r : string * list rulebody => if Bool.eqb false false && String.eqb (fst r) x then snd r else []) l) = []).
  { induction l0 as [|r l0 IH]; intros Hl; [reflexivity|]. cbn [map concat]. rewrite IH by (intros r' Hr'; apply Hl; right; exact Hr').
    destruct (String.eqb (fst r) x) eqn:Er; [|reflexivity]. apply String.eqb_eq in Er. destruct (Hl r (or_introl eq_refl) Er). }
  apply E. intros r Hr <-. apply Hx. apply in_map. exact Hr.
Qed.

(** two amounts, with words that are no numbers around them *)
Definition bi_text : string := "some three million two hundred thousand and fifty - six people of a dozen".
(** one amount *)
Definition bi_whole : string := "three million two hundred thousand and fifty - six".
Lemma bi_spoken : spoken ["three"; "million"; "two"; "hundred"; "thousand"; "and"; "fifty"; "-"; "six"]%string 3200056.
Proof.
  apply (sp_more ["three"; "million"]%string 3000000 [] ["two"; "hundred"; "thousand"; "and"; "fifty"; "-"; "six"]%string 200056); [right|left; reflexivity|].
  - apply (mu_one ["three"%string] 3 [] "million" 1000000); [apply co_unit; vm_compute; tauto|left; reflexivity|vm_compute; tauto].
  - apply (sp_more ["two"; "hundred"; "thousand"]%string 200000 ["and"%string] ["fifty"; "-"; "six"]%string 56); [right|right; reflexivity|].
    + apply (mu_more ["two"; "hundred"]%string 200 "thousand" 1000); [|vm_compute; tauto].
      apply (mu_one ["two"%string] 2 [] "hundred" 100); [apply co_unit; vm_compute; tauto|left; reflexivity|vm_compute; tauto].
    + apply sp_one. left. apply (co_both "fifty" 50 ["-"%string] "six" 6); vm_compute; tauto.
Qed.
Lemma bi_plain : plain ["three"; "million"; "two"; "hundred"; "thousand"; "and"; "fifty"; "-"; "six"]%string.
Proof. apply (plain_b_plain _ 0). vm_compute. reflexivity. Qed.
Lemma bi_not_vast : not_vast ["three"; "million"; "two"; "hundred"; "thousand"; "and"; "fifty"; "-"; "six"]%string.
Proof.
  assert (H : forallb (fun w => negb (existsb (String.eqb w) (map fst vast_magnitudes))) ["three"; "million"; "two"; "hundred"; "thousand"; "and"; "fifty"; "-"; "six"]%string = true)
    by (vm_compute; reflexivity).
  apply Forall_forall. intros w Hw Hv. rewrite forallb_forall in H. apply H in Hw. apply negb_true_iff in Hw.
  assert (E : existsb (String.eqb w) (map fst vast_magnitudes) = true) by (apply existsb_exists; exists w; split; [exact Hv|apply String.eqb_refl]). congruence.
Qed.
Lemma bi_below : below_thousand ["two"; "hundred"; "and"; "twenty"; "three"]%string 223.
Proof.
  apply (bt_both "two" 2 ["and"%string] ["twenty"; "three"]%string 23); [vm_compute; tauto|lia|right; reflexivity|].
  apply (bh_both "twenty" 20 "three" 3); [vm_compute; tauto|vm_compute; tauto|lia].
Qed.
(** two readings of one phrase *)
Lemma bi_usual : spoken ["fifty"; "six"; "thousand"]%string 56000.
Proof.
  apply sp_one. right. apply (mu_one ["fifty"; "six"]%string 56 [] "thousand" 1000); [|left; reflexivity|vm_compute; tauto].
  apply (co_both "fifty" 50 [] "six" 6); vm_compute; tauto.
Qed.
Lemma bi_unusual : spoken ["fifty"; "six"; "thousand"]%string 6050.
Proof.
  apply (sp_more ["fifty"%string] 50 [] ["six"; "thousand"]%string 6000); [left; apply co_tens; vm_compute; tauto|left; reflexivity|].
  apply sp_one. right. apply (mu_one ["six"%string] 6 [] "thousand" 1000); [apply co_unit; vm_compute; tauto|left; reflexivity|vm_compute; tauto].
Qed.
Definition bi_both : string := "fifty six thousand and thirty two".
Lemma bi_merged : merged ["fifty"; "six"; "thousand"; "and"; "thirty"; "two"]%string 56032.
Proof.
  apply (me_more ["fifty"; "six"; "thousand"]%string 56000 ["and"%string] ["thirty"; "two"]%string 32); [|right; reflexivity| |].
  - right. apply (mu_one ["fifty"; "six"]%string 56 [] "thousand" 1000); [|left; reflexivity|vm_compute; tauto]. apply (co_both "fifty" 50 [] "six" 6); vm_compute; tauto.
  - apply me_one. left. apply (co_both "thirty" 30 [] "two" 2); vm_compute; tauto.
  - intros C _. cbn [last] in C. revert C. vm_compute. intuition discriminate.
Qed.
(** what "fifty six thousand and thirty two" also says *)
Lemma bi_split : spoken ["fifty"; "six"; "thousand"; "and"; "thirty"; "two"]%string 6082.
Proof.
  apply (sp_more ["fifty"%string] 50 [] ["six"; "thousand"; "and"; "thirty"; "two"]%string 6032); [left; apply co_tens; vm_compute; tauto|left; reflexivity|].
  apply (sp_more ["six"; "thousand"]%string 6000 ["and"%string] ["thirty"; "two"]%string 32); [|right; reflexivity|].
  - right. apply (mu_one ["six"%string] 6 [] "thousand" 1000); [apply co_unit; vm_compute; tauto|left; reflexivity|vm_compute; tauto].
  - apply sp_one. left. apply (co_both "thirty" 30 [] "two" 2); vm_compute; tauto.
Qed.
Lemma bi_both_not_vast : not_vast ["fifty"; "six"; "thousand"; "and"; "thirty"; "two"]%string.
Proof. repeat constructor; intros C; revert C; vm_compute; intuition discriminate. Qed.
Lemma bi_english : english ["fifty"; "six"; "thousand"; "and"; "thirty"; "two"]%string 56032.
Proof.
  right. do 3 apply gr_skip. apply (gr_both "thousand" 1000 [] ["fifty"; "six"]%string 56 ["and"%string] ["thirty"; "two"]%string 32); [|right; reflexivity|].
  - apply bt_small. apply (bh_both "fifty" 50 "six" 6); [vm_compute; tauto|vm_compute; tauto|lia].
  - apply gr_last, bt_small. apply (bh_both "thirty" 30 "two" 2); [vm_compute; tauto|vm_compute; tauto|lia].
Qed.
Definition bi_around : string := "some fifty six thousand and thirty two people of a dozen".
