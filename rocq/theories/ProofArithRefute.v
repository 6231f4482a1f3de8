(** A reading of the arithmetic example without a tree. *)
From Coq Require Import Permutation.
From Verif Require Import Base ModelTypes ModelText ModelEarley ModelTrees ModelApi ModelSem ModelMath ModelFuncs ModelReader ModelGrammar ModelMatch ModelLocal
  SpecTypes SpecGrammar SpecRefine SpecConstruct SpecApi SpecLocal SpecFuncs SpecEnd SpecMath SpecMeaning ModelShipped SpecShipped
  Examples ExamplesLocal ExamplesMath ExamplesGrammar ExamplesShipped ExamplesArith SpecArith SpecProgram.

Definition lost_text : string := "one plus two minus three plus four".
Definition lost : expression := Binary Plus (Number 1) (Binary Minus (Number 2) (Binary Plus (Number 3) (Number 4))).
Lemma one_word w i : xtokenize w = Ret [xword 0 w] -> tok_type (xword 0 w) <> KSpace ->
  (exists k, nth_error (content (word_doc lost_text)) i = Some k /\ tok_text k = w) ->
  phrase xtokenize same_text (content (word_doc lost_text)) w i (S i).
Proof.
  intros E Hk (k & Hn & Hw). exists [xword 0 w]. split; [exact E|]. unfold token_terms. cbn [filter]. unfold is_space_token.
  destruct (tok_type (xword 0 w)) eqn:Et; try (contradiction Hk; reflexivity);
  (split; [cbn; lia|]; intros [|[]] t Hi; try discriminate; cbn in Hi; injection Hi as <-; split; [reflexivity|];
   exists k; rewrite Nat.add_0_r; split; [exact Hn|]; cbn [same_text t_value]; change (tok_text (xword 0 w)) with w; rewrite Hw; apply String.eqb_refl).
Qed.
Lemma lost_word w i : xtokenize w = Ret [xword 0 w] -> tok_type (xword 0 w) <> KSpace ->
  option_map tok_text (nth_error (content (word_doc lost_text)) i) = Some w ->
  phrase xtokenize same_text (content (word_doc lost_text)) w i (S i).
Proof.
  intros H1 H2 H3. apply one_word; [exact H1|exact H2|].
  destruct (nth_error _ i) as [k|]; [|discriminate]. exists k. split; [reflexivity|]. cbn in H3. injection H3 as <-. reflexivity.
Qed.
Lemma lost_number w z i : In (w, z) numbers -> xtokenize w = Ret [xword 0 w] -> tok_type (xword 0 w) <> KSpace ->
  option_map tok_text (nth_error (content (word_doc lost_text)) i) = Some w ->
  reads xtokenize same_text (content (word_doc lost_text)) (Number z) i (S i).
Proof. intros. eapply rd_number; [eassumption|apply lost_word; assumption]. Qed.
Lemma lost_reading : reads xtokenize same_text (content (word_doc lost_text)) lost 0 7.
Proof.
  refine (rd_binary _ _ _ "plus" Plus _ _ 0 1 2 7 _ (lost_number "one"%string 1%Z 0 _ _ _ _) (lost_word "plus"%string 1 _ _ _) _); try (vm_compute; tauto || discriminate || reflexivity).
  refine (rd_binary _ _ _ "minus" Minus _ _ 2 3 4 7 _ (lost_number "two"%string 2%Z 2 _ _ _ _) (lost_word "minus"%string 3 _ _ _) _); try (vm_compute; tauto || discriminate || reflexivity).
  refine (rd_binary _ _ _ "plus" Plus _ _ 4 5 6 7 _ (lost_number "three"%string 3%Z 4 _ _ _ _) (lost_word "plus"%string 5 _ _ _) (lost_number "four"%string 4%Z 6 _ _ _ _));
    try (vm_compute; tauto || discriminate || reflexivity).
Qed.
(** ((1 + 2) - 3) + 4 is shown *)
Definition from_left : expression := Binary Plus (Binary Minus (Binary Plus (Number 1) (Number 2)) (Number 3)) (Number 4).
Lemma left_reading : reads xtokenize same_text (content (word_doc lost_text)) from_left 0 7 /\ left_to_right from_left.
Proof.
  split; [|cbn; eauto 8].
  refine (rd_binary _ _ _ "plus" Plus _ _ 0 5 6 7 _ _ (lost_word "plus"%string 5 _ _ _) (lost_number "four"%string 4%Z 6 _ _ _ _)); try (vm_compute; tauto || discriminate || reflexivity).
  refine (rd_binary _ _ _ "minus" Minus _ _ 0 3 4 5 _ _ (lost_word "minus"%string 3 _ _ _) (lost_number "three"%string 3%Z 4 _ _ _ _)); try (vm_compute; tauto || discriminate || reflexivity).
  refine (rd_binary _ _ _ "plus" Plus _ _ 0 1 2 3 _ (lost_number "one"%string 1%Z 0 _ _ _ _) (lost_word "plus"%string 1 _ _ _) (lost_number "two"%string 2%Z 2 _ _ _ _));
    try (vm_compute; tauto || discriminate || reflexivity).
Qed.
(** and the whole text is no number *)
Lemma lost_no_number z : ~ reads xtokenize same_text (content (word_doc lost_text)) (Number z) 0 7.
Proof.
  intros H. inversion H as [w z' i j Hw (ks & E & L & _)| |]; subst. injection E as <-.
  assert (K : Forall (fun wz => Nat.ltb (length (token_terms MNil (match xtokenize (fst wz) with Ret ks => ks | _ => [] end))) 7 = true) numbers)
    by (vm_compute; repeat constructor).
  rewrite Forall_forall in K. specialize (K _ Hw). cbn [fst] in K. apply Nat.ltb_lt in K. unfold xtokenize in K. lia.
Qed.

Lemma arith_not_all : ~ (forall e, env_ok e -> words_have_tokens (e_tokenize e) ->
  forall dir fuel0 depth0 gt g w', installed e dir dir_arithmetic ->
  from_file e fuel0 depth0 (e_join e dir "arithmetic.grammar") gt = Ret (Some g, w') ->
  forall ords, orders ords ->
  forall find_all span_text ord, (forall i l, Permutation l (ord i l)) ->
  forall annotate ctx text d, trim_space text <> "" -> annotate ctx (trim_space text) = Ret d ->
  fit_document (e_hash e) find_all [] d -> ~ tagged d "number" ->
  forall join_words float_string json is_print_hi scan rcall, scans_floats scan -> math_registered scan rcall ->
  NoDup (map (e_hash e) bodies) ->
  forall steps fuel p, EarleyParseMaxAll (terminal_match (lookup (w_tokens w')) (fun s => s)) ords (all_rules g) (doc_tokens annotate)
        (doc_local (e_hash e) find_all span_text (g_regexps g) ord annotate ctx text) steps fuel ctx text ["number"%string] = Ret [p] ->
  forall x, reads (e_tokenize e) same_text (content d) x 0 (length (content d)) ->
  forall ref m ts, p_finals p = [ref] -> get_trees (p_columns p) m ref = Ret ts ->
  exists t, In t ts /\ semantic p join_words float_string json is_print_hi (Call rcall) t = Ret (formula x)).
Proof.
  intros H.
  destruct (word_fit lost_text) as [H1 H2]; [discriminate|vm_compute; reflexivity|vm_compute; reflexivity|].
  specialize (H (senv dir_arithmetic) (senv_ok _) (senv_words _) "d"%string 4000 9 [] arith_grammar arith_world arith_installed arith_load
    (fun _ => id_ord) (fun _ => id_ord_ok) xfind xspan_text xorde xorde_ok word_annotate ""%string lost_text (word_doc lost_text) ltac:(discriminate)
    eq_refl H1 H2 (String.concat " ") (fun _ => ""%string) (fun _ => ""%string) (fun _ => true) xscan_float xmath xscan_float_ok xmath_registered
    (senv_hashes _) 400 400).
  assert (Hp : exists p, arith_parses id_ord lost_text = Ret [p] /\ exists ref ts, p_finals p = [ref] /\ get_trees (p_columns p) 400 ref = Ret ts /\
    forallb (fun t => match semantic p (String.concat " ") (fun _ => ""%string) (fun _ => ""%string) (fun _ => true) (Call xmath) t with
                      | Ret s => negb (String.eqb s (formula lost)) | _ => true end) ts = true).
  { eexists. split; [vm_compute; reflexivity|]. eexists. eexists. split; [reflexivity|]. split; [vm_compute; reflexivity|]. vm_compute. reflexivity. }
  destruct Hp as (p & Ep & ref & ts & Ef & Et & Hno).
  destruct (H p Ep lost lost_reading ref 400 ts Ef Et) as (t & Hin & Es).
  rewrite forallb_forall in Hno. specialize (Hno t Hin). rewrite Es, String.eqb_refl in Hno. discriminate.
Qed.
