(** Concrete documents for the properties of the local grammar. *)
From Coq Require Import Permutation Ascii.
From Verif Require Import Base ModelTypes ModelText ModelEarley ModelTrees ModelApi ModelReader ModelGrammar ModelLocal
  ModelMatch SpecTypes SpecGrammar SpecTree SpecApi SpecLocal ProofLocal ProofLocalMatch ProofLocalApi ProofRefute Examples ExamplesSem.

(** a hash: the bytes of the texts as a number *)
Fixpoint string_num (h : N) (s : string) : N :=
  match s with
  | EmptyString => h
  | String c s' => string_num (h * 257 + N.of_nat (nat_of_ascii c) + 1) s'
  end%N.
Definition xhash (b : rulebody) : N :=
  fold_left (fun h t => (string_num h (t_value t) * 257)%N) (rb_terms b) (match rb_f b with None => 0 | Some _ => 1 end)%N.

Definition plain_eqb (b b' : rulebody) : bool :=
  match rb_f b, rb_f b' with
  | None, None => if list_eq_dec string_dec (map t_value (rb_terms b)) (map t_value (rb_terms b')) then true else false
  | _, _ => false
  end.
(** pairs of different numbers either differ in name or hash, or are equal without function *)
Definition separates_b (hash : rulebody -> N) (L : list (string * rulebody)) : bool :=
  forallb (fun ip => forallb (fun jq =>
    Nat.eqb (fst ip) (fst jq) || negb (String.eqb (fst (snd ip)) (fst (snd jq)))
    || negb (N.eqb (hash (snd (snd ip))) (hash (snd (snd jq)))) || plain_eqb (snd (snd ip)) (snd (snd jq)))
    (combine (seq 0 (length L)) L)) (combine (seq 0 (length L)) L).

Lemma numbered {A} (L : list A) a : In a L -> exists i, In (i, a) (combine (seq 0 (length L)) L).
Proof.
  intros H. generalize 0. induction L as [|b L IH]; intros n; [destruct H|]. cbn.
  destruct H as [->|H]; [exists n; left; reflexivity|]. destruct (IH H (S n)) as (i & Hi). exists i. right. exact Hi.
Qed.
Lemma numbered_unique {A} (L : list A) i a b :
  In (i, a) (combine (seq 0 (length L)) L) -> In (i, b) (combine (seq 0 (length L)) L) -> a = b.
Proof.
  assert (forall n, (forall a, In (i, a) (combine (seq n (length L)) L) -> n <= i) /\
    (In (i, a) (combine (seq n (length L)) L) -> In (i, b) (combine (seq n (length L)) L) -> a = b)) as H; [|apply (H 0)].
  induction L as [|c L IH]; intros n; cbn; [split; [intros ? []|intros []]|]. destruct (IH (S n)) as [H1 H2]. split.
  - intros a' [E|H]; [inversion E; lia|]. apply H1 in H. lia.
  - intros [E|Ha] [E'|Hb]; auto; try (inversion E; inversion E'; congruence).
    + inversion E; subst. apply H1 in Hb. lia.
    + inversion E'; subst. apply H1 in Ha. lia.
Qed.

Lemma separates_ok hash find_all span_text regexps ord d :
  (forall i l, Permutation l (ord i l)) -> doc_ok d ->
  separates_b hash (additions find_all span_text regexps ord d) = true -> hash_separates find_all regexps d hash.
Proof.
  intros Ho Hok H x b b' Hb Hb' Hh.
  pose proof (local_alt_words _ _ _ _ _ Hb) as (ss & Es). pose proof (local_alt_words _ _ _ _ _ Hb') as (ss' & Es').
  apply (additions_exact find_all span_text regexps ord Ho d x b Hok) in Hb.
  apply (additions_exact find_all span_text regexps ord Ho d x b' Hok) in Hb'.
  destruct (numbered _ _ Hb) as (i & Hi). destruct (numbered _ _ Hb') as (j & Hj).
  unfold separates_b in H. rewrite forallb_forall in H. specialize (H _ Hi). rewrite forallb_forall in H. specialize (H _ Hj).
  cbn [fst snd] in H. rewrite String.eqb_refl, Hh, N.eqb_refl in H. cbn [negb] in H. rewrite !orb_false_r in H.
  apply orb_prop in H. destruct H as [H|H].
  - apply Nat.eqb_eq in H. subst j. pose proof (numbered_unique _ _ _ _ Hi Hj) as E. inversion E. reflexivity.
  - unfold plain_eqb in H. destruct b as [ts f], b' as [ts' f']. cbn [rb_f rb_terms] in *. destruct f, f'; try discriminate H.
    destruct (list_eq_dec string_dec (map t_value ts) (map t_value ts')) as [E|]; [|discriminate H].
    subst ts ts'. rewrite !map_map in E. cbn in E. rewrite !map_id in E. subst. reflexivity.
Qed.

Definition ltok (i : nat) (text : string) (k : toktype) (s : nat) : token :=
  mkTok text k s (s + String.length text) i text text text.
Definition xfind (pat text : string) : option (list (nat * nat)) :=
  lookup [("^foo: foo 12 foo,", [(0, 3)]); ("[0-9]+: foo 12 foo,", [(4, 6)]); ("foo 12: foo 12 foo,", [(0, 6)]);
          ("oo: foo 12 foo,", [(1, 3); (8, 10)]);
          ("[0-9]*: foo 12 foo,", [(0, 0); (1, 1); (2, 2); (3, 3); (4, 6); (7, 7); (8, 8); (9, 9); (10, 10); (11, 11)]);
          ("[0-9]*: a,", [(0, 0); (1, 1); (2, 2)])]%string (pat ++ ": " ++ text)%string.
Definition xregexps : list (string * string) :=
  [("re_start", "^foo"); ("re_digits", "[0-9]+"); ("re_two", "foo 12"); ("re_part", "oo"); ("re_bad", "("); ("re_any", "[0-9]*")]%string.
Definition xspan_text (d : document) (s e : nat) : string := String.concat "" (map tok_text (tokens_at d s e)).
Definition xorde (i : nat) (l : list (string * entry)) := rev l.
Definition foo_doc : document :=
  mkDoc "foo 12 foo,"
    [ltok 0 "foo" KLetters 0; ltok 1 " " KSpace 3; ltok 2 "12" KWord 4; ltok 3 " " KSpace 6; ltok 4 "foo" KWord 7; ltok 5 "," KPunct 10]
    [mkSpan 2 3 (Some [("number", EOther); ("amount", EList [VStr "12"; VStr "twelve"])]) "12"; mkSpan 0 6 None "foo 12 foo,"]%string.
Definition foo_annotate (ctx text : string) : res document := if String.eqb text "foo 12 foo," then Ret foo_doc else Err.
Definition xgtokens (s : string) : option token := None.
Definition xlower (s : string) : string := s.

Lemma xorde_ok i l : Permutation l (xorde i l).
Proof. apply Permutation_rev. Qed.

Definition doc_ok_b (d : document) : bool :=
  forallb (fun ik => Nat.eqb (tok_i (snd ik)) (fst ik)) (combine (seq 0 (length (d_tokens d))) (d_tokens d))
  && forallb (fun ik => forallb (fun jl => Nat.eqb (fst ik) (fst jl)
       || (negb (Nat.eqb (tok_start (snd ik)) (tok_start (snd jl))) && negb (Nat.eqb (tok_end (snd ik)) (tok_end (snd jl)))))
       (combine (seq 0 (length (d_tokens d))) (d_tokens d))) (combine (seq 0 (length (d_tokens d))) (d_tokens d)).
Lemma nth_numbered {A} (L : list A) i a : nth_error L i = Some a -> In (i, a) (combine (seq 0 (length L)) L).
Proof.
  assert (forall n, nth_error L i = Some a -> In (n + i, a) (combine (seq n (length L)) L)) as H; [|apply (H 0)].
  revert i. induction L as [|b L IH]; intros [|i] n H; cbn in H; try discriminate.
  - inversion H. left. rewrite Nat.add_0_r. reflexivity.
  - right. rewrite Nat.add_succ_r. rewrite <- Nat.add_succ_l. apply IH. exact H.
Qed.
Lemma doc_ok_b_ok d : doc_ok_b d = true -> doc_ok d.
Proof.
  unfold doc_ok_b. intros H. apply andb_prop in H. destruct H as [H1 H2]. rewrite forallb_forall in H1, H2. split.
  - intros i k Hk. apply nth_numbered in Hk. apply H1 in Hk. cbn in Hk. apply Nat.eqb_eq in Hk. exact Hk.
  - intros i j k l Hk Hl He. apply nth_numbered in Hk. apply nth_numbered in Hl. apply H2 in Hk. rewrite forallb_forall in Hk.
    apply Hk in Hl. cbn in Hl. apply orb_prop in Hl. destruct Hl as [Hl|Hl]; [apply Nat.eqb_eq in Hl; exact Hl|].
    apply andb_prop in Hl. destruct Hl as [Ha Hb]. apply negb_true_iff in Ha, Hb. apply Nat.eqb_neq in Ha, Hb. tauto.
Qed.
Definition spans_ok_b (d : document) : bool :=
  forallb (fun sp => Nat.leb (sp_end sp) (sp_start sp) || Nat.leb (sp_end sp) (length (d_tokens d))) (d_spans d).
Lemma spans_ok_b_ok d : spans_ok_b d = true -> spans_ok d.
Proof.
  unfold spans_ok_b. intros H sp m Hin _. rewrite forallb_forall in H. apply H in Hin. apply orb_prop in Hin.
  destruct Hin as [E|E]; apply Nat.leb_le in E; auto.
Qed.
Definition tagged_b (d : document) (x : string) : bool :=
  existsb (fun sp => match sp_value sp with Some m => existsb (fun kv => String.eqb (fst kv) x) m | None => false end) (d_spans d).
Lemma tagged_b_no d x : tagged_b d x = false -> ~ tagged d x.
Proof.
  unfold tagged_b. intros H (sp & m & e & Hin & Hm & He).
  assert (existsb (fun sp => match sp_value sp with Some m => existsb (fun kv => String.eqb (fst kv) x) m | None => false end) (d_spans d) = true) as HT.
  { apply existsb_exists. exists sp. split; [exact Hin|]. rewrite Hm. apply existsb_exists. exists (x, e). split; [exact He|apply String.eqb_refl]. }
  congruence.
Qed.
Definition undefined_b (gs : list grammar_rules) (x : string) : bool :=
  forallb (fun g : grammar_rules => match lookup g x with None => true | Some _ => false end) gs.
Lemma undefined_b_ok gs x : undefined_b gs x = true -> undefined gs x.
Proof.
  unfold undefined_b. intros H b (g & r & h & Hg & Hl & _). rewrite forallb_forall in H. apply H in Hg. rewrite Hl in Hg. discriminate.
Qed.

Lemma foo_doc_ok : doc_ok foo_doc /\ spans_ok foo_doc /\ hash_separates xfind xregexps foo_doc xhash.
Proof.
  assert (doc_ok foo_doc) as Hok by (apply doc_ok_b_ok; vm_compute; reflexivity).
  split; [exact Hok|]. split; [apply spans_ok_b_ok; vm_compute; reflexivity|].
  apply (separates_ok xhash xfind xspan_text xregexps xorde foo_doc xorde_ok Hok). vm_compute. reflexivity.
Qed.

(** s = <word> <letters> *)
Definition g_classes : list grammar_rules := [[ xrule "s" [[xN "word"]; [xN "letters"; xN "re_digits"]; [xN "re_any"]] ]].
Definition foo_all (start : string) :=
  match EarleyParseAll (terminal_match xgtokens xlower) (fun _ => id_ord) g_classes (doc_tokens foo_annotate)
          (doc_local xhash xfind xspan_text xregexps xorde foo_annotate "" " foo 12 foo, ") 200 "" " foo 12 foo, " [start] with
  | Ret ps => Some (map (fun p => (length (p_columns p), finals_of p (p_finals p))) ps)
  | _ => None
  end.

(** s = <re_any> alone, on "a,": the regular expression matches the empty string between the two tokens *)
Definition ab_doc : document := mkDoc "a," [ltok 0 "a" KLetters 0; ltok 1 "," KPunct 1] [].
Definition ab_annotate (ctx text : string) : res document := if String.eqb text "a," then Ret ab_doc else Err.
Definition ab_regexps : list (string * string) := [("re_any", "[0-9]*")]%string.
Definition g_digits : list grammar_rules := [[ xrule "s" [[xN "re_any"]] ]].
Definition ab_local : option grammar_rules :=
  match local_grammar xhash xfind xspan_text ab_regexps xorde ab_doc with Ret l => l | _ => None end.
Lemma ab_process : process (doc_tokens ab_annotate) (doc_local xhash xfind xspan_text ab_regexps xorde ab_annotate "" "a,") "" "a,"
  = Ret (d_tokens ab_doc, ab_local).
Proof. vm_compute. reflexivity. Qed.
Lemma ab_diverges ords steps fuel : orders ords ->
  EarleyParseMaxAll (terminal_match xgtokens xlower) ords g_digits (doc_tokens ab_annotate)
    (doc_local xhash xfind xspan_text ab_regexps xorde ab_annotate "" "a,") steps fuel "" "a," ["s"] = Fuel.
Proof.
  intros Ho. unfold EarleyParseMaxAll. rewrite ab_process. cbn [bind].
  set (G := with_local g_digits ab_local). set (m := terminal_match xgtokens xlower).
  apply max_all_diverges; [discriminate|]. intros n.
  assert (forall f, earley_parse_n m ords G "a," f n true (d_tokens ab_doc) ["s"]
            = earley_parse_n m (fun _ => id_ord) G "a," f n true (d_tokens ab_doc) ["s"]) as Esame.
  { intros f. unfold earley_parse_n.
    rewrite (earley_parse_same m (ords n) id_ord G); [reflexivity|]. apply single_same; [vm_compute; reflexivity|apply Ho|exact id_ord_ok]. }
  rewrite Esame.
  assert (exists p0, earley_parse_n m (fun _ => id_ord) G "a," 50 n true (d_tokens ab_doc) ["s"] = Ret p0
            /\ p_finals p0 <> [] /\ max_end p0 (p_finals p0) 0 = Ret 0) as (p0 & E0 & H0).
  { eexists. split; [vm_compute; reflexivity|]. split; [discriminate|reflexivity]. }
  destruct (earley_parse_n m (fun _ => id_ord) G "a," fuel n true (d_tokens ab_doc) ["s"]) as [p| | |] eqn:E; auto; right.
  - exists p. split; [reflexivity|]. rewrite <- (earley_parse_n_unique _ _ _ _ _ _ _ _ _ _ _ _ E0 E). exact H0.
  - destruct (ProofMain.chart_no_panic m (fun _ => id_ord) G "a," fuel n true (d_tokens ab_doc) ["s"] id_ord_ok) as [_ H1].
    apply H1 in E. destruct E; discriminate.
  - destruct (ProofMain.chart_no_panic m (fun _ => id_ord) G "a," fuel n true (d_tokens ab_doc) ["s"] id_ord_ok) as [H1 _]. congruence.
Qed.
Lemma ab_doc_ok : doc_ok ab_doc /\ spans_ok ab_doc /\ hash_separates xfind ab_regexps ab_doc xhash.
Proof.
  assert (doc_ok ab_doc) as Hok by (apply doc_ok_b_ok; vm_compute; reflexivity).
  split; [exact Hok|]. split; [apply spans_ok_b_ok; vm_compute; reflexivity|].
  apply (separates_ok xhash xfind xspan_text ab_regexps xorde ab_doc xorde_ok Hok). vm_compute. reflexivity.
Qed.
(** the matches of the regular expressions, by number of the first token and the token behind the last *)
Definition hits find_all regexps d (x : string) : list (nat * nat) :=
  flat_map (fun sp => match sp_value sp with
                      | Some ((y, _) :: _) => if String.eqb y x then [(sp_start sp, sp_end sp)] else []
                      | _ => [] end) (regexp_spans find_all xspan_text regexps d).
Lemma hits_ok find_all regexps d x s e : doc_ok d -> (regexp_hit find_all regexps d x s e <-> In (s, e) (hits find_all regexps d x)).
Proof.
  intros Hok. rewrite (hit_exact find_all xspan_text regexps d x Hok). unfold hits. rewrite in_flat_map. split.
  - intros (sp & Hin & Hv & <- & <-). exists sp. split; [exact Hin|]. rewrite Hv, String.eqb_refl. left. reflexivity.
  - intros (sp & Hin & H). destruct (regexp_spans_value find_all xspan_text regexps d sp Hin) as (y & Hv). rewrite Hv in H.
    destruct (String.eqb_spec y x) as [Ey|]; [|destruct H]. destruct H as [H|[]]. inversion H. rewrite Ey in Hv. eauto.
Qed.
Lemma not_class x : x <> "word" -> x <> "punct" -> x <> "symbol" -> x <> "letters" -> forall ty, ~ class_of ty x.
Proof. intros H1 H2 H3 H4 ty H. inversion H; congruence. Qed.

Lemma start_matches_later : exists hash find_all span_text regexps ord annotate ctx text d gs x i,
  (forall i l, Permutation l (ord i l)) /\ trim_space text <> "" /\ annotate ctx (trim_space text) = Ret d /\
  doc_ok d /\ spans_ok d /\ hash_separates find_all regexps d hash /\
  ~ tagged d x /\ (forall ty, ~ class_of ty x) /\ undefined gs x /\ well_formed gs [x] /\
  (forall s e, regexp_hit find_all regexps d x s e -> s = 0) /\ 0 < i /\
  exists ps p, EarleyParseAll (terminal_match xgtokens xlower) (fun _ => id_ord) gs (doc_tokens annotate)
    (doc_local hash find_all span_text regexps ord annotate ctx text) 200 ctx text [x] = Ret ps /\
    In p ps /\ parsed_tokens p (skipn i (content d)) /\ reports p x 1.
Proof.
  destruct foo_doc_ok as (Hok & Hsp & Hh).
  exists xhash, xfind, xspan_text, xregexps, xorde, foo_annotate, ""%string, "foo 12 foo,"%string, foo_doc, g_classes, "re_start"%string, 2.
  split; [exact xorde_ok|]. split; [discriminate|]. split; [reflexivity|]. split; [exact Hok|]. split; [exact Hsp|]. split; [exact Hh|].
  split; [apply tagged_b_no; vm_compute; reflexivity|]. split; [apply not_class; discriminate|].
  split; [apply undefined_b_ok; reflexivity|]. split; [apply well_formed_b_ok; reflexivity|].
  split. { intros s e H. apply (hits_ok xfind xregexps foo_doc "re_start" s e Hok) in H. vm_compute in H. destruct H as [H|[]]. inversion H. reflexivity. }
  split; [lia|]. eexists. eexists. split; [vm_compute; reflexivity|]. split; [right; left; reflexivity|].
  split; [vm_compute; reflexivity|]. eexists (1, _). eexists. split; [left; reflexivity|]. split; [vm_compute; reflexivity|].
  vm_compute. auto.
Qed.

Lemma empty_match_witness :
  exists hash find_all span_text regexps ord annotate text d gs,
  (forall i l, Permutation l (ord i l)) /\ annotate "" (trim_space text) = Ret d /\
  doc_ok d /\ spans_ok d /\ hash_separates find_all regexps d hash /\ well_formed gs ["s"] /\ no_empty gs /\ typed_args gs /\
  forall ords steps fuel, orders ords ->
  EarleyParseMaxAll (terminal_match xgtokens xlower) ords gs (doc_tokens annotate)
    (doc_local hash find_all span_text regexps ord annotate "" text) steps fuel "" text ["s"] = Fuel.
Proof.
  exists xhash, xfind, xspan_text, ab_regexps, xorde, ab_annotate, "a,"%string, ab_doc, g_digits.
  destruct ab_doc_ok as (H1 & H2 & H3). split; [exact xorde_ok|]. split; [reflexivity|]. split; [exact H1|]. split; [exact H2|].
  split; [exact H3|]. split; [apply well_formed_b_ok; reflexivity|]. split; [apply noempty_b_ok; reflexivity|].
  split; [apply nofunc_b_ok; reflexivity|exact ab_diverges].
Qed.
