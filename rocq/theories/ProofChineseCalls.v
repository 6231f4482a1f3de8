(** The calls on number.zh.grammar: Chinese numerals evaluate to their numbers. *)
From Coq Require Import Permutation Sorted.
From Verif Require Import Base ModelTypes ModelText ModelEarley ModelTrees ModelApi ModelQuote ModelSem ModelMath ModelFuncs ModelReader ModelGrammar ModelMatch ModelLocal
     SpecTypes SpecGrammar SpecTree SpecNotation SpecRefine SpecConstruct SpecSem SpecNode SpecApi SpecLocal SpecFuncs SpecEnd SpecMath SpecMeaning
     ModelShipped SpecShipped
     ProofGrammar ProofConstruct ProofIndex ProofRecognize ProofShipped ProofShippedUsable ProofUnique ProofMeaning ProofMeaningCalls SpecFrameText
     SpecArith SpecWorth ProofWorth ProofWorthCalls ProofReadings SpecChinese ProofChinese ProofChineseRules.
Local Open Scope list_scope.

(** ** The rules of number.zh.grammar *)
Lemma chinese_text e : env_ok e -> e_text e math_number_zh [] chinese_items [].
Proof.
  intros HE. destruct (decodes_ok math_number_zh ltac:(vm_compute; reflexivity)) as [D1 D2].
  left. exists (runes_of math_number_zh). split; [exact D1|]. split; [exact D2|].
  assert (H : p_file [] [] 10 (runes_of math_number_zh) = Some ([], chinese_items, [])) by (vm_compute; reflexivity).
  revert H. apply sound_file.
  - apply letters_ascii.
  - apply digits_ascii.
  - intros s f [].
  - intros x h [].
Qed.
Lemma chinese_no_class x t : In x chinese_names -> ~ class_of t x.
Proof. intros H C. cbv [chinese_names chinese_rules map fst] in H. repeat (destruct H as [<-|H]; [inversion C|]). destruct H. Qed.
Lemma chinese_text_only find_all d x : In x chinese_names -> ~ tagged d x -> text_only find_all [] d x.
Proof.
  intros Hx Htag b H. inversion H as [k ? Hk Hc|sp m ? Hs Hv Hi|sp m ? items Hs Hv Hi|? s k Hr]; subst.
  - exact (chinese_no_class _ _ Hx Hc).
  - apply Htag. exists sp, m, EOther. auto.
  - apply Htag. exists sp, m, (EList items). auto.
  - destruct Hr as (pat & ms & a & b & k' & l & [] & _).
Qed.
Definition cn_counting : list string :=
  ["cn_unit"; "cn_zero"; "cn_e1"; "cn_e2"; "cn_e3"; "cn_e4"; "cn_e8"; "cn_e1s"; "cn_e2s"; "cn_e3s"; "cn_e4s"; "cn_e8s"; "cn_decimal"; "number"]%string.
Lemma cn_counting_names x : In x cn_counting -> In x chinese_names.
Proof. intros H. vm_compute in H. vm_compute. tauto. Qed.

Ltac calc_f := first [apply fc_identity; calc_a | apply (fc_binary _ Plus); calc_a | apply (fc_binary _ Times); calc_a]
with calc_a := first [apply ac_int | apply ac_func; calc_f | eapply (ac_part _ 0); reflexivity | eapply (ac_part _ 1); reflexivity | eapply (ac_part _ 2); reflexivity | eapply (ac_part _ 3); reflexivity].
Ltac calc_b := right; split;
  [repeat (constructor; [first [left; reflexivity|right; split; [reflexivity|first [assumption|vm_compute; tauto]]]|]); constructor|eexists; split; [reflexivity|calc_f]].

Lemma chinese_calculates tokenize tmatch gs d ws : in_words tokenize tmatch cn_words d ws -> ~ In "点"%string ws ->
  (forall x b, has_body gs x b -> In b (cn_alternatives x)) -> calculates tokenize tmatch gs (content d) (fun x => In x cn_counting).
Proof.
  intros Hws Hp HB x b Hx Hb. apply HB in Hb.
  assert (K1 : forall l, In b (map number_body l) -> idle tokenize tmatch gs (content d) (fun x => In x cn_counting) b \/
            (Forall (fun t => t_type t = TTerminal \/ t_type t = TNonterminal /\ In (t_value t) cn_counting) (rb_terms b) /\
             exists f, rb_f b = Some f /\ f_calculates (rb_terms b) f)).
  { intros l H. apply in_map_iff in H as ((w & z) & <- & _). calc_b. }
  assert (K2 : forall p sc lo tenth, In p cn_counting -> In sc cn_counting -> In lo cn_counting -> In b (cn_level p sc lo tenth) -> idle tokenize tmatch gs (content d) (fun x => In x cn_counting) b \/
            (Forall (fun t => t_type t = TTerminal \/ t_type t = TNonterminal /\ In (t_value t) cn_counting) (rb_terms b) /\
             exists f, rb_f b = Some f /\ f_calculates (rb_terms b) f)).
  { intros p sc lo tenth H1 H2 H3 H. destruct H as [<-|[<-|[<-|[<-|[<-|[]]]]]]; calc_b. }
  cbv [cn_counting] in Hx.
  destruct Hx as [<-|[<-|[<-|[<-|[<-|[<-|[<-|Hx]]]]]]];
    [exact (K1 cn_units Hb)|exact (K1 (sized 0 zeros) Hb)|exact (K1 (sized 10 ten_words) Hb)|exact (K1 (sized 100 hundred_words) Hb)|
     exact (K1 (sized 1000 thousand_words) Hb)|exact (K1 (sized 10000 ["万"%string]) Hb)|exact (K1 (sized 100000000 ["亿"; "万万"]%string) Hb)|].
  destruct Hx as [<-|[<-|[<-|[<-|[<-|[<-|[<-|[]]]]]]]].
  - destruct Hb as [<-|[<-|[<-|[<-|[<-|[<-|[]]]]]]]; calc_b.
  - apply (K2 "cn_unit" "cn_e2" "cn_e1s" 10%Z)%string; [| | |exact Hb]; vm_compute; tauto.
  - apply (K2 "cn_unit" "cn_e3" "cn_e2s" 100%Z)%string; [| | |exact Hb]; vm_compute; tauto.
  - apply (K2 "cn_e3s" "cn_e4" "cn_e3s" 1000%Z)%string; [| | |exact Hb]; vm_compute; tauto.
  - apply (K2 "cn_e4s" "cn_e8" "cn_e4s" 10000000%Z)%string; [| | |exact Hb]; vm_compute; tauto.
  - left. destruct Hb as [<-|[]]. exists (word "点"). split; [left; reflexivity|]. left. split; [reflexivity|].
    intros i j [_ H]. exact (no_cn_point tokenize tmatch d ws Hws Hp i j H).
  - destruct Hb as [<-|[<-|[<-|[<-|[<-|[<-|[<-|[]]]]]]]]; calc_b.
Qed.

Lemma chinese_no_point ws z : chinese ws z -> ~ In "点"%string ws.
Proof.
  intros H C. apply chinese_words in H as [H _]. rewrite Forall_forall in H. apply H in C. revert C. apply not_mem. vm_compute. reflexivity.
Qed.
Lemma chinese_no_double tokenize gtokens to_lower d z : double_token tokenize -> chinese (map tok_text (content d)) z ->
  forall i j, ~ phrase tokenize (terminal_match gtokens to_lower) (content d) "万万" i j.
Proof.
  intros (ks & E & T) HW i j (ks' & E' & L & W). rewrite E in E'. injection E' as <-.
  assert (M : forall x tok, terminal_match gtokens to_lower (mkTerm x TTerminal MNil) (Some tok) = String.eqb x (tok_text tok)) by reflexivity.
  assert (Tt : token_terms MNil ks = map (fun x => mkTerm x TTerminal MNil) (map tok_text (filter (fun k => negb (is_space_token k)) ks))).
  { unfold token_terms. rewrite map_map. reflexivity. }
  rewrite Tt in L, W. destruct T as [T|T]; rewrite T in L, W; cbn [map length] in L, W.
  - destruct (W 0 _ eq_refl) as (_ & tok & N & Mt). rewrite M in Mt. apply String.eqb_eq in Mt. rewrite Nat.add_0_r in N.
    apply (map_nth_error tok_text) in N. apply nth_error_In in N. rewrite <- Mt in N.
    apply chinese_words in HW as [HW _]. rewrite Forall_forall in HW. apply HW in N. revert N. apply not_mem. vm_compute. reflexivity.
  - destruct (W 0 _ eq_refl) as (_ & tok & N & Mt). rewrite M in Mt. apply String.eqb_eq in Mt. rewrite Nat.add_0_r in N.
    destruct (W 1 _ eq_refl) as (_ & tok' & N' & Mt'). rewrite M in Mt'. apply String.eqb_eq in Mt'. rewrite Nat.add_1_r in N'.
    apply (map_nth_error tok_text) in N. apply (map_nth_error tok_text) in N'. rewrite <- Mt in N. rewrite <- Mt' in N'.
    exact (apart_nth _ _ (chinese_apart _ _ HW) N N').
Qed.

(** ** The call *)
Section Call.
  Variable e : env.
  Hypothesis HE : env_ok e.
  Hypothesis Hfrac : fractions_scan e.
  Hypothesis Hpat : e_regexp_ok e sf_pattern = true.
  Hypothesis Htok : texts_have_tokens e.
  Hypothesis Hmd5 : String.prefix "g_t" (e_md5 e sf_pattern) = false.
  Variable dir : string.
  Hypothesis Hin : installed e dir dir_math.
  Variables (fuel0 depth0 : nat) (gt : list (string * token)) (g : grammar) (w' : world).
  Hypothesis Hload : from_file e fuel0 depth0 (e_join e dir "number.zh.grammar") gt = Ret (Some g, w').
  Hypothesis Hhash : forall x, NoDup (map (e_hash e) (written chinese_items false x)).
  Variable tmatch : term -> option token -> bool.
  Variable ords : nat -> order.
  Hypothesis Hords : orders ords.
  Variable find_all : string -> string -> option (list (nat * nat)).
  Variable span_text : document -> nat -> nat -> string.
  Variable ord : nat -> list (string * ModelLocal.entry) -> list (string * ModelLocal.entry).
  Hypothesis Hord : forall i l, Permutation l (ord i l).
  Variable annotate : string -> string -> res document.
  Variables (ctx text : string) (d : document).
  Hypothesis Ht : trim_space text <> "".
  Hypothesis Ha : annotate ctx (trim_space text) = Ret d.
  Hypothesis Hfit : fit_document (e_hash e) find_all [] d.
  Hypothesis Htag : forall x, In x chinese_names -> ~ tagged d x.
  Variable join_words : list string -> string.
  Variable float_string : bigf -> string.
  Variable json : dval -> string.
  Variable is_print_hi : rune -> bool.
  Variable scan : string -> option bfloat.
  Variable rcall : string -> list dval -> res (list dval).
  Hypothesis Hscan : scans_floats scan.
  Hypothesis Hmath : math_registered scan rcall.

  Lemma chinese_number ws n : chinese ws n -> in_words (e_tokenize e) tmatch cn_words d ws -> (forall i j, ~ phrase (e_tokenize e) tmatch (content d) "万万" i j) ->
    exists p ref ts N m, (forall steps fuel, N <= fuel -> length (content d) < steps ->
        EarleyParseMaxAll tmatch ords (all_rules g) (doc_tokens annotate)
          (doc_local (e_hash e) find_all span_text (g_regexps g) ord annotate ctx text) steps fuel ctx text ["number"%string] = Ret [p]) /\
      p_finals p = [ref] /\ (forall fuel, m <= fuel -> get_trees (p_columns p) fuel ref = Ret ts) /\ ts <> [] /\
      forall t, In t ts -> exists x, value x = n /\
        semantic p join_words float_string json is_print_hi (Call rcall) t = Ret (formula x) /\
        ((n < 10 ^ 10)%Z -> exists s, numeral n s /\ eval p join_words float_string (Call rcall) t = Ret (DStr s)).
  Proof using HE Hfrac Hpat Htok Hmd5 Hin Hload Hhash Hords Hord Ht Ha Hfit Htag Hscan Hmath.
    intros HW Hws Hdb.
    assert (Hfile : In ("number.zh.grammar"%string, math_number_zh) dir_math) by (unfold dir_math; do 5 right; left; reflexivity).
    destruct (Hin _ _ Hfile) as [R1 R2].
    destruct (shipped_usable e HE Hfrac Hpat Htok Hmd5 dir_math dir ltac:(unfold shipped; do 4 right; left; reflexivity) Hin _ _ Hfile ltac:(discriminate) _ _ _ _ _ Hload)
      as (L & HL & _ & HC & HF & HU).
    destruct (plain_rules e HE _ _ (chinese_text e HE) _ _ _ _ _ _ _ R1 R2 Hload L HL) as (_ & Hre & HB & HB').
    specialize (HC eq_refl). specialize (HF ltac:(discriminate)).
    specialize (HU HC ["number"%string] ltac:(discriminate)).
    assert (HU' : usable (e_tokenize e) L ["number"%string]) by (apply HU; intros S [<-|[]]; split; [discriminate|reflexivity]). clear HU.
    assert (HB2 : forall x b, In b (cn_alternatives x) -> has_body (map rd_before L) x b) by (intros x b; apply HB'; apply Hhash).
    pose proof (chinese_no_point _ _ HW) as Hp. pose proof (chinese_words _ _ HW) as [_ Hst].
    destruct (readable_number (e_tokenize e) tmatch (map rd_before L) d ws Hws HB2 n (chinese_g _ _ HW)) as (x0 & Hx0).
    pose proof (chinese_calculates _ _ _ _ _ Hws Hp HB) as HN.
    rewrite <- (proj1 Hws) in Hx0.
    destruct (worth_whole e math_number_zh g L HL ["number"%string] HU' HF tmatch ords Hords find_all span_text ord Hord annotate ctx text d Ht Ha
                ltac:(rewrite Hre; exact Hfit) (fun x => In x cn_counting) HN
                ltac:(rewrite Hre; intros x Hx; apply cn_counting_names in Hx; apply chinese_text_only; auto)
                ltac:(intros S [<-|[]]; vm_compute; tauto) join_words float_string json is_print_hi scan rcall Hscan Hmath "number" x0
                ltac:(apply Hfit) ltac:(left; reflexivity) Hx0) as (p & ref & ts & N & m & E & F1 & F2 & F3 & F4).
    exists p, ref, ts, N, m. split; [exact E|]. split; [exact F1|]. split; [exact F2|]. split; [exact F3|].
    intros t Hin'. destruct (F4 t Hin') as (S & x & [<-|[]] & Hx & D1 & D2).
    destruct (reading_number (e_tokenize e) tmatch (map rd_before L) d ws Hws Hdb Hp HB Hst _ _ Hx) as (Hlev & Hmod).
    rewrite (proj1 Hws) in Hlev. assert (Esl : sl ws 0 (length ws) = ws) by (unfold sl; cbn [skipn]; rewrite Nat.sub_0_r; apply firstn_all).
    rewrite Esl in Hlev. pose proof (chinese_value _ _ _ HW Hlev) as En. subst n.
    exists x. split; [reflexivity|]. split; [exact D1|]. intros Hn. apply D2, Hmod. exact Hn.
  Qed.
End Call.

Lemma chinese_call e : env_ok e -> fractions_scan e -> e_regexp_ok e sf_pattern = true -> texts_have_tokens e ->
  words_are_tokens (e_tokenize e) cn_words -> double_token (e_tokenize e) ->
  String.prefix "g_t" (e_md5 e sf_pattern) = false ->
  (forall x, NoDup (map (e_hash e) (written chinese_items false x))) ->
  forall dir fuel0 depth0 gt g w', installed e dir dir_math ->
  from_file e fuel0 depth0 (e_join e dir "number.zh.grammar") gt = Ret (Some g, w') ->
  forall gtokens to_lower ords, orders ords ->
  forall find_all span_text ord, (forall i l, Permutation l (ord i l)) ->
  forall annotate ctx text d, trim_space text <> "" -> annotate ctx (trim_space text) = Ret d ->
  fit_document (e_hash e) find_all [] d -> (forall x, In x chinese_names -> ~ tagged d x) ->
  forall join_words float_string json is_print_hi scan rcall, scans_floats scan -> math_registered scan rcall ->
  forall n, chinese (map tok_text (content d)) n ->
  exists p ref ts N m, (forall steps fuel, N <= fuel -> length (content d) < steps ->
      EarleyParseMaxAll (terminal_match gtokens to_lower) ords (all_rules g) (doc_tokens annotate)
        (doc_local (e_hash e) find_all span_text (g_regexps g) ord annotate ctx text) steps fuel ctx text ["number"%string] = Ret [p]) /\
    p_finals p = [ref] /\ (forall fuel, m <= fuel -> get_trees (p_columns p) fuel ref = Ret ts) /\ ts <> [] /\
    forall t, In t ts -> exists x, value x = n /\
      semantic p join_words float_string json is_print_hi (Call rcall) t = Ret (formula x) /\
      ((n < 10 ^ 10)%Z -> exists s, numeral n s /\ eval p join_words float_string (Call rcall) t = Ret (DStr s)).
Proof.
  intros HE Hf Hp Ht Hw Hd Hm Hh dir fuel0 depth0 gt g w' Hi Hl gtokens to_lower ords Ho find_all span_text ord Hord annotate ctx text d H1 H2 H3 H4
    join_words float_string json is_print_hi scan rcall H5 H6 n Hn.
  eapply chinese_number; eauto; [apply words_in; exact Hw|apply chinese_no_double with (z := n); assumption].
Qed.
