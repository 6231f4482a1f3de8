(** The calls on number.en.grammar: texts of number words evaluate to their numbers. *)
From Coq Require Import Permutation Sorted.
From Verif Require Import Base ModelTypes ModelText ModelEarley ModelTrees ModelApi ModelQuote ModelSem ModelMath ModelFuncs ModelReader ModelGrammar ModelMatch ModelLocal
     SpecTypes SpecGrammar SpecTree SpecNotation SpecRefine SpecConstruct SpecSem SpecNode SpecApi SpecLocal SpecFuncs SpecEnd SpecMath SpecMeaning
     ModelShipped SpecShipped
     ProofGrammar ProofConstruct ProofIndex ProofRecognize ProofShipped ProofShippedUsable ProofUnique ProofMeaning ProofMeaningCalls SpecFrameText
     SpecArith SpecWorth ProofWorth ProofWorthCalls ProofReadings SpecEnglish ProofEnglish ProofEnglishRules.
Local Open Scope list_scope.

(** ** The rules of number.en.grammar *)
Lemma english_text e : env_ok e -> e_text e math_number_en [] english_items [].
Proof.
  intros HE. destruct (decodes_ok math_number_en ltac:(vm_compute; reflexivity)) as [D1 D2].
  left. exists (runes_of math_number_en). split; [exact D1|]. split; [exact D2|].
  assert (H : p_file [] [] 10 (runes_of math_number_en) = Some ([], english_items, [])) by (vm_compute; reflexivity).
  revert H. apply sound_file.
  - apply letters_ascii.
  - apply digits_ascii.
  - intros s f [].
  - intros x h [].
Qed.
Lemma english_no_class x t : In x english_names -> ~ class_of t x.
Proof. intros H C. cbv [english_names english_rules map fst] in H. repeat (destruct H as [<-|H]; [inversion C|]). destruct H. Qed.
Lemma english_text_only find_all d x : In x english_names -> ~ tagged d x -> text_only find_all [] d x.
Proof.
  intros Hx Htag b H. inversion H as [k ? Hk Hc|sp m ? Hs Hv Hi|sp m ? items Hs Hv Hi|? s k Hr]; subst.
  - exact (english_no_class _ _ Hx Hc).
  - apply Htag. exists sp, m, EOther. auto.
  - apply Htag. exists sp, m, (EList items). auto.
  - destruct Hr as (pat & ms & a & b & k' & l & [] & _).
Qed.
Definition counting : list string := ["unit"; "ten"; "tens"; "e1"; "e2"; "e3"; "e6"; "e9"; "e12"; "e2s"; "e3s"; "e6s"; "e9s"; "e12s"; "en_decimal"; "en_number"; "number"]%string.
Lemma counting_names x : In x counting -> In x english_names.
Proof. intros H. vm_compute in H. vm_compute. tauto. Qed.
Lemma calc_int ts z : f_calculates ts (FMR "nf.I" [Arg "int" (VInt z)]).
Proof. constructor. constructor. Qed.

Lemma english_calculates tokenize tmatch gs d ws : in_words tokenize tmatch number_words d ws -> ~ In "point"%string ws ->
  (forall x b, has_body gs x b -> In b (alternatives x)) -> calculates tokenize tmatch gs (content d) (fun x => In x counting).
Proof.
  intros Hws Hp HB x b Hx Hb. apply HB in Hb.
  assert (K : forall lo sc, In lo counting -> In sc counting -> In b (level lo sc) ->
            Forall (fun t => t_type t = TTerminal \/ t_type t = TNonterminal /\ In (t_value t) counting) (rb_terms b) /\
            exists f, rb_f b = Some f /\ f_calculates (rb_terms b) f).
  { intros lo sc Hlo Hsc H. destruct H as [<-|[<-|[<-|[<-|[<-|[]]]]]]; cbn [rb_terms rb_f]; (split;
      [repeat (constructor; [first [left; reflexivity|right; split; [reflexivity|assumption]]|]); constructor|eexists; split; [reflexivity|]]).
    - constructor. apply (ac_part _ 0 (nonterm lo)); reflexivity.
    - constructor. apply (ac_part _ 0 (nonterm sc)); reflexivity.
    - apply (fc_binary _ Times); [apply (ac_part _ 0 (nonterm lo))|apply (ac_part _ 1 (nonterm sc))]; reflexivity.
    - apply (fc_binary _ Plus); [constructor; apply (fc_binary _ Times); [apply (ac_part _ 0 (nonterm lo))|apply (ac_part _ 1 (nonterm sc))]|apply (ac_part _ 2 (nonterm lo))]; reflexivity.
    - apply (fc_binary _ Plus); [constructor; apply (fc_binary _ Times); [apply (ac_part _ 0 (nonterm lo))|apply (ac_part _ 1 (nonterm sc))]|apply (ac_part _ 3 (nonterm lo))]; reflexivity. }
  assert (K1 : forall l, In b (map number_body l) ->
            Forall (fun t => t_type t = TTerminal \/ t_type t = TNonterminal /\ In (t_value t) counting) (rb_terms b) /\
            exists f, rb_f b = Some f /\ f_calculates (rb_terms b) f).
  { intros l H. apply in_map_iff in H as ((w & z) & <- & _). split; [constructor; [left; reflexivity|constructor]|].
    eexists. split; [reflexivity|]. apply calc_int. }
  assert (K2 : forall y, In y counting -> b = mkRb [nonterm y] (call1 (part 1)) ->
            Forall (fun t => t_type t = TTerminal \/ t_type t = TNonterminal /\ In (t_value t) counting) (rb_terms b) /\
            exists f, rb_f b = Some f /\ f_calculates (rb_terms b) f).
  { intros y Hy ->. split; [constructor; [right; split; [reflexivity|exact Hy]|constructor]|]. eexists. split; [reflexivity|]. constructor. apply (ac_part _ 0 (nonterm y)); reflexivity. }
  cbv [counting] in Hx.
  destruct Hx as [<-|[<-|[<-|Hx]]]; [right; exact (K1 units Hb)|right; exact (K1 teens Hb)|right; exact (K1 tens Hb)|].
  destruct Hx as [<-|[<-|[<-|[<-|[<-|[<-|Hx]]]]]];
    [|right; exact (K1 [_] Hb)|right; exact (K1 [_] Hb)|right; exact (K1 [_] Hb)|right; exact (K1 [_] Hb)|right; exact (K1 [_] Hb)|].
  2: destruct Hx as [<-|[<-|[<-|[<-|[<-|Hx]]]]];
    [right; apply (K "e1"%string "e2"%string)|right; apply (K "e2s" "e3")|right; apply (K "e3s" "e6")|right; apply (K "e6s" "e9")|right; apply (K "e9s" "e12")|destruct Hx as [<-|[<-|[<-|[]]]]];
    try exact Hb; try (vm_compute; tauto).
  - right. destruct Hb as [<-|[<-|[<-|[<-|[<-|[]]]]]]; try (eapply K2; [|reflexivity]; vm_compute; tauto);
      (split; [repeat (constructor; [first [left; reflexivity|right; split; [reflexivity|vm_compute; tauto]]|]); constructor|eexists; split; [reflexivity|]]).
    + apply (fc_binary _ Plus); [apply (ac_part _ 0 (nonterm "tens"))|apply (ac_part _ 1 (nonterm "unit"))]; reflexivity.
    + apply (fc_binary _ Plus); [apply (ac_part _ 0 (nonterm "tens"))|apply (ac_part _ 2 (nonterm "unit"))]; reflexivity.
  - left. destruct Hb as [<-|[]]. exists (word "point"). split; [left; reflexivity|]. left. split; [reflexivity|].
    intros i j [_ H]. exact (no_point tokenize tmatch d ws Hws Hp i j H).
  - right. destruct Hb as [<-|[]]. eapply K2; [|reflexivity]. vm_compute. tauto.
  - right. destruct Hb as [<-|[<-|[<-|[<-|[]]]]]; try (eapply K2; [|reflexivity]; vm_compute; tauto);
      (split; [repeat (constructor; [first [left; reflexivity|right; split; [reflexivity|vm_compute; tauto]]|]); constructor|eexists; split; [reflexivity|]]).
    + apply (fc_binary _ Plus); [apply (ac_part _ 0 (nonterm "en_number"))|apply (ac_part _ 1 (nonterm "en_decimal"))]; reflexivity.
    + apply (fc_binary _ Plus); [apply (ac_part _ 0 (nonterm "en_number"))|apply (ac_part _ 2 (nonterm "en_decimal"))]; reflexivity.
Qed.

Lemma english_written e x : (forall name bs, In (name, bs) english_rules -> NoDup (map (e_hash e) bs)) -> NoDup (map (e_hash e) (written english_items false x)).
Proof.
  intros H. assert (K : written english_items false x = [] \/ In (x, written english_items false x) english_rules).
  { destruct (in_dec string_dec x english_names) as [Hx|Hx].
    - right. cbv [english_names english_rules map fst] in Hx.
      unfold english_rules.
      repeat (destruct Hx as [<-|Hx]; [repeat first [left; reflexivity|right]|]). destruct Hx.
    - left. unfold written, english_items. rewrite flat_map_concat_map, map_map.
      assert (E : forall l, (forall r, In r l -> fst r <> x) -> concat (map (fun r : string * list rulebody => if Bool.eqb false false && String.eqb (fst r) x then snd r else []) l) = []).
      { induction l as [|r l IH]; intros Hl; [reflexivity|]. cbn [map concat]. rewrite IH by (intros r' Hr'; apply Hl; right; exact Hr').
        destruct (String.eqb (fst r) x) eqn:Er; [|reflexivity]. apply String.eqb_eq in Er. destruct (Hl r (or_introl eq_refl) Er). }
      apply E. intros r Hr <-. apply Hx. apply in_map. exact Hr. }
  destruct K as [->|K]; [constructor|exact (H _ _ K)].
Qed.
Lemma english_no_point ws z : english ws z -> ~ In "point"%string ws.
Proof.
  intros H C. apply english_level in H as [H _]. apply clean12 in H as (_ & _ & H & _). rewrite Forall_forall in H. apply H in C.
  revert C. apply not_mem. vm_compute. reflexivity.
Qed.

(** ** The call *)
Section Call.
  Variable e : env.
  Hypothesis HE : env_ok e.
  Hypothesis Hfrac : fractions_scan e.
  Hypothesis Hpat : e_regexp_ok e sf_pattern = true.
  Hypothesis Htok : texts_have_tokens e.
  Hypothesis Hmd5 : String.prefix "g_t" (e_md5 e sf_pattern) = false.
  Variable dir : string.
  Hypothesis Hin : installed e dir dir_math.
  Variables (fuel0 depth0 : nat) (gt : list (string * token)) (g : grammar) (w' : world).
  Hypothesis Hload : from_file e fuel0 depth0 (e_join e dir "number.en.grammar") gt = Ret (Some g, w').
  Hypothesis Hhash : forall name bs, In (name, bs) english_rules -> NoDup (map (e_hash e) bs).
  Variable tmatch : term -> option token -> bool.
  Variable ords : nat -> order.
  Hypothesis Hords : orders ords.
  Variable find_all : string -> string -> option (list (nat * nat)).
  Variable span_text : document -> nat -> nat -> string.
  Variable ord : nat -> list (string * ModelLocal.entry) -> list (string * ModelLocal.entry).
  Hypothesis Hord : forall i l, Permutation l (ord i l).
  Variable annotate : string -> string -> res document.
  Variables (ctx text : string) (d : document).
  Hypothesis Ht : trim_space text <> "".
  Hypothesis Ha : annotate ctx (trim_space text) = Ret d.
  Hypothesis Hfit : fit_document (e_hash e) find_all [] d.
  Hypothesis Htag : forall x, In x english_names -> ~ tagged d x.
  Variable join_words : list string -> string.
  Variable float_string : bigf -> string.
  Variable json : dval -> string.
  Variable is_print_hi : rune -> bool.
  Variable scan : string -> option bfloat.
  Variable rcall : string -> list dval -> res (list dval).
  Hypothesis Hscan : scans_floats scan.
  Hypothesis Hmath : math_registered scan rcall.

  Lemma english_number ws n : english ws n -> in_words (e_tokenize e) tmatch number_words d ws ->
    exists p ref ts N m, (forall steps fuel, N <= fuel -> length (content d) < steps ->
        EarleyParseMaxAll tmatch ords (all_rules g) (doc_tokens annotate)
          (doc_local (e_hash e) find_all span_text (g_regexps g) ord annotate ctx text) steps fuel ctx text ["number"%string] = Ret [p]) /\
      p_finals p = [ref] /\ (forall fuel, m <= fuel -> get_trees (p_columns p) fuel ref = Ret ts) /\ ts <> [] /\
      forall t, In t ts -> exists x, value x = n /\
        semantic p join_words float_string json is_print_hi (Call rcall) t = Ret (formula x) /\
        ((n < 10 ^ 10)%Z -> exists s, numeral n s /\ eval p join_words float_string (Call rcall) t = Ret (DStr s)).
  Proof using HE Hfrac Hpat Htok Hmd5 Hin Hload Hhash Hords Hord Ht Ha Hfit Htag Hscan Hmath.
    intros HW Hws.
    assert (Hfile : In ("number.en.grammar"%string, math_number_en) dir_math) by (unfold dir_math; do 4 right; left; reflexivity).
    destruct (Hin _ _ Hfile) as [R1 R2].
    destruct (shipped_usable e HE Hfrac Hpat Htok Hmd5 dir_math dir ltac:(unfold shipped; do 4 right; left; reflexivity) Hin _ _ Hfile ltac:(discriminate) _ _ _ _ _ Hload)
      as (L & HL & _ & HC & HF & HU).
    destruct (plain_rules e HE _ _ (english_text e HE) _ _ _ _ _ _ _ R1 R2 Hload L HL) as (_ & Hre & HB & HB').
    specialize (HC eq_refl). specialize (HF ltac:(discriminate)).
    specialize (HU HC ["number"%string] ltac:(discriminate)).
    assert (HU' : usable (e_tokenize e) L ["number"%string]) by (apply HU; intros S [<-|[]]; split; [discriminate|reflexivity]). clear HU.
    assert (HB2 : forall x b, In b (alternatives x) -> has_body (map rd_before L) x b) by (intros x b; apply HB'; apply english_written; exact Hhash).
    pose proof (english_no_point _ _ HW) as Hp. destruct (english_level _ _ HW) as (Hl & Hpos & Htri).
    destruct (readable_number (e_tokenize e) tmatch (map rd_before L) d ws Hws HB2 n Hl) as (x0 & Hx0).
    pose proof (english_calculates _ _ _ _ _ Hws Hp HB) as HN.
    rewrite <- (proj1 Hws) in Hx0.
    destruct (worth_whole e math_number_en g L HL ["number"%string] HU' HF tmatch ords Hords find_all span_text ord Hord annotate ctx text d Ht Ha
                ltac:(rewrite Hre; exact Hfit) (fun x => In x counting) HN
                ltac:(rewrite Hre; intros x Hx; apply counting_names in Hx; apply english_text_only; auto)
                ltac:(intros S [<-|[]]; vm_compute; tauto) join_words float_string json is_print_hi scan rcall Hscan Hmath "number" x0
                ltac:(apply Hfit) ltac:(left; reflexivity) Hx0) as (p & ref & ts & N & m & E & F1 & F2 & F3 & F4).
    exists p, ref, ts, N, m. split; [exact E|]. split; [exact F1|]. split; [exact F2|]. split; [exact F3|].
    intros t Hin'. destruct (F4 t Hin') as (S & x & [<-|[]] & Hx & D1 & D2).
    destruct (reading_number (e_tokenize e) tmatch (map rd_before L) d ws Hws HB Hp _ _ _ Hx) as (_ & Hlev & Hmod).
    rewrite (proj1 Hws) in Hlev, Hmod. assert (Esl : sl ws 0 (length ws) = ws) by (unfold sl; cbn [skipn]; rewrite Nat.sub_0_r; apply firstn_all).
    rewrite Esl in Hlev, Hmod. pose proof (functional12 _ _ _ Hl Hlev) as En. subst n.
    exists x. split; [reflexivity|]. split; [exact D1|]. intros Hn. apply D2, Hmod; [|exact Hn]. apply Htri. eapply Z.lt_trans; [exact Hn|reflexivity].
  Qed.
End Call.


Lemma english_call e : env_ok e -> fractions_scan e -> e_regexp_ok e sf_pattern = true -> texts_have_tokens e -> words_are_tokens (e_tokenize e) number_words ->
  String.prefix "g_t" (e_md5 e sf_pattern) = false ->
  (forall name bs, In (name, bs) english_rules -> NoDup (map (e_hash e) bs)) ->
  forall dir fuel0 depth0 gt g w', installed e dir dir_math ->
  from_file e fuel0 depth0 (e_join e dir "number.en.grammar") gt = Ret (Some g, w') ->
  forall gtokens to_lower ords, orders ords ->
  forall find_all span_text ord, (forall i l, Permutation l (ord i l)) ->
  forall annotate ctx text d, trim_space text <> "" -> annotate ctx (trim_space text) = Ret d ->
  fit_document (e_hash e) find_all [] d -> (forall x, In x english_names -> ~ tagged d x) ->
  forall join_words float_string json is_print_hi scan rcall, scans_floats scan -> math_registered scan rcall ->
  forall n, english (map tok_text (content d)) n ->
  exists p ref ts N m, (forall steps fuel, N <= fuel -> length (content d) < steps ->
      EarleyParseMaxAll (terminal_match gtokens to_lower) ords (all_rules g) (doc_tokens annotate)
        (doc_local (e_hash e) find_all span_text (g_regexps g) ord annotate ctx text) steps fuel ctx text ["number"%string] = Ret [p]) /\
    p_finals p = [ref] /\ (forall fuel, m <= fuel -> get_trees (p_columns p) fuel ref = Ret ts) /\ ts <> [] /\
    forall t, In t ts -> exists x, value x = n /\
      semantic p join_words float_string json is_print_hi (Call rcall) t = Ret (formula x) /\
      ((n < 10 ^ 10)%Z -> exists s, numeral n s /\ eval p join_words float_string (Call rcall) t = Ret (DStr s)).
Proof.
  intros HE Hf Hp Ht Hw Hm Hh dir fuel0 depth0 gt g w' Hi Hl gtokens to_lower ords Ho find_all span_text ord Hord annotate ctx text d H1 H2 H3 H4
    join_words float_string json is_print_hi scan rcall H5 H6 n Hn.
  eapply english_number; eauto. apply words_in. exact Hw.
Qed.
