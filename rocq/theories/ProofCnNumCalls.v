(** The calls on cn_num.grammar: the longest simple numerals, and their numbers. *)
From Coq Require Import Permutation Sorted.
From Verif Require Import Base ModelTypes ModelText ModelEarley ModelTrees ModelApi ModelQuote ModelSem ModelMath ModelFuncs ModelReader ModelGrammar ModelMatch ModelLocal
     SpecTypes SpecGrammar SpecTree SpecNotation SpecRefine SpecConstruct SpecSem SpecNode SpecApi SpecLocal SpecFuncs SpecEnd SpecMath SpecMeaning
     ModelShipped SpecShipped
     ProofGrammar ProofConstruct ProofIndex ProofRecognize ProofShipped ProofShippedUsable ProofUnique ProofMeaning ProofMeaningCalls ProofSayings SpecFrameText
     SpecArith SpecWorth ProofWorth ProofWorthCalls ProofReadings SpecChinese ProofChinese ProofChineseRules ProofChineseCalls SpecCnNum ProofCnNum ProofCnNumRules.
Local Open Scope list_scope.

(** ** The rules of cn_num.grammar *)
Lemma cn_num_text e : env_ok e -> e_text e builtin_cn_num [] cn_num_items [].
Proof.
  intros HE. destruct (decodes_ok builtin_cn_num ltac:(vm_compute; reflexivity)) as [D1 D2].
  left. exists (runes_of builtin_cn_num). split; [exact D1|]. split; [exact D2|].
  assert (H : p_file [] [] 10 (runes_of builtin_cn_num) = Some ([], cn_num_items, [])) by (vm_compute; reflexivity).
  revert H. apply sound_file.
  - apply letters_ascii.
  - apply digits_ascii.
  - intros s f [].
  - intros x h [].
Qed.
Lemma cn_num_text_only find_all d x : In x cn_num_names -> ~ tagged d x -> text_only find_all [] d x.
Proof.
  intros Hx Htag b H. inversion H as [k ? Hk Hc|sp m ? Hs Hv Hi|sp m ? items Hs Hv Hi|? s k Hr]; subst.
  - cbv [cn_num_names cn_num_rules map fst] in Hx. repeat (destruct Hx as [<-|Hx]; [inversion Hc|]). destruct Hx.
  - apply Htag. exists sp, m, EOther. auto.
  - apply Htag. exists sp, m, (EList items). auto.
  - destruct Hr as (pat & ms & a & b & k' & l & [] & _).
Qed.
Lemma cn_num_calculates tokenize tmatch gs d :
  (forall x b, has_body gs x b -> In b (s_alternatives x)) -> calculates tokenize tmatch gs (content d) (fun x => In x cn_num_names).
Proof.
  intros HB x b Hx Hb. apply HB in Hb.
  assert (K1 : forall l, In b (map number_body l) -> idle tokenize tmatch gs (content d) (fun x => In x cn_num_names) b \/
            (Forall (fun t => t_type t = TTerminal \/ t_type t = TNonterminal /\ In (t_value t) cn_num_names) (rb_terms b) /\
             exists f, rb_f b = Some f /\ f_calculates (rb_terms b) f)).
  { intros l H. apply in_map_iff in H as ((w & z) & <- & _). calc_b. }
  cbv [cn_num_names cn_num_rules map fst] in Hx.
  destruct Hx as [<-|[<-|[<-|[<-|[<-|[<-|[<-|Hx]]]]]]];
    [exact (K1 s_units Hb)|exact (K1 (sized 0 zeros) Hb)|exact (K1 (sized 10 ["十"%string]) Hb)|exact (K1 (sized 100 ["百"%string]) Hb)|
     exact (K1 (sized 1000 ["千"%string]) Hb)|exact (K1 (sized 10000 ["万"%string]) Hb)|exact (K1 (sized 100000000 ["亿"%string]) Hb)|].
  destruct Hx as [<-|[<-|[<-|[<-|[<-|[<-|[]]]]]]].
  - destruct Hb as [<-|[<-|[<-|[<-|[]]]]]; calc_b.
  - destruct Hb as [<-|[<-|[<-|[<-|[]]]]]; calc_b.
  - destruct Hb as [<-|[<-|[<-|[<-|[<-|[]]]]]]; calc_b.
  - destruct Hb as [<-|[<-|[<-|[]]]]; calc_b.
  - destruct Hb as [<-|[<-|[<-|[<-|[]]]]]; calc_b.
  - destruct Hb as [<-|[]]; calc_b.
Qed.

Lemma prefix_sl (ws q r : list string) i : i <= length ws -> skipn i ws = q ++ r ->
  ws = firstn i ws ++ q ++ r /\ length (firstn i ws) = i /\ sl ws i (i + length q) = q.
Proof.
  intros Hi E. split; [rewrite <- E; symmetry; apply firstn_skipn|]. split; [apply firstn_length_le; exact Hi|].
  unfold sl. rewrite E. replace (i + length q - i) with (length q) by lia. rewrite firstn_app, Nat.sub_diag, firstn_all. cbn [firstn]. apply app_nil_r.
Qed.

Section Call.
  Variable e : env.
  Hypothesis HE : env_ok e.
  Hypothesis Hfrac : fractions_scan e.
  Hypothesis Hpat : e_regexp_ok e sf_pattern = true.
  Hypothesis Htok : texts_have_tokens e.
  Hypothesis Hwt : words_are_tokens (e_tokenize e) s_words.
  Hypothesis Hmd5 : String.prefix "g_t" (e_md5 e sf_pattern) = false.
  Hypothesis Hhash : forall x, NoDup (map (e_hash e) (written cn_num_items false x)).
  Variables (dir : string) (fuel0 depth0 : nat) (gt : list (string * token)) (g : grammar) (w' : world).
  Hypothesis Hin : installed e dir dir_builtin.
  Hypothesis Hload : from_file e fuel0 depth0 (e_join e dir "cn_num.grammar") gt = Ret (Some g, w').
  Variable gtokens : string -> option token.
  Variable to_lower : string -> string.
  Variable ords : nat -> order.
  Hypothesis Hords : orders ords.
  Variable find_all : string -> string -> option (list (nat * nat)).
  Variable span_text : document -> nat -> nat -> string.
  Variable ord : nat -> list (string * ModelLocal.entry) -> list (string * ModelLocal.entry).
  Hypothesis Hord : forall i l, Permutation l (ord i l).
  Variable annotate : string -> string -> res document.
  Variables (ctx text : string) (d : document).
  Hypothesis Ht : trim_space text <> "".
  Hypothesis Ha : annotate ctx (trim_space text) = Ret d.
  Hypothesis Hfit : fit_document (e_hash e) find_all [] d.
  Hypothesis Htag : forall x, In x cn_num_names -> ~ tagged d x.
  Variable join_words : list string -> string.
  Variable float_string : bigf -> string.
  Variable json : dval -> string.
  Variable is_print_hi : rune -> bool.
  Variable scan : string -> option bfloat.
  Variable rcall : string -> list dval -> res (list dval).
  Hypothesis Hscan : scans_floats scan.
  Hypothesis Hmath : math_registered scan rcall.
  Notation tmatch := (terminal_match gtokens to_lower).
  Notation ws := (map tok_text (content d)).

  Lemma cn_num_calls : exists L, (exists ps N, (forall steps fuel, N <= fuel -> length (content d) < steps ->
      EarleyParseMaxAll tmatch ords (all_rules g) (doc_tokens annotate)
        (doc_local (e_hash e) find_all span_text (g_regexps g) ord annotate ctx text) steps fuel ctx text ["number"%string] = Ret ps) /\
    exists spans, tiles 0 spans
      /\ Forall2 (fun im p => fst im < length (content d) /\ 0 < snd im
            /\ (forall S x j, In S ["number"%string] -> worth (e_tokenize e) tmatch (map rd_before L) (content d) S (fst im) j x -> j <= fst im + snd im)
            /\ exists ref ts m, p_finals p = [ref] /\ (forall fuel, m <= fuel -> get_trees (p_columns p) fuel ref = Ret ts) /\ ts <> []
                 /\ forall t, In t ts -> exists S x, In S ["number"%string] /\ worth (e_tokenize e) tmatch (map rd_before L) (content d) S (fst im) (fst im + snd im) x /\
                      displays p join_words float_string json is_print_hi rcall t x) spans ps
      /\ (forall S x i j, i < length (content d) -> ~ covered spans i -> In S ["number"%string] -> ~ worth (e_tokenize e) tmatch (map rd_before L) (content d) S i j x)) /\
    (forall i j x, worth (e_tokenize e) tmatch (map rd_before L) (content d) "number" i j x -> i <= j /\ simple (sl ws i j) (value x) /\ ((value x < 10 ^ 10)%Z -> modest x)) /\
    (forall i q r n, i <= length ws -> skipn i ws = q ++ r -> simple q n -> exists x, worth (e_tokenize e) tmatch (map rd_before L) (content d) "number" i (i + length q) x).
  Proof using HE Hfrac Hpat Htok Hwt Hmd5 Hin Hload Hhash Hords Hord Ht Ha Hfit Htag Hscan Hmath.
    assert (Hfile : In ("cn_num.grammar"%string, builtin_cn_num) dir_builtin) by (unfold dir_builtin; right; left; reflexivity).
    destruct (Hin _ _ Hfile) as [R1 R2].
    destruct (shipped_usable e HE Hfrac Hpat Htok Hmd5 dir_builtin dir ltac:(unfold shipped; do 2 right; left; reflexivity) Hin _ _ Hfile ltac:(discriminate) _ _ _ _ _ Hload)
      as (L & HL & _ & HC & HF & HU).
    destruct (plain_rules e HE _ _ (cn_num_text e HE) _ _ _ _ _ _ _ R1 R2 Hload L HL) as (_ & Hre & HB & HB').
    specialize (HC eq_refl). specialize (HF ltac:(discriminate)).
    specialize (HU HC ["number"%string] ltac:(discriminate)).
    assert (HU' : usable (e_tokenize e) L ["number"%string]) by (apply HU; intros S [<-|[]]; split; [discriminate|reflexivity]). clear HU.
    assert (HB2 : forall x b, In b (s_alternatives x) -> has_body (map rd_before L) x b) by (intros x b; apply HB'; apply Hhash).
    pose proof (cn_num_calculates (e_tokenize e) tmatch _ d HB) as HN.
    pose proof (words_in (e_tokenize e) gtokens to_lower s_words d Hwt) as Hws.
    exists L. split.
    - exact (worth_max e builtin_cn_num g L HL ["number"%string] HU' HF tmatch ords Hords find_all span_text ord Hord annotate ctx text d Ht Ha
                ltac:(rewrite Hre; exact Hfit) (fun x => In x cn_num_names) HN
                ltac:(rewrite Hre; intros x Hx; apply cn_num_text_only; auto)
                ltac:(intros S [<-|[]]; vm_compute; tauto) join_words float_string json is_print_hi scan rcall Hscan Hmath).
    - split; [intros i j x Hx; exact (simple_reading (e_tokenize e) tmatch (map rd_before L) d ws Hws HB i j x Hx)|].
      intros i q r n Hi E Hq. destruct (prefix_sl _ _ _ _ Hi E) as (E1 & E2 & _).
      destruct (simple_readable (e_tokenize e) tmatch (map rd_before L) d ws Hws HB2 q n Hq _ _ E1) as (x & Hx). rewrite E2 in Hx. eauto.
  Qed.
End Call.

Lemma simple_nonempty ws n : simple ws n -> ws <> [].
Proof. intros H. exact (proj1 (g_in _ _ _ (fits_clean _ _ _ fits8) simple_g _ _ H)). Qed.

Lemma cn_num_call e : env_ok e -> fractions_scan e -> e_regexp_ok e sf_pattern = true -> texts_have_tokens e ->
  words_are_tokens (e_tokenize e) s_words -> String.prefix "g_t" (e_md5 e sf_pattern) = false ->
  (forall x, NoDup (map (e_hash e) (written cn_num_items false x))) ->
  forall dir fuel0 depth0 gt g w', installed e dir dir_builtin ->
  from_file e fuel0 depth0 (e_join e dir "cn_num.grammar") gt = Ret (Some g, w') ->
  forall gtokens to_lower ords, orders ords ->
  forall find_all span_text ord, (forall i l, Permutation l (ord i l)) ->
  forall annotate ctx text d, trim_space text <> "" -> annotate ctx (trim_space text) = Ret d ->
  fit_document (e_hash e) find_all [] d -> (forall x, In x cn_num_names -> ~ tagged d x) ->
  forall join_words float_string json is_print_hi scan rcall, scans_floats scan -> math_registered scan rcall ->
  exists ps N, (forall steps fuel, N <= fuel -> length (content d) < steps ->
      EarleyParseMaxAll (terminal_match gtokens to_lower) ords (all_rules g) (doc_tokens annotate)
        (doc_local (e_hash e) find_all span_text (g_regexps g) ord annotate ctx text) steps fuel ctx text ["number"%string] = Ret ps) /\
    exists spans, tiles 0 spans /\
      Forall2 (fun im p => exists q r n, skipn (fst im) (map tok_text (content d)) = q ++ r /\ length q = snd im /\ simple q n /\
          (forall q' r' n', skipn (fst im) (map tok_text (content d)) = q' ++ r' -> simple q' n' -> length q' <= length q) /\
          exists ref ts m, p_finals p = [ref] /\ (forall fuel, m <= fuel -> get_trees (p_columns p) fuel ref = Ret ts) /\ ts <> [] /\
            forall t, In t ts -> exists x, value x = n /\
              semantic p join_words float_string json is_print_hi (Call rcall) t = Ret (formula x) /\
              ((n < 10 ^ 10)%Z -> exists s, numeral n s /\ eval p join_words float_string (Call rcall) t = Ret (DStr s))) spans ps /\
      (forall i q r n, ~ covered spans i -> skipn i (map tok_text (content d)) = q ++ r -> ~ simple q n).
Proof.
  intros HE Hf Hp Ht Hw Hm Hh dir fuel0 depth0 gt g w' Hi Hl gtokens to_lower ords Ho find_all span_text ord Hord annotate ctx text d H1 H2 H3 H4
    join_words float_string json is_print_hi scan rcall H5 H6.
  destruct (cn_num_calls e HE Hf Hp Ht Hw Hm Hh dir fuel0 depth0 gt g w' Hi Hl gtokens to_lower ords Ho find_all span_text ord Hord annotate ctx text d H1 H2 H3 H4
              join_words float_string json is_print_hi scan rcall H5 H6) as (L & (ps & N & E & spans & T & F & U) & Rd & Rb).
  assert (Len : length (map tok_text (content d)) = length (content d)) by apply map_length.
  exists ps, N. split; [exact E|]. exists spans. split; [exact T|]. split.
  - clear E T U. induction F as [|im p spans ps (A & B & C & ref & ts & m & D1 & D2 & D3 & D4) F IH]; constructor; [|exact IH]. clear IH F.
    assert (Hn : forall t, In t ts -> exists x, simple (sl (map tok_text (content d)) (fst im) (fst im + snd im)) (value x) /\
              ((value x < 10 ^ 10)%Z -> modest x) /\ displays p join_words float_string json is_print_hi rcall t x).
    { intros t Hin. destruct (D4 t Hin) as (S & x & [<-|[]] & Hx & Dx). destruct (Rd _ _ _ Hx) as (_ & R1 & R2). eauto. }
    destruct ts as [|t0 ts']; [congruence|]. destruct (Hn t0 (or_introl eq_refl)) as (x0 & S0 & _ & _).
    destruct (D4 t0 (or_introl eq_refl)) as (S & x1 & [<-|[]] & Hx1 & _).
    assert (Hmax : fst im + snd im <= length (content d)).
    { apply (worth_means e g L (terminal_match gtokens to_lower) find_all d) in Hx1. apply (proj1 (derives_bounds _ _ _ _ _) _ _ _ Hx1). lia. }
    set (k := snd im) in *. set (i := fst im) in *. set (W := skipn i (map tok_text (content d))).
    assert (Es : sl (map tok_text (content d)) i (i + k) = firstn k W) by (unfold sl, W; f_equal; lia).
    rewrite Es in Hn, S0.
    exists (firstn k W), (skipn k W), (value x0). split; [symmetry; apply firstn_skipn|]. split; [apply firstn_length_le; unfold W; rewrite skipn_length; lia|].
    split; [exact S0|]. split.
    + intros q' r' n' Eq Hq. destruct (Rb i q' r' n' ltac:(lia) Eq Hq) as (x & Hx). specialize (C "number"%string x _ (or_introl eq_refl) Hx).
      rewrite firstn_length_le by (unfold W; rewrite skipn_length; lia). lia.
    + exists ref, (t0 :: ts'), m. split; [exact D1|]. split; [exact D2|]. split; [exact D3|].
      intros t Hin. destruct (Hn t Hin) as (x & Sx & Mx & X1 & X2). exists x. pose proof (simple_functional _ _ _ Sx S0) as Ex. split; [exact Ex|]. split; [exact X1|].
      rewrite <- Ex. intros Hlt. apply X2, Mx. exact Hlt.
  - intros i q r n Hc Eq Hq. pose proof (simple_nonempty _ _ Hq) as Nq.
    assert (Hlt : i < length (content d)).
    { destruct (Nat.lt_ge_cases i (length (content d))) as [X|X]; [exact X|exfalso]. rewrite skipn_all2 in Eq by lia. destruct q; [congruence|discriminate Eq]. }
    destruct (Rb i q r n ltac:(lia) Eq Hq) as (x & Hx). exact (U "number"%string x i _ Hlt Hc (or_introl eq_refl) Hx).
Qed.

(** a text that is a simple numeral *)
Lemma cn_num_whole e : env_ok e -> fractions_scan e -> e_regexp_ok e sf_pattern = true -> texts_have_tokens e ->
  words_are_tokens (e_tokenize e) s_words -> String.prefix "g_t" (e_md5 e sf_pattern) = false ->
  (forall x, NoDup (map (e_hash e) (written cn_num_items false x))) ->
  forall dir fuel0 depth0 gt g w', installed e dir dir_builtin ->
  from_file e fuel0 depth0 (e_join e dir "cn_num.grammar") gt = Ret (Some g, w') ->
  forall gtokens to_lower ords, orders ords ->
  forall find_all span_text ord, (forall i l, Permutation l (ord i l)) ->
  forall annotate ctx text d, trim_space text <> "" -> annotate ctx (trim_space text) = Ret d ->
  fit_document (e_hash e) find_all [] d -> (forall x, In x cn_num_names -> ~ tagged d x) ->
  forall join_words float_string json is_print_hi scan rcall, scans_floats scan -> math_registered scan rcall ->
  forall n, simple (map tok_text (content d)) n ->
  exists p ref ts N m, (forall steps fuel, N <= fuel -> length (content d) < steps ->
      EarleyParseMaxAll (terminal_match gtokens to_lower) ords (all_rules g) (doc_tokens annotate)
        (doc_local (e_hash e) find_all span_text (g_regexps g) ord annotate ctx text) steps fuel ctx text ["number"%string] = Ret [p]) /\
    p_finals p = [ref] /\ (forall fuel, m <= fuel -> get_trees (p_columns p) fuel ref = Ret ts) /\ ts <> [] /\
    forall t, In t ts -> exists x, value x = n /\
      semantic p join_words float_string json is_print_hi (Call rcall) t = Ret (formula x) /\
      ((n < 10 ^ 10)%Z -> exists s, numeral n s /\ eval p join_words float_string (Call rcall) t = Ret (DStr s)).
Proof.
  intros HE Hf Hp Ht Hw Hm Hh dir fuel0 depth0 gt g w' Hi Hl gtokens to_lower ords Ho find_all span_text ord Hord annotate ctx text d H1 H2 H3 H4
    join_words float_string json is_print_hi scan rcall H5 H6 n Hn.
  destruct (cn_num_call e HE Hf Hp Ht Hw Hm Hh dir fuel0 depth0 gt g w' Hi Hl gtokens to_lower ords Ho find_all span_text ord Hord annotate ctx text d H1 H2 H3 H4
              join_words float_string json is_print_hi scan rcall H5 H6) as (ps & N & E & spans & T & F & U).
  set (W := map tok_text (content d)) in *.
  assert (E0 : forall l : list string, l = l ++ []) by (intros l; symmetry; apply app_nil_r).
  assert (K : forall l lo, tiles lo l -> forall a b, In (a, b) l -> lo <= a).
  { induction l as [|[a b] l IH]; intros lo Hl' a' b' Hin; [destruct Hin|]. destruct Hl' as [L1 L2]. destruct Hin as [[= <- <-]|Hin]; [exact L1|].
    specialize (IH _ L2 _ _ Hin). lia. }
  destruct F as [|[i k] p spans ps (q & r & n' & Eq & El & Sq & Mq & ref & ts & m & D1 & D2 & D3 & D4) F].
  { exfalso. apply (U 0 W [] n) in Hn; [exact Hn| |apply E0]. intros (i & k & [] & _). }
  cbn [tiles fst snd] in *. destruct T as [_ T].
  assert (i = 0) as ->.
  { destruct i as [|i]; [reflexivity|]. exfalso. apply (U 0 W [] n) in Hn; [exact Hn| |apply E0]. intros (i' & k' & [[= <- <-]|H] & Hc); [lia|].
    pose proof (K _ _ T _ _ H). lia. }
  cbn [skipn] in *. specialize (Mq W [] n (E0 W) Hn).
  assert (r = []) as -> by (apply length_zero_iff_nil; apply (f_equal (@length string)) in Eq; rewrite app_length in Eq; lia).
  rewrite app_nil_r in Eq. subst q. rewrite (simple_functional _ _ _ Sq Hn) in *.
  destruct F as [|[i k'] p' spans ps (q & r & n'' & Eq & El' & Sq' & _) F].
  - exists p, ref, ts, N, m. auto.
  - exfalso. cbn [tiles fst] in *. destruct T as [T _]. rewrite skipn_all2 in Eq by lia. apply simple_nonempty in Sq'. destruct q; [congruence|discriminate Eq].
Qed.
