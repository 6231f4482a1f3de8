(** The calls on builtin.grammar: the usual reading is always among the returned ones. *)
From Coq Require Import Permutation Sorted.
From Verif Require Import Base ModelTypes ModelText ModelEarley ModelTrees ModelApi ModelQuote ModelSem ModelMath ModelFuncs ModelReader ModelGrammar ModelMatch ModelLocal
     SpecTypes SpecGrammar SpecTree SpecNotation SpecRefine SpecConstruct SpecSem SpecNode SpecApi SpecLocal SpecFuncs SpecEnd SpecMath SpecMeaning
     ModelShipped SpecShipped
     ProofGrammar ProofConstruct ProofIndex ProofRecognize ProofShipped ProofShippedUsable ProofUnique ProofMeaning ProofMeaningCalls ProofSayings SpecFrameText
     SpecArith SpecWorth ProofWorth ProofWorthCalls ProofReadings ProofChineseCalls ProofCnNumCalls SpecEnglish SpecChinese SpecSpoken ProofSpoken ProofSpokenUsual ProofSpokenRules ProofSpokenCalls
     SpecLeast ProofLeastCalls ProofLeastExists ProofLeastFormula ProofWordArithLeft ProofSpokenLeast.
Local Open Scope list_scope.

Lemma not_vast_dec ws : {not_vast ws} + {~ not_vast ws}.
Proof. unfold not_vast. apply Forall_dec. intros w. destruct (in_dec string_dec w (map fst vast_magnitudes)) as [H|H]; [right; tauto|left; exact H]. Qed.

Lemma usual_call e : env_ok e -> fractions_scan e -> e_regexp_ok e sf_pattern = true -> texts_have_tokens e ->
  words_are_tokens (e_tokenize e) b_words -> String.prefix "g_t" (e_md5 e sf_pattern) = false ->
  (forall x, NoDup (map (e_hash e) (written builtin_items false x))) ->
  forall dir fuel0 depth0 gt g w', installed e dir dir_builtin ->
  from_file e fuel0 depth0 (e_join e dir "builtin.grammar") gt = Ret (Some g, w') ->
  forall gtokens to_lower ords, orders ords ->
  forall find_all span_text ord, (forall i l, Permutation l (ord i l)) ->
  forall annotate ctx text d, trim_space text <> "" -> annotate ctx (trim_space text) = Ret d ->
  fit_document (e_hash e) find_all [] d -> (forall x, In x amount_names -> ~ tagged d x) ->
  forall join_words float_string json is_print_hi scan rcall, scans_floats scan -> math_registered scan rcall ->
  forall n, merged (map tok_text (content d)) n ->
  exists p ref ts N m, (forall steps fuel, N <= fuel -> length (content d) < steps ->
      EarleyParseMaxAll (terminal_match gtokens to_lower) ords (all_rules g) (doc_tokens annotate)
        (doc_local (e_hash e) find_all span_text (g_regexps g) ord annotate ctx text) steps fuel ctx text ["number"%string] = Ret [p]) /\
    p_finals p = [ref] /\ (forall fuel, m <= fuel -> get_trees (p_columns p) fuel ref = Ret ts) /\
    exists t x, In t ts /\ value x = n /\
      semantic p join_words float_string json is_print_hi (Call rcall) t = Ret (formula x) /\
      ((n < 10 ^ 10)%Z -> not_vast (map tok_text (content d)) -> exists s, numeral n s /\ eval p join_words float_string (Call rcall) t = Ret (DStr s)).
Proof.
  intros HE Hfrac Hpat Htok Hwt Hmd5 Hhash dir fuel0 depth0 gt g w' Hin Hload gtokens to_lower ords Hords find_all span_text ord Hord annotate ctx text d Ht Ha Hfit Htag
    join_words float_string json is_print_hi scan rcall Hscan Hmath n Hn.
  set (tmatch := terminal_match gtokens to_lower). set (ws := map tok_text (content d)) in *.
  assert (Hfile : In ("builtin.grammar"%string, builtin_builtin) dir_builtin) by (unfold dir_builtin; left; reflexivity).
  destruct (Hin _ _ Hfile) as [R1 R2].
  destruct (shipped_usable e HE Hfrac Hpat Htok Hmd5 dir_builtin dir ltac:(unfold shipped; do 2 right; left; reflexivity) Hin _ _ Hfile ltac:(discriminate) _ _ _ _ _ Hload)
    as (L & HL & _ & HC & HF & HU).
  destruct (plain_rules e HE _ _ (builtin_text e HE) _ _ _ _ _ _ _ R1 R2 Hload L HL) as (_ & Hre & HB & HB').
  specialize (HC eq_refl). specialize (HF ltac:(discriminate)). specialize (HU HC ["number"%string] ltac:(discriminate)).
  assert (HU' : usable (e_tokenize e) L ["number"%string]) by (apply HU; intros S [<-|[]]; split; [discriminate|reflexivity]). clear HU.
  assert (HB2 : forall x b, In b (b_alternatives x) -> has_body (map rd_before L) x b) by (intros x b; apply HB'; apply Hhash).
  pose proof (builtin_calculates (e_tokenize e) tmatch _ d HB) as HN.
  pose proof (words_in (e_tokenize e) gtokens to_lower b_words d Hwt) as Hws. fold tmatch ws in Hws.
  destruct (says_spoken (e_tokenize e) tmatch (map rd_before L) d ws Hws HB2 ws n (merged_spoken _ _ Hn) [] [] ltac:(rewrite app_nil_r; reflexivity)) as (x0 & Hx0 & _).
  cbn [length Nat.add] in Hx0. assert (El : length ws = length (content d)) by apply map_length. rewrite El in Hx0.
  assert (Hnum : In "number"%string amount_names) by (vm_compute; tauto).
  destruct (least_whole e builtin_builtin g L HL ["number"%string] HU' HF tmatch ords Hords find_all span_text ord Hord annotate ctx text d Ht Ha
              ltac:(rewrite Hre; exact Hfit) (fun x => In x amount_names) HN
              ltac:(rewrite Hre; intros x Hx; apply builtin_text_only; auto)
              ltac:(intros S [<-|[]]; exact Hnum) join_words float_string json is_print_hi scan rcall Hscan Hmath "number" x0
              ltac:(apply Hfit) ltac:(left; reflexivity) Hx0) as (p & ref & ts & N & m & E & F1 & F2 & F3 & F4 & S & [<-|[]] & F5).
  exists p, ref, ts, N, m. split; [exact E|]. split; [exact F1|]. split; [exact F2|].
  pose proof (least_exists (e_tokenize e) tmatch (map rd_before L) (content d) _ HN
                (fun x b t i j _ Hb Ht' HA => texts_take _ _ _ _ _ _ _ _ _ _ HU' Hb Ht' HA) (fun x b _ Hb => bodies_some _ _ _ _ _ _ HL Hb) _ _ _ _ Hnum Hx0) as K.
  assert (Ew : sl ws 0 (length (content d)) = ws) by (unfold sl; cbn [skipn]; rewrite Nat.sub_0_r, <- El; apply firstn_all).
  destruct (find_tree (displays p join_words float_string json is_print_hi rcall)
              (fun x => value x = n /\ ((n < 10 ^ 10)%Z -> not_vast ws -> modest x)) ts) as (t & x & T1 & [D1 D2] & V & M).
  - intros x. destruct (Z.eq_dec (value x) n) as [A|A]; [|right; tauto].
    destruct (modest_dec x) as [C|C]; [left; tauto|]. destruct (Z_lt_dec n (10 ^ 10)) as [D|D]; [|left; tauto]. destruct (not_vast_dec ws) as [F|F]; [right; tauto|left; tauto].
  - intros t Ht'. destruct (F4 t Ht') as (S & x & _ & _ & D). exists x. exact D.
  - intros t x y. apply displays_unique.
  - intros C. apply K. intros (v & k & V1 & V2). apply C.
    destruct (F5 v) as (t & T1 & T2); [exists k; auto|]. exists t, v. split; [exact T1|]. split; [exact T2|].
    pose proof (least_merged (e_tokenize e) tmatch (map rd_before L) d ws Hws HB HB2 _ _ _ _ _ (Nat.lt_succ_diag_r _) V1 V2) as Mv. rewrite Ew in Mv.
    assert (value v = n) as Ev by (exact (merged_once _ _ _ Mv Hn)). split; [exact Ev|].
    destruct (spoken_reads (e_tokenize e) tmatch (map rd_before L) d ws Hws HB _ _ _ (proj1 (least_worth _ _ _ _) _ _ _ _ _ V1)) as (_ & _ & _ & Mo). rewrite Ew, Ev in Mo. exact Mo.
  - exists t, x. split; [exact T1|]. split; [exact V|]. split; [exact D1|]. intros Hlt Hnv. rewrite <- V. apply D2, M; assumption.
Qed.

(** any text *)
Lemma usual_calls e : env_ok e -> fractions_scan e -> e_regexp_ok e sf_pattern = true -> texts_have_tokens e ->
  words_are_tokens (e_tokenize e) b_words -> String.prefix "g_t" (e_md5 e sf_pattern) = false ->
  (forall x, NoDup (map (e_hash e) (written builtin_items false x))) ->
  forall dir fuel0 depth0 gt g w', installed e dir dir_builtin ->
  from_file e fuel0 depth0 (e_join e dir "builtin.grammar") gt = Ret (Some g, w') ->
  forall gtokens to_lower ords, orders ords ->
  forall find_all span_text ord, (forall i l, Permutation l (ord i l)) ->
  forall annotate ctx text d, trim_space text <> "" -> annotate ctx (trim_space text) = Ret d ->
  fit_document (e_hash e) find_all [] d -> (forall x, In x amount_names -> ~ tagged d x) ->
  forall join_words float_string json is_print_hi scan rcall, scans_floats scan -> math_registered scan rcall ->
  exists ps N, (forall steps fuel, N <= fuel -> length (content d) < steps ->
      EarleyParseMaxAll (terminal_match gtokens to_lower) ords (all_rules g) (doc_tokens annotate)
        (doc_local (e_hash e) find_all span_text (g_regexps g) ord annotate ctx text) steps fuel ctx text ["number"%string] = Ret ps) /\
    exists spans, tiles 0 spans /\
      Forall2 (fun im p => exists q r n, skipn (fst im) (map tok_text (content d)) = q ++ r /\ length q = snd im /\ merged q n /\
          exists ref ts m t x, p_finals p = [ref] /\ (forall fuel, m <= fuel -> get_trees (p_columns p) fuel ref = Ret ts) /\
            In t ts /\ value x = n /\ semantic p join_words float_string json is_print_hi (Call rcall) t = Ret (formula x) /\
            ((n < 10 ^ 10)%Z -> not_vast q -> exists s, numeral n s /\ eval p join_words float_string (Call rcall) t = Ret (DStr s))) spans ps /\
      (forall i q r n, ~ covered spans i -> skipn i (map tok_text (content d)) = q ++ r -> ~ merged q n).
Proof.
  intros HE Hfrac Hpat Htok Hwt Hmd5 Hhash dir fuel0 depth0 gt g w' Hin Hload gtokens to_lower ords Hords find_all span_text ord Hord annotate ctx text d Ht Ha Hfit Htag
    join_words float_string json is_print_hi scan rcall Hscan Hmath.
  set (tmatch := terminal_match gtokens to_lower). set (ws := map tok_text (content d)) in *.
  assert (Hfile : In ("builtin.grammar"%string, builtin_builtin) dir_builtin) by (unfold dir_builtin; left; reflexivity).
  destruct (Hin _ _ Hfile) as [R1 R2].
  destruct (shipped_usable e HE Hfrac Hpat Htok Hmd5 dir_builtin dir ltac:(unfold shipped; do 2 right; left; reflexivity) Hin _ _ Hfile ltac:(discriminate) _ _ _ _ _ Hload)
    as (L & HL & _ & HC & HF & HU).
  destruct (plain_rules e HE _ _ (builtin_text e HE) _ _ _ _ _ _ _ R1 R2 Hload L HL) as (_ & Hre & HB & HB').
  specialize (HC eq_refl). specialize (HF ltac:(discriminate)). specialize (HU HC ["number"%string] ltac:(discriminate)).
  assert (HU' : usable (e_tokenize e) L ["number"%string]) by (apply HU; intros S [<-|[]]; split; [discriminate|reflexivity]). clear HU.
  assert (HB2 : forall x b, In b (b_alternatives x) -> has_body (map rd_before L) x b) by (intros x b; apply HB'; apply Hhash).
  pose proof (builtin_calculates (e_tokenize e) tmatch _ d HB) as HN.
  pose proof (words_in (e_tokenize e) gtokens to_lower b_words d Hwt) as Hws. fold tmatch ws in Hws.
  assert (El : length ws = length (content d)) by apply map_length.
  assert (Hnum : In "number"%string amount_names) by (vm_compute; tauto).
  destruct (least_max e builtin_builtin g L HL ["number"%string] HU' HF tmatch ords Hords find_all span_text ord Hord annotate ctx text d Ht Ha
              ltac:(rewrite Hre; exact Hfit) (fun x => In x amount_names) HN
              ltac:(rewrite Hre; intros x Hx; apply builtin_text_only; auto)
              ltac:(intros S [<-|[]]; exact Hnum) join_words float_string json is_print_hi scan rcall Hscan Hmath) as (ps & N & E & spans & T & F & U).
  exists ps, N. split; [exact E|]. exists spans. split; [exact T|]. split.
  - clear E T U. induction F as [|im p spans ps (A & B & _ & ref & ts & m & D1 & D2 & D3 & D4 & S0 & [<-|[]] & D5) F IH]; constructor; [|exact IH]. clear IH F.
    destruct ts as [|t0 ts']; [congruence|]. destruct (D4 t0 (or_introl eq_refl)) as (S & x1 & [<-|[]] & Hx1 & _).
    assert (Hmax : fst im + snd im <= length (content d)).
    { pose proof Hx1 as Hx2. apply (worth_means e g L tmatch find_all d) in Hx2. apply (proj1 (derives_bounds _ _ _ _ _) _ _ _ Hx2). lia. }
    set (k := snd im) in *. set (i := fst im) in *. set (V := skipn i ws).
    assert (Es : sl ws i (i + k) = firstn k V) by (unfold sl, V; f_equal; lia).
    destruct (spoken_reads (e_tokenize e) tmatch (map rd_before L) d ws Hws HB _ _ _ Hx1) as (_ & Sx & _). rewrite Es in Sx.
    destruct (merged_exists _ _ Sx) as (n & Hn).
    exists (firstn k V), (skipn k V), n. split; [symmetry; apply firstn_skipn|]. split; [apply firstn_length_le; unfold V; rewrite skipn_length; lia|]. split; [exact Hn|].
    pose proof (least_exists (e_tokenize e) tmatch (map rd_before L) (content d) _ HN
                  (fun x b t i j _ Hb Ht' HA => texts_take _ _ _ _ _ _ _ _ _ _ HU' Hb Ht' HA) (fun x b _ Hb => bodies_some _ _ _ _ _ _ HL Hb) _ _ _ _ Hnum Hx1) as K.
    destruct (find_tree (displays p join_words float_string json is_print_hi rcall)
                (fun x => value x = n /\ ((n < 10 ^ 10)%Z -> not_vast (firstn k V) -> modest x)) (t0 :: ts')) as (t & x & T1 & [E1 E2] & Ev & M).
    + intros x. destruct (Z.eq_dec (value x) n) as [A'|A']; [|right; tauto].
      destruct (modest_dec x) as [C|C]; [left; tauto|]. destruct (Z_lt_dec n (10 ^ 10)) as [D|D]; [|left; tauto]. destruct (not_vast_dec (firstn k V)) as [F|F]; [right; tauto|left; tauto].
    + intros t Ht'. destruct (D4 t Ht') as (S & x & _ & _ & D). exists x. exact D.
    + intros t x y. apply displays_unique.
    + intros C. apply K. intros (v & h & V1 & V2). apply C.
      destruct (D5 v) as (t & T1 & T2); [exists h; auto|]. exists t, v. split; [exact T1|]. split; [exact T2|].
      pose proof (least_merged (e_tokenize e) tmatch (map rd_before L) d ws Hws HB HB2 _ _ _ _ _ (Nat.lt_succ_diag_r _) V1 V2) as Mv. rewrite Es in Mv.
      assert (value v = n) as Ev by (exact (merged_once _ _ _ Mv Hn)). split; [exact Ev|].
      destruct (spoken_reads (e_tokenize e) tmatch (map rd_before L) d ws Hws HB _ _ _ (proj1 (least_worth _ _ _ _) _ _ _ _ _ V1)) as (_ & _ & _ & Mo). rewrite Es, Ev in Mo. exact Mo.
    + exists ref, (t0 :: ts'), m, t, x. split; [exact D1|]. split; [exact D2|]. split; [exact T1|]. split; [exact Ev|]. split; [exact E1|].
      intros Hlt Hnv. rewrite <- Ev. apply E2, M; assumption.
  - intros i q r n Hc Eq Hq. pose proof (merged_some _ _ Hq) as Nq.
    assert (Hlt : i < length (content d)).
    { destruct (Nat.lt_ge_cases i (length (content d))) as [X|X]; [exact X|exfalso]. rewrite skipn_all2 in Eq by lia. destruct q; [congruence|discriminate Eq]. }
    assert (Hle : i <= length ws) by lia. destruct (prefix_sl _ _ _ _ Hle Eq) as (P1 & P2 & _).
    destruct (says_spoken (e_tokenize e) tmatch (map rd_before L) d ws Hws HB2 q n (merged_spoken _ _ Hq) _ _ P1) as (x & Hx & _). rewrite P2 in Hx.
    exact (U "number"%string x i _ Hlt Hc (or_introl eq_refl) Hx).
Qed.
