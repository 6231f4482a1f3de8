(** The token classes and regular expressions as the parsing calls see them. *)
From Coq Require Import Permutation Sorted.
From Verif Require Import Base ModelTypes ModelText ModelEarley ModelTrees ModelApi ModelReader ModelGrammar ModelLocal
  ModelMatch SpecTypes SpecGrammar SpecTree SpecApi SpecLocal ProofLocal ProofLocalMatch ProofApi ProofApiLoops
  ProofApiMain ProofExtract ProofEmpty.

Lemma local_process hash find_all span_text regexps ord annotate ctx text d :
  trim_space text <> "" -> annotate ctx (trim_space text) = Ret d -> doc_ok d ->
  let P := process (doc_tokens annotate) (doc_local hash find_all span_text regexps ord annotate ctx text) ctx text in
  (content d = [] -> P = Err) /\
  (content d <> [] -> ~ spans_ok d -> P = Panic) /\
  (content d <> [] -> spans_ok d -> exists l, P = Ret (content d, l) /\
     local_grammar hash find_all span_text regexps ord d = Ret l).
Proof.
  intros Ht Ha Hd P. destruct (local_total hash find_all span_text regexps ord d Hd) as [T1 T2].
  unfold P, process, doc_tokens, doc_local. destruct (String.eqb_spec (trim_space text) "") as [E|E]; [contradiction|].
  rewrite Ha. cbn [bind]. fold (content d). split; [|split].
  - intros ->. reflexivity.
  - intros Hp Hs. rewrite (T2 Hs). destruct (content d); [congruence|reflexivity].
  - intros Hp Hs. destruct (T1 Hs) as [l El]. rewrite El. exists l. split; [|reflexivity]. destruct (content d); [congruence|reflexivity].
Qed.

Section Api.
  Variable ords : nat -> order.
  Variable gtokens : string -> option token.
  Variable to_lower : string -> string.
  Variable hash : rulebody -> N.
  Variable find_all : string -> string -> option (list (nat * nat)).
  Variable span_text : document -> nat -> nat -> string.
  Variable regexps : list (string * string).
  Variable ord : nat -> list (string * entry) -> list (string * entry).
  Variable annotate : string -> string -> res document.
  Variables (ctx text : string) (d : document).
  Variable gs : list grammar_rules.
  Hypothesis Hords : orders ords.
  Hypothesis Hord : forall i l, Permutation l (ord i l).
  Hypothesis Ht : trim_space text <> "".
  Hypothesis Ha : annotate ctx (trim_space text) = Ret d.
  Hypothesis Hok : doc_ok d.
  Hypothesis Hsp : spans_ok d.
  Hypothesis Hhash : hash_separates find_all regexps d hash.
  Notation tmatch := (terminal_match gtokens to_lower).
  Notation process_ := (process (doc_tokens annotate) (doc_local hash find_all span_text regexps ord annotate ctx text) ctx text).
  Notation call := (EarleyParseAll tmatch ords gs (doc_tokens annotate) (doc_local hash find_all span_text regexps ord annotate ctx text)).
  Notation maxcall := (EarleyParseMaxAll tmatch ords gs (doc_tokens annotate) (doc_local hash find_all span_text regexps ord annotate ctx text)).

  Lemma proc_split : content d = [] /\ process_ = Err \/ content d <> [] /\ exists l, process_ = Ret (content d, l) /\
     local_grammar hash find_all span_text regexps ord d = Ret l.
  Proof.
    destruct (local_process hash find_all span_text regexps ord annotate ctx text d Ht Ha Hok) as (P1 & _ & P3).
    destruct (content d) as [|k ks] eqn:E; [left; auto|right]. rewrite <- E in *. assert (content d <> []) as Hn by congruence. auto.
  Qed.

  Lemma local_call x fuel ps : undefined gs x -> well_formed gs [x] -> call fuel ctx text [x] = Ret ps ->
    exists is, StronglySorted lt is
      /\ Forall2 (fun i p => parsed_tokens p (skipn i (content d)) /\ forall S k, reports p S k <->
            S = x /\ exists b, local_alt find_all regexps d x b /\ k = length (rb_terms b)
                     /\ reads_at (content d) i (map t_value (rb_terms b))) is ps
      /\ (forall i, In i is <-> i < length (content d) /\
            exists b, local_alt find_all regexps d x b /\ reads_at (content d) i (map t_value (rb_terms b))).
  Proof.
    intros Hu Hw H. destruct proc_split as [(_ & E)|(Hc & l & Epr & El)].
    { unfold EarleyParseAll in H. rewrite E in H. discriminate H. }
    pose proof (local_well_formed hash find_all span_text regexps ord Hord d Hok l El gs [x] Hw) as Hw'.
    set (toks := content d) in *. set (G := with_local gs l) in *.
    assert (forall i j, MatchLax tmatch G toks x i j <-> exists b, local_alt find_all regexps d x b
              /\ j = i + length (rb_terms b) /\ reads_at toks i (map t_value (rb_terms b))) as HL.
    { intros i j. unfold MatchLax, DerivesLax, G.
      rewrite (local_matches hash find_all span_text regexps ord Hord d Hok Hhash l El gs tmatch
                (terminal_match_plain gtokens to_lower) toks _ (fun _ _ => True) x Hu (fun _ => I)).
      split; intros (b & H1 & H2); exists b; (split; [exact H1|]).
      - destruct H2 as (_ & -> & H2). split; [reflexivity|]. apply texts_reads in H2; [exact H2|rewrite map_length; reflexivity].
      - destruct H2 as (-> & H2). split; [exact I|]. split; [reflexivity|]. apply texts_reads; [rewrite map_length; reflexivity|exact H2]. }
    assert (forall i b, local_alt find_all regexps d x b -> reads_at toks i (map t_value (rb_terms b)) -> rb_terms b <> [] ->
              MatchNonempty tmatch G toks x i (i + length (rb_terms b))) as HN.
    { intros i b Hb HR Hne. apply (derives_local hash find_all span_text regexps ord Hord d Hok Hhash l El gs tmatch
        (terminal_match_plain gtokens to_lower) toks own_range (fun i j => i < j) x b i); auto.
      - destruct (rb_terms b); [congruence|]. cbn [length]. lia.
      - apply texts_reads; [rewrite map_length; reflexivity|exact HR]. }
    assert (forall b, local_alt find_all regexps d x b -> rb_terms b = [] -> has_alt G x []) as HE.
    { intros b Hb E. exists b. split; [|exact E]. unfold G. rewrite with_local_app. apply has_body_app. right.
      eapply local_complete; eauto. }
    unfold EarleyParseAll in H. rewrite Epr in H. cbn [bind] in H. fold G in H.
    destruct (all_loop_spec tmatch ords Hords G text [x] fuel toks 0 ps H) as (is & F & Hs & Hno).
    assert (forall i n p, i < length toks -> parse_result tmatch (ords n) G text (skipn i toks) [x] false p ->
       forall S k, reports p S k <-> S = x /\ exists b, local_alt find_all regexps d x b /\ k = length (rb_terms b)
                     /\ reads_at toks i (map t_value (rb_terms b))) as HR.
    { intros i n p Hi R S k. assert (i <= length toks) as Hle by lia. split.
      - intros Hr. destruct (at_sound _ _ _ _ _ Hw' toks i p false Hle R S k Hr) as ([<-|[]] & _ & H3). split; [reflexivity|].
        apply HL in H3. destruct H3 as (b & Hb & Hj & H3). exists b. split; [exact Hb|]. split; [lia|exact H3].
      - intros (-> & b & Hb & -> & H3). destruct (rb_terms b) as [|t ts] eqn:Eb.
        + apply (empty_reports_result tmatch ords Hords G text [x] Hw' x (or_introl eq_refl) (HE b Hb Eb) n _ p R).
        + rewrite <- Eb in *. assert (rb_terms b <> []) as Hne by congruence.
          destruct (at_complete tmatch G text [x] _ (Hords n) Hw' toks i p false Hle R x (i + length (rb_terms b)) eq_refl
                     (or_introl eq_refl) (HN i b Hb H3 Hne)) as (k & Hk & Hr).
          replace (length (rb_terms b)) with k by lia. exact Hr. }
    exists is. split; [exact Hs|]. split.
    - eapply Forall2_impl; [|exact F]. intros i p (Hi & R & _). split; [apply R|]. apply (HR i (0 + i) p Hi R).
    - intros i. split.
      + intros Hi. destruct (Forall2_in_l _ _ _ _ F Hi) as (p & _ & Hlt & R & Hf). split; [exact Hlt|].
        assert (i <= length toks) as Hle by lia.
        apply (proj1 (at_finals _ _ _ _ _ Hw' toks i p false R)) in Hf. destruct Hf as (S & k & Hr).
        apply (HR i _ p Hlt R) in Hr. destruct Hr as (_ & b & Hb & _ & H3). eauto.
      + intros (Hi & b & Hb & H3). destruct (in_dec Nat.eq_dec i is) as [Hin|Hn]; [exact Hin|]. exfalso.
        destruct (Hno i Hi Hn) as (p & R & E). assert (i <= length toks) as Hle by lia.
        apply (proj2 (at_finals _ _ _ _ _ Hw' toks i p false R)); [|exact E].
        exists x, (length (rb_terms b)). apply (HR i _ p Hi R). eauto.
  Qed.

  Lemma reads_one i s : reads_at (content d) i [s] <-> exists k, nth_error (content d) i = Some k /\ tok_text k = s.
  Proof. rewrite <- (texts_one (content d) i s). symmetry. apply texts_reads. cbn. lia. Qed.

  Lemma class_call c ty fuel ps : class_of ty c -> ~ tagged d c -> ~ In c (map fst regexps) -> undefined gs c ->
    well_formed gs [c] -> call fuel ctx text [c] = Ret ps ->
    exists is, StronglySorted lt is
      /\ Forall2 (fun i p => parsed_tokens p (skipn i (content d)) /\ forall S k, reports p S k <-> S = c /\ k = 1) is ps
      /\ (forall i, In i is <-> exists k, nth_error (content d) i = Some k /\ class_text d c (tok_text k)).
  Proof.
    intros Hc Hg Hr Hu Hw H. destruct (local_call c fuel ps Hu Hw H) as (is & Hs & F & Hin).
    assert (forall i b, local_alt find_all regexps d c b -> reads_at (content d) i (map t_value (rb_terms b)) ->
              length (rb_terms b) = 1 /\ exists k, nth_error (content d) i = Some k /\ class_text d c (tok_text k)) as H1.
    { intros i b Hb HR. apply (class_alts find_all regexps d c ty Hc Hg Hr) in Hb. destruct Hb as (s & Hs' & ->).
      split; [reflexivity|]. cbn [rb_terms map word_term t_value] in HR. apply reads_one in HR. destruct HR as (k & E & <-). eauto. }
    assert (forall i, In i is <-> exists k, nth_error (content d) i = Some k /\ class_text d c (tok_text k)) as H2.
    { intros i. rewrite Hin. split.
      - intros (_ & b & Hb & HR). apply (H1 i b Hb HR).
      - intros (k & E & Hk). split; [apply nth_error_Some; congruence|]. exists (mkRb [word_term (tok_text k)] None).
        split; [apply (class_alts find_all regexps d c ty Hc Hg Hr); eauto|]. apply reads_one. eauto. }
    exists is. split; [exact Hs|]. split; [|exact H2].
    assert (forall i, In i is -> exists k, nth_error (content d) i = Some k /\ class_text d c (tok_text k)) as H3 by (intros i; apply H2).
    clear Hs Hin H2 H. induction F as [|i p is ps (K1 & K2) F IH]; constructor.
    - split; [exact K1|]. intros S k. rewrite K2. split.
      + intros (-> & b & Hb & -> & HR). destruct (H1 i b Hb HR). auto.
      + intros (-> & ->). split; [reflexivity|]. destruct (H3 i (or_introl eq_refl)) as (k & E & Hk).
        exists (mkRb [word_term (tok_text k)] None). split; [apply (class_alts find_all regexps d c ty Hc Hg Hr); eauto|].
        split; [reflexivity|]. apply reads_one. eauto.
    - apply IH. intros j Hj. apply H3. right; exact Hj.
  Qed.

  Lemma regexp_alts x : ~ tagged d x -> (forall ty, ~ class_of ty x) -> forall b,
    local_alt find_all regexps d x b <-> exists s e, regexp_hit find_all regexps d x s e /\ b = mkRb (texts_as_terms (tokens_at d s e)) None.
  Proof.
    intros Hg Hc b. split.
    - intros Hb. destruct Hb as [k x Hk Hc' | sp m x Hin Hm He | sp m x items Hin Hm He | x s e Hh].
      + destruct (Hc _ Hc').
      + destruct Hg. exists sp, m, EOther. auto.
      + destruct Hg. exists sp, m, (EList items). auto.
      + eauto.
    - intros (s & e & Hh & ->). constructor; exact Hh.
  Qed.
  Lemma terms_values ks : map t_value (texts_as_terms ks) = map tok_text ks.
  Proof. unfold texts_as_terms. rewrite map_map. reflexivity. Qed.

  Lemma regexp_call x fuel ps : ~ tagged d x -> (forall ty, ~ class_of ty x) -> undefined gs x ->
    well_formed gs [x] -> call fuel ctx text [x] = Ret ps ->
    exists is, StronglySorted lt is
      /\ Forall2 (fun i p => parsed_tokens p (skipn i (content d)) /\ forall S k, reports p S k <->
            S = x /\ exists s e, regexp_hit find_all regexps d x s e /\ k = length (tokens_at d s e)
                     /\ reads_at (content d) i (map tok_text (tokens_at d s e))) is ps
      /\ (forall i, In i is <-> i < length (content d) /\
            exists s e, regexp_hit find_all regexps d x s e /\ reads_at (content d) i (map tok_text (tokens_at d s e))).
  Proof.
    intros Hg Hc Hu Hw H. destruct (local_call x fuel ps Hu Hw H) as (is & Hs & F & Hin).
    assert (forall k i, (exists b, local_alt find_all regexps d x b /\ k = length (rb_terms b) /\ reads_at (content d) i (map t_value (rb_terms b))) <->
      exists s e, regexp_hit find_all regexps d x s e /\ k = length (tokens_at d s e) /\ reads_at (content d) i (map tok_text (tokens_at d s e))) as HA.
    { intros k i. split.
      - intros (b & Hb & -> & HR). apply (regexp_alts x Hg Hc) in Hb. destruct Hb as (s & e & Hh & ->). exists s, e.
        cbn [rb_terms] in *. rewrite terms_values in HR. unfold texts_as_terms. rewrite map_length. auto.
      - intros (s & e & Hh & -> & HR). exists (mkRb (texts_as_terms (tokens_at d s e)) None). split; [apply (regexp_alts x Hg Hc); eauto|].
        cbn [rb_terms]. rewrite terms_values. unfold texts_as_terms. rewrite map_length. auto. }
    exists is. split; [exact Hs|]. split.
    - eapply Forall2_impl; [|exact F]. intros i p (K1 & K2). split; [exact K1|]. intros S k. rewrite K2. rewrite HA. reflexivity.
    - intros i. rewrite Hin. split; intros (Hi & K); split; auto.
      + destruct K as (b & Hb & HR). destruct (proj1 (HA (length (rb_terms b)) i)) as (s & e & Hh & _ & HR'); eauto.
      + destruct K as (s & e & Hh & HR). destruct (proj2 (HA (length (tokens_at d s e)) i)) as (b & Hb & _ & HR'); eauto.
  Qed.

  (** a token of white space in the match *)
  Lemma reads_in toks i ks k : reads_at toks i (map tok_text ks) -> In k ks -> exists k', In k' toks /\ tok_text k' = tok_text k.
  Proof.
    unfold reads_at. intros HR Hk. apply (in_map tok_text) in Hk. rewrite <- HR in Hk. apply in_map_iff in Hk.
    destruct Hk as (k' & E & Hk). exists k'. split; [|exact E]. clear -Hk.
    rewrite <- (firstn_skipn i toks). apply in_or_app. right.
    rewrite <- (firstn_skipn (length (map tok_text ks)) (skipn i toks)). apply in_or_app. left. exact Hk.
  Qed.
  Lemma regexp_space_call x fuel ps : ~ tagged d x -> (forall ty, ~ class_of ty x) -> undefined gs x -> well_formed gs [x] ->
    space_apart d ->
    (forall s e, regexp_hit find_all regexps d x s e -> exists k, In k (tokens_at d s e) /\ tok_type k = KSpace) ->
    call fuel ctx text [x] = Ret ps -> ps = [].
  Proof.
    intros Hg Hc Hu Hw Ha' Hh H. destruct (regexp_call x fuel ps Hg Hc Hu Hw H) as (is & _ & F & Hin).
    destruct is as [|i is]; [inversion F; reflexivity|]. exfalso.
    destruct (proj1 (Hin i) (or_introl eq_refl)) as (Hi & s & e & He & HR).
    destruct (Hh s e He) as (k & Hk & Ek). destruct (reads_in _ _ _ k HR Hk) as (k' & Hk' & E).
    unfold content in Hk'. apply filter_In in Hk'. destruct Hk' as [Hk' Hn].
    rewrite (Ha' k k') in Hn; auto; [discriminate|].
    unfold tokens_at in Hk. rewrite <- (firstn_skipn s (d_tokens d)). apply in_or_app. right.
    rewrite <- (firstn_skipn (e - s) (skipn s (d_tokens d))). apply in_or_app. left. exact Hk.
  Qed.

  (** a match without tokens *)
  Lemma empty_hit_call x s e y : regexp_hit find_all regexps d x s e -> e <= s -> undefined gs x -> well_formed gs [x] ->
    ~ tagged d x -> (forall ty, ~ class_of ty x) -> y < length (content d) ->
    (forall i s' e', regexp_hit find_all regexps d x s' e' -> i <= y < i + length (tokens_at d s' e') ->
       ~ reads_at (content d) i (map tok_text (tokens_at d s' e'))) ->
    forall steps fuel, maxcall steps fuel ctx text [x] = Fuel.
  Proof.
    intros Hh Hse Hu Hw Hg Hc Hy Hno. destruct proc_split as [(E & _)|(Hn & l & Epr & El)]; [rewrite E in Hy; cbn in Hy; lia|].
    pose proof (local_well_formed hash find_all span_text regexps ord Hord d Hok l El gs [x] Hw) as Hw'.
    apply (empty_never_returns tmatch ords gs _ _ ctx text [x] (content d) l Hords Epr Hw' x (or_introl eq_refl)) with (x := y); auto.
    - exists (mkRb (texts_as_terms (tokens_at d s e)) None). split.
      + rewrite with_local_app. apply has_body_app. right. eapply local_complete; eauto. constructor; exact Hh.
      + cbn [rb_terms]. unfold tokens_at. replace (e - s) with 0 by lia. reflexivity.
    - intros S i j [<-|[]] Hi HM. unfold MatchLax, DerivesLax in HM.
      apply (local_matches hash find_all span_text regexps ord Hord d Hok Hhash l El gs tmatch
                (terminal_match_plain gtokens to_lower) (content d) _ (fun _ _ => True) x Hu (fun _ => I)) in HM.
      destruct HM as (b & Hb & _ & Hj & HT). apply (regexp_alts x Hg Hc) in Hb. destruct Hb as (s' & e' & Hh' & ->).
      cbn [rb_terms] in *. rewrite terms_values in HT. unfold texts_as_terms in Hj. rewrite map_length in Hj.
      apply (Hno i s' e' Hh'); [lia|]. apply texts_reads in HT; [exact HT|rewrite map_length; exact Hj].
  Qed.
End Api.
