(** The calls that return trees: Parse, ParseAny, ExtractMaxAll, and EarleyParse, from the
    text of the grammar. *)
From Coq Require Import Permutation Sorted.
From Verif Require Import Base ModelTypes ModelText ModelEarley ModelTrees ModelApi ModelQuote ModelSem ModelReader ModelGrammar ModelLocal
     SpecTypes SpecGrammar SpecTree SpecNotation SpecRefine SpecConstruct SpecSem SpecNode SpecApi SpecLocal SpecFuncs SpecEnd SpecMeaning
     ProofEqual ProofTree ProofTreeOk ProofTreeApi ProofApi ProofApiLoops ProofApiMain ProofMain ProofExtract ProofLocal ProofLocalMatch ProofLocalApi ProofSem ProofNodes ProofSemMain ProofNode ProofFuncs ProofEnd
     ProofMeaning ProofMeaningCalls.

Section Calls.
  Variable e : env.
  Variables (d0 : string) (g : grammar) (L : list refined).
  Hypothesis HP : e_parts e d0 g L.
  Variable starts : list string.
  Hypothesis HU : usable (e_tokenize e) L starts.
  Variable tmatch : term -> option token -> bool.
  Variable ords : nat -> order.
  Hypothesis Hords : orders ords.
  Variable find_all : string -> string -> option (list (nat * nat)).
  Variable span_text : document -> nat -> nat -> string.
  Variable ord : nat -> list (string * ModelLocal.entry) -> list (string * ModelLocal.entry).
  Hypothesis Hord : forall i l, Permutation l (ord i l).
  Variable annotate : string -> string -> res document.
  Variables (ctx text : string) (d : document).
  Hypothesis Ht : trim_space text <> "".
  Hypothesis Ha : annotate ctx (trim_space text) = Ret d.
  Hypothesis Hfit : fit_document (e_hash e) find_all (g_regexps g) d.
  Notation before := (map rd_before L).
  Notation means := (Means (e_tokenize e) tmatch before find_all (g_regexps g) d).
  Notation local_ := (doc_local (e_hash e) find_all span_text (g_regexps g) ord annotate ctx text).

  Lemma end_parse : exists p n, (forall fuel, n <= fuel ->
      EarleyParse tmatch ords (all_rules g) (doc_tokens annotate) local_ fuel ctx text starts = Ret p) /\
    parsed_tokens p (content d)
    /\ (forall k, (exists S, reports p S k) <->
          (exists S, In S starts /\ means S 0 k) /\ forall S j, In S starts -> means S 0 j -> j <= k)
    /\ (p_finals p <> [] <-> exists S j, In S starts /\ means S 0 j)
    /\ length (p_finals p) <= 1.
  Proof using HP HU Hords Hord Ht Ha Hfit.
    destruct (call_setup e d0 g L HP starts HU tmatch find_all span_text ord Hord annotate ctx text d Ht Ha Hfit)
      as (l & P & H1 & H2 & H3 & H4 & _ & _ & HM).
    destruct (parse_call_terminates tmatch ords (all_rules g) _ _ ctx text starts _ l Hords P H4) as (p & n & E); [apply HU|].
    exists p, n. split; [exact E|]. specialize (E n (le_n n)). unfold EarleyParse in E. rewrite P in E. cbn [bind] in E.
    destruct (earley_parse_result _ _ _ _ _ _ _ _ _ _ (Hords 0) E) as (_ & _ & R).
    split; [apply R|]. split; [|split].
    - intros k. rewrite (at_longest_exact tmatch _ text starts _ (Hords 0) H1 (content d) 0 p true (Nat.le_0_l _) R H2 H3 k eq_refl).
      unfold longest_at. cbn [Nat.add].
      split; intros ((S & HS & Hm) & B); (split; [exists S; split; [exact HS|apply (HM S _ _ HS); exact Hm]|]);
        intros S' j HS' Hm'; apply (B S' j HS'); apply (HM S' _ _ HS'); exact Hm'.
    - rewrite (at_finals_exact tmatch _ text starts _ (Hords 0) H1 (content d) 0 p true (Nat.le_0_l _) R H2 H3). unfold match_at.
      split; intros (S & j & HS & Hm); exists S, j; (split; [exact HS|apply (HM S _ _ HS); exact Hm]).
    - apply (longest _ _ _ _ (Hords 0) _ H1 _ _ R).
  Qed.

  Variable join_words : list string -> string.
  Variable float_string : bigf -> string.
  Variable json : dval -> string.
  Variable is_print_hi : rune -> bool.
  Variable call : string -> list dval -> res dval.
  Notation Says := (says (e_tokenize e) tmatch before find_all (g_regexps g) d join_words float_string is_print_hi (content d)).
  Notation sem p := (semantic p join_words float_string json is_print_hi call).
  Hypothesis HF : functions_fit before.

  (** one parse that keeps only the longest matches *)
  Definition says_at (i : nat) (p : parse_t) (t : node) : Prop :=
    exists S k s, In S starts /\ means S i (i + k) /\ (forall S' j, In S' starts -> means S' i j -> j <= i + k) /\
      sem p t = Ret s /\ Says (nonterm S) i (i + k) s.

  Lemma one_parse l : process (doc_tokens annotate) local_ ctx text = Ret (content d, l) ->
    forall fuel n i p, i < length (content d) ->
    earley_parse_n tmatch ords (with_local (all_rules g) l) text fuel n true (skipn i (content d)) starts = Ret p ->
    exists ts m, (forall f, m <= f -> extract_parses f [p] = Ret (map (fun t => (p, t)) ts)) /\
      (ts = [] <-> p_finals p = []) /\ forall t, In t ts -> says_at i p t.
  Proof using HP HU HF Hords Hord Ht Ha Hfit.
    intros P fuel n i p Hi E.
    destruct (call_setup e d0 g L HP starts HU tmatch find_all span_text ord Hord annotate ctx text d Ht Ha Hfit)
      as (l' & P' & H1 & H2 & H3 & H4 & H5 & H6 & HM).
    rewrite P in P'. injection P' as <-.
    destruct (says_setup e d0 g L HP starts HU tmatch ords Hords find_all span_text ord Hord annotate ctx text d Ht Ha Hfit
                join_words float_string json is_print_hi call HF) as (l' & P' & _ & _ & _ & HS).
    rewrite P in P'. injection P' as <-.
    destruct (earley_parse_result _ _ _ _ _ _ _ _ _ _ (Hords n) E) as (_ & _ & R).
    destruct (p_finals p) as [|ref rest] eqn:Ef.
    - exists [], 0. split; [intros f _; cbn; rewrite Ef; reflexivity|]. split; [tauto|]. intros t [].
    - assert (Hr : In ref (p_finals p)) by (rewrite Ef; left; reflexivity).
      pose proof (one_final _ _ _ _ (Hords n) _ H1 _ _ _ R Hr) as E1.
      destruct (result_terminates tmatch ords (all_rules g) text starts (content d) l H1 H5 i p true n ref R Hr) as (ts & m & Hm).
      assert (Hne : ts <> []) by (eapply (trees_nonempty _ _ _ _ _ H5 _ _ _ R ref m ts H6 Hr); apply Hm; lia).
      exists ts, m. split.
      { intros f Hf. cbn [extract_parses]. rewrite E1. cbn [extract_finals]. rewrite (Hm f Hf). cbn [bind]. rewrite !app_nil_r. reflexivity. }
      split; [split; [congruence|discriminate]|].
      intros t Hin. destruct (HS fuel n true i p t Hi E) as (S' & k & r & B1 & B2 & B3 & B4 & _).
      { exists ref, m, ts. split; [exact Hr|]. split; [apply Hm; lia|exact Hin]. }
      destruct (at_sound_uniform tmatch _ text starts _ H1 (content d) i p true (Nat.lt_le_incl _ _ Hi) R S' k H2 B2) as (C1 & C2).
      destruct (proj1 (at_longest_exact tmatch _ text starts _ (Hords n) H1 (content d) i p true (Nat.lt_le_incl _ _ Hi) R H2 H3 k eq_refl) (ex_intro _ S' B2)) as (_ & D).
      exists S', k, r. split; [exact B1|]. split; [apply (HM S' _ _ B1); exact C2|]. split; [|auto].
      intros S2 j HS2 Hm2. apply (D S2 j HS2). apply (HM S2 _ _ HS2). exact Hm2.
  Qed.

  Lemma says_parse : exists outs n, (forall fuel, n <= fuel ->
      Parse tmatch ords (all_rules g) (doc_tokens annotate) local_ fuel ctx text starts = Ret outs) /\
    (forall p t, In (p, t) outs -> parsed_tokens p (content d) /\ exists S k s, In S starts /\ means S 0 k /\
       (forall S' j, In S' starts -> means S' 0 j -> j <= k) /\ sem p t = Ret s /\ Says (nonterm S) 0 k s) /\
    (outs = [] <-> forall S j, In S starts -> ~ means S 0 j).
  Proof using HP HU HF Hords Hord Ht Ha Hfit.
    destruct end_parse as (p & n & E & Htok & _ & Hf & _).
    destruct (call_setup e d0 g L HP starts HU tmatch find_all span_text ord Hord annotate ctx text d Ht Ha Hfit) as (l & P & _).
    pose proof (E n (le_n n)) as E'. unfold EarleyParse in E'. rewrite P in E'. cbn [bind] in E'.
    assert (Hi : 0 < length (content d)).
    { destruct Hfit as (F1 & _). destruct (content d) as [|x y] eqn:Ec; [exfalso; apply F1; reflexivity|cbn [length]; lia]. }
    destruct (one_parse l P n 0 0 p Hi E') as (ts & m & X & Y & Z).
    exists (map (fun t => (p, t)) ts), (n + m). split; [|split].
    - intros fuel Hfu. unfold Parse. rewrite E by lia. cbn [bind]. apply X. lia.
    - intros p' t Hin. apply in_map_iff in Hin. destruct Hin as (t' & Eq & Hin). injection Eq as <- <-.
      split; [exact Htok|]. exact (Z t' Hin).
    - transitivity (ts = []); [destruct ts; split; intros Q; try reflexivity; discriminate Q|]. rewrite Y. split.
      + intros Q S j HS Hm. apply Hf; [exists S, j; auto|exact Q].
      + intros Q. destruct (p_finals p) as [|x y] eqn:Ef; [reflexivity|]. exfalso.
        destruct (proj1 Hf ltac:(discriminate)) as (S & j & HS & Hm). exact (Q S j HS Hm).
  Qed.

  Lemma says_any : exists outs n, (forall fuel, n <= fuel ->
      ParseAny tmatch ords (all_rules g) (doc_tokens annotate) local_ fuel ctx text starts = Ret outs) /\
    (exists i, forall p t, In (p, t) outs -> i < length (content d) /\ parsed_tokens p (skipn i (content d)) /\
       (forall i' S j, i' < i -> In S starts -> ~ means S i' j) /\ says_at i p t) /\
    (outs = [] <-> forall i S j, i < length (content d) -> In S starts -> ~ means S i j).
  Proof using HP HU HF Hords Hord Ht Ha Hfit.
    destruct (end_any e d0 g L HP starts HU tmatch ords Hords find_all span_text ord Hord annotate ctx text d Ht Ha Hfit)
      as (p & i & n & E & Hi & Htok & Hleft & _ & Hf).
    destruct (call_setup e d0 g L HP starts HU tmatch find_all span_text ord Hord annotate ctx text d Ht Ha Hfit) as (l & P & _).
    pose proof (E n (le_n n)) as E'. unfold EarleyParseAny in E'. rewrite P in E'. cbn [bind] in E'.
    destruct (any_loop_parses tmatch ords _ text starts n (content d) 0 None p E') as (i2 & n2 & Hi2 & E2).
    { intros Q. rewrite Q in Hi. inversion Hi. }
    destruct (parse_facts _ _ _ _ _ _ _ _ _ _ (Hords n2) E2) as (_ & Htok2 & _).
    rewrite (parsed_unique p (content d) _ _ Hi2 Hi Htok2 Htok) in *. clear Htok2 Hi2.
    destruct (one_parse l P n n2 i p Hi E2) as (ts & m & X & Y & Z).
    exists (map (fun t => (p, t)) ts), (n + m). split; [|split].
    - intros fuel Hfu. unfold ParseAny. rewrite E by lia. cbn [bind]. apply X. lia.
    - exists i. intros p' t Hin. apply in_map_iff in Hin. destruct Hin as (t' & Eq & Hin). injection Eq as <- <-.
      split; [exact Hi|]. split; [exact Htok|]. split; [exact Hleft|exact (Z t' Hin)].
    - transitivity (ts = []); [destruct ts; split; intros Q; try reflexivity; discriminate Q|]. rewrite Y. split.
      + intros Q i' S j Hi' HS Hm. apply Hf; [exists i', S, j; auto|exact Q].
      + intros Q. destruct (p_finals p) as [|x y] eqn:Ef; [reflexivity|]. exfalso.
        destruct (proj1 Hf ltac:(discriminate)) as (i' & S & j & Hi' & HS & Hm). exact (Q i' S j Hi' HS Hm).
  Qed.

  Lemma says_extract_max : exists outs n, (forall steps fuel, n <= fuel -> length (content d) < steps ->
      ExtractMaxAll tmatch ords (all_rules g) (doc_tokens annotate) local_ steps fuel ctx text starts = Ret outs) /\
    exists spans groups, outs = concat groups /\ tiles 0 spans
      /\ Forall2 (fun im ts => fst im < length (content d) /\ 0 < snd im
            /\ (exists S, In S starts /\ means S (fst im) (fst im + snd im))
            /\ (forall S j, In S starts -> means S (fst im) j -> j <= fst im + snd im)
            /\ ts <> []
            /\ forall p t, In (p, t) ts -> exists S s, In S starts /\ sem p t = Ret s
                 /\ Says (nonterm S) (fst im) (fst im + snd im) s) spans groups
      /\ (forall x S j, x < length (content d) -> ~ covered spans x -> In S starts -> ~ means S x j).
  Proof using HP HU HF Hords Hord Ht Ha Hfit.
    destruct (says_max e d0 g L HP starts HU tmatch ords Hords find_all span_text ord Hord annotate ctx text d Ht Ha Hfit
                join_words float_string json is_print_hi call HF) as (ps & n & E & spans & T & F & U).
    assert (Hx : exists groups m, (forall f, m <= f -> extract_parses f ps = Ret (concat groups)) /\
      Forall2 (fun im ts => fst im < length (content d) /\ 0 < snd im
            /\ (exists S, In S starts /\ means S (fst im) (fst im + snd im))
            /\ (forall S j, In S starts -> means S (fst im) j -> j <= fst im + snd im)
            /\ ts <> []
            /\ forall p t, In (p, t) ts -> exists S s, In S starts /\ sem p t = Ret s
                 /\ Says (nonterm S) (fst im) (fst im + snd im) s) spans groups).
    { clear - F. induction F as [|im p spans ps (A & B & C & D & ref & ts & m & E1 & E2 & E3 & E4) F (groups & m2 & IH1 & IH2)].
      - exists [], 0. split; [reflexivity|constructor].
      - exists (map (fun t => (p, t)) ts :: groups), (m + m2). split.
        + intros f Hf. cbn [extract_parses]. rewrite E1. cbn [extract_finals]. rewrite E2 by lia. cbn [bind]. rewrite app_nil_r.
          rewrite IH1 by lia. reflexivity.
        + constructor; [|exact IH2]. split; [exact A|]. split; [exact B|]. split; [exact C|]. split; [exact D|]. split.
          * destruct ts; [congruence|discriminate].
          * intros p' t Hin. apply in_map_iff in Hin. destruct Hin as (t' & Eq & Hin). injection Eq as <- <-. exact (E4 t' Hin). }
    destruct Hx as (groups & m & X & F').
    exists (concat groups), (n + m). split.
    - intros steps fuel H1 H2. unfold ExtractMaxAll. rewrite E by lia. cbn [bind]. apply X. lia.
    - exists spans, groups. auto.
  Qed.
End Calls.
