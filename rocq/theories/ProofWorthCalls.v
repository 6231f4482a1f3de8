(** The calls on grammars that calculate. *)
From Coq Require Import Permutation Sorted.
From Verif Require Import Base ModelTypes ModelText ModelEarley ModelTrees ModelApi ModelQuote ModelSem ModelMath ModelFuncs ModelReader ModelGrammar ModelLocal
     SpecTypes SpecGrammar SpecTree SpecNotation SpecRefine SpecConstruct SpecSem SpecNode SpecApi SpecLocal SpecFuncs SpecEnd SpecMath SpecMeaning
     ProofEqual ProofTree ProofTreeOk ProofTreeApi ProofApi ProofApiLoops ProofApiMain ProofMain ProofExtract ProofLocal ProofLocalMatch ProofLocalApi ProofSem ProofNodes ProofSemMain ProofNode ProofFuncs ProofGrammar ProofConstruct ProofEnd
     ProofMath ProofMeaning ProofMeaningCalls ProofSayings SpecFrameText SpecArith SpecWorth ProofWorth.
Local Open Scope list_scope.

Section Calls.
  Variable e : env.
  Variables (d0 : string) (g : grammar) (L : list refined).
  Hypothesis HP : e_parts e d0 g L.
  Variable starts : list string.
  Hypothesis HU : usable (e_tokenize e) L starts.
  Hypothesis HF : functions_fit (map rd_before L).
  Variable tmatch : term -> option token -> bool.
  Variable ords : nat -> order.
  Hypothesis Hords : orders ords.
  Variable find_all : string -> string -> option (list (nat * nat)).
  Variable span_text : document -> nat -> nat -> string.
  Variable ord : nat -> list (string * ModelLocal.entry) -> list (string * ModelLocal.entry).
  Hypothesis Hord : forall i l, Permutation l (ord i l).
  Variable annotate : string -> string -> res document.
  Variables (ctx text : string) (d : document).
  Hypothesis Ht : trim_space text <> "".
  Hypothesis Ha : annotate ctx (trim_space text) = Ret d.
  Hypothesis Hfit : fit_document (e_hash e) find_all (g_regexps g) d.
  Variable N : string -> Prop.
  Hypothesis HN : calculates (e_tokenize e) tmatch (map rd_before L) (content d) N.
  Hypothesis Hloc : forall x, N x -> text_only find_all (g_regexps g) d x.
  Hypothesis HS : forall S, In S starts -> N S.
  Variable join_words : list string -> string.
  Variable float_string : bigf -> string.
  Variable json : dval -> string.
  Variable is_print_hi : rune -> bool.
  Variable scan : string -> option bfloat.
  Variable rcall : string -> list dval -> res (list dval).
  Hypothesis Hscan : scans_floats scan.
  Hypothesis Hmath : math_registered scan rcall.
  Notation local_ := (doc_local (e_hash e) find_all span_text (g_regexps g) ord annotate ctx text).
  Notation W := (worth (e_tokenize e) tmatch (map rd_before L) (content d)).
  Notation Displays p := (displays p join_words float_string json is_print_hi rcall).

  Lemma worth_means S i j x : W S i j x -> Means (e_tokenize e) tmatch (map rd_before L) find_all (g_regexps g) d S i j.
  Proof using.
    intros H. apply (proj1 (worth_derives (content d) (e_tokenize e) tmatch (map rd_before L) find_all (g_regexps g) d) S i j x H); reflexivity.
  Qed.

  Lemma worth_max : exists ps n, (forall steps fuel, n <= fuel -> length (content d) < steps ->
      EarleyParseMaxAll tmatch ords (all_rules g) (doc_tokens annotate) local_ steps fuel ctx text starts = Ret ps) /\
    exists spans, tiles 0 spans
      /\ Forall2 (fun im p => fst im < length (content d) /\ 0 < snd im
            /\ (forall S x j, In S starts -> W S (fst im) j x -> j <= fst im + snd im)
            /\ exists ref ts m, p_finals p = [ref] /\ (forall fuel, m <= fuel -> get_trees (p_columns p) fuel ref = Ret ts) /\ ts <> []
                 /\ forall t, In t ts -> exists S x, In S starts /\ W S (fst im) (fst im + snd im) x /\ Displays p t x) spans ps
      /\ (forall S x i j, i < length (content d) -> ~ covered spans i -> In S starts -> ~ W S i j x).
  Proof using HP HU HF Hords Hord Ht Ha Hfit HN Hloc HS Hscan Hmath.
    destruct (end_max e d0 g L HP starts HU tmatch ords Hords find_all span_text ord Hord annotate ctx text d Ht Ha Hfit)
      as (ps & n & E & spans & T & F & U).
    destruct (tree_setup e d0 g L HP starts HU tmatch ords Hords find_all span_text ord Hord annotate ctx text d Ht Ha Hfit
                join_words float_string json is_print_hi (Call rcall)) as (l & P & Hwf & Hsep & Hany & HT).
    exists ps, n. split; [exact E|]. exists spans. split; [exact T|]. split.
    2: { intros S x i j Hi Hc HinS Hw. exact (U i S j Hi Hc HinS (worth_means _ _ _ _ Hw)). }
    specialize (E (S (length (content d))) n (le_n _) (Nat.lt_succ_diag_r _)).
    unfold EarleyParseMaxAll in E. rewrite P in E. cbn [Base.bind] in E.
    pose proof (max_loop_parses tmatch ords (with_local (all_rules g) l) text starts n _ _ _ _ E) as Hq. clear E.
    assert (HF2 : forall im p, In p ps -> fst im < length (content d) -> parsed_tokens p (skipn (fst im) (content d)) ->
              (forall k, (exists S, reports p S k) <-> k = snd im) ->
              exists ref ts m, p_finals p = [ref] /\ (forall fuel, m <= fuel -> get_trees (p_columns p) fuel ref = Ret ts) /\ ts <> []
                 /\ forall t, In t ts -> exists S x, In S starts /\ W S (fst im) (fst im + snd im) x /\ Displays p t x).
    { intros im p Hinp Hi Hpt Hk. destruct (Hq p Hinp) as (i & n' & Hi' & Hp).
      destruct (parse_facts _ _ _ _ _ _ _ _ _ _ (Hords n') Hp) as (_ & Hpt' & _ & _ & R).
      rewrite (parsed_unique p (content d) _ _ Hi Hi' Hpt Hpt') in *. clear Hpt.
      destruct (proj2 (Hk (snd im)) eq_refl) as (S & ref & s & Hr & _).
      pose proof (one_final _ _ _ _ (Hords n') _ Hwf _ _ _ R Hr) as H1.
      destruct (result_terminates tmatch ords (all_rules g) text starts (content d) l Hwf Hsep i p true n' ref R Hr) as (ts & m & Hm).
      exists ref, ts, m. split; [exact H1|]. split; [exact Hm|].
      split; [eapply (trees_nonempty _ _ _ _ _ Hsep _ _ _ R ref m ts Hany Hr); apply Hm; lia|].
      intros t Hint. destruct (HT n n' true i p t Hp) as (S' & k & v & c & -> & B1 & B2 & B3 & B4 & B5 & B6 & B7 & B8 & B9).
      { exists ref, m, ts. split; [exact Hr|]. split; [apply Hm; lia|exact Hint]. }
      assert (k = snd im) as <- by (apply Hk; eauto).
      destruct (worth_tree p (skipn i (content d)) B4 join_words float_string json is_print_hi (Call rcall) (e_tokenize e) tmatch (map rd_before L) HF
                  find_all (g_regexps g) d ltac:(apply Hfit) N (calculates_shift _ _ _ (content d) i N HN) Hloc c S' 0 k B5 B7 B3 (HS _ B1)) as (x & X1 & X2 & X3).
      exists S', x. split; [exact B1|]. split.
      - apply (proj1 (worth_shift _ _ _ (content d) i)) in X1. rewrite Nat.add_0_r in X1. exact X1.
      - split; [rewrite B8; exact X2|]. intros M. rewrite B9.
        destruct (arith_eval p join_words float_string scan rcall Hscan Hmath c (value x) (X3 M)) as (_ & r & S1 & S2). eauto. }
    assert (WM := worth_means). clear - F HF2 WM. induction F as [|im p spans ps (A & B & C & D & D' & D'') F IH]; constructor.
    - split; [exact A|]. split; [exact B|]. split; [|apply HF2; auto; left; reflexivity].
      intros S x j HinS Hr. exact (D' S j HinS (WM _ _ _ _ Hr)).
    - apply IH. intros im' p' Hinp. apply HF2. right. exact Hinp.
  Qed.

  (** a text that can be read as a whole *)
  Lemma worth_whole S0 x0 : content d <> [] -> In S0 starts -> W S0 0 (length (content d)) x0 ->
    exists p ref ts n m, (forall steps fuel, n <= fuel -> length (content d) < steps ->
      EarleyParseMaxAll tmatch ords (all_rules g) (doc_tokens annotate) local_ steps fuel ctx text starts = Ret [p]) /\
    p_finals p = [ref] /\ (forall fuel, m <= fuel -> get_trees (p_columns p) fuel ref = Ret ts) /\ ts <> [] /\
    forall t, In t ts -> exists S x, In S starts /\ W S 0 (length (content d)) x /\ Displays p t x.
  Proof using HP HU HF Hords Hord Ht Ha Hfit HN Hloc HS Hscan Hmath.
    intros Hne HinS HW. destruct worth_max as (ps & n & E & spans & T & F & U).
    assert (Hpos : 0 < length (content d)) by (destruct (content d); [congruence|cbn [length]; lia]).
    destruct F as [|[i m] p spans ps (A & B & C & ref & ts & m' & D1 & D2 & D3 & D4) F].
    { exfalso. apply (U S0 x0 0 _ Hpos) in HW; auto. intros (i & m & [] & _). }
    cbn [tiles fst snd] in *. destruct T as [_ T].
    assert (i = 0) as ->.
    { destruct i as [|i]; [reflexivity|]. exfalso. apply (U S0 x0 0 _ Hpos) in HW; auto. intros (i' & m0 & [[= <- <-]|H] & Hc); [lia|].
      assert (K : forall l lo, tiles lo l -> forall a b, In (a, b) l -> lo <= a).
      { induction l as [|[a b] l IH]; intros lo Hl a' b' Hin; [destruct Hin|]. destruct Hl as [L1 L2]. destruct Hin as [[= <- <-]|Hin]; [exact L1|].
        specialize (IH _ L2 _ _ Hin). lia. }
      pose proof (K _ _ T _ _ H). lia. }
    pose proof (C S0 x0 _ HinS HW) as Hm.
    assert (Hn : m <= length (content d)).
    { destruct ts as [|t ts]; [congruence|]. destruct (D4 t (or_introl eq_refl)) as (S & x & _ & Hx & _). apply worth_means in Hx.
      apply (proj1 (derives_bounds _ _ _ _ _) _ _ _ Hx). lia. }
    assert (m = length (content d)) as -> by lia. cbn [Nat.add] in *.
    destruct F as [|[i m] q spans ps (A' & _) F].
    - exists p, ref, ts, n, m'. auto.
    - exfalso. cbn [tiles fst] in *. lia.
  Qed.
End Calls.
