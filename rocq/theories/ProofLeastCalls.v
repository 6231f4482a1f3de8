(** The calls: readings nested as little as possible on the right are among the returned trees. *)
From Coq Require Import Permutation Sorted.
From Verif Require Import Base ModelTypes ModelText ModelEarley ModelTrees ModelApi ModelQuote ModelSem ModelMath ModelFuncs ModelReader ModelGrammar ModelLocal
     SpecTypes SpecGrammar SpecTree SpecNotation SpecRefine SpecConstruct SpecSem SpecNode SpecApi SpecLocal SpecFuncs SpecEnd SpecMath SpecMeaning SpecTreeOrder SpecTreeEdge
     ProofEqual ProofTree ProofTreeOk ProofTreeApi ProofApi ProofApiLoops ProofApiMain ProofMain ProofExtract ProofLocal ProofLocalMatch ProofLocalApi ProofSem ProofNodes ProofSemMain ProofNode ProofFuncs ProofGrammar ProofConstruct ProofEnd
     ProofMath ProofMeaning ProofMeaningCalls ProofSayings ProofTreeEdge SpecFrameText SpecArith SpecWorth ProofWorth ProofWorthCalls SpecLeast ProofLeast.
Local Open Scope list_scope.

(** ** Shifted tokens *)
Section Shift.
  Variable tokenize : string -> res (list token).
  Variable tmatch : term -> option token -> bool.
  Variable gs : list grammar_rules.
  Variables (toks : list token) (a : nat).
  Notation At := (SpecWorth.text_at tokenize tmatch).
  Lemma at_back t i j : a <= i -> At toks t i j -> i <= j /\ At (skipn a toks) t (i - a) (j - a).
  Proof using.
    intros Hi (Et & ks & Ek & -> & W). split; [lia|]. split; [exact Et|]. exists ks. split; [exact Ek|]. split; [lia|].
    intros k u Hk. destruct (W k u Hk) as (W1 & tok & W2 & W3). split; [exact W1|]. exists tok. split; [|exact W3].
    rewrite nth_skipn. replace (a + (i - a + k)) with (i + k) by lia. exact W2.
  Qed.
  Lemma reach_shift : (forall x i j n, reach tokenize tmatch gs (skipn a toks) x i j n -> reach tokenize tmatch gs toks x (a + i) (a + j) n) /\
    (forall ts i j n, reaches tokenize tmatch gs (skipn a toks) ts i j n -> reaches tokenize tmatch gs toks ts (a + i) (a + j) n).
  Proof using.
    apply reach_mutind.
    - intros x i j b n H1 _ IH. eapply re_body; eauto.
    - intros i. constructor.
    - intros t ts i j k n (Et & ks & Ek & Wm) _ IH. eapply rs_text; [|exact IH]. split; [exact Et|]. exists ks. split; [exact Ek|]. apply words_shift. exact Wm.
    - intros t ts i j k m n Et _ IH1 _ IH2. eapply rs_rule; eauto.
  Qed.
  Lemma least_back : (forall x i j e n, least tokenize tmatch gs toks x i j e n -> a <= i -> i <= j /\ least tokenize tmatch gs (skipn a toks) x (i - a) (j - a) e n) /\
    (forall ts i j vs n, leasts tokenize tmatch gs toks ts i j vs n -> a <= i -> i <= j /\ leasts tokenize tmatch gs (skipn a toks) ts (i - a) (j - a) vs n).
  Proof using.
    apply least_mutind.
    - intros x i j b f vs e n H1 H2 _ IH Hw Hmin Hi. destruct (IH Hi) as [L IH']. split; [exact L|]. eapply le_body; eauto.
      intros n' Hn. apply Hmin. apply (proj2 reach_shift) in Hn. replace (a + (i - a)) with i in Hn by lia. replace (a + (j - a)) with j in Hn by lia. exact Hn.
    - intros i Hi. split; [lia|constructor].
    - intros t ts i j k vs n HA _ IH Hi. destruct (at_back t i j Hi HA) as [L1 A']. destruct (IH ltac:(lia)) as [L2 IH']. split; [lia|]. eapply ls_text; eauto.
    - intros t ts i j k e m vs n Et _ IH1 _ IH2 Hi. destruct (IH1 Hi) as [L1 I1]. destruct (IH2 ltac:(lia)) as [L2 I2]. split; [lia|]. eapply ls_rule; eauto.
  Qed.
End Shift.

Section Calls.
  Variable e : env.
  Variables (d0 : string) (g : grammar) (L : list refined).
  Hypothesis HP : e_parts e d0 g L.
  Variable starts : list string.
  Hypothesis HU : usable (e_tokenize e) L starts.
  Hypothesis HF : functions_fit (map rd_before L).
  Variable tmatch : term -> option token -> bool.
  Variable ords : nat -> order.
  Hypothesis Hords : orders ords.
  Variable find_all : string -> string -> option (list (nat * nat)).
  Variable span_text : document -> nat -> nat -> string.
  Variable ord : nat -> list (string * ModelLocal.entry) -> list (string * ModelLocal.entry).
  Hypothesis Hord : forall i l, Permutation l (ord i l).
  Variable annotate : string -> string -> res document.
  Variables (ctx text : string) (d : document).
  Hypothesis Ht : trim_space text <> "".
  Hypothesis Ha : annotate ctx (trim_space text) = Ret d.
  Hypothesis Hfit : fit_document (e_hash e) find_all (g_regexps g) d.
  Variable N : string -> Prop.
  Hypothesis HN : calculates (e_tokenize e) tmatch (map rd_before L) (content d) N.
  Hypothesis Hloc : forall x, N x -> text_only find_all (g_regexps g) d x.
  Hypothesis HS : forall S, In S starts -> N S.
  Variable join_words : list string -> string.
  Variable float_string : bigf -> string.
  Variable json : dval -> string.
  Variable is_print_hi : rune -> bool.
  Variable scan : string -> option bfloat.
  Variable rcall : string -> list dval -> res (list dval).
  Hypothesis Hscan : scans_floats scan.
  Hypothesis Hmath : math_registered scan rcall.
  Notation local_ := (doc_local (e_hash e) find_all span_text (g_regexps g) ord annotate ctx text).
  Notation W := (worth (e_tokenize e) tmatch (map rd_before L) (content d)).
  Notation LA := (least_of_all (e_tokenize e) tmatch (map rd_before L) (content d)).
  Notation Displays p := (displays p join_words float_string json is_print_hi rcall).

  Lemma least_max : exists ps n, (forall steps fuel, n <= fuel -> length (content d) < steps ->
      EarleyParseMaxAll tmatch ords (all_rules g) (doc_tokens annotate) local_ steps fuel ctx text starts = Ret ps) /\
    exists spans, tiles 0 spans
      /\ Forall2 (fun im p => fst im < length (content d) /\ 0 < snd im
            /\ (forall S x j, In S starts -> W S (fst im) j x -> j <= fst im + snd im)
            /\ exists ref ts m, p_finals p = [ref] /\ (forall fuel, m <= fuel -> get_trees (p_columns p) fuel ref = Ret ts) /\ ts <> []
                 /\ (forall t, In t ts -> exists S x, In S starts /\ W S (fst im) (fst im + snd im) x /\ Displays p t x)
                 /\ exists S, In S starts /\ forall x, LA S (fst im) (fst im + snd im) x -> exists t, In t ts /\ Displays p t x) spans ps
      /\ (forall S x i j, i < length (content d) -> ~ covered spans i -> In S starts -> ~ W S i j x).
  Proof using HP HU HF Hords Hord Ht Ha Hfit HN Hloc HS Hscan Hmath.
    destruct (end_max e d0 g L HP starts HU tmatch ords Hords find_all span_text ord Hord annotate ctx text d Ht Ha Hfit)
      as (ps & n & E & spans & T & F & U).
    destruct (tree_setup e d0 g L HP starts HU tmatch ords Hords find_all span_text ord Hord annotate ctx text d Ht Ha Hfit
                join_words float_string json is_print_hi (Call rcall)) as (l & P & Hwf & Hsep & Hany & HT).
    destruct (call_setup e d0 g L HP starts HU tmatch find_all span_text ord Hord annotate ctx text d Ht Ha Hfit)
      as (l' & P' & _ & Hur & _ & Hty & _). rewrite P in P'. injection P' as <-.
    assert (WM := worth_means e g L tmatch find_all d).
    exists ps, n. split; [exact E|]. exists spans. split; [exact T|]. split.
    2: { intros S x i j Hi Hc HinS Hw. exact (U i S j Hi Hc HinS (WM _ _ _ _ Hw)). }
    specialize (E (S (length (content d))) n (le_n _) (Nat.lt_succ_diag_r _)).
    unfold EarleyParseMaxAll in E. rewrite P in E. cbn [Base.bind] in E.
    pose proof (max_loop_parses tmatch ords (with_local (all_rules g) l) text starts n _ _ _ _ E) as Hq. clear E.
    assert (HF2 : forall im p, In p ps -> fst im < length (content d) -> parsed_tokens p (skipn (fst im) (content d)) ->
              (forall k, (exists S, reports p S k) <-> k = snd im) ->
              exists ref ts m, p_finals p = [ref] /\ (forall fuel, m <= fuel -> get_trees (p_columns p) fuel ref = Ret ts) /\ ts <> []
                 /\ (forall t, In t ts -> exists S x, In S starts /\ W S (fst im) (fst im + snd im) x /\ Displays p t x)
                 /\ exists S, In S starts /\ forall x, LA S (fst im) (fst im + snd im) x -> exists t, In t ts /\ Displays p t x).
    { intros im p Hinp Hi Hpt Hk. destruct (Hq p Hinp) as (i & n' & Hi' & Hp).
      destruct (parse_facts _ _ _ _ _ _ _ _ _ _ (Hords n') Hp) as (_ & Hpt' & _ & _ & R).
      rewrite (parsed_unique p (content d) _ _ Hi Hi' Hpt Hpt') in *. clear Hpt.
      destruct (proj2 (Hk (snd im)) eq_refl) as (S & ref & s & Hr & _).
      pose proof (one_final _ _ _ _ (Hords n') _ Hwf _ _ _ R Hr) as H1.
      destruct (result_terminates tmatch ords (all_rules g) text starts (content d) l Hwf Hsep i p true n' ref R Hr) as (ts & m & Hm).
      exists ref, ts, m. split; [exact H1|]. split; [exact Hm|].
      split; [eapply (trees_nonempty _ _ _ _ _ Hsep _ _ _ R ref m ts Hany Hr); apply Hm; lia|].
      assert (HT' : forall t, In t ts -> exists S x c, In S starts /\ W S i (i + snd im) x /\ Displays p t x /\
                erase t = PRule GammaRule (gamma_body S) 0 (snd im) [erase c] /\ worthy (erase c) x).
      { intros t Hint. destruct (HT n n' true i p t Hp) as (S' & k & v & c & -> & B1 & B2 & B3 & B4 & B5 & B6 & B7 & B8 & B9).
        { exists ref, m, ts. split; [exact Hr|]. split; [apply Hm; lia|exact Hint]. }
        assert (k = snd im) as <- by (apply Hk; eauto).
        destruct (worthy_tree p (skipn i (content d)) B4 join_words float_string json is_print_hi (Call rcall) (e_tokenize e) tmatch (map rd_before L) HF
                    find_all (g_regexps g) d ltac:(apply Hfit) N (calculates_shift _ _ _ (content d) i N HN) Hloc c S' 0 k B5 B7 B3 (HS _ B1)) as (x & X1 & X2 & X3 & X4).
        exists S', x, c. split; [exact B1|]. split; [|split; [|split; [exact B6|exact X4]]].
        - apply (proj1 (worth_shift _ _ _ (content d) i)) in X1. rewrite Nat.add_0_r in X1. exact X1.
        - split; [rewrite B8; exact X2|]. intros M. rewrite B9.
          destruct (arith_eval p join_words float_string scan rcall Hscan Hmath c (value x) (X3 M)) as (_ & r & S1 & S2). eauto. }
      split; [intros t Hint; destruct (HT' t Hint) as (S' & x & c & A1 & A2 & A3 & _); exists S', x; auto|].
      destruct (proj2 (Hk (snd im)) eq_refl) as (S' & ref' & s' & J1 & J2 & J3 & J4 & J5). rewrite H1 in J1. destruct J1 as [<-|[]].
      destruct (final_reports _ _ _ _ _ Hwf _ _ _ _ R Hr) as (s2 & S2 & A1 & A2 & A3 & A4 & _).
      rewrite J2 in A1. injection A1 as <-. rewrite J3 in A2. injection A2 as <-.
      exists S'. split; [exact A3|]. intros x (nn & Hle & Hmin).
      destruct (proj1 (least_back _ _ _ (content d) i) _ _ _ _ _ Hle (le_n i)) as [_ Hle']. rewrite Nat.sub_diag in Hle'. replace (i + snd im - i) with (snd im) in Hle' by lia.
      pose proof HU as (U1 & U2 & U3 & U4 & U5 & U6 & U7 & U8). pose proof Hfit as (F1 & F2 & F3 & F4 & F5 & F6 & F7).
      destruct (local_process (e_hash e) find_all span_text (g_regexps g) ord annotate ctx text d Ht Ha F2) as (_ & _ & Pl).
      destruct (Pl F1 F3) as (l2 & P2 & Hl). rewrite P in P2. injection P2 as <-. clear Pl.
      destruct (least_root e d0 g L HP U1 U2 U3 U5 U6 tmatch (e_hash e) find_all span_text ord d Hord F2 F7 l Hl (skipn i (content d)) N
                  (calculates_shift _ _ _ (content d) i N HN) Hloc S' (snd im) x nn (gamma_body S') eq_refl (HS _ A3)) as (q & K1 & K2 & K3 & K4).
      { apply (own_not_generated e d0 g L HP S' U1). apply U8. exact A3. }
      { exact Hle'. }
      { intros n1 Hn1. apply Hmin. apply (proj1 (reach_shift _ _ _ (content d) i)) in Hn1. rewrite Nat.add_0_r in Hn1. exact Hn1. }
      rewrite <- J5 in K1, K4.
      pose proof (shortest_tree tmatch ords (with_local (all_rules g) l) text n n' true (skipn i (content d)) starts p (Hords n') Hp Hwf Hsep Hur Hany
                    ref s' S' Hr J2 J3 Hty m ts (Hm m (le_n m)) q K1 K2 K4) as Hres.
      apply in_map_iff in Hres as (t & Et & Hint). exists t. split; [exact Hint|]. destruct (HT' t Hint) as (S3 & x' & c & _ & _ & Dx & Ec & Wc).
      rewrite Ec in Et. injection Et as _ _ Et. rewrite Et in Wc. rewrite (proj1 worthy_one _ _ K3 _ Wc). exact Dx. }
    clear - F HF2 WM. induction F as [|im p spans ps (A & B & C & D & D' & D'') F IH]; constructor.
    - split; [exact A|]. split; [exact B|]. split; [|apply HF2; auto; left; reflexivity].
      intros S x j HinS Hr. exact (D' S j HinS (WM _ _ _ _ Hr)).
    - apply IH. intros im' p' Hinp. apply HF2. right. exact Hinp.
  Qed.

  (** a text that can be read as a whole *)
  Lemma least_whole S0 x0 : content d <> [] -> In S0 starts -> W S0 0 (length (content d)) x0 ->
    exists p ref ts n m, (forall steps fuel, n <= fuel -> length (content d) < steps ->
      EarleyParseMaxAll tmatch ords (all_rules g) (doc_tokens annotate) local_ steps fuel ctx text starts = Ret [p]) /\
    p_finals p = [ref] /\ (forall fuel, m <= fuel -> get_trees (p_columns p) fuel ref = Ret ts) /\ ts <> [] /\
    (forall t, In t ts -> exists S x, In S starts /\ W S 0 (length (content d)) x /\ Displays p t x) /\
    exists S, In S starts /\ forall x, LA S 0 (length (content d)) x -> exists t, In t ts /\ Displays p t x.
  Proof using HP HU HF Hords Hord Ht Ha Hfit HN Hloc HS Hscan Hmath.
    intros Hne HinS HW. destruct least_max as (ps & n & E & spans & T & F & U).
    assert (WM := worth_means e g L tmatch find_all d).
    assert (Hpos : 0 < length (content d)) by (destruct (content d); [congruence|cbn [length]; lia]).
    destruct F as [|[i m] p spans ps (A & B & C & ref & ts & m' & D1 & D2 & D3 & D4 & D5) F].
    { exfalso. apply (U S0 x0 0 _ Hpos) in HW; auto. intros (i & m & [] & _). }
    cbn [tiles fst snd] in *. destruct T as [_ T].
    assert (i = 0) as ->.
    { destruct i as [|i]; [reflexivity|]. exfalso. apply (U S0 x0 0 _ Hpos) in HW; auto. intros (i' & m0 & [[= <- <-]|H] & Hc); [lia|].
      assert (K : forall l lo, tiles lo l -> forall a b, In (a, b) l -> lo <= a).
      { induction l as [|[a b] l IH]; intros lo Hl a' b' Hin; [destruct Hin|]. destruct Hl as [L1 L2]. destruct Hin as [[= <- <-]|Hin]; [exact L1|].
        specialize (IH _ L2 _ _ Hin). lia. }
      pose proof (K _ _ T _ _ H). lia. }
    pose proof (C S0 x0 _ HinS HW) as Hm.
    assert (Hn : m <= length (content d)).
    { destruct ts as [|t ts]; [congruence|]. destruct (D4 t (or_introl eq_refl)) as (S & x & _ & Hx & _). apply WM in Hx.
      apply (proj1 (derives_bounds _ _ _ _ _) _ _ _ Hx). lia. }
    assert (m = length (content d)) as -> by lia. cbn [Nat.add] in *.
    destruct F as [|[i m] q spans ps (A' & _) F].
    - exists p, ref, ts, n, m'. auto 7.
    - exfalso. cbn [tiles fst] in *. lia.
  Qed.
End Calls.
