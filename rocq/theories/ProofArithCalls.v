(** The calls of examples/arithmetic. *)
From Coq Require Import Permutation Sorted.
From Verif Require Import Base ModelTypes ModelText ModelEarley ModelTrees ModelApi ModelQuote ModelSem ModelMath ModelFuncs ModelReader ModelGrammar ModelLocal
     SpecTypes SpecGrammar SpecTree SpecNotation SpecRefine SpecConstruct SpecSem SpecNode SpecApi SpecLocal SpecFuncs SpecEnd SpecMath SpecMeaning
     ModelShipped SpecShipped
     ProofEqual ProofTree ProofTreeOk ProofTreeApi ProofApi ProofApiLoops ProofApiMain ProofMain ProofExtract ProofLocal ProofLocalMatch ProofLocalApi ProofSem ProofNodes ProofSemMain ProofNode ProofFuncs ProofGrammar ProofConstruct ProofEnd
     ProofMath ProofUnique ProofMeaning ProofMeaningCalls SpecTreeOrder SpecTreeEdge ProofTreeEdge SpecArith ProofArith ProofArithLeft.
Local Open Scope list_scope.

Section Calls.
  Variable e : env.
  Hypothesis HE : env_ok e.
  Hypothesis Hwords : words_have_tokens (e_tokenize e).
  Variables (dir : string) (fuel0 depth0 : nat) (gt : list (string * token)) (g : grammar) (w' : world).
  Hypothesis Hin : installed e dir dir_arithmetic.
  Hypothesis Hload : from_file e fuel0 depth0 (e_join e dir "arithmetic.grammar") gt = Ret (Some g, w').

  Lemma arith_usable q : compatible [q] -> (forall x b, has_body [rd_before q] x b -> x = "number"%string /\ In b bodies) ->
    lookup (rd_before q) "number" <> None -> usable (e_tokenize e) [q] ["number"%string].
  Proof using Hwords.
    intros HC HB HL.
    assert (K : forall t, occurs (map rd_before [q]) t -> (exists w, In w vocabulary /\ t = word w) \/ t = nonterm "number").
    { intros t (x & b & Hb & Ht). destruct (HB x b Hb) as [_ Hb']. unfold vocabulary.
      destruct (bodies_cases b Hb') as [(w & z & Hw & ->)|[(w & o & Hw & ->)|(w & Hw & ->)]]; cbn [rb_terms number_body operator_body sign_body fst] in Ht.
      - destruct Ht as [<-|[]]. left. exists w. split; [|reflexivity]. apply in_app_iff. left. apply (in_map fst _ _ Hw).
      - destruct Ht as [<-|[<-|[<-|[]]]]; auto. left. exists w. split; [|reflexivity]. apply in_app_iff. right. apply in_app_iff. left. apply (in_map fst _ _ Hw).
      - destruct Ht as [<-|[<-|[]]]; auto. left. exists w. split; [|reflexivity]. apply in_app_iff. right. apply in_app_iff. right. exact Hw. }
    split; [exact HC|]. split.
    { intros t t' Ho Ho' Et Et' _. destruct (K t Ho) as [(w & _ & ->)| ->]; [|discriminate Et].
      destruct (K t' Ho') as [(w1 & _ & ->)| ->]; [reflexivity|discriminate Et']. }
    split. { intros t Ho Et Hp. destruct (K t Ho) as [(w & _ & ->)| ->]; [destruct Et; discriminate|discriminate Hp]. }
    split. { intros t Ho Et. destruct (K t Ho) as [(w & _ & ->)| ->]; [contradiction Et; reflexivity|discriminate]. }
    split. { intros t t' Ho Ho' _ Et. destruct (K t Ho) as [(w & _ & ->)| ->]; destruct Et as [Et|(Et & _)]; discriminate. }
    split.
    { split.
      - intros t ks Ho Et Ek. destruct (K t Ho) as [(w & Hw & ->)| ->]; [|discriminate Et]. exact (Hwords w ks Hw Ek).
      - intros t Ho Et. destruct (K t Ho) as [(w & _ & ->)| ->]; destruct Et; discriminate. }
    split; [discriminate|]. intros S [<-|[]]. split; [discriminate|]. left. exists (rd_before q). split; [left; reflexivity|exact HL].
  Qed.

  Variable tmatch : term -> option token -> bool.
  Variable ords : nat -> order.
  Hypothesis Hords : orders ords.
  Variable find_all : string -> string -> option (list (nat * nat)).
  Variable span_text : document -> nat -> nat -> string.
  Variable ord : nat -> list (string * ModelLocal.entry) -> list (string * ModelLocal.entry).
  Hypothesis Hord : forall i l, Permutation l (ord i l).
  Variable annotate : string -> string -> res document.
  Variables (ctx text : string) (d : document).
  Hypothesis Ht : trim_space text <> "".
  Hypothesis Ha : annotate ctx (trim_space text) = Ret d.
  Hypothesis Hfit : fit_document (e_hash e) find_all [] d.
  Hypothesis Htag : ~ tagged d "number".
  Variable join_words : list string -> string.
  Variable float_string : bigf -> string.
  Variable json : dval -> string.
  Variable is_print_hi : rune -> bool.
  Variable scan : string -> option bfloat.
  Variable rcall : string -> list dval -> res (list dval).
  Hypothesis Hscan : scans_floats scan.
  Hypothesis Hmath : math_registered scan rcall.
  Notation Reads := (reads (e_tokenize e) tmatch (content d)).
  Notation local_ := (doc_local (e_hash e) find_all span_text (g_regexps g) ord annotate ctx text).
  Notation sem p := (semantic p join_words float_string json is_print_hi (Call rcall)).
  Notation evl p := (eval p join_words float_string (Call rcall)).

  Lemma not_local b : ~ local_alt find_all [] d "number" b.
  Proof using Htag.
    intros H. inversion H as [k x Hk Hc|sp m x Hs Hv Hi|sp m x items Hs Hv Hi|x s k Hr]; subst.
    - inversion Hc.
    - apply Htag. exists sp, m, EOther. auto.
    - apply Htag. exists sp, m, (EList items). auto.
    - destruct Hr as (pat & ms & a & b & k' & l & [] & _).
  Qed.

  Lemma reads_shift x a i j : a <= length (content d) -> reads (e_tokenize e) tmatch (skipn a (content d)) x i j -> Reads x (a + i) (a + j).
  Proof using.
    intros Hl. assert (P : forall w i j, phrase (e_tokenize e) tmatch (skipn a (content d)) w i j -> phrase (e_tokenize e) tmatch (content d) w (a + i) (a + j)).
    { intros w i0 j0 (ks & E & W). exists ks. split; [exact E|]. apply words_shift. exact W. }
    induction 1 as [w z i j Hw Hp|w o x y i j k l Hw _ IHx Hp _ IHy|w x i j k Hw Hp _ IHx].
    - eapply rd_number; eauto.
    - eapply rd_binary; eauto.
    - eapply rd_negative; eauto.
  Qed.

  Notation Shows p := (shows p join_words float_string json is_print_hi rcall).

  Lemma arith_setup : exists L, e_parts e arithmetic_arithmetic g L /\ usable (e_tokenize e) L ["number"%string] /\ g_regexps g = [] /\
    functions_fit (map rd_before L) /\
    (forall i j, Means (e_tokenize e) tmatch (map rd_before L) find_all [] d "number" i j -> exists x, Reads x i j) /\
    (NoDup (map (e_hash e) bodies) -> forall x i j, Reads x i j -> Means (e_tokenize e) tmatch (map rd_before L) find_all [] d "number" i j) /\
    (forall p c i k, parsed_tokens p (skipn i (content d)) -> i <= length (content d) -> k <= length (skipn i (content d)) -> built c ->
       text_tree (e_tokenize e) tmatch (map rd_before L) find_all [] d (skipn i (content d)) (nonterm "number") 0 k (erase c) ->
       exists x, pictures (erase c) x /\ Reads x i (i + k) /\ Shows p c x).
  Proof using HE Hwords Hin Hload Hfit Htag Hscan Hmath.
    destruct (arith_parts e HE dir fuel0 depth0 gt g w' Hin Hload) as (q & Q1 & Q2 & Q3 & Q4 & Q5 & Q6).
    exists [q]. split; [exact Q1|]. split; [apply arith_usable; assumption|]. split; [exact Q3|].
    cbn [map]. split; [exact (arith_fit [rd_before q] Q4)|]. split; [|split].
    - intros i j H. apply (proj1 (derives_reads (content d) (e_tokenize e) tmatch [rd_before q] Q4 find_all d not_local) _ _ _ H). reflexivity.
    - intros ND x i j H. exact (reads_derive (content d) (e_tokenize e) tmatch [rd_before q] find_all d (Q5 ND) x i j H).
    - intros p c i k Hp Hi Hk Hb HT.
      destruct (number_tree p (skipn i (content d)) Hp join_words float_string json is_print_hi (Call rcall) (e_tokenize e) tmatch [rd_before q] Q4
                  find_all d ltac:(apply Hfit) not_local c 0 k Hb HT Hk) as (x & X0 & X1 & X2 & X3).
      exists x. split; [exact X0|]. split; [|split; [exact X2|]].
      + apply (reads_shift x i 0 k Hi) in X1. rewrite Nat.add_0_r in X1. exact X1.
      + intros T. destruct (arith_eval p join_words float_string scan rcall Hscan Hmath c (value x) (X3 T)) as (_ & s & S1 & S2). eauto.
  Qed.

  Lemma reads_unshift x a i j : Reads x i j -> a <= i -> reads (e_tokenize e) tmatch (skipn a (content d)) x (i - a) (j - a).
  Proof using.
    assert (P : forall w i j, a <= i -> phrase (e_tokenize e) tmatch (content d) w i j ->
              i <= j /\ phrase (e_tokenize e) tmatch (skipn a (content d)) w (i - a) (j - a)).
    { intros w i0 j0 Hi (ks & E & -> & W). split; [lia|]. exists ks. split; [exact E|]. split; [lia|].
      intros k t Hk. destruct (W k t Hk) as (W1 & tok & W2 & W3). split; [exact W1|]. exists tok. split; [|exact W3].
      rewrite nth_skipn. replace (a + (i0 - a + k)) with (i0 + k) by lia. exact W2. }
    assert (M : forall x i j, Reads x i j -> i <= j).
    { induction 1 as [w z u v Hw (ks & _ & -> & _)|w o y z u v k l Hw _ IH1 (ks & _ & -> & _) _ IH2|w y u v k Hw (ks & _ & -> & _) _ IH]; lia. }
    induction 1 as [w z i j Hw Hp|w o x y i j k l Hw Hx IHx Hp Hy IHy|w x i j k Hw Hp _ IHx]; intros Hi.
    - eapply rd_number; [exact Hw|]. apply P; auto.
    - pose proof (M _ _ _ Hx). destruct (P w j k ltac:(lia) Hp) as [L Hp']. eapply rd_binary; [exact Hw|apply IHx; exact Hi|exact Hp'|apply IHy; lia].
    - destruct (P w i j Hi Hp) as [L Hp']. eapply rd_negative; [exact Hw|exact Hp'|apply IHx; lia].
  Qed.

  (** the rules of a call *)
  Lemma arith_tables l : NoDup (map (e_hash e) bodies) -> process (doc_tokens annotate) local_ ctx text = Ret (content d, l) ->
    exists T, (forall b, In b bodies -> exists b', has_body (with_local (all_rules g) l) "number" b' /\ replaced_body T b b') /\
      (forall w y, In w vocabulary -> In (w, y) T -> exists ks, e_tokenize e w = Ret ks /\
         forall b, has_body (with_local (all_rules g) l) y b <-> b = mkRb (token_terms MNil ks) None) /\
      (forall b', has_body (with_local (all_rules g) l) "number" b' -> exists b, In b bodies /\ replaced_body T b b').
  Proof using HE Hwords Hin Hload Hord Ht Ha Hfit Htag.
    intros ND P. destruct (arith_parts e HE dir fuel0 depth0 gt g w' Hin Hload) as (q & Q1 & Q2 & Q3 & Q4 & Q5 & Q6).
    pose proof (arith_usable q Q2 Q4 Q6) as (U1 & U2 & U3 & U4 & U5 & U6 & U7 & U8). destruct Hfit as (F1 & F2 & F3 & F4 & F5 & F6 & F7).
    destruct (local_process (e_hash e) find_all span_text (g_regexps g) ord annotate ctx text d Ht Ha F2) as (_ & _ & Pl).
    destruct (Pl F1 F3) as (l' & P' & Hl). rewrite P in P'. injection P' as <-. clear Pl.
    assert (F7' : local_names find_all (g_regexps g) d) by (rewrite Q3; exact F7).
    destruct (part_refined e _ g [q] Q1 q (or_introl eq_refl)) as ((R1 & R2 & R3 & R4 & R5 & R6 & R7) & Rg).
    assert (Hbody : forall x b, has_body (with_local (all_rules g) l) x b <-> has_body [rd_after q] x b \/ has_body (opt_rules l) x b).
    { intros x b. rewrite with_local_app, <- (parts_after _ _ _ _ _ _ _ _ _ _ g [q] Q1). apply has_body_app. }
    exists (rd_table q). split; [|split].
    - intros b Hb. destruct (Q5 ND b Hb) as (m & r & h & [<-|[]] & L1 & L2). destruct (R5 _ _ L1) as (r' & L3 & _ & L4 & _).
      destruct (L4 h b L2) as (b' & L5 & L6). exists b'. split; [|exact L6]. apply Hbody. left. exists (rd_after q), r', h. split; [left; reflexivity|auto].
    - intros w y Hw Hy. destruct (R6 w y Hy) as (ks & m & Ek & (t & Ho & Et & Ev & Em) & Lk). cbv zeta in Lk.
      assert (t = word w) as ->.
      { destruct Ho as (x & b & Hb & Hin'). destruct (Q4 x b Hb) as [_ Hb']. rewrite <- Ev.
        destruct (bodies_cases b Hb') as [(w0 & z & _ & ->)|[(w0 & o & _ & ->)|(w0 & _ & ->)]]; cbn [rb_terms number_body operator_body sign_body fst] in Hin'.
        - destruct Hin' as [<-|[]]. reflexivity.
        - destruct Hin' as [<-|[<-|[<-|[]]]]; try discriminate Et. reflexivity.
        - destruct Hin' as [<-|[<-|[]]]; try discriminate Et. reflexivity. }
      cbn [word t_meta] in Em. subst m. exists ks. split; [exact Ek|]. intros b. split.
      + intros Hb. destruct (generated_body e _ g [q] Q1 U1 U2 (e_hash e) find_all span_text ord d Hord F2 F7' l Hl q (word w) y b
                              (or_introl eq_refl) Hy Ho eq_refl Hb) as (ks' & Ek' & ->). cbn [word t_value t_meta] in *. congruence.
      + intros ->. apply Hbody. left. eexists (rd_after q), _, _. split; [left; reflexivity|]. split; [exact Lk|left; reflexivity].
    - intros b' Hb. apply Hbody in Hb as [(m & r' & h & [<-|[]] & L1 & L2)|Hb].
      + destruct (lookup (rd_before q) "number") as [r|] eqn:Lb; [|contradiction Q6; reflexivity].
        destruct (R5 _ _ Lb) as (r2 & L3 & _ & _ & L4). rewrite L1 in L3. injection L3 as <-. destruct (L4 h b' L2) as (b & L5 & L6).
        exists b. split; [|exact L6]. apply (Q4 "number"%string). exists (rd_before q), r, h. split; [left; reflexivity|auto].
      + exfalso. apply (local_sound (e_hash e) find_all span_text (g_regexps g) ord Hord d l _ _ F2 Hl) in Hb. rewrite Q3 in Hb. exact (not_local _ Hb).
  Qed.

  Lemma arith_max : NoDup (map (e_hash e) bodies) -> exists ps n, (forall steps fuel, n <= fuel -> length (content d) < steps ->
      EarleyParseMaxAll tmatch ords (all_rules g) (doc_tokens annotate) local_ steps fuel ctx text ["number"%string] = Ret ps) /\
    exists spans, tiles 0 spans
      /\ Forall2 (fun im p => fst im < length (content d) /\ 0 < snd im
            /\ (forall x j, Reads x (fst im) j -> j <= fst im + snd im)
            /\ exists ref ts m, p_finals p = [ref] /\ (forall fuel, m <= fuel -> get_trees (p_columns p) fuel ref = Ret ts) /\ ts <> []
                 /\ (forall t, In t ts -> exists x, Reads x (fst im) (fst im + snd im) /\ Shows p t x)
                 /\ forall x, Reads x (fst im) (fst im + snd im) -> left_to_right x ->
                      (forall z, Reads (Number z) (fst im) (fst im + snd im) -> exists z', x = Number z') -> exists t, In t ts /\ Shows p t x) spans ps
      /\ (forall x i j, i < length (content d) -> ~ covered spans i -> ~ Reads x i j).
  Proof using HE Hwords Hin Hload Hords Hord Ht Ha Hfit Htag Hscan Hmath.
    intros ND. destruct arith_setup as (L & HP & HU & HR & HF & M1 & M2 & SH). specialize (M2 ND).
    assert (Hfit' : fit_document (e_hash e) find_all (g_regexps g) d) by (rewrite HR; exact Hfit).
    destruct (end_max e arithmetic_arithmetic g L HP ["number"%string] HU tmatch ords Hords find_all span_text ord Hord annotate ctx text d Ht Ha Hfit')
      as (ps & n & E & spans & T & F & U).
    destruct (tree_setup e arithmetic_arithmetic g L HP ["number"%string] HU tmatch ords Hords find_all span_text ord Hord annotate ctx text d Ht Ha Hfit'
                join_words float_string json is_print_hi (Call rcall)) as (l & P & Hwf & Hsep & Hany & HS).
    destruct (call_setup e arithmetic_arithmetic g L HP ["number"%string] HU tmatch find_all span_text ord Hord annotate ctx text d Ht Ha Hfit')
      as (l' & P' & _ & Hur & _ & Hty & _). rewrite P in P'. injection P' as <-.
    exists ps, n. split; [exact E|]. exists spans. split; [exact T|]. split.
    2: { intros x i j Hi Hc Hr. rewrite HR in U. exact (U i "number"%string j Hi Hc (or_introl eq_refl) (M2 _ _ _ Hr)). }
    specialize (E (S (length (content d))) n (le_n _) (Nat.lt_succ_diag_r _)).
    unfold EarleyParseMaxAll in E. rewrite P in E. cbn [bind] in E.
    pose proof (max_loop_parses tmatch ords (with_local (all_rules g) l) text ["number"%string] n _ _ _ _ E) as Hq. clear E.
    assert (HF2 : forall im p, In p ps -> fst im < length (content d) -> parsed_tokens p (skipn (fst im) (content d)) ->
              (forall k, (exists S, reports p S k) <-> k = snd im) ->
              exists ref ts m, p_finals p = [ref] /\ (forall fuel, m <= fuel -> get_trees (p_columns p) fuel ref = Ret ts) /\ ts <> []
                 /\ (forall t, In t ts -> exists x, Reads x (fst im) (fst im + snd im) /\ Shows p t x)
                 /\ forall x, Reads x (fst im) (fst im + snd im) -> left_to_right x ->
                      (forall z, Reads (Number z) (fst im) (fst im + snd im) -> exists z', x = Number z') -> exists t, In t ts /\ Shows p t x).
    { intros im p Hinp Hi Hpt Hk. destruct (Hq p Hinp) as (i & n' & Hi' & Hp).
      destruct (parse_facts _ _ _ _ _ _ _ _ _ _ (Hords n') Hp) as (_ & Hpt' & _ & _ & R).
      rewrite (parsed_unique p (content d) _ _ Hi Hi' Hpt Hpt') in *. clear Hpt.
      destruct (proj2 (Hk (snd im)) eq_refl) as (S & ref & s & Hr & _).
      pose proof (one_final _ _ _ _ (Hords n') _ Hwf _ _ _ R Hr) as H1.
      destruct (result_terminates tmatch ords (all_rules g) text ["number"%string] (content d) l Hwf Hsep i p true n' ref R Hr) as (ts & m & Hm).
      exists ref, ts, m. split; [exact H1|]. split; [exact Hm|].
      split; [eapply (trees_nonempty _ _ _ _ _ Hsep _ _ _ R ref m ts Hany Hr); apply Hm; lia|].
      assert (HT : forall t, In t ts -> exists c x, erase t = PRule GammaRule (gamma_body "number") 0 (snd im) [erase c] /\
                pictures (erase c) x /\ Reads x i (i + snd im) /\ Shows p t x).
      2: { split; [intros t Hint; destruct (HT t Hint) as (c & x & _ & _ & X); exists x; exact X|]. intros x Hx Lx Hz.
           destruct (arith_tables l ND P) as (T' & T1 & T2 & T3).
           apply (reads_unshift x i) in Hx; [|lia]. rewrite Nat.sub_diag in Hx. replace (i + snd im - i) with (snd im) in Hx by lia.
           destruct (left_root (e_tokenize e) tmatch (skipn i (content d)) (with_local (all_rules g) l) T' Hwords T1 T2 T3 x (snd im) (gamma_body "number")
                       eq_refl Hx Lx) as (q & K1 & K2 & K3 & K4).
           { intros z Hr'. apply (Hz z). apply (reads_shift _ i) in Hr'; [|lia]. rewrite Nat.add_0_r in Hr'. exact Hr'. }
           destruct (proj2 (Hk (snd im)) eq_refl) as (S' & ref' & s' & J1 & J2 & J3 & J4 & J5). rewrite H1 in J1. destruct J1 as [<-|[]].
           destruct (final_reports _ _ _ _ _ Hwf _ _ _ _ R Hr) as (s2 & S2 & A1 & A2 & A3 & A4 & _).
           rewrite J2 in A1. injection A1 as <-. rewrite J3 in A2. injection A2 as <-.
           assert (S' = "number"%string) as -> by (destruct A3 as [A3|[]]; auto).
           rewrite <- J5 in K1, K4.
           pose proof (shortest_tree tmatch ords (with_local (all_rules g) l) text n n' true (skipn i (content d)) ["number"%string] p (Hords n') Hp Hwf Hsep Hur Hany
                         ref s' "number"%string Hr J2 J3 Hty m ts (Hm m (le_n m)) q K1 K2 K4) as Hres.
           apply in_map_iff in Hres as (t & Et & Hint). exists t. split; [exact Hint|]. destruct (HT t Hint) as (c & x' & Ec & Pc & _ & Sx).
           rewrite Ec in Et. injection Et as _ Et. rewrite Et in Pc. rewrite (pictures_one _ _ K3 _ Pc). exact Sx. }
      intros t Hint. destruct (HS n n' true i p t Hp) as (S' & k & v & c & -> & B1 & B2 & B3 & B4 & B5 & B6 & B7 & B8 & B9).
      { exists ref, m, ts. split; [exact Hr|]. split; [apply Hm; lia|exact Hint]. }
      assert (k = snd im) as <- by (apply Hk; eauto). destruct B1 as [<-|[]]. rewrite HR in B7.
      destruct (SH p c i k B4 ltac:(lia) B3 B5 B7) as (x & X0 & X1 & X2 & X3). exists c, x. split; [exact B6|]. split; [exact X0|]. split; [exact X1|]. split; [rewrite B8|rewrite B9]; auto. }
    rewrite HR in F. clear - F HF2 M2. induction F as [|im p spans ps (A & B & C & D & D' & D'') F IH]; constructor.
    - split; [exact A|]. split; [exact B|]. split; [|apply HF2; auto; left; reflexivity].
      intros x j Hr. exact (D' "number"%string j (or_introl eq_refl) (M2 _ _ _ Hr)).
    - apply IH. intros im' p' Hinp. apply HF2. right. exact Hinp.
  Qed.
End Calls.
