(** The program examples/arithmetic. *)
From Coq Require Import Permutation Ascii.
From Verif Require Import Base ModelTypes ModelText ModelEarley ModelTrees ModelApi ModelQuote ModelSem ModelMath ModelFuncs ModelPrint ModelReader ModelGrammar ModelMatch ModelLocal ModelProgram
     SpecTypes SpecGrammar SpecTree SpecNotation SpecRefine SpecConstruct SpecSem SpecNode SpecApi SpecLocal SpecFuncs SpecEnd SpecMath SpecMeaning
     ModelShipped SpecShipped ProofShippedMain ProofApi ProofArithCalls SpecArith SpecProgram.
Local Open Scope list_scope.

Lemma sapp_assoc (a b c : string) : ((a ++ b) ++ c = a ++ (b ++ c))%string.
Proof. induction a as [|x a IH]; cbn [String.append]; [reflexivity|rewrite IH; reflexivity]. Qed.
Lemma sapp_nil (a : string) : (a ++ "" = a)%string.
Proof. induction a as [|x a IH]; cbn [String.append]; [reflexivity|rewrite IH; reflexivity]. Qed.

Ltac flat := repeat (first [rewrite sapp_nil | rewrite sapp_assoc | progress cbn [String.append]]); reflexivity.

Lemma read_line_plain s : plain s -> read_line s = None.
Proof.
  induction s as [|c s IH]; intros H; cbn [read_line]; [reflexivity|]. destruct H as [H1 H2].
  destruct (Ascii.eqb_spec c (of_byte 10)) as [->|_]; [contradiction H1; reflexivity|]. rewrite (IH H2). reflexivity.
Qed.
Lemma read_line_at l rest : plain l -> read_line (l ++ newline ++ rest) = Some ((l ++ newline)%string, rest).
Proof.
  induction l as [|c l IH]; intros H.
  - cbn [String.append read_line newline]. destruct (Ascii.eqb_spec (of_byte 10) (of_byte 10)) as [_|K]; [reflexivity|contradiction K; reflexivity].
  - destruct H as [H1 H2]. cbn [String.append read_line].
    destruct (Ascii.eqb_spec c (of_byte 10)) as [->|_]; [contradiction H1; reflexivity|]. rewrite (IH H2). reflexivity.
Qed.
(** Every input is a list of lines. *)
Inductive lines : string -> nat -> Prop :=
| ls_end s : plain s -> lines s 0
| ls_line l rest n : plain l -> lines rest n -> lines (l ++ newline ++ rest) (S n).
Lemma lines_of s : exists n, lines s n.
Proof.
  induction s as [|c s (n & IH)]; [exists 0; constructor; exact I|].
  destruct (Ascii.eqb_spec c (of_byte 10)) as [->|N].
  - exists (S n). apply (ls_line ""); [exact I|exact IH].
  - assert (String c "" <> newline) by (intros K; injection K as K; apply N; subst c; reflexivity).
    inversion IH as [s' Hp|l rest n' Hp Hr]; subst.
    + exists 0. constructor. split; assumption.
    + exists (S n'). apply (ls_line (String c l)); [split; assumption|exact Hr].
Qed.

Section Runs.
  Variable vm : Type.
  Variable run : vm -> string -> res (string * vm).
  Hypothesis Hrun : forall m s, calm (run m s).
  Variable join_words : list string -> string.
  Variable float_string : bigf -> string.
  Variable json : dval -> string.
  Variable is_print_hi : rune -> bool.
  Variable call : string -> list dval -> res dval.
  Notation trees_ := (run_trees vm run join_words float_string json is_print_hi call).
  Notation parses_ fuel := (run_parses vm run join_words float_string json is_print_hi call fuel).

  Lemma run_trees_answers p ts xs :
    Forall2 (fun t x => semantic p join_words float_string json is_print_hi call t = Ret (formula x)) ts xs ->
    forall m, exists out r, trees_ p m ts = (out, r) /\ answers vm run xs m out r.
  Proof using Hrun.
    induction 1 as [|t x ts xs E _ IH]; intros m.
    - exists ""%string, (Ret m). split; [reflexivity|constructor].
    - cbn [run_trees length]. rewrite E. cbn [seq_io done snd fst String.append].
      destruct (run m (formula x)) as [[a m']| | |] eqn:Er.
      + destruct (IH m') as (out & r & E' & A).
        exists (formula x ++ " = " ++ a ++ newline ++ out)%string, r. split; [|exact (an_one vm run x xs a m m' out r Er A)].
        cbn [seq_io done put snd fst String.append]. rewrite E'. cbn [fst snd]. f_equal. flat.
      + exists ""%string, Err. split; [reflexivity|exact (an_stop vm run x xs m Er)].
      + destruct (Hrun m (formula x)) as [K _]. contradiction.
      + destruct (Hrun m (formula x)) as [_ K]. contradiction.
  Qed.

  Lemma answers_calm xs m out r : answers vm run xs m out r -> calm r.
  Proof. induction 1; try (split; discriminate); assumption. Qed.

  Lemma blocks_calm R n spans m out r : blocks vm run R n spans m out r -> calm r.
  Proof. induction 1; try (split; discriminate); assumption. Qed.

  Lemma run_parses_blocks (R : expression -> nat -> nat -> Prop) spans ps :
    Forall2 (fun im p => exists ref ts m xs, p_finals p = [ref] /\ (forall fuel, m <= fuel -> get_trees (p_columns p) fuel ref = Ret ts) /\
               displayed R (fst im) (fst im + snd im) xs /\
               Forall2 (fun t x => semantic p join_words float_string json is_print_hi call t = Ret (formula x)) ts xs) spans ps ->
    forall n m, exists out r, blocks vm run R n spans m out r /\ exists N, forall fuel, N <= fuel -> parses_ fuel n m ps = (out, r).
  Proof using Hrun.
    induction 1 as [|[i l] p spans ps (ref & ts & N1 & xs & F & G & HD & HT) _ IH]; intros n m.
    - exists ""%string, (Ret m). split; [constructor|]. exists 0. reflexivity.
    - cbn [fst snd] in HD. destruct (run_trees_answers p ts xs HT m) as (out & r & E & A).
      assert (K : length ts = length xs) by (clear - HT; induction HT; cbn; auto).
      pose proof (answers_calm _ _ _ _ A) as HC.
      destruct r as [m'| | |]; [| |destruct HC as [HC _]; contradiction HC; reflexivity|destruct HC as [_ HC]; contradiction HC; reflexivity].
      + destruct (IH (S n) m') as (outs & r & B & N2 & E').
        exists (header n (length xs) ++ out ++ outs)%string, r. split; [exact (bl_one vm run R n i l xs spans m m' out outs r HD A B)|].
        exists (Nat.max N1 N2). intros fuel Hf. cbn [run_parses]. rewrite F. cbn [run_finals].
        rewrite (G fuel ltac:(lia)). cbn [seq_io done put snd fst String.append]. rewrite E. cbn [seq_io done put fst snd]. rewrite (E' fuel ltac:(lia)). cbn [fst snd].
        f_equal. rewrite K. unfold header. flat.
      + exists (header n (length xs) ++ out)%string, Err. split; [exact (bl_stop vm run R n i l xs spans m out HD A)|].
        exists N1. intros fuel Hf. cbn [run_parses]. rewrite F. cbn [run_finals].
        rewrite (G fuel ltac:(lia)). cbn [seq_io done put snd fst String.append]. rewrite E. cbn [fst snd]. rewrite K. reflexivity.
  Qed.
End Runs.

Lemma reads_bounded tokenize tmatch toks x i j : reads tokenize tmatch toks x i j -> i <= length toks -> j <= length toks.
Proof.
  assert (P : forall w i j, phrase tokenize tmatch toks w i j -> i <= length toks -> j <= length toks).
  { intros w i0 j0 (ks & _ & -> & W) Hi. revert W. generalize (token_terms MNil ks) as ts. intros ts W.
    destruct ts as [|t ts _] using rev_ind; [cbn; lia|].
    rewrite app_length. cbn [length]. destruct (W (length ts) t) as (_ & tok & Hn & _).
    - rewrite nth_error_app2, Nat.sub_diag; [reflexivity|lia].
    - assert (i0 + length ts < length toks) by (apply nth_error_Some; rewrite Hn; discriminate). lia. }
  induction 1; eauto.
Qed.

Lemma token_terms_plain ks t : In t (token_terms MNil ks) -> t_type t = TTerminal /\ t_meta t = MNil.
Proof.
  unfold token_terms. intros H. apply in_map_iff in H. destruct H as (k & <- & _). split; reflexivity.
Qed.
Lemma reads_same_text tokenize tmatch :
  (forall t k, t_type t = TTerminal -> t_meta t = MNil -> tmatch t (Some k) = same_text t (Some k)) ->
  forall toks x i j, reads tokenize tmatch toks x i j <-> reads tokenize same_text toks x i j.
Proof.
  intros H toks.
  assert (P : forall w i j, phrase tokenize tmatch toks w i j <-> phrase tokenize same_text toks w i j).
  { intros w i j. split; intros (ks & E & -> & W); exists ks; (split; [exact E|]); (split; [reflexivity|]); intros k t Hk;
      destruct (W k t Hk) as (Et & tok & Hn & Hm); (split; [exact Et|]); exists tok; (split; [exact Hn|]);
      destruct (token_terms_plain ks t (nth_error_In _ _ Hk)) as [A B].
    - rewrite <- (H t tok A B). exact Hm.
    - rewrite (H t tok A B). exact Hm. }
  intros x i j. split.
  - induction 1; [eapply rd_number|eapply rd_binary|eapply rd_negative]; try eassumption; apply P; assumption.
  - induction 1; [eapply rd_number|eapply rd_binary|eapply rd_negative]; try eassumption; apply P; assumption.
Qed.

Section Main.
  Variable e : env.
  Hypothesis HE : env_ok e.
  Hypothesis Hwords : words_have_tokens (e_tokenize e).
  Hypothesis ND : NoDup (map (e_hash e) bodies).
  Variables (dir : string) (fuel0 depth0 : nat) (gt : list (string * token)) (g : grammar) (w' : world).
  Hypothesis Hin : installed e dir dir_arithmetic.
  Hypothesis Hload : from_file e fuel0 depth0 (e_join e dir "arithmetic.grammar") gt = Ret (Some g, w').
  Variable vm : Type.
  Variable run : vm -> string -> res (string * vm).
  Hypothesis Hrun : forall m s, calm (run m s).
  Variable tmatch : term -> option token -> bool.
  Hypothesis Hplain : forall t k, t_type t = TTerminal -> t_meta t = MNil -> tmatch t (Some k) = same_text t (Some k).
  Variable ords : nat -> nat -> order.
  Hypothesis Hords : forall k, orders (ords k).
  Variable find_all : string -> string -> option (list (nat * nat)).
  Variable span_text : document -> nat -> nat -> string.
  Variable lords : nat -> nat -> list (string * ModelLocal.entry) -> list (string * ModelLocal.entry).
  Hypothesis Hlords : forall k i l, Permutation l (lords k i l).
  Variable annotate : string -> string -> res document.
  Variable join_words : list string -> string.
  Variable float_string : bigf -> string.
  Variable json : dval -> string.
  Variable is_print_hi : rune -> bool.
  Variable scan : string -> option bfloat.
  Variable rcall : string -> list dval -> res (list dval).
  Hypothesis Hscan : scans_floats scan.
  Hypothesis Hmath : math_registered scan rcall.
  Notation meaning_ := (line_meaning e annotate).
  Notation size_ := (line_size annotate).
  Notation line_ := (run_line vm run g tmatch ords (e_hash e) find_all span_text lords annotate join_words float_string json is_print_hi (Call rcall)).
  Notation lines_ := (run_lines vm run g tmatch ords (e_hash e) find_all span_text lords annotate join_words float_string json is_print_hi (Call rcall)).

  Lemma run_line_blank k m l : trim_space l = ""%string -> forall fuel, line_ fuel k m l = ((l ++ newline)%string, Err).
  Proof using.
    intros Hb fuel. unfold run_line, EarleyParseMaxAll, process. rewrite Hb. cbn. f_equal. flat.
  Qed.

  Lemma run_line_full k m l : trim_space l <> ""%string -> readable_line e find_all annotate l ->
    exists n spans out r, size_ l n /\ longest_spans (meaning_ l) n spans /\ blocks vm run (meaning_ l) 0 spans m out r /\ calm r /\
      exists N, forall fuel, N <= fuel -> line_ fuel k m l =
        match r with Ret m' => ((l ++ newline ++ out ++ newline)%string, Ret m') | _ => ((l ++ newline ++ out)%string, r) end.
  Proof using HE Hwords ND Hin Hload Hrun Hplain Hords Hlords Hscan Hmath.
    intros Ht (d & Ha & Hfit & Htag).
    destruct (arith_max e HE Hwords dir fuel0 depth0 gt g w' Hin Hload tmatch (ords k) (Hords k) find_all span_text (lords k) (Hlords k)
                annotate "" l d Ht Ha Hfit Htag join_words float_string json is_print_hi scan rcall Hscan Hmath ND)
      as (ps & n & E & spans & T & F & U).
    assert (M : forall x i j, meaning_ l x i j <-> reads (e_tokenize e) tmatch (content d) x i j).
    { intros x i j. split.
      - intros (d' & Ha' & Hr). rewrite Ha in Ha'. injection Ha' as <-. apply (reads_same_text _ _ Hplain). exact Hr.
      - intros Hr. exists d. split; [exact Ha|]. apply (reads_same_text _ _ Hplain). exact Hr. }
    destruct (run_parses_blocks vm run Hrun join_words float_string json is_print_hi (Call rcall) (meaning_ l) spans ps) with (n := 0) (m := m)
      as (out & r & B & N & EB).
    { clear - F M. induction F as [|im p spans ps (_ & _ & _ & ref & ts & m & A1 & A2 & A3 & A4 & A5) F IH]; constructor; [|exact IH].
      assert (X : exists xs, (forall x, In x xs -> meaning_ l x (fst im) (fst im + snd im)) /\
                 Forall2 (fun t x => semantic p join_words float_string json is_print_hi (Call rcall) t = Ret (formula x)) ts xs).
      { clear A2 A3 A5. induction ts as [|t ts IHt]; [exists []; split; [intros x []|constructor]|].
        destruct IHt as (xs & X1 & X2); [intros t' Ht'; apply A4; right; exact Ht'|].
        destruct (A4 t (or_introl eq_refl)) as (x & Y1 & Y2 & _). exists (x :: xs). split; [|constructor; assumption].
        intros x' [<-|Hx]; [apply M; exact Y1|apply X1; exact Hx]. }
      destruct X as (xs & X1 & X2). exists ref, ts, m, xs. split; [exact A1|]. split; [exact A2|]. split; [|exact X2].
      split; [|split; [exact X1|]].
      - intros ->. inversion X2; subst. contradiction A3; reflexivity.
      - intros x Hx Lx Hz. destruct (A5 x) as (t & Ht & S1 & _); [apply M; exact Hx|exact Lx| |].
        + intros z Hr. apply (Hz z). apply M. exact Hr.
        + clear - Ht S1 X2. induction X2 as [|t' x' ts xs E F2 IH]; [destruct Ht|]. cbn [map]. destruct Ht as [->|Ht]; [left|right; auto].
          rewrite E in S1. injection S1 as S1. exact S1. }
    exists (length (content d)), spans, out, r.
    split; [exists d; auto|]. split.
    { split; [exact T|]. split.
      - assert (K : forall im, In im spans -> exists p, fst im < length (content d) /\ 0 < snd im /\ (forall x j, reads (e_tokenize e) tmatch (content d) x (fst im) j -> j <= fst im + snd im)
            /\ exists ref ts m, p_finals p = [ref] /\ (forall fuel, m <= fuel -> get_trees (p_columns p) fuel ref = Ret ts) /\ ts <> []
                 /\ forall t, In t ts -> exists x, reads (e_tokenize e) tmatch (content d) x (fst im) (fst im + snd im)
                      /\ shows p join_words float_string json is_print_hi rcall t x).
        { clear - F. induction F as [|im p spans ps (A1 & A2 & A3 & ref & ts & m & A4 & A5 & A6 & A7 & _) F IH]; intros im' [].
          - subst im'. exists p. split; [exact A1|]. split; [exact A2|]. split; [exact A3|]. exists ref, ts, m. auto.
          - apply IH. assumption. }
        intros i m' Hi. destruct (K _ Hi) as (p & K1 & K2 & K3 & ref & ts & _ & _ & _ & NE & HT). cbn [fst snd] in *.
        destruct ts as [|t ts]; [contradiction NE; reflexivity|]. destruct (HT t (or_introl eq_refl)) as (x & Hx & _).
        split; [exact (reads_bounded _ _ _ _ _ _ Hx ltac:(lia))|]. split; [exact K2|]. split; [exists x; apply M; exact Hx|].
        intros x' j Hr. apply (K3 x'). apply M. exact Hr.
      - intros x i j Hi Hc Hr. apply (U x i j Hi Hc). apply M. exact Hr. }
    split; [exact B|]. split; [exact (blocks_calm vm run _ _ _ _ _ _ B)|].
    exists (Nat.max N (Nat.max n (S (length (content d))))). intros fuel Hf.
    unfold run_line. rewrite (E fuel fuel) by lia. cbn [seq_io done put fst snd]. rewrite (EB fuel ltac:(lia)). cbn [fst snd].
    destruct r; cbn [seq_io done put fst snd]; f_equal; flat.
  Qed.

  Lemma run_session input n : lines input n -> (forall l, line_of l input -> trim_space l <> ""%string -> readable_line e find_all annotate l) ->
    forall ie m k, exists out r, session vm run meaning_ size_ ie m input out r /\
      exists N, forall fuel steps, N <= fuel -> N <= steps -> lines_ fuel steps k m input ie = (out, r).
  Proof using HE Hwords ND Hin Hload Hrun Hplain Hords Hlords Hscan Hmath.
    induction 1 as [s Hp|l rest n Hp Hr IH]; intros HL ie m k.
    - exists ""%string, (match ie with EndOfInput => Ret m | InputError => Err end). split; [constructor; exact Hp|].
      exists 1. intros fuel [|steps] _ Hs; [lia|]. cbn [run_lines]. rewrite (read_line_plain s Hp). destruct ie; reflexivity.
    - destruct (String.string_dec (trim_space (l ++ newline)) "") as [Hb|Hb].
      + exists (l ++ newline ++ newline)%string, Err. split; [constructor; assumption|].
        exists 1. intros fuel [|steps] _ Hs; [lia|]. cbn [run_lines]. rewrite (read_line_at l rest Hp), (run_line_blank k m _ Hb).
        cbn [seq_io snd fst]. f_equal. flat.
      + destruct (run_line_full k m (l ++ newline)%string Hb (HL _ (lo_first l rest Hp) Hb)) as (n' & spans & out & r & S1 & S2 & S3 & HC & N1 & E1).
        destruct r as [m'| | |]; [| |destruct HC as [HC _]; contradiction HC; reflexivity|destruct HC as [_ HC]; contradiction HC; reflexivity].
        * destruct (IH (fun l' H' => HL l' (lo_later l' l rest Hp H')) ie m' (S k)) as (outs & r & S4 & N2 & E2).
          exists (l ++ newline ++ newline ++ out ++ newline ++ outs)%string, r.
          split; [exact (se_line vm run meaning_ size_ ie m m' l rest n' spans out outs r Hp Hb S1 S2 S3 S4)|].
          exists (S (Nat.max N1 N2)). intros fuel [|steps] Hf Hs; [lia|]. cbn [run_lines]. rewrite (read_line_at l rest Hp), (E1 fuel ltac:(lia)).
          cbn [seq_io snd fst]. rewrite (E2 fuel steps ltac:(lia) ltac:(lia)). cbn [snd fst]. f_equal. flat.
        * exists (l ++ newline ++ newline ++ out)%string, Err.
          split; [exact (se_stop vm run meaning_ size_ ie m l rest n' spans out Hp Hb S1 S2 S3)|].
          exists (S N1). intros fuel [|steps] Hf Hs; [lia|]. cbn [run_lines]. rewrite (read_line_at l rest Hp), (E1 fuel ltac:(lia)).
          cbn [seq_io snd fst]. f_equal. flat.
  Qed.
End Main.

Lemma main_session e : env_ok e -> tools_work e -> fractions_scan e -> e_regexp_ok e sf_pattern = true ->
  words_have_tokens (e_tokenize e) -> NoDup (map (e_hash e) bodies) ->
  forall dir, installed e dir dir_arithmetic ->
  forall vm run fresh src t0 m0, (forall m s, calm (run m s)) -> run fresh src = Ret (t0, m0) ->
  forall ords, (forall k, orders (ords k)) ->
  forall lords, (forall k i l, Permutation l (lords k i l)) ->
  forall scan rcall, scans_floats scan -> math_registered scan rcall ->
  forall find_all annotate input ie, (forall l, line_of l input -> trim_space l <> ""%string -> readable_line e find_all annotate l) ->
  forall to_lower span_text join_words float_string json is_print_hi gt,
  exists out r, session vm run (line_meaning e annotate) (line_size annotate) ie m0 input out r /\
    exists N, forall fuel0 depth0 fuel steps, N <= fuel0 -> N <= depth0 -> N <= fuel -> N <= steps ->
      main_program vm run fresh to_lower ords (e_hash e) find_all span_text lords annotate join_words float_string json is_print_hi (Call rcall) fuel steps
        (from_file e fuel0 depth0 (e_join e dir "arithmetic.grammar") gt) (Ret src) (Ret (input, ie)) = (out, r).
Proof.
  intros HE HT HFr HRx Hwords ND dir Hin vm run fresh src t0 m0 Hrun Hsrc ords Hords lords Hlords scan rcall Hscan Hmath find_all annotate input ie HL
    to_lower span_text join_words float_string json is_print_hi gt.
  destruct (shipped_loads e HE HT HFr HRx dir_arithmetic dir ltac:(cbn; tauto) Hin "arithmetic.grammar"%string arithmetic_arithmetic
              ltac:(cbn; tauto) ltac:(discriminate) gt) as (g & w' & n & Hload).
  destruct (lines_of input) as (ln & Hln).
  destruct (run_session e HE Hwords ND dir n n gt g w' Hin (Hload n n (le_n _) (le_n _)) vm run Hrun
              (terminal_match (lookup (w_tokens w')) to_lower)) with (ords := ords) (find_all := find_all) (span_text := span_text) (lords := lords) (annotate := annotate)
              (join_words := join_words) (float_string := float_string) (json := json) (is_print_hi := is_print_hi) (scan := scan) (rcall := rcall)
              (input := input) (n := ln) (ie := ie) (m := m0) (k := 0) as (out & r & S & N & EN); try assumption.
  { intros t k Et Em. unfold terminal_match, same_text. rewrite Et, Em. cbn. destruct (lookup (w_tokens w') (t_value t)); reflexivity. }
  exists out, r. split; [exact S|]. exists (Nat.max n N). intros fuel0 depth0 fuel steps H1 H2 H3 H4.
  unfold main_program. rewrite (Hload fuel0 depth0) by lia. cbn [seq_io done snd fst String.append]. rewrite Hsrc. cbn [seq_io done snd fst String.append].
  rewrite (EN fuel steps) by lia. reflexivity.
Qed.
