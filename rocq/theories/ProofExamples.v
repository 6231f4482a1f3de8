(** The programs examples/math and examples/builtin. *)
From Coq Require Import Permutation Ascii.
From Verif Require Import Base ModelTypes ModelText ModelEarley ModelTrees ModelApi ModelQuote ModelSem ModelFuncs ModelPrint ModelReader ModelGrammar ModelMatch ModelLocal ModelProgram ModelExamples
     SpecTypes SpecGrammar SpecTree SpecNotation SpecRefine SpecConstruct SpecSem SpecNode SpecApi SpecLocal SpecFuncs SpecEnd SpecMeaning SpecText
     ProofTrim ProofSound ProofMeaningCalls ProofSayings ProofProgram SpecArith SpecProgram SpecExamples.
Local Open Scope list_scope.

Lemma trim_twice s : trim_space (trim_space s) = trim_space s.
Proof.
  apply trim_space_exact. destruct (trim_space_trimmed s) as [_ H]. split; [|exact H].
  exists ""%string, ""%string. split; [exists []; split; [constructor|reflexivity]|]. split; [exists []; split; [constructor|reflexivity]|].
  cbn [String.append]. symmetry. apply sapp_nil.
Qed.

(** ** The loops over trees *)
Section Runs.
  Variable vm : Type.
  Variable run : vm -> string -> option (bool * string * vm).
  Variable join_words : list string -> string.
  Variable float_string : bigf -> string.
  Variable json : dval -> string.
  Variable is_print_hi : rune -> bool.
  Variable call : string -> list dval -> res dval.
  Notation sem p := (semantic p join_words float_string json is_print_hi call).
  Definition goes_on {A} (r : res A) : Prop := r = Panic \/ exists m, r = Ret m.

  Section Math.
    Variable ev : bool.
    Notation mtrees := (math_trees vm run join_words float_string json is_print_hi call ev).
    Notation mparses fuel := (math_parses vm run join_words float_string json is_print_hi call fuel ev).
    Lemma math_trees_out p ts ss : Forall2 (fun t s => sem p t = Ret s) ts ss ->
      forall m, exists out r, mtrees p m ts = (out, r) /\ formulas vm run ev ss m out r /\ goes_on r.
    Proof using.
      induction 1 as [|t s ts ss E _ IH]; intros m.
      - exists ""%string, (Ret m). split; [reflexivity|]. split; [constructor|right; eauto].
      - cbn [math_trees]. rewrite E. cbn [seq_io done snd fst String.append]. destruct ev eqn:Hev; cbn [negb].
        + destruct (run m s) as [[[[|] a] m']|] eqn:Er.
          * destruct (IH m') as (out & r & E' & A & B). exists (s ++ " => " ++ a ++ newline ++ out)%string, r.
            split; [|split; [eapply fo_value; eauto|exact B]].
            cbn [seq_io done put snd fst String.append]. rewrite E'. cbn [fst snd]. f_equal. flat.
          * destruct (IH m') as (out & r & E' & A & B). exists out, r. rewrite E'. split; [reflexivity|]. split; [eapply fo_error; eauto|exact B].
          * exists ""%string, Panic. split; [reflexivity|]. split; [apply fo_panic; auto|left; reflexivity].
        + destruct (IH m) as (out & r & E' & A & B). exists (s ++ newline ++ out)%string, r.
          split; [|split; [apply fo_say; auto|exact B]].
          cbn [seq_io done put snd fst String.append]. rewrite E'. cbn [fst snd]. f_equal. flat.
    Qed.
    Lemma math_parses_out (R : string -> nat -> nat -> Prop) spans ps :
      Forall2 (fun im p => exists ref ts m ss, p_finals p = [ref] /\ (forall fuel, m <= fuel -> get_trees (p_columns p) fuel ref = Ret ts) /\
                 sayings_of R (fst im) (fst im + snd im) ss /\ Forall2 (fun t s => sem p t = Ret s) ts ss) spans ps ->
      forall n m, exists out r, math_blocks vm run ev R n spans m out r /\ goes_on r /\
        exists N, forall fuel, N <= fuel -> mparses fuel n m ps = (out, r).
    Proof using.
      induction 1 as [|[i l] p spans ps (ref & ts & N1 & ss & F & G & HD & HT) _ IH]; intros n m.
      - exists ""%string, (Ret m). split; [constructor|]. split; [right; eauto|]. exists 0. reflexivity.
      - cbn [fst snd] in HD. destruct (math_trees_out p ts ss HT m) as (out & r & E & A & C).
        assert (K : length ts = length ss) by (clear - HT; induction HT; cbn; auto).
        destruct C as [->|(m' & ->)].
        + exists (header n (length ss) ++ out)%string, Panic. split; [exact (mb_panic vm run ev R n i l ss spans m out HD A)|].
          split; [left; reflexivity|].
          exists N1. intros fuel Hf. cbn [math_parses]. rewrite F. cbn [math_finals].
          rewrite (G fuel ltac:(lia)). cbn [seq_io done put snd fst String.append]. rewrite E. cbn [fst snd]. rewrite K. reflexivity.
        + destruct (IH (S n) m') as (outs & r & B & C & N2 & E').
          exists (header n (length ss) ++ out ++ outs)%string, r. split; [exact (mb_one vm run ev R n i l ss spans m m' out outs r HD A B)|].
          split; [exact C|]. exists (Nat.max N1 N2). intros fuel Hf. cbn [math_parses]. rewrite F. cbn [math_finals].
          rewrite (G fuel ltac:(lia)). cbn [seq_io done put snd fst String.append]. rewrite E. cbn [seq_io done put fst snd]. rewrite (E' fuel ltac:(lia)). cbn [fst snd].
          f_equal. rewrite K. unfold header. flat.
    Qed.
  End Math.

  Notation btrees := (builtin_trees vm run join_words float_string json is_print_hi call).
  Lemma builtin_trees_out ts ss : Forall2 (fun pt s => sem (fst pt) (snd pt) = Ret s) ts ss ->
    forall m, exists out r, btrees m ts = (out, r) /\ results vm run ss m out r /\ goes_on r.
  Proof using.
    induction 1 as [|[p t] s ts ss E _ IH]; intros m.
    - exists ""%string, (Ret m). split; [reflexivity|]. split; [constructor|right; eauto].
    - cbn [builtin_trees]. cbn [fst snd] in E. rewrite E. cbn [seq_io done snd fst String.append].
      destruct (run m s) as [[[ok a] m']|] eqn:Er.
      + destruct (IH m') as (out & r & E' & A & B). exists (s ++ " = " ++ a ++ newline ++ out)%string, r.
        split; [|split; [eapply rs_one; eauto|exact B]].
        cbn [seq_io done put snd fst String.append]. rewrite E'. cbn [fst snd]. f_equal. flat.
      + exists ""%string, Panic. split; [reflexivity|]. split; [apply rs_panic; auto|left; reflexivity].
  Qed.
  Lemma builtin_parses_out (R : string -> nat -> nat -> Prop) spans ps :
    Forall2 (fun im p => exists ref ts m ss, p_finals p = [ref] /\ (forall fuel, m <= fuel -> get_trees (p_columns p) fuel ref = Ret ts) /\
               sayings_of R (fst im) (fst im + snd im) ss /\ Forall2 (fun t s => sem p t = Ret s) ts ss) spans ps ->
    exists ts ss, all_sayings R spans ss /\ Forall2 (fun pt s => sem (fst pt) (snd pt) = Ret s) ts ss /\
      exists N, forall fuel, N <= fuel -> extract_parses fuel ps = Ret ts.
  Proof using.
    induction 1 as [|[i l] p spans ps (ref & ts & N1 & ss & F & G & HD & HT) _ (ts' & ss' & A & B & N2 & E')].
    - exists [], []. split; [constructor|]. split; [constructor|]. exists 0. reflexivity.
    - exists (map (fun t => (p, t)) ts ++ ts'), (ss ++ ss'). split; [constructor; assumption|]. split.
      + apply Forall2_app; [|exact B]. clear - HT. induction HT; cbn [map]; constructor; auto.
      + exists (Nat.max N1 N2). intros fuel Hf. cbn [extract_parses]. rewrite F. cbn [extract_finals]. rewrite (G fuel ltac:(lia)).
        cbn [Base.bind]. rewrite (E' fuel ltac:(lia)). cbn [Base.bind]. rewrite app_nil_r. reflexivity.
  Qed.
End Runs.

(** ** The loop over lines *)
Section Lines.
  Variable vm : Type.
  Variable refused : string -> Prop.
  Variable text_out : string -> vm -> string -> res vm -> Prop.
  Variable skip : bool.
  (** the line function, by fuel *)
  Variable f : nat -> nat -> vm -> string -> io vm.
  Variable fits : string -> Prop.
  Hypothesis Hblank : forall k m l, trim_space l = ""%string -> forall fuel,
    f fuel k m l = (newline, if skip then Ret m else Err).
  Hypothesis Hrefused : forall k m l, trim_space l <> ""%string -> refused l -> forall fuel,
    f fuel k m l = ((trim_space l ++ newline)%string, Err).
  Hypothesis Hfits : forall k m l, trim_space l <> ""%string -> fits l -> exists out r, text_out l m out r /\ goes_on r /\
    exists N, forall fuel, N <= fuel -> f fuel k m l =
      match r with Ret m' => ((trim_space l ++ newline ++ out ++ newline)%string, Ret m') | _ => ((trim_space l ++ newline ++ out)%string, r) end.

  Lemma each_line_out input n : lines input n -> (forall l, line_of l input -> trim_space l <> ""%string -> fits l \/ refused l) ->
    forall ie m k, exists out r, lines_out vm refused text_out skip ie m input out r /\ r <> Fuel /\
      exists N, forall fuel steps, N <= fuel -> N <= steps -> each_line (f fuel) steps k m input ie = (out, r).
  Proof using Hblank Hrefused Hfits.
    induction 1 as [s Hp|l rest n Hp Hr IH]; intros HL ie m k.
    - exists ""%string, (match ie with EndOfInput => Ret m | InputError => Err end). split; [constructor; exact Hp|].
      split; [destruct ie; discriminate|].
      exists 1. intros fuel [|steps] _ Hs; [lia|]. cbn [each_line]. rewrite (read_line_plain s Hp). destruct ie; reflexivity.
    - assert (IH' : forall m' k', exists out r, lines_out vm refused text_out skip ie m' rest out r /\ r <> Fuel /\
          exists N, forall fuel steps, N <= fuel -> N <= steps -> each_line (f fuel) steps k' m' rest ie = (out, r)).
      { intros m' k'. apply IH. intros l' H'. apply HL. apply lo_later; assumption. }
      destruct (String.string_dec (trim_space (l ++ newline)) "") as [Hb|Hb].
      + pose proof (Hblank k m _ Hb) as E. destruct skip eqn:Hs.
        * destruct (IH' m (S k)) as (out & r & A & B & N & EN). exists (newline ++ out)%string, r. split; [apply lo_skipped; auto|]. split; [exact B|].
          exists (S N). intros fuel [|steps] Hf Hst; [lia|]. cbn [each_line]. rewrite (read_line_at l rest Hp), E.
          cbn [seq_io snd fst]. rewrite (EN fuel steps) by lia. reflexivity.
        * exists newline, Err. split; [apply lo_blank; auto|]. split; [discriminate|].
          exists 1. intros fuel [|steps] Hf Hst; [lia|]. cbn [each_line]. rewrite (read_line_at l rest Hp), E. reflexivity.
      + destruct (HL _ (lo_first l rest Hp) Hb) as [Hfit|Href].
        * destruct (Hfits k m _ Hb Hfit) as (out & r & A & [->|(m' & ->)] & N1 & E1).
          -- exists (trim_space (l ++ newline) ++ newline ++ out)%string, Panic. split; [apply lo_panic; assumption|]. split; [discriminate|].
             exists (S N1). intros fuel [|steps] Hf Hst; [lia|]. cbn [each_line]. rewrite (read_line_at l rest Hp), (E1 fuel ltac:(lia)). reflexivity.
          -- destruct (IH' m' (S k)) as (outs & r & B & C & N2 & E2).
             exists (trim_space (l ++ newline) ++ newline ++ out ++ newline ++ outs)%string, r.
             split; [exact (lo_line vm refused text_out skip ie m m' l rest out outs r Hp Hb A B)|]. split; [exact C|].
             exists (S (Nat.max N1 N2)). intros fuel [|steps] Hf Hst; [lia|]. cbn [each_line]. rewrite (read_line_at l rest Hp), (E1 fuel ltac:(lia)).
             cbn [seq_io snd fst]. rewrite (E2 fuel steps ltac:(lia) ltac:(lia)). cbn [snd fst]. f_equal. flat.
        * exists (trim_space (l ++ newline) ++ newline)%string, Err. split; [apply lo_refused; assumption|]. split; [discriminate|].
          exists 1. intros fuel [|steps] Hf Hst; [lia|]. cbn [each_line]. rewrite (read_line_at l rest Hp), (Hrefused k m _ Hb Href fuel). reflexivity.
  Qed.
End Lines.

(** ** A line of text *)
Section Main.
  Variable e : env.
  Variables (text0 : string) (g : grammar) (L : list refined).
  Hypothesis HP : e_parts e text0 g L.
  Variable start : string.
  Hypothesis HU : usable (e_tokenize e) L [start].
  Hypothesis HF : functions_fit (map rd_before L).
  Variable vm : Type.
  Variable run : vm -> string -> option (bool * string * vm).
  Variable tmatch : term -> option token -> bool.
  Variable ords : nat -> nat -> order.
  Hypothesis Hords : forall k, orders (ords k).
  Variable find_all : string -> string -> option (list (nat * nat)).
  Variable span_text : document -> nat -> nat -> string.
  Variable lords : nat -> nat -> list (string * ModelLocal.entry) -> list (string * ModelLocal.entry).
  Hypothesis Hlords : forall k i l, Permutation l (lords k i l).
  Variable annotate : string -> string -> res document.
  Variable join_words : list string -> string.
  Variable float_string : bigf -> string.
  Variable json : dval -> string.
  Variable is_print_hi : rune -> bool.
  Variable call : string -> list dval -> res dval.
  Variable ev : bool.
  Notation says_ := (line_sayings e tmatch (map rd_before L) (g_regexps g) start find_all annotate join_words float_string is_print_hi).
  Notation size_ := (line_size annotate).
  Notation refused_ := (line_refused annotate).
  Notation fits_ := (line_fits e (g_regexps g) find_all annotate).
  Notation max_all k fuel text := (EarleyParseMaxAll tmatch (ords k) (all_rules g) (doc_tokens annotate)
    (doc_local (e_hash e) find_all span_text (g_regexps g) (lords k) annotate "" text) fuel fuel "" text [start]).
  Notation sem p := (semantic p join_words float_string json is_print_hi call).

  Lemma line_parses k l : trim_space l <> ""%string -> fits_ l ->
    exists n spans ps N, size_ l n /\ spans_of (says_ l) n spans /\ (forall fuel, N <= fuel -> max_all k fuel (trim_space l) = Ret ps) /\
      Forall2 (fun im p => exists ref ts m ss, p_finals p = [ref] /\ (forall fuel, m <= fuel -> get_trees (p_columns p) fuel ref = Ret ts) /\
                 sayings_of (says_ l) (fst im) (fst im + snd im) ss /\ Forall2 (fun t s => sem p t = Ret s) ts ss) spans ps.
  Proof using HP HU HF Hords Hlords.
    intros Ht (d & Ha & Hfit).
    destruct (says_max e text0 g L HP [start] HU tmatch (ords k) (Hords k) find_all span_text (lords k) (Hlords k) annotate "" (trim_space l) d)
      with (join_words := join_words) (float_string := float_string) (json := json) (is_print_hi := is_print_hi) (call := call)
      as (ps & n & E & spans & T & F & U); try (rewrite trim_twice); try assumption.
    assert (M : forall s i j, says_ l s i j -> Means (e_tokenize e) tmatch (map rd_before L) find_all (g_regexps g) d start i j).
    { intros s i j (d' & Ha' & Hs). rewrite Ha in Ha'. injection Ha' as <-. eapply says_means. exact Hs. }
    exists (length (content d)), spans, ps, (Nat.max n (S (length (content d)))). split; [exists d; auto|]. split; [|split].
    - split; [exact T|]. split.
      + intros i m Hi.
        assert (K : forall im, In im spans -> fst im < length (content d) /\ 0 < snd im /\
                  (exists S, In S [start] /\ Means (e_tokenize e) tmatch (map rd_before L) find_all (g_regexps g) d S (fst im) (fst im + snd im)) /\
                  forall S j, In S [start] -> Means (e_tokenize e) tmatch (map rd_before L) find_all (g_regexps g) d S (fst im) j -> j <= fst im + snd im).
        { clear - F. induction F as [|im p spans ps (A1 & A2 & A3 & A4 & _) F IH]; intros im' []; [subst im'; auto|auto]. }
        destruct (K _ Hi) as (K1 & K2 & (S & _ & K3) & K4). cbn [fst snd] in *.
        split; [exact K1|]. split; [apply (proj1 (derives_bounds _ _ _ _ _) _ _ _ K3); lia|]. split; [exact K2|].
        intros s j Hs. apply (K4 start); [left; reflexivity|]. exact (M _ _ _ Hs).
      + intros s i j Hi Hc Hs. exact (U i start j Hi Hc (or_introl eq_refl) (M _ _ _ Hs)).
    - intros fuel Hf. apply E; lia.
    - clear - F Ha. induction F as [|im p spans ps (_ & _ & _ & _ & ref & ts & m & A1 & A2 & A3 & A4) F IH]; constructor; [|exact IH].
      assert (X : exists ss, (forall s, In s ss -> says_ l s (fst im) (fst im + snd im)) /\ Forall2 (fun t s => sem p t = Ret s) ts ss).
      { clear A2 A3. induction ts as [|t ts IHt]; [exists []; split; [intros x []|constructor]|].
        destruct IHt as (ss & X1 & X2); [intros t' Ht'; apply A4; right; exact Ht'|].
        destruct (A4 t (or_introl eq_refl)) as (S & s & [<-|[]] & Y1 & Y2). exists (s :: ss). split; [|constructor; assumption].
        intros x [<-|Hx]; [exists d; auto|apply X1; exact Hx]. }
      destruct X as (ss & X1 & X2). exists ref, ts, m, ss. split; [exact A1|]. split; [exact A2|]. split; [|exact X2].
      split; [|exact X1]. intros ->. inversion X2; subst. contradiction A3; reflexivity.
  Qed.

  Lemma refused_parses k l fuel : trim_space l <> ""%string -> refused_ l -> max_all k fuel (trim_space l) = Err.
  Proof using.
    intros Ht Hr. unfold EarleyParseMaxAll, process. rewrite trim_twice.
    destruct (String.eqb_spec (trim_space l) "") as [K|_]; [contradiction|]. unfold doc_tokens.
    destruct Hr as [->|(d & -> & Hc)]; [reflexivity|]. cbn [Base.bind]. unfold content in Hc. rewrite Hc. reflexivity.
  Qed.

  Notation mline fuel := (math_line vm run g tmatch ords (e_hash e) find_all span_text lords annotate join_words float_string json is_print_hi call fuel start ev).
  Notation bline fuel := (builtin_line vm run g tmatch ords (e_hash e) find_all span_text lords annotate join_words float_string json is_print_hi call fuel start).

  Lemma math_session input ie m : (forall l, line_of l input -> trim_space l <> ""%string -> fits_ l \/ refused_ l) ->
    exists out r, lines_out vm refused_ (math_text vm run says_ size_ ev) true ie m input out r /\ r <> Fuel /\
      exists N, forall fuel steps, N <= fuel -> N <= steps -> each_line (mline fuel) steps 0 m input ie = (out, r).
  Proof using HP HU HF Hords Hlords.
    intros HL. destruct (lines_of input) as (n & Hn).
    apply (each_line_out vm refused_ (math_text vm run says_ size_ ev) true (fun fuel => mline fuel) fits_) with (n := n); try assumption.
    - intros k m' l Hb fuel. unfold math_line. rewrite Hb. reflexivity.
    - intros k m' l Ht Hr fuel. unfold math_line. destruct (String.eqb_spec (trim_space l) "") as [K|_]; [contradiction|].
      rewrite (refused_parses k l fuel Ht Hr). cbn [seq_io done put fst snd String.append]. f_equal. flat.
    - intros k m' l Ht Hf. destruct (line_parses k l Ht Hf) as (sz & spans & ps & N1 & A1 & A2 & A3 & A4).
      destruct (math_parses_out vm run join_words float_string json is_print_hi call ev _ _ _ A4 0 m') as (out & r & B1 & B2 & N2 & B3).
      exists out, r. split; [exists sz, spans; auto|]. split; [exact B2|]. exists (Nat.max N1 N2). intros fuel Hfu.
      unfold math_line. destruct (String.eqb_spec (trim_space l) "") as [K|_]; [contradiction|].
      rewrite (A3 fuel ltac:(lia)). cbn [seq_io done put fst snd String.append]. rewrite (B3 fuel ltac:(lia)). cbn [fst snd].
      destruct r; cbn [seq_io done put fst snd String.append]; f_equal; flat.
  Qed.
  Lemma builtin_session input ie m : (forall l, line_of l input -> trim_space l <> ""%string -> fits_ l \/ refused_ l) ->
    exists out r, lines_out vm refused_ (builtin_text vm run says_ size_) false ie m input out r /\ r <> Fuel /\
      exists N, forall fuel steps, N <= fuel -> N <= steps -> each_line (bline fuel) steps 0 m input ie = (out, r).
  Proof using HP HU HF Hords Hlords.
    intros HL. destruct (lines_of input) as (n & Hn).
    apply (each_line_out vm refused_ (builtin_text vm run says_ size_) false (fun fuel => bline fuel) fits_) with (n := n); try assumption.
    - intros k m' l Hb fuel. unfold builtin_line, ExtractMaxAll, EarleyParseMaxAll, process. rewrite Hb. reflexivity.
    - intros k m' l Ht Hr fuel. unfold builtin_line, ExtractMaxAll.
      rewrite (refused_parses k l fuel Ht Hr). cbn [Base.bind seq_io done put fst snd String.append]. f_equal. flat.
    - intros k m' l Ht Hf. destruct (line_parses k l Ht Hf) as (sz & spans & ps & N1 & A1 & A2 & A3 & A4).
      destruct (builtin_parses_out join_words float_string json is_print_hi call _ _ _ A4) as (ts & ss & B1 & B2 & N2 & B3).
      destruct (builtin_trees_out vm run join_words float_string json is_print_hi call ts ss B2 m') as (out & r & C1 & C2 & C3).
      exists out, r. split; [exists sz, spans, ss; auto|]. split; [exact C3|]. exists (Nat.max N1 N2). intros fuel Hfu.
      unfold builtin_line, ExtractMaxAll. rewrite (A3 fuel ltac:(lia)). cbn [Base.bind]. rewrite (B3 fuel ltac:(lia)).
      cbn [seq_io done put fst snd String.append]. rewrite C1. cbn [fst snd].
      destruct r; cbn [seq_io done put fst snd String.append]; f_equal; flat.
  Qed.
End Main.

(** ** The programs *)
Lemma math_main e fuel0 depth0 file gt g w' text0 L start : from_file e fuel0 depth0 file gt = Ret (Some g, w') ->
  e_parts e text0 g L -> usable (e_tokenize e) L [start] -> functions_fit (map rd_before L) ->
  forall vm run fresh src t0 m0, run fresh src = Some (true, t0, m0) ->
  forall ords, (forall k, orders (ords k)) ->
  forall lords, (forall k i l, Permutation l (lords k i l)) ->
  forall find_all annotate input ie,
  (forall l, line_of l input -> trim_space l <> ""%string -> line_fits e (g_regexps g) find_all annotate l \/ line_refused annotate l) ->
  forall to_lower span_text join_words float_string json is_print_hi call eval_flag,
  let tmatch := terminal_match (lookup (w_tokens w')) to_lower in
  let sayings := line_sayings e tmatch (map rd_before L) (g_regexps g) start find_all annotate join_words float_string is_print_hi in
  exists out r, lines_out vm (line_refused annotate) (math_text vm run sayings (line_size annotate) eval_flag) true ie m0 input out r /\ r <> Fuel /\
    exists N, forall fuel steps, N <= fuel -> N <= steps ->
      math_program vm run fresh to_lower ords (e_hash e) find_all span_text lords annotate join_words float_string json is_print_hi call
        start eval_flag fuel steps (from_file e fuel0 depth0 file gt) (Ret src) (Ret (input, ie)) = (out, r).
Proof.
  intros E HP HU HF vm run fresh src t0 m0 Hr ords Ho lords Hl find_all annotate input ie HL to_lower span_text join_words float_string json is_print_hi call ev tmatch sayings.
  destruct (math_session e text0 g L HP start HU HF vm run tmatch ords Ho find_all span_text lords Hl annotate join_words float_string json is_print_hi call ev input ie m0 HL)
    as (out & r & A & B & N & C).
  exists out, r. split; [exact A|]. split; [exact B|]. exists N. intros fuel steps H1 H2. unfold math_program, open_all. rewrite E.
  cbn [seq_io done fst snd String.append]. rewrite Hr. cbn [seq_io done fst snd String.append]. fold tmatch. rewrite (C fuel steps H1 H2). reflexivity.
Qed.

Lemma builtin_main e fuel0 depth0 file gt g w' text0 L start : from_file e fuel0 depth0 file gt = Ret (Some g, w') ->
  e_parts e text0 g L -> usable (e_tokenize e) L [start] -> functions_fit (map rd_before L) ->
  forall vm run fresh src t0 m0, run fresh src = Some (true, t0, m0) ->
  forall ords, (forall k, orders (ords k)) ->
  forall lords, (forall k i l, Permutation l (lords k i l)) ->
  forall find_all annotate input ie,
  (forall l, line_of l input -> trim_space l <> ""%string -> line_fits e (g_regexps g) find_all annotate l \/ line_refused annotate l) ->
  forall to_lower span_text join_words float_string json is_print_hi call panic_text,
  let tmatch := terminal_match (lookup (w_tokens w')) to_lower in
  let sayings := line_sayings e tmatch (map rd_before L) (g_regexps g) start find_all annotate join_words float_string is_print_hi in
  exists out r, lines_out vm (line_refused annotate) (builtin_text vm run sayings (line_size annotate)) false ie m0 input out r /\ r <> Fuel /\
    exists N, forall fuel steps, N <= fuel -> N <= steps ->
      builtin_program vm run fresh to_lower ords (e_hash e) find_all span_text lords annotate join_words float_string json is_print_hi call
        start panic_text fuel steps (from_file e fuel0 depth0 file gt) (Ret src) (Ret (input, ie))
      = match r with Panic => ((out ++ panic_text ++ newline)%string, Ret tt) | Err => (out, Err) | _ => (out, Ret tt) end.
Proof.
  intros E HP HU HF vm run fresh src t0 m0 Hr ords Ho lords Hl find_all annotate input ie HL to_lower span_text join_words float_string json is_print_hi call pt tmatch sayings.
  destruct (builtin_session e text0 g L HP start HU HF vm run tmatch ords Ho find_all span_text lords Hl annotate join_words float_string json is_print_hi call input ie m0 HL)
    as (out & r & A & B & N & C).
  exists out, r. split; [exact A|]. split; [exact B|]. exists N. intros fuel steps H1 H2. unfold builtin_program, open_all. rewrite E.
  cbn [seq_io done fst snd String.append]. rewrite Hr. cbn [seq_io done fst snd String.append]. fold tmatch. rewrite (C fuel steps H1 H2).
  unfold recovered. destruct r; cbn [fst snd String.append]; try reflexivity. contradiction B; reflexivity.
Qed.

(** Nothing is read before the grammar, the script and the input are there. *)
Lemma programs_stop vm run (fresh : vm) to_lower ords hash find_all span_text lords annotate join_words float_string json is_print_hi call
    start eval_flag panic_text fuel steps file script input :
  let math := math_program vm run fresh to_lower ords hash find_all span_text lords annotate join_words float_string json is_print_hi call
                start eval_flag fuel steps file script input in
  let builtin := builtin_program vm run fresh to_lower ords hash find_all span_text lords annotate join_words float_string json is_print_hi call
                   start panic_text fuel steps file script input in
  (file = Err -> math = (""%string, Err) /\ builtin = (""%string, Err)) /\
  (forall g w, file = Ret (Some g, w) -> script = Err -> math = (""%string, Err) /\ builtin = (""%string, Err)) /\
  (forall g w src a m, file = Ret (Some g, w) -> script = Ret src -> run fresh src = Some (false, a, m) ->
     math = (""%string, Err) /\ builtin = (""%string, Err)) /\
  (forall g w src, file = Ret (Some g, w) -> script = Ret src -> run fresh src = None ->
     math = (""%string, Panic) /\ builtin = ((panic_text ++ newline)%string, Ret tt)) /\
  (forall g w src a m, file = Ret (Some g, w) -> script = Ret src -> run fresh src = Some (true, a, m) -> input = Err ->
     math = (""%string, Err) /\ builtin = (""%string, Err)).
Proof.
  intros math builtin. subst math builtin. unfold math_program, builtin_program, open_all.
  repeat split; intros; subst; cbn [seq_io done fst snd String.append];
    repeat match goal with H : run _ _ = _ |- _ => rewrite H end; cbn [seq_io done fst snd String.append]; reflexivity.
Qed.
