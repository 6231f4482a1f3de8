(** Grammar texts on which the reader never stops. *)
From Coq Require Import Lia.
From Verif Require Import Base ModelTypes ModelText ModelEarley ModelReader ModelGrammar ProofUtf8
  SpecNotation SpecConstruct ProofReader ProofReaderMain ProofFuel.

Section Hang.
  Variables letter_hi digit_hi : rune -> bool.
  Variable scan_float : string -> res bigf.
  Variable regexp_ok : string -> bool.
  Variable md5 : string -> string.
  Variable hash : rulebody -> N.
  Hypothesis Htab : unicode_tables letter_hi digit_hi.
  Variable all : list rune.
  Hypothesis Hall : Forall good all.
  Variable fuel : nat.
  Hypothesis Hfuel : length all < fuel.
  Local Notation input := (encode all).
  Local Notation At := (At all).

  Lemma line_hang n : forall s rest re, ~ In 10%Z rest -> At s rest re -> line_loop input n s = Fuel.
  Proof.
    induction n as [|n IH]; intros s rest re Hn HA; [reflexivity|]. cbn [line_loop].
    destruct (next_at all Hall fuel Hfuel _ _ _ HA) as (s' & N & A & _). rewrite N.
    destruct rest as [|c rest]; cbn [hd tl] in *.
    - change (Z.eqb eof r_newline) with false. eapply IH; [|exact A]. exact Hn.
    - destruct (Z.eqb c r_newline) eqn:E; [apply Z.eqb_eq in E; subst; destruct Hn; left; reflexivity|].
      eapply IH; [|exact A]. intros H. apply Hn. right. exact H.
  Qed.
  Lemma comments_hang b : ~ In 10%Z b -> forall n g s re, gap g -> At s (g ++ [47; 47]%Z ++ b) re ->
    comments_loop input fuel n s = Fuel.
  Proof.
    intros Hb. induction n as [|n IH]; intros g s re Hg HA; [reflexivity|].
    destruct (gap_split g Hg) as (sp & g' & -> & Hs & D).
    rewrite <- app_assoc in HA. pose proof (at_length all fuel Hfuel _ _ _ HA) as HL.
    cbn [comments_loop].
    destruct D as [-> | [(body & g'' & Hbd & Hg'' & ->) | (body & g'' & Hbd & Hg'' & ->)]].
    - cbn [app] in HA. destruct (ws_at all Hall fuel Hfuel sp s _ re Hs HA eq_refl) as (s1 & E1 & A1). rewrite E1. cbn [bind].
      unfold comment. destruct (skip_at all Hall fuel Hfuel _ _ _ _ A1) as (s2 & N2 & A2). rewrite N2.
      cbn [negb Z.eqb r_slash Pos.eqb].
      destruct (peek_at all Hall fuel Hfuel _ _ _ A2) as (s3 & E3 & A3). rewrite E3. cbn [bind hd].
      cbn [Z.eqb r_slash Pos.eqb].
      destruct (eat_at all Hall fuel Hfuel _ _ _ _ A3) as (s4 & E4 & A4). change 47%Z with r_slash in E4. rewrite E4. cbn [bind].
      rewrite (line_hang fuel s4 b re Hb A4). reflexivity.
    - destruct (ws_at all Hall fuel Hfuel sp s _ re Hs HA eq_refl) as (s1 & E1 & A1). rewrite E1. cbn [bind].
      rewrite <- !app_assoc in A1. cbn [app] in A1.
      unfold comment. destruct (skip_at all Hall fuel Hfuel _ _ _ _ A1) as (s2 & N2 & A2). rewrite N2.
      cbn [negb Z.eqb r_slash Pos.eqb].
      destruct (peek_at all Hall fuel Hfuel _ _ _ A2) as (s3 & E3 & A3). rewrite E3. cbn [bind hd].
      cbn [Z.eqb r_slash Pos.eqb].
      destruct (eat_at all Hall fuel Hfuel _ _ _ _ A3) as (s4 & E4 & A4). change 47%Z with r_slash in E4. rewrite E4. cbn [bind].
      repeat (rewrite app_length in HL; cbn [length app] in HL).
      destruct (line_loop_at all Hall fuel Hfuel body Hbd fuel s4 (g'' ++ 47%Z :: 47%Z :: b) re ltac:(unfold rune in *; lia) A4) as (s5 & E5 & A5).
      rewrite E5. cbn [bind]. eapply IH; eauto.
    - destruct (ws_at all Hall fuel Hfuel sp s _ re Hs HA eq_refl) as (s1 & E1 & A1). rewrite E1. cbn [bind].
      rewrite <- !app_assoc in A1. cbn [app] in A1.
      unfold comment. destruct (skip_at all Hall fuel Hfuel _ _ _ _ A1) as (s2 & N2 & A2). rewrite N2.
      cbn [negb Z.eqb r_slash Pos.eqb].
      destruct (peek_at all Hall fuel Hfuel _ _ _ A2) as (s3 & E3 & A3). rewrite E3. cbn [bind hd].
      cbn [Z.eqb r_slash r_star Pos.eqb].
      destruct (eat_at all Hall fuel Hfuel _ _ _ _ A3) as (s4 & E4 & A4). change 42%Z with r_star in E4. rewrite E4. cbn [bind].
      repeat (rewrite app_length in HL; cbn [length app] in HL).
      destruct (block_loop_at all Hall fuel Hfuel body fuel 0%Z s4 (g'' ++ 47%Z :: 47%Z :: b) re) as (s5 & E5 & A5).
      { intros (a & b' & K). destruct a as [|x a]; [discriminate|]. injection K as _ K. apply Hbd.
        exists a, b'. exact K. }
      { unfold rune in *; lia. }
      { exact A4. }
      rewrite E5. cbn [bind]. eapply IH; eauto.
  Qed.

  Lemma rules_hang b its l w : ~ In 10%Z b ->
    w_items (is_letter letter_hi) (is_digit digit_hi) scan_float regexp_ok md5 its l w ->
    forall n rules frames s re, At s (w ++ [47; 47]%Z ++ b) re ->
    rules_loop input letter_hi digit_hi scan_float regexp_ok md5 hash fuel n rules frames s = Fuel.
  Proof.
    intros Hb. induction 1 as [g Hg | g it l w its l' w' Hg Hit Hits IH]; intros n rules frames s re HA;
      (destruct n as [|n]; [reflexivity|]); cbn [rules_loop].
    - unfold comments. rewrite (comments_hang b Hb fuel g s re Hg HA). reflexivity.
    - destruct (item_head letter_hi digit_hi scan_float regexp_ok md5 _ _ _ Hit) as (G1 & G2). destruct (item_char_cases it) as (C1 & C2 & C3).
      rewrite <- !app_assoc in HA.
      destruct (comments_at all Hall fuel Hfuel g s (w ++ w' ++ [47; 47]%Z ++ b) re Hg ltac:(rewrite (hd_app w _ G1), G2; exact C3) HA) as (s1 & E1 & A1).
      rewrite E1. cbn [bind]. destruct (peek_at all Hall fuel Hfuel _ _ _ A1) as (s2 & E2 & A2). rewrite E2. cbn [bind].
      rewrite (hd_app w _ G1), G2, C1, C2. cbn [negb].
      destruct (read_rule_at letter_hi digit_hi scan_float regexp_ok md5 hash Htab all Hall fuel Hfuel it l w s2 _ re Hit A2) as (s3 & E3 & A3). rewrite E3. cbn [bind].
      destruct (it_frame it); eapply IH; exact A3.
  Qed.
  Lemma includes_hang F G (load : F -> string -> res (option (list G * list (string * string)) * F)) b its l w :
    ~ In 10%Z b -> w_items (is_letter letter_hi) (is_digit digit_hi) scan_float regexp_ok md5 its l w ->
    forall s re fs, At s (w ++ [47; 47]%Z ++ b) re ->
    match includes_loop input letter_hi digit_hi fuel load fuel fs [] s with
    | Ret (_, s1) => rules_part input letter_hi digit_hi scan_float regexp_ok md5 hash fuel s1 = Fuel
    | x => x = Fuel
    end.
  Proof.
    intros Hb Hits s re fs HA.
    assert (K : forall n, match includes_loop input letter_hi digit_hi fuel load n fs [] s with
      | Ret (_, s1) => rules_part input letter_hi digit_hi scan_float regexp_ok md5 hash fuel s1 = Fuel
      | x => x = Fuel end).
    { intros [|n]; [reflexivity|]. cbn [includes_loop].
      destruct Hits as [g Hg | g it l w its l' w' Hg Hit Hits].
      - unfold comments at 1. rewrite (comments_hang b Hb fuel g s re Hg HA). reflexivity.
      - destruct (item_head letter_hi digit_hi scan_float regexp_ok md5 _ _ _ Hit) as (G1 & G2). destruct (item_char_cases it) as (C1 & C2 & C3).
        rewrite <- !app_assoc in HA.
        destruct (comments_at all Hall fuel Hfuel g s (w ++ w' ++ [47; 47]%Z ++ b) re Hg ltac:(rewrite (hd_app w _ G1), G2; exact C3) HA) as (s1 & E1 & A1).
        rewrite E1. cbn [bind]. destruct (peek_at all Hall fuel Hfuel _ _ _ A1) as (s2 & E2 & A2). rewrite E2. cbn [bind].
        rewrite (hd_app w _ G1), G2.
        replace (Z.eqb (item_char it) r_hash) with false by (unfold item_char; destruct (it_frame it); reflexivity).
        cbn [negb]. unfold rules_part.
        rewrite (rules_hang b (it :: its) (l ++ l') (w ++ w') Hb) with (re := re); [reflexivity| |rewrite <- app_assoc; exact A2].
        change (w ++ w') with ([] ++ w ++ w'). apply wis_item; auto using gap_nil. }
    apply K.
  Qed.
End Hang.

Section HangGrammar.
  Variables letter_hi digit_hi : rune -> bool.
  Variable scan_float : string -> res bigf.
  Variable regexp_ok : string -> bool.
  Variable md5 : string -> string.
  Variable hash : rulebody -> N.
  Variable trie_accepts : string -> bool.
  Variable tokenize : string -> res (list token).
  Variable ascii_name : string -> string.
  Variable read_file : string -> res string.
  Variable abs_dir : string -> res string.
  Variable join_path : string -> string -> string.
  Variable ord : grammar_rules -> grammar_rules.

  Lemma open_comment_hangs_large its l w b depth fuel name gt :
    unicode_tables letter_hi digit_hi ->
    Forall good (w ++ [47; 47]%Z ++ b) -> ~ In 10%Z b ->
    w_items (is_letter letter_hi) (is_digit digit_hi) scan_float regexp_ok md5 its l w ->
    length (w ++ [47; 47]%Z ++ b) < fuel ->
    GrammarFromString letter_hi digit_hi scan_float regexp_ok md5 hash trie_accepts tokenize ascii_name
      read_file abs_dir join_path ord fuel depth (encode (w ++ [47; 47]%Z ++ b)) name gt = Fuel.
  Proof.
    intros Htab Hg Hb Hits Hl. unfold GrammarFromString. destruct depth as [|depth]; [reflexivity|].
    cbn [grammar_from_string count w_files lookup]. change (Nat.leb 2 0) with false. cbn match.
    set (load := include_file _ _ _ _ _).
    pose proof (includes_hang letter_hi digit_hi scan_float regexp_ok md5 hash Htab _ Hg fuel Hl world grammar load b its l w Hb Hits
                  (mkRd 0 0 []) [] (mkW [] gt)) as K.
    specialize (K ltac:(split; [exists []; auto|reflexivity])).
    destruct (includes_loop _ _ _ _ load _ _ _ _) as [[[gs w1] s]| | |]; cbn [bind]; try congruence.
    rewrite K. reflexivity.
  Qed.

  Lemma bad_byte_terms n f : terms_loop bad_byte_text letter_hi digit_hi regexp_ok md5 (S (S f)) n (mkRd 6 1 []) = Fuel.
  Proof.
    induction n as [|n IH]; [reflexivity|]. cbn [terms_loop].
    assert (C : forall k, comments bad_byte_text (S (S f)) (mkRd 6 k []) = Ret (mkRd 6 1 []) /\
                 comments bad_byte_text (S (S f)) (mkRd 7 1 []) = Ret (mkRd 6 1 [])).
    { intros k. split; reflexivity. }
    rewrite (proj1 (C 1)). cbn [bind].
    assert (P : peek bad_byte_text (mkRd 6 1 []) = Ret (34%Z, mkRd 6 1 [])) by reflexivity.
    rewrite P. cbn [bind]. change (starts_term 34%Z) with true. cbn [negb].
    assert (R : read_term bad_byte_text letter_hi digit_hi regexp_ok md5 (S (S f)) (mkRd 6 1 [])
                = Ret (mkTerm "" TTerminal MNil, mkRd 7 1 [])) by reflexivity.
    rewrite R. cbn [bind]. rewrite (proj2 (C 1)). cbn [bind]. rewrite IH. reflexivity.
  Qed.
  Lemma bad_byte_hangs_large depth fuel name gt : 3 < fuel ->
    GrammarFromString letter_hi digit_hi scan_float regexp_ok md5 hash trie_accepts tokenize ascii_name
      read_file abs_dir join_path ord fuel depth bad_byte_text name gt = Fuel.
  Proof.
    intros Hf. unfold GrammarFromString. destruct depth as [|depth]; [reflexivity|].
    destruct fuel as [|[|[|[|f]]]]; try lia.
    cbn [grammar_from_string count w_files lookup]. change (Nat.leb 2 0) with false. cbn match.
    set (load := include_file _ _ _ _ _).
    assert (I : includes_loop bad_byte_text letter_hi digit_hi (S (S (S (S f)))) load (S (S (S (S f)))) (mkW [] gt) [] (mkRd 0 0 [])
                = Ret (([], mkW [] gt), mkRd 0 1 [])) by reflexivity.
    rewrite I. cbn [bind].
    assert (B : rule_body bad_byte_text letter_hi digit_hi scan_float regexp_ok md5 (S (S (S (S f)))) (mkRd 4 1 []) = Fuel).
    { unfold rule_body.
      assert (R : read_term bad_byte_text letter_hi digit_hi regexp_ok md5 (S (S (S (S f)))) (mkRd 4 1 [])
                = Ret (mkTerm "b" TTerminal MNil, mkRd 7 1 [])) by reflexivity.
      rewrite R. cbn [bind].
      assert (C : comments bad_byte_text (S (S (S (S f)))) (mkRd 7 1 []) = Ret (mkRd 6 1 [])) by reflexivity.
      rewrite C. cbn [bind]. rewrite bad_byte_terms. reflexivity. }
    unfold rules_part. cbn [rules_loop].
    assert (C : comments bad_byte_text (S (S (S (S f)))) (mkRd 0 1 []) = Ret (mkRd 0 1 [])) by reflexivity.
    rewrite C. cbn [bind].
    assert (P : peek bad_byte_text (mkRd 0 1 []) = Ret (60%Z, mkRd 0 1 [])) by reflexivity.
    rewrite P. cbn [bind]. change (negb (Z.eqb 60%Z r_lt || Z.eqb 60%Z r_lbrack)) with false. cbn match.
    assert (RR : read_rule bad_byte_text letter_hi digit_hi scan_float regexp_ok md5 hash (S (S (S (S f)))) 60%Z (mkRd 0 1 []) = Fuel).
    { unfold read_rule. change (Z.eqb 60%Z r_lt) with true. cbn match.
      assert (NT : nonterminal bad_byte_text letter_hi digit_hi (S (S (S (S f)))) (mkRd 0 1 []) = Ret ("a"%string, mkRd 3 1 [])) by reflexivity.
      rewrite NT. cbn [bind].
      assert (C3 : comments bad_byte_text (S (S (S (S f)))) (mkRd 3 1 []) = Ret (mkRd 3 1 [])) by reflexivity.
      rewrite C3. cbn [bind].
      assert (E3 : eat bad_byte_text r_eq (mkRd 3 1 []) = Ret (mkRd 4 1 [])) by reflexivity.
      rewrite E3. cbn [bind].
      assert (C4 : comments bad_byte_text (S (S (S (S f)))) (mkRd 4 1 []) = Ret (mkRd 4 1 [])) by reflexivity.
      rewrite C4. cbn [bind]. unfold rule_bodies. rewrite B. reflexivity. }
    rewrite RR. reflexivity.
  Qed.
  Lemma open_comment_hangs its l w b depth fuel name gt :
    unicode_tables letter_hi digit_hi ->
    Forall good (w ++ [47; 47]%Z ++ b) -> ~ In 10%Z b ->
    w_items (is_letter letter_hi) (is_digit digit_hi) scan_float regexp_ok md5 its l w ->
    GrammarFromString letter_hi digit_hi scan_float regexp_ok md5 hash trie_accepts tokenize ascii_name
      read_file abs_dir join_path ord fuel depth (encode (w ++ [47; 47]%Z ++ b)) name gt = Fuel.
  Proof.
    intros Htab Hg Hb Hits.
    pose proof (open_comment_hangs_large its l w b depth (fuel + S (length (w ++ [47; 47]%Z ++ b))) name gt Htab Hg Hb Hits ltac:(lia)) as K.
    eapply le_stuck; [|exact K]. apply gfs_mono; lia.
  Qed.
  Lemma bad_byte_hangs depth fuel name gt :
    GrammarFromString letter_hi digit_hi scan_float regexp_ok md5 hash trie_accepts tokenize ascii_name
      read_file abs_dir join_path ord fuel depth bad_byte_text name gt = Fuel.
  Proof.
    eapply le_stuck; [|exact (bad_byte_hangs_large depth (4 + fuel) name gt ltac:(lia))]. apply gfs_mono; lia.
  Qed.
End HangGrammar.
