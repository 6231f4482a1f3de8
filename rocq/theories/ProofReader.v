(** The grammar reader on texts without undecodable bytes: what it reads from
    every text of the notation. *)
From Coq Require Import Ascii.
From Verif Require Import Base ModelTypes ModelText ModelEarley ModelReader SpecNotation ProofUtf8.

Lemma good_not_eof c : good c -> Z.eqb c eof = false.
Proof.
  intros [H _]. apply valid_rune_range in H. unfold eof. apply Z.eqb_neq. lia.
Qed.

Section Classes.
  Variables letter_hi digit_hi : rune -> bool.
  Hypothesis Htab : unicode_tables letter_hi digit_hi.
  Local Notation letter := (is_letter letter_hi).
  Local Notation digit := (is_digit digit_hi).

  Ltac zb := repeat match goal with
    | H : context [Z.eqb ?a ?b] |- _ => destruct (Z.eqb_spec a b)
    | H : context [Z.leb ?a ?b] |- _ => destruct (Z.leb_spec a b)
    | H : context [Z.ltb ?a ?b] |- _ => destruct (Z.ltb_spec a b)
    end.

  Lemma space_cases c : is_space c = true ->
    c = 9%Z \/ c = 10%Z \/ c = 11%Z \/ c = 12%Z \/ c = 13%Z \/ c = 32%Z \/ c = 133%Z \/ c = 160%Z \/ (255 < c)%Z.
  Proof.
    unfold is_space. rewrite !orb_true_iff, !andb_true_iff, !Z.eqb_eq, !Z.leb_le. lia.
  Qed.

  Lemma letter_cases c : letter c = true ->
    (65 <= c <= 90 \/ 97 <= c <= 122 \/ c = 170 \/ c = 181 \/ c = 186 \/ 192 <= c <= 255
     \/ (255 < c /\ letter_hi c = true))%Z.
  Proof.
    unfold is_letter. rewrite !orb_true_iff, !andb_true_iff, !Z.eqb_eq, !Z.leb_le, Z.ltb_lt.
    intuition lia.
  Qed.

  Lemma digit_cases c : digit c = true -> (48 <= c <= 57 \/ (255 < c /\ digit_hi c = true))%Z.
  Proof.
    unfold is_digit, ascii_digit. rewrite !orb_true_iff, !andb_true_iff, !Z.leb_le, Z.ltb_lt.
    intuition lia.
  Qed.

  Lemma not_true_false (b : bool) : (b = true -> False) -> b = false.
  Proof. destruct b; [intros H; destruct (H eq_refl)|reflexivity]. Qed.

  Lemma letter_not_space c : letter c = true -> is_space c = false.
  Proof.
    intros H. apply not_true_false. intros Hs. pose proof (space_cases c Hs) as S0.
    pose proof (letter_cases c H) as L0.
    destruct L0 as [?|[?|[?|[?|[?|[?|[? Hl]]]]]]]; try lia.
    destruct (Htab c ltac:(assumption)) as [T _]. destruct (T Hl) as [_ T2]. congruence.
  Qed.
  Lemma letter_not_digit c : letter c = true -> digit c = false.
  Proof.
    intros H. apply not_true_false. intros Hs. pose proof (digit_cases c Hs) as S0.
    pose proof (letter_cases c H) as L0.
    destruct L0 as [?|[?|[?|[?|[?|[?|[? Hl]]]]]]]; destruct S0 as [?|[? Hd]]; try lia.
    destruct (Htab c ltac:(assumption)) as [T _]. destruct (T Hl) as [T1 _]. congruence.
  Qed.
  Lemma digit_not_space c : digit c = true -> is_space c = false.
  Proof.
    intros H. apply not_true_false. intros Hs. pose proof (space_cases c Hs) as S0.
    destruct (digit_cases c H) as [?|[? Hd]]; try lia.
    destruct (Htab c ltac:(assumption)) as [_ T]. rewrite (T Hd) in Hs. discriminate.
  Qed.
  Lemma ascii_digit_digit c : (48 <= c <= 57)%Z -> digit c = true /\ ascii_digit c = true.
  Proof.
    intros H. assert (A : ascii_digit c = true)
      by (unfold ascii_digit; rewrite andb_true_iff, !Z.leb_le; lia).
    split; [|exact A]. unfold is_digit. rewrite A. reflexivity.
  Qed.

  Definition nameb (c : rune) : bool := letter c || Z.eqb c r_under || digit c.
  Lemma nameb_spec c : nameb c = true <-> name_char letter digit c.
  Proof.
    unfold nameb, name_char, r_under. rewrite !orb_true_iff, Z.eqb_eq. tauto.
  Qed.
  Lemma name_first_facts c : name_first letter c ->
    is_space c = false /\ digit c = false /\ (letter c || Z.eqb c r_under) = true
    /\ (c = 95 \/ 65 <= c <= 90 \/ 97 <= c <= 122 \/ 170 <= c)%Z.
  Proof.
    intros [H| ->].
    - split; [apply letter_not_space; exact H|]. split; [apply letter_not_digit; exact H|].
      rewrite H. split; [reflexivity|]. pose proof (letter_cases c H). lia.
    - repeat split; auto.
  Qed.
End Classes.

Scheme w_arg_mind := Minimality for w_arg Sort Prop
  with w_args_mind := Minimality for w_args Sort Prop
  with w_fmr_mind := Minimality for w_fmr Sort Prop.
Combined Scheme w_arg_mutind from w_arg_mind, w_args_mind, w_fmr_mind.

(** [rune] and [Z] are the same type; lists of them must look the same to lia. *)
Ltac llia := unfold rune in *; lia.

Section Reader.
  Variables letter_hi digit_hi : rune -> bool.
  Variable scan_float : string -> res bigf.
  Variable regexp_ok : string -> bool.
  Variable md5 : string -> string.
  Variable hash : rulebody -> N.
  Hypothesis Htab : unicode_tables letter_hi digit_hi.
  Variable all : list rune.
  Hypothesis Hall : Forall good all.
  Variable fuel : nat.
  Hypothesis Hfuel : length all < fuel.

  Local Notation letter := (is_letter letter_hi).
  Local Notation digit := (is_digit digit_hi).
  Local Notation input := (encode all).
  Local Notation nameb := (nameb letter_hi digit_hi).

  (** The reader stands before [rest] and has collected [re]. *)
  Definition At (s : rd) (rest : list rune) (re : list (string * string)) : Prop :=
    (exists pre, all = pre ++ rest /\ rd_pos s = String.length (encode pre)) /\ rd_re s = re.

  Lemma at_good s rest re : At s rest re -> Forall good rest.
  Proof. intros [(pre & E & _) _]. rewrite E in Hall. apply Forall_app in Hall. tauto. Qed.
  Lemma at_length s rest re : At s rest re -> length rest < fuel.
  Proof. intros [(pre & E & _) _]. rewrite E, app_length in Hfuel. llia. Qed.

  Lemma next_at s rest re : At s rest re ->
    exists s', next input s = (hd eof rest, s') /\ At s' (tl rest) re
      /\ exists s'', backup s' = Ret s'' /\ At s'' rest re.
  Proof.
    intros H. pose proof (at_good _ _ _ H) as Hg. destruct H as [(pre & E & P) R].
    unfold next. rewrite P, E, encode_app, string_length_append, drop_append.
    destruct rest as [|c rest].
    - cbn [encode String.length hd tl]. rewrite Nat.add_0_r, Nat.leb_refl.
      eexists. split; [reflexivity|]. rewrite app_nil_r in E. subst pre.
      split; [split; [exists all; rewrite app_nil_r; auto|exact R]|].
      unfold backup. cbn [rd_width rd_pos rd_re]. cbn [Nat.leb].
      eexists. split; [reflexivity|]. rewrite Nat.sub_0_r.
      split; [exists all; rewrite app_nil_r; auto|exact R].
    - inversion Hg as [|? ? [Hc Hne] Hg']; subst.
      assert (Hlen : String.length (encode (c :: rest)) > 0).
      { pose proof (encode_length (c :: rest)). simpl in H. simpl. llia. }
      replace (Nat.leb (String.length (encode pre) + String.length (encode (c :: rest)))
                 (String.length (encode pre))) with false
        by (symmetry; apply Nat.leb_gt; llia).
      cbn [encode]. rewrite decode_encode by exact Hc.
      apply Z.eqb_neq in Hne. rewrite Hne. cbn [hd tl].
      eexists. split; [reflexivity|]. split.
      + split; [|reflexivity]. exists (pre ++ [c]). rewrite <- app_assoc. split; [exact E|].
        cbn [rd_pos]. rewrite encode_app, string_length_append. cbn [encode].
        rewrite string_length_append. cbn [String.length]. llia.
      + unfold backup. cbn [rd_width rd_pos rd_re].
        replace (Nat.leb (String.length (encode_rune c))
                  (String.length (encode pre) + String.length (encode_rune c))) with true
          by (symmetry; apply Nat.leb_le; llia).
        eexists. split; [reflexivity|]. split; [|reflexivity]. exists pre. split; [exact E|].
        cbn [rd_pos]. llia.
  Qed.

  Lemma peek_at s rest re : At s rest re ->
    exists s', peek input s = Ret (hd eof rest, s') /\ At s' rest re.
  Proof.
    intros H. destruct (next_at _ _ _ H) as (s' & N & _ & s'' & B & A).
    exists s''. unfold peek. rewrite N, B. split; [reflexivity|exact A].
  Qed.
  Lemma eat_at s c rest re : At s (c :: rest) re ->
    exists s', eat input c s = Ret s' /\ At s' rest re.
  Proof.
    intros H. destruct (next_at _ _ _ H) as (s' & N & A & _).
    exists s'. unfold eat. rewrite N. cbn [hd]. rewrite Z.eqb_refl. split; [reflexivity|exact A].
  Qed.
  Lemma skip_at s c rest re : At s (c :: rest) re ->
    exists s', next input s = (c, s') /\ At s' rest re.
  Proof. intros H. destruct (next_at _ _ _ H) as (s' & N & A & _). exists s'. auto. Qed.

  Lemma ws_loop_at sp : spaces sp -> forall n s rest re, is_space (hd eof rest) = false ->
    length sp < n -> At s (sp ++ rest) re ->
    exists s', ws_loop input n s = Ret s' /\ At s' rest re.
  Proof.
    induction 1 as [|c sp Hc Hsp IH]; intros n s rest re Hh Hn HA; (destruct n as [|n]; [simpl in Hn; llia|]).
    - simpl in HA. destruct (next_at _ _ _ HA) as (s' & N & A & s'' & B & A'). cbn [ws_loop].
      rewrite N, Hh. exists s''. auto.
    - cbn [app] in HA. destruct (next_at _ _ _ HA) as (s' & N & A & _). cbn [ws_loop].
      rewrite N. cbn [hd tl] in *. rewrite Hc. simpl in Hn. apply IH; auto; llia.
  Qed.
  Lemma ws_at sp s rest re : spaces sp -> At s (sp ++ rest) re -> is_space (hd eof rest) = false ->
    exists s', ws input fuel s = Ret s' /\ At s' rest re.
  Proof.
    intros Hs HA Hh. apply ws_loop_at with (sp := sp); auto.
    pose proof (at_length _ _ _ HA). rewrite app_length in H. llia.
  Qed.
  Lemma ws_none s rest re : is_space (hd eof rest) = false -> At s rest re ->
    exists s', ws input fuel s = Ret s' /\ At s' rest re.
  Proof. intros Hh HA. apply (ws_at [] s rest re); auto. constructor. Qed.

  Lemma text_loop_at w : Forall (name_char letter digit) w -> forall n s rest re,
    nameb (hd eof rest) = false -> length w < n -> At s (w ++ rest) re ->
    exists s', text_loop input letter_hi digit_hi n false s = Ret (w, s') /\ At s' rest re.
  Proof.
    induction 1 as [|c w Hc Hw IH]; intros n s rest re Hh Hn HA; (destruct n as [|n]; [simpl in Hn; llia|]).
    - simpl in HA. destruct (next_at _ _ _ HA) as (s' & N & A & s'' & B & A'). cbn [text_loop].
      rewrite N. unfold nameb in Hh. cbn [negb]. rewrite andb_true_r.
      rewrite Hh, B. exists s''. auto.
    - cbn [app] in HA. destruct (next_at _ _ _ HA) as (s' & N & A & _). cbn [text_loop].
      rewrite N. cbn [hd tl] in *. apply nameb_spec in Hc. unfold nameb in Hc. cbn [negb].
      rewrite andb_true_r, Hc. simpl in Hn.
      destruct (IH n s' rest re Hh ltac:(llia) A) as (s2 & E & A2). rewrite E. exists s2. auto.
  Qed.
  Lemma text_at w s rest re : name_text letter digit w -> nameb (hd eof rest) = false ->
    At s (w ++ rest) re ->
    exists s', text input letter_hi digit_hi fuel s = Ret (encode w, s') /\ At s' rest re.
  Proof.
    intros Hw Hh HA. destruct w as [|c w]; [destruct Hw|]. destruct Hw as [Hc Hw].
    pose proof (at_length _ _ _ HA) as HL. rewrite app_length in HL. simpl in HL.
    cbn [app] in HA. destruct (next_at _ _ _ HA) as (s' & N & A & _). cbn [hd tl] in *.
    destruct (name_first_facts letter_hi digit_hi Htab c Hc) as (_ & _ & Hc' & _).
    assert (E : forall n, length w + 1 < n ->
      exists s2, text_loop input letter_hi digit_hi n true s = Ret (c :: w, s2) /\ At s2 rest re).
    { intros n Hn. destruct n as [|n]; [llia|]. cbn [text_loop]. rewrite N, Hc'. cbn [orb].
      destruct (text_loop_at w Hw n s' rest re Hh ltac:(llia) A) as (s2 & E & A2). rewrite E.
      exists s2. auto. }
    destruct (E fuel ltac:(llia)) as (s2 & E2 & A2). unfold text. rewrite E2. exists s2. auto.
  Qed.

  Lemma bracketed_at b e x s rest re : name_text letter digit x -> nameb e = false ->
    At s ([b] ++ x ++ [e] ++ rest) re ->
    exists s', bracketed input letter_hi digit_hi fuel b e s = Ret (encode x, s') /\ At s' rest re.
  Proof.
    intros Hx He HA. unfold bracketed. cbn [app] in HA.
    destruct (eat_at _ _ _ _ HA) as (s1 & E1 & A1). rewrite E1. cbn [bind].
    destruct (text_at x s1 (e :: rest) re Hx He A1) as (s2 & E2 & A2). rewrite E2. cbn [bind].
    destruct (eat_at _ _ _ _ A2) as (s3 & E3 & A3). rewrite E3. exists s3. auto.
  Qed.

  (** comments *)
  Lemma line_loop_at body : ~ In 10%Z body -> forall n s rest re, length body < n ->
    At s (body ++ [10]%Z ++ rest) re ->
    exists s', line_loop input n s = Ret s' /\ At s' rest re.
  Proof.
    induction body as [|c body IH]; intros Hb n s rest re Hn HA; (destruct n as [|n]; [simpl in Hn; llia|]).
    - cbn [app] in HA. destruct (next_at _ _ _ HA) as (s' & N & A & _). cbn [line_loop].
      rewrite N. exists s'. auto.
    - cbn [app] in HA. destruct (next_at _ _ _ HA) as (s' & N & A & _). cbn [line_loop].
      rewrite N. cbn [hd tl] in *.
      replace (Z.eqb c r_newline) with false
        by (symmetry; apply Z.eqb_neq; intros ->; apply Hb; left; reflexivity).
      apply IH; [intros K; apply Hb; right; exact K|simpl in Hn; llia|exact A].
  Qed.

  Lemma block_loop_at body : forall n prev s rest re, ~ closes (prev :: body) -> length body + 1 < n ->
    At s (body ++ [42; 47]%Z ++ rest) re ->
    exists s', block_loop input n prev s = Ret s' /\ At s' rest re.
  Proof.
    induction body as [|c body IH]; intros n prev s rest re Hb Hn HA; (destruct n as [|n]; [simpl in Hn; llia|]).
    - cbn [app] in HA. destruct (next_at _ _ _ HA) as (s' & N & A & _). cbn [block_loop].
      rewrite N. cbn [hd tl] in *. change (Z.eqb 42 eof) with false. change (Z.eqb 42 r_slash) with false.
      rewrite andb_false_r. destruct n as [|n]; [simpl in Hn; llia|]. cbn [block_loop].
      destruct (next_at _ _ _ A) as (s2 & N2 & A2 & _). rewrite N2. cbn [hd tl] in *.
      exists s2. auto.
    - cbn [app] in HA. pose proof (at_good _ _ _ HA) as Hg. inversion Hg as [|? ? Hc _]; subst.
      destruct (next_at _ _ _ HA) as (s' & N & A & _). cbn [block_loop].
      rewrite N. cbn [hd tl] in *. rewrite (good_not_eof c Hc).
      replace (Z.eqb prev r_star && Z.eqb c r_slash) with false.
      2:{ symmetry. apply not_true_false. rewrite andb_true_iff, !Z.eqb_eq. intros [-> ->].
          apply Hb. exists [], body. reflexivity. }
      apply IH; [|simpl in Hn; llia|exact A].
      intros (a & b & K). apply Hb. exists (prev :: a), b. cbn [app]. rewrite K. reflexivity.
  Qed.

  Lemma gap_split g : gap g ->
    exists sp g', g = sp ++ g' /\ spaces sp /\
      (g' = [] \/
       (exists body g'', ~ In 10%Z body /\ gap g'' /\ g' = [47; 47]%Z ++ body ++ [10]%Z ++ g'') \/
       (exists body g'', ~ closes body /\ gap g'' /\ g' = [47; 42]%Z ++ body ++ [42; 47]%Z ++ g'')).
  Proof.
    induction 1 as [|c w Hc Hw IH|body w Hb Hw IH|body w Hb Hw IH].
    - exists [], []. repeat split; auto. constructor.
    - destruct IH as (sp & g' & -> & Hs & D). exists (c :: sp), g'. split; [reflexivity|].
      split; [constructor; assumption|exact D].
    - exists [], ([47; 47]%Z ++ body ++ [10]%Z ++ w). split; [reflexivity|]. split; [constructor|].
      right. left. exists body, w. auto.
    - exists [], ([47; 42]%Z ++ body ++ [42; 47]%Z ++ w). split; [reflexivity|]. split; [constructor|].
      right. right. exists body, w. auto.
  Qed.

  Definition ends_gap (c : rune) : Prop := is_space c = false /\ c <> 47%Z.

  Lemma comments_loop_at : forall n g s rest re, gap g -> ends_gap (hd eof rest) -> length g < n ->
    At s (g ++ rest) re ->
    exists s', comments_loop input fuel n s = Ret s' /\ At s' rest re.
  Proof.
    induction n as [|n IH]; intros g s rest re Hg [He1 He2] Hn HA; [llia|].
    destruct (gap_split g Hg) as (sp & g' & -> & Hs & D).
    rewrite <- app_assoc in HA. rewrite app_length in Hn.
    pose proof (at_length _ _ _ HA) as HL.
    cbn [comments_loop].
    destruct D as [-> | [(body & g'' & Hb & Hg'' & ->) | (body & g'' & Hb & Hg'' & ->)]].
    - cbn [app] in HA. destruct (ws_at sp s rest re Hs HA He1) as (s1 & E1 & A1). rewrite E1. cbn [bind].
      unfold comment. destruct (next_at _ _ _ A1) as (s2 & N2 & _ & s3 & B3 & A3). rewrite N2.
      apply Z.eqb_neq in He2. change r_slash with 47%Z. rewrite He2. cbn [negb]. rewrite B3. cbn [bind].
      apply ws_none; auto.
    - destruct (ws_at sp s _ re Hs HA eq_refl) as (s1 & E1 & A1). rewrite E1. cbn [bind].
      rewrite <- !app_assoc in A1. cbn [app] in A1.
      unfold comment. destruct (skip_at _ _ _ _ A1) as (s2 & N2 & A2). rewrite N2.
      cbn [negb Z.eqb r_slash Pos.eqb].
      destruct (peek_at _ _ _ A2) as (s3 & E3 & A3). rewrite E3. cbn [bind hd].
      cbn [Z.eqb r_slash Pos.eqb].
      destruct (eat_at _ _ _ _ A3) as (s4 & E4 & A4). change 47%Z with r_slash in E4. rewrite E4. cbn [bind].
      repeat (rewrite app_length in HL; cbn [length app] in HL).
      destruct (line_loop_at body Hb fuel s4 (g'' ++ rest) re ltac:(llia) A4) as (s5 & E5 & A5).
      rewrite E5. cbn [bind].
      apply (IH g''); auto; [split; auto|]. repeat (rewrite app_length in Hn; cbn [length app] in Hn). llia.
    - destruct (ws_at sp s _ re Hs HA eq_refl) as (s1 & E1 & A1). rewrite E1. cbn [bind].
      rewrite <- !app_assoc in A1. cbn [app] in A1.
      unfold comment. destruct (skip_at _ _ _ _ A1) as (s2 & N2 & A2). rewrite N2.
      cbn [negb Z.eqb r_slash Pos.eqb].
      destruct (peek_at _ _ _ A2) as (s3 & E3 & A3). rewrite E3. cbn [bind hd].
      cbn [Z.eqb r_slash r_star Pos.eqb].
      destruct (eat_at _ _ _ _ A3) as (s4 & E4 & A4). change 42%Z with r_star in E4. rewrite E4. cbn [bind].
      repeat (rewrite app_length in HL; cbn [length app] in HL).
      destruct (block_loop_at body fuel 0%Z s4 (g'' ++ rest) re) as (s5 & E5 & A5).
      { intros (a & b & K). destruct a as [|x a]; [discriminate|]. injection K as _ K. apply Hb.
        exists a, b. exact K. }
      { llia. }
      { exact A4. }
      rewrite E5. cbn [bind].
      apply (IH g''); auto; [split; auto|]. repeat (rewrite app_length in Hn; cbn [length app] in Hn). llia.
  Qed.
  Lemma comments_at g s rest re : gap g -> ends_gap (hd eof rest) -> At s (g ++ rest) re ->
    exists s', comments input fuel s = Ret s' /\ At s' rest re.
  Proof.
    intros Hg He HA. unfold comments. apply (comments_loop_at fuel g); auto.
    pose proof (at_length _ _ _ HA). rewrite app_length in H. llia.
  Qed.
  Lemma comments_none s rest re : ends_gap (hd eof rest) -> At s rest re ->
    exists s', comments input fuel s = Ret s' /\ At s' rest re.
  Proof. intros He HA. apply (comments_at []); auto. constructor. Qed.

  (** quoted texts *)
  Lemma unescape_spec e c : escape e c <-> unescape e = Some c.
  Proof.
    split.
    - intros []; reflexivity.
    - unfold unescape.
      repeat match goal with |- context [Z.eqb ?a ?b] => destruct (Z.eqb_spec a b) as [->|?] end;
        intros H; inversion H; constructor.
  Qed.

  Lemma terminal_loop_at cs w : spells cs w -> forall n prev s rest re, prev <> r_bslash ->
    length w < n -> At s (w ++ [34]%Z ++ rest) re ->
    exists s', terminal_loop input n prev s = Ret (cs, s') /\ At s' ([34]%Z ++ rest) re.
  Proof.
    induction 1 as [|c cs w Hq Hb Hw IH|e c cs w He Hw IH]; intros n prev s rest re Hp Hn HA;
      (destruct n as [|n]; [simpl in Hn; llia|]); cbn [terminal_loop].
    - apply Z.eqb_neq in Hp. cbn [app] in HA.
      destruct (next_at _ _ _ HA) as (s' & N & A & s'' & B & A'). rewrite N. cbn [hd].
      rewrite Hp. cbn [negb andb Z.eqb r_quote Pos.eqb]. rewrite B. exists s''. auto.
    - apply Z.eqb_neq in Hp. cbn [app] in HA. pose proof (at_good _ _ _ HA) as Hg.
      inversion Hg as [|? ? Hc _]; subst.
      destruct (next_at _ _ _ HA) as (s' & N & A & _). rewrite N. cbn [hd tl] in *.
      apply Z.eqb_neq in Hq. change r_quote with 34%Z. rewrite Hq. cbn [andb].
      rewrite (good_not_eof c Hc), Hp. change r_bslash with 92%Z.
      pose proof Hb as Hb'. apply Z.eqb_neq in Hb'. rewrite Hb'. simpl in Hn.
      destruct (IH n c s' rest re Hb ltac:(llia) A) as (s2 & E & A2). rewrite E. exists s2. auto.
    - cbn [app] in HA. pose proof (at_good _ _ _ HA) as Hg.
      inversion Hg as [|? ? Hc Hg']; subst. inversion Hg' as [|? ? He' _]; subst.
      destruct (next_at _ _ _ HA) as (s' & N & A & _). rewrite N. cbn [hd tl] in *.
      apply Z.eqb_neq in Hp. rewrite Hp.
      change (Z.eqb 92 r_quote) with false. change (Z.eqb 92 eof) with false.
      change (Z.eqb 92 r_bslash) with true. cbn [andb].
      destruct n as [|n]; [simpl in Hn; llia|]. cbn [terminal_loop].
      destruct (next_at _ _ _ A) as (s2 & N2 & A2 & _). rewrite N2. cbn [hd tl] in *.
      change (Z.eqb 92 r_bslash) with true. cbn [negb]. rewrite andb_false_r.
      rewrite (good_not_eof e He'). apply unescape_spec in He. rewrite He. simpl in Hn.
      destruct (IH n 0%Z s2 rest re ltac:(discriminate) ltac:(llia) A2) as (s3 & E & A3). rewrite E.
      exists s3. auto.
  Qed.

  Lemma terminal_at fl t w s rest re : w_literal letter digit fl t w -> At s (w ++ rest) re ->
    exists s', terminal input letter_hi digit_hi fuel s = Ret ((fl, t), s') /\ At s' rest re.
  Proof.
    intros Hw HA. unfold terminal.
    destruct Hw as [sp cs w Hs Hw Hh | sp1 sp2 sp3 fl cs w H1 H2 H3 Hfl Hw].
    - rewrite <- !app_assoc in HA. cbn [app] in HA.
      destruct (eat_at _ _ _ _ HA) as (s1 & E1 & A1). change 34%Z with r_quote in E1. rewrite E1. cbn [bind].
      assert (Hh2 : is_space (hd eof (w ++ 34%Z :: rest)) = false /\ Z.eqb (hd eof (w ++ 34%Z :: rest)) r_lparen = false).
      { destruct w as [|c w]; [split; reflexivity|]. cbn [app hd]. destruct Hh as [Hh1 Hh2]. split; [exact Hh1|].
        apply Z.eqb_neq. exact Hh2. }
      destruct Hh2 as [Hh1 Hh2].
      destruct (ws_at sp s1 (w ++ 34%Z :: rest) re Hs A1 Hh1) as (s2 & E2 & A2). rewrite E2. cbn [bind].
      destruct (peek_at _ _ _ A2) as (s3 & E3 & A3). rewrite E3. cbn [bind]. rewrite Hh2. cbn [bind].
      unfold terminal_text. pose proof (at_length _ _ _ A3) as HL. rewrite app_length in HL. cbn [length] in HL.
      destruct (terminal_loop_at cs w Hw fuel 0%Z s3 rest re ltac:(discriminate) ltac:(llia) A3) as (s4 & E4 & A4).
      rewrite E4. cbn [bind].
      destruct (eat_at _ _ _ _ A4) as (s5 & E5 & A5). change 34%Z with r_quote in E5. rewrite E5.
      exists s5. auto.
    - rewrite <- !app_assoc in HA. cbn [app] in HA.
      destruct (eat_at _ _ _ _ HA) as (s1 & E1 & A1). change 34%Z with r_quote in E1. rewrite E1. cbn [bind].
      destruct (ws_at sp1 s1 _ re H1 A1 eq_refl) as (s2 & E2 & A2). rewrite E2. cbn [bind].
      destruct (peek_at _ _ _ A2) as (s3 & E3 & A3). rewrite E3. cbn [bind hd].
      change (Z.eqb 40 r_lparen) with true. cbn match.
      destruct (skip_at _ _ _ _ A3) as (s4 & E4 & A4). rewrite E4. cbn [bind].
      destruct (ws_at sp2 s4 _ re H2 A4 eq_refl) as (s5 & E5 & A5). rewrite E5. cbn [bind].
      destruct (eat_at _ _ _ _ A5) as (s6 & E6 & A6). change 63%Z with r_qmark in E6. rewrite E6. cbn [bind].
      assert (Hsp : is_space (hd eof (fl ++ 41%Z :: w ++ 34%Z :: rest)) = false).
      { destruct fl as [|c fl]; [destruct Hfl|]. cbn [app hd].
        apply (name_first_facts letter_hi digit_hi Htab c). apply Hfl. }
      destruct (ws_at sp3 s6 _ re H3 A6 Hsp) as (s7 & E7 & A7). rewrite E7. cbn [bind].
      destruct (text_at fl s7 (41%Z :: w ++ 34%Z :: rest) re Hfl eq_refl A7) as (s8 & E8 & A8).
      rewrite E8. cbn [bind].
      destruct (eat_at _ _ _ _ A8) as (s9 & E9 & A9). change 41%Z with r_rparen in E9. rewrite E9. cbn [bind].
      unfold terminal_text. pose proof (at_length _ _ _ A9) as HL. rewrite app_length in HL. cbn [length] in HL.
      destruct (terminal_loop_at cs w Hw fuel 0%Z s9 rest re ltac:(discriminate) ltac:(llia) A9) as (s10 & E10 & A10).
      rewrite E10. cbn [bind].
      destruct (eat_at _ _ _ _ A10) as (s11 & E11 & A11). change 34%Z with r_quote in E11. rewrite E11.
      exists s11. auto.
  Qed.

  (** numbers *)
  Lemma int_loop_at ds : decimals ds -> forall n i s rest re,
    digit (hd eof rest) = false -> length ds < n -> At s (ds ++ rest) re ->
    fold_left (fun a d => if Z.eqb a (-1) then d - 48 else int64 (a * 10 + (d - 48)))%Z ds i <> (-1)%Z ->
    exists s', int_loop input digit_hi n i s
      = Ret (fold_left (fun a d => if Z.eqb a (-1) then d - 48 else int64 (a * 10 + (d - 48)))%Z ds i, s')
      /\ At s' rest re.
  Proof.
    induction 1 as [|d ds Hd Hds IH]; intros n i s rest re Hh Hn HA Hne; (destruct n as [|n]; [simpl in Hn; llia|]);
      cbn [int_loop].
    - cbn [app fold_left] in *. destruct (next_at _ _ _ HA) as (s' & N & A & s'' & B & A').
      rewrite N, Hh. apply Z.eqb_neq in Hne. rewrite Hne, B. exists s''. auto.
    - cbn [app] in HA. destruct (next_at _ _ _ HA) as (s' & N & A & _). rewrite N. cbn [hd tl fold_left] in *.
      destruct (ascii_digit_digit digit_hi d Hd) as [D1 D2]. rewrite D1, D2. simpl in Hn.
      apply IH; auto. llia.
  Qed.
  Lemma get_int_at ds z s rest re : number ds z -> At s (ds ++ rest) re -> digit (hd eof rest) = false ->
    exists s', get_int input digit_hi fuel s = Ret (z, s') /\ At s' rest re.
  Proof.
    intros (Hd & Hz & Hne) HA Hh. unfold get_int. rewrite <- Hz in *. unfold machine_value in *.
    apply int_loop_at; auto. pose proof (at_length _ _ _ HA) as HL. rewrite app_length in HL. llia.
  Qed.
  Lemma number_head ds z rest : number ds z -> (48 <= hd eof (ds ++ rest) <= 57)%Z.
  Proof.
    intros (Hd & Hz & Hne). destruct ds as [|d ds]; [simpl in Hz; unfold machine_value in Hz; simpl in Hz; congruence|].
    inversion Hd; assumption.
  Qed.
  Lemma digit_head_not_space c : (48 <= c <= 57)%Z -> is_space c = false.
  Proof. intros H. apply (digit_not_space letter_hi digit_hi Htab). apply ascii_digit_digit. exact H. Qed.

  Lemma special_meta_at m w sp1 sp3 s rest re :
    w_range m w -> spaces sp1 -> spaces sp3 ->
    At s (sp1 ++ w ++ sp3 ++ [41]%Z ++ rest) re ->
    exists s', special_meta input digit_hi fuel s = Ret (m, s') /\ At s' ([41]%Z ++ rest) re.
  Proof.
    intros Hw H1 H3 HA. unfold special_meta.
    destruct Hw as [|lo hi ds ds' p1 p2 p3 p4 Hlo Hhi Hle Q1 Q2 Q3 Q4].
    - cbn [app] in HA. rewrite app_assoc in HA.
      destruct (ws_at (sp1 ++ sp3) s (41%Z :: rest) re) as (s1 & E1 & A1); auto.
      { apply Forall_app. split; assumption. }
      rewrite E1. cbn [bind].
      destruct (peek_at _ _ _ A1) as (s2 & E2 & A2). rewrite E2. cbn [bind hd].
      change (Z.eqb 41 r_lbrace) with false. cbn match. cbn [bind].
      destruct (ws_none s2 (41%Z :: rest) re eq_refl A2) as (s3 & E3 & A3). rewrite E3. exists s3. auto.
    - rewrite <- !app_assoc in HA. cbn [app] in HA.
      destruct (ws_at sp1 s _ re H1 HA eq_refl) as (s1 & E1 & A1). rewrite E1. cbn [bind].
      destruct (peek_at _ _ _ A1) as (s2 & E2 & A2). rewrite E2. cbn [bind hd].
      change (Z.eqb 123 r_lbrace) with true. cbn match.
      destruct (skip_at _ _ _ _ A2) as (s3 & E3 & A3). rewrite E3. cbn [bind].
      pose proof (number_head ds lo (p2 ++ 44%Z :: p3 ++ ds' ++ p4 ++ 125%Z :: sp3 ++ 41%Z :: rest) Hlo) as N1.
      destruct (ws_at p1 s3 _ re Q1 A3 (digit_head_not_space _ N1)) as (s4 & E4 & A4). rewrite E4. cbn [bind].
      destruct (get_int_at ds lo s4 _ re Hlo A4) as (s5 & E5 & A5).
      { destruct p2 as [|c p2]; [reflexivity|]. inversion Q2; subst. cbn [app hd].
        apply not_true_false. intros K. apply (digit_not_space letter_hi digit_hi Htab) in K. congruence. }
      rewrite E5. cbn [bind].
      destruct (ws_at p2 s5 _ re Q2 A5 eq_refl) as (s6 & E6 & A6). rewrite E6. cbn [bind].
      destruct (eat_at _ _ _ _ A6) as (s7 & E7 & A7). change 44%Z with r_comma in E7. rewrite E7. cbn [bind].
      pose proof (number_head ds' hi (p4 ++ 125%Z :: sp3 ++ 41%Z :: rest) Hhi) as N2.
      destruct (ws_at p3 s7 _ re Q3 A7 (digit_head_not_space _ N2)) as (s8 & E8 & A8). rewrite E8. cbn [bind].
      destruct (get_int_at ds' hi s8 _ re Hhi A8) as (s9 & E9 & A9).
      { destruct p4 as [|c p4]; [reflexivity|]. inversion Q4; subst. cbn [app hd].
        apply not_true_false. intros K. apply (digit_not_space letter_hi digit_hi Htab) in K. congruence. }
      rewrite E9. cbn [bind]. replace (hi <? lo)%Z with false by (symmetry; apply Z.ltb_ge; exact Hle).
      destruct (ws_at p4 s9 _ re Q4 A9 eq_refl) as (s10 & E10 & A10). rewrite E10. cbn [bind].
      destruct (eat_at _ _ _ _ A10) as (s11 & E11 & A11). change 125%Z with r_rbrace in E11. rewrite E11. cbn [bind].
      destruct (ws_at sp3 s11 _ re H3 A11 eq_refl) as (s12 & E12 & A12). rewrite E12. exists s12. auto.
  Qed.

  Lemma space_head_ok sp c rest P : spaces sp -> P c = false -> (forall x, is_space x = true -> P x = false) ->
    P (hd eof (sp ++ c :: rest)) = false.
  Proof. intros Hs Hc HP. destruct Hs as [|x sp Hx _]; [exact Hc|apply HP; exact Hx]. Qed.
  Lemma space_not_name x : is_space x = true -> nameb x = false.
  Proof.
    intros Hx. apply not_true_false. rewrite nameb_spec. intros [K|[K|K]].
    - apply (letter_not_space letter_hi digit_hi Htab) in K. congruence.
    - subst x. discriminate.
    - apply (digit_not_space letter_hi digit_hi Htab) in K. congruence.
  Qed.
  Lemma range_head m w rest sp : w_range m w -> spaces sp ->
    nameb (hd eof (w ++ sp ++ [41]%Z ++ rest)) = false.
  Proof.
    intros [] Hs; [|reflexivity]. cbn [app]. apply space_head_ok; auto using space_not_name.
  Qed.

  Lemma special_at t w s rest re : w_term letter digit regexp_ok md5 t [] w -> hd eof w = 40%Z ->
    At s (w ++ rest) re ->
    exists s', special input letter_hi digit_hi fuel s = Ret (t, s') /\ At s' rest re.
  Proof.
    intros Hw Hh HA. unfold special.
    inversion Hw as [x Hx|t' w' Hl|fl t' w' Hl Hf|m w' sp1 sp2 sp3 H1 H2 H3 Hr|x m w' sp1 sp2 sp3 sp4 Hx H1 H2 H3 H4 Hr|]; subst; clear Hw.
    - discriminate.
    - inversion Hl; subst; discriminate.
    - inversion Hl; subst; discriminate.
    - rewrite <- !app_assoc in HA. cbn [app] in HA.
      destruct (eat_at _ _ _ _ HA) as (s1 & E1 & A1). change 40%Z with r_lparen in E1. rewrite E1. cbn [bind].
      destruct (ws_at sp1 s1 _ re H1 A1 eq_refl) as (s2 & E2 & A2). rewrite E2. cbn [bind].
      destruct (text_at [97; 110; 121]%Z s2 (sp2 ++ w' ++ sp3 ++ [41]%Z ++ rest) re) as (s3 & E3 & A3).
      { split; [left; reflexivity|]. repeat constructor; left; reflexivity. }
      { destruct H2 as [|x sp2 Hx _]; [apply (range_head m); assumption|apply space_not_name; exact Hx]. }
      { exact A2. }
      rewrite E3. cbn [bind]. change (String.eqb (encode [97; 110; 121]%Z) "any") with true. cbn match.
      assert (K : exists p1 p2 s4, spaces p1 /\ ws input fuel s3 = Ret s4 /\ spaces p2
                  /\ At s4 (p1 ++ w' ++ p2 ++ [41]%Z ++ rest) re).
      { destruct Hr as [|lo hi ds ds' q1 q2 q3 q4 Q1 Q2 Q3 Q4 Q5 Q6 Q7].
        - cbn [app] in A3. rewrite app_assoc in A3.
          destruct (ws_at (sp2 ++ sp3) s3 (41%Z :: rest) re) as (s4 & E4 & A4); auto.
          { apply Forall_app. split; assumption. }
          exists [], [], s4. split; [constructor|]. split; [exact E4|]. split; [constructor|]. exact A4.
        - destruct (ws_at sp2 s3 _ re H2 A3 eq_refl) as (s4 & E4 & A4).
          exists [], sp3, s4. split; [constructor|]. split; [exact E4|]. split; [exact H3|]. exact A4. }
      destruct K as (p1 & p2 & s4 & P1 & E4 & P2 & A4). rewrite E4. cbn [bind].
      destruct (special_meta_at m w' p1 p2 s4 rest re Hr P1 P2 A4) as (s5 & E5 & A5). rewrite E5. cbn [bind].
      destruct (eat_at _ _ _ _ A5) as (s6 & E6 & A6). change 41%Z with r_rparen in E6. rewrite E6.
      exists s6. auto.
    - rewrite <- !app_assoc in HA. cbn [app] in HA.
      destruct (eat_at _ _ _ _ HA) as (s1 & E1 & A1). change 40%Z with r_lparen in E1. rewrite E1. cbn [bind].
      destruct (ws_at sp1 s1 _ re H1 A1 eq_refl) as (s2 & E2 & A2). rewrite E2. cbn [bind].
      destruct (text_at [108; 105; 115; 116]%Z s2 (sp2 ++ 60%Z :: x ++ 62%Z :: sp3 ++ w' ++ sp4 ++ 41%Z :: rest) re) as (s3 & E3 & A3).
      { split; [left; reflexivity|]. repeat constructor; left; reflexivity. }
      { destruct H2 as [|y sp2 Hy _]; [reflexivity|apply space_not_name; exact Hy]. }
      { exact A2. }
      rewrite E3. cbn [bind]. change (String.eqb (encode [108; 105; 115; 116]%Z) "any") with false.
      change (String.eqb (encode [108; 105; 115; 116]%Z) "list") with true. cbn match.
      destruct (ws_at sp2 s3 _ re H2 A3 eq_refl) as (s4 & E4 & A4). rewrite E4. cbn [bind].
      destruct (bracketed_at 60%Z 62%Z x s4 (sp3 ++ w' ++ sp4 ++ 41%Z :: rest) re Hx eq_refl A4) as (s5 & E5 & A5).
      unfold nonterminal. change 60%Z with r_lt in E5. change 62%Z with r_gt in E5. rewrite E5. cbn [bind].
      destruct (special_meta_at m w' sp3 sp4 s5 rest re Hr H3 H4 A5) as (s6 & E6 & A6). rewrite E6. cbn [bind].
      destruct (eat_at _ _ _ _ A6) as (s7 & E7 & A7). change 41%Z with r_rparen in E7. rewrite E7.
      exists s7. auto.
  Qed.

  (** regular expressions *)
  Lemma regex_loop_at cs : ~ In 96%Z cs -> forall n s rest re, length cs < n ->
    At s (cs ++ [96]%Z ++ rest) re ->
    exists s', regex_loop input n s = Ret (cs, s') /\ At s' rest re.
  Proof.
    induction cs as [|c cs IH]; intros Hb n s rest re Hn HA; (destruct n as [|n]; [simpl in Hn; llia|]);
      cbn [regex_loop].
    - cbn [app] in HA. destruct (next_at _ _ _ HA) as (s' & N & A & _). rewrite N. exists s'. auto.
    - cbn [app] in HA. pose proof (at_good _ _ _ HA) as Hg. inversion Hg as [|? ? Hc _]; subst.
      destruct (next_at _ _ _ HA) as (s' & N & A & _). rewrite N. cbn [hd tl] in *.
      replace (Z.eqb c r_tick) with false
        by (symmetry; apply Z.eqb_neq; intros ->; apply Hb; left; reflexivity).
      rewrite (good_not_eof c Hc). simpl in Hn.
      destruct (IH (fun K => Hb (or_intror K)) n s' rest re ltac:(llia) A) as (s2 & E & A2).
      rewrite E. exists s2. auto.
  Qed.

  Definition put_all (re : list (string * string)) (l : list (string * string)) :=
    fold_left (fun m kv => put m (fst kv) (snd kv)) l re.

  Lemma read_term_at t l w s rest re : w_term letter digit regexp_ok md5 t l w -> At s (w ++ rest) re ->
    exists s', read_term input letter_hi digit_hi regexp_ok md5 fuel s = Ret (t, s')
               /\ At s' rest (put_all re l).
  Proof.
    intros Hw HA. unfold read_term.
    destruct (peek_at _ _ _ HA) as (s1 & E1 & A1). rewrite E1. cbn [bind].
    pose proof Hw as Hw0.
    inversion Hw as [x Hx|t' w' Hl|fl t' w' Hl Hf|m w' sp1 sp2 sp3 H1 H2 H3 Hr|x m w' sp1 sp2 sp3 sp4 Hx H1 H2 H3 H4 Hr
      |sp c cs h Hs Hc Hn Hok Hlen Hh]; subst; clear Hw.
    - cbn [app hd]. cbn [Z.eqb r_lt Pos.eqb]. rewrite <- !app_assoc in A1.
      destruct (bracketed_at 60%Z 62%Z x s1 rest re Hx eq_refl A1) as (s5 & E5 & A5).
      unfold nonterminal. change 60%Z with r_lt in E5. change 62%Z with r_gt in E5. rewrite E5. cbn [bind].
      exists s5. auto.
    - destruct (terminal_at "" t' w s1 rest re Hl A1) as (s2 & E2 & A2).
      assert (Hhd : hd eof (w ++ rest) = 34%Z) by (inversion Hl; reflexivity). rewrite Hhd.
      cbn [Z.eqb r_lt r_quote Pos.eqb]. rewrite E2. exists s2. auto.
    - destruct (terminal_at fl t' w s1 rest re Hl A1) as (s2 & E2 & A2).
      assert (Hhd : hd eof (w ++ rest) = 34%Z) by (inversion Hl; reflexivity). rewrite Hhd.
      cbn [Z.eqb r_lt r_quote Pos.eqb]. rewrite E2. cbn [bind].
      apply String.eqb_neq in Hf. rewrite Hf. exists s2. auto.
    - destruct (special_at _ _ s1 rest re Hw0 eq_refl A1) as (s2 & E2 & A2).
      cbn [app hd]. cbn [Z.eqb r_lt r_quote r_lparen Pos.eqb]. exists s2. auto.
    - destruct (special_at _ _ s1 rest re Hw0 eq_refl A1) as (s2 & E2 & A2).
      cbn [app hd]. cbn [Z.eqb r_lt r_quote r_lparen Pos.eqb]. exists s2. auto.
    - cbn [app hd]. cbn [Z.eqb r_lt r_quote r_lparen r_tick Pos.eqb]. unfold regex.
      cbn [app] in A1.
      destruct (eat_at _ _ _ _ A1) as (s2 & E2 & A2). change 96%Z with r_tick in E2. rewrite E2. cbn [bind].
      rewrite <- app_assoc in A2.
      destruct (ws_at sp s2 (c :: (cs ++ [96]%Z) ++ rest) re Hs A2 Hc) as (s3 & E3 & A3). rewrite E3. cbn [bind].
      rewrite <- app_assoc in A3. change (c :: cs ++ [96]%Z ++ rest) with ((c :: cs) ++ [96]%Z ++ rest) in A3.
      pose proof (at_length _ _ _ A3) as HL. rewrite app_length in HL.
      destruct (regex_loop_at (c :: cs) Hn fuel s3 rest re ltac:(llia) A3) as (s4 & E4 & A4).
      rewrite E4. cbn [bind]. rewrite Hok. cbn [negb].
      unfold slice. replace (Nat.leb 16 (String.length (md5 (encode (c :: cs))))) with true
        by (symmetry; apply Nat.leb_le; exact Hlen).
      cbn [andb Nat.leb]. change (16 - 0) with 16. cbn [bind].
      eexists. split; [reflexivity|].
      destruct A4 as [A4 R4]. split; [exact A4|]. cbn [rd_re]. rewrite R4. reflexivity.
  Qed.

  (** semantic functions *)
  Lemma name_loop_at w : forall n prev s rest re,
    Forall (fun c => name_char letter digit c \/ c = 46%Z) w ->
    (~ exists a b, prev :: w = a ++ [46; 46]%Z ++ b) ->
    nameb (hd eof rest) = false -> hd eof rest <> 46%Z -> length w < n -> At s (w ++ rest) re ->
    exists s', name_loop input letter_hi digit_hi n false prev s = Ret (w, s') /\ At s' rest re.
  Proof.
    induction w as [|c w IH]; intros n prev s rest re Hw Hd Hh Hh' Hn HA; (destruct n as [|n]; [simpl in Hn; llia|]);
      cbn [name_loop].
    - simpl in HA. destruct (next_at _ _ _ HA) as (s' & N & A & s'' & B & A').
      rewrite N. unfold nameb in Hh. cbn [negb]. rewrite !andb_true_r.
      apply Z.eqb_neq in Hh'. rewrite Hh. change r_dot with 46%Z. rewrite Hh'. cbn [andb orb]. rewrite B.
      exists s''. auto.
    - cbn [app] in HA. destruct (next_at _ _ _ HA) as (s' & N & A & _).
      rewrite N. cbn [hd tl] in *. cbn [negb]. rewrite !andb_true_r. inversion Hw as [|? ? Hc Hw']; subst.
      replace (letter c || Z.eqb c r_under || digit c || Z.eqb c r_dot && negb (Z.eqb prev r_dot)) with true.
      2:{ destruct Hc as [Hc| ->].
          - apply nameb_spec in Hc. unfold nameb in Hc. rewrite Hc. reflexivity.
          - symmetry. apply orb_true_iff. right. apply andb_true_iff. split; [reflexivity|].
            apply negb_true_iff, Z.eqb_neq. intros ->. apply Hd. exists [], w. reflexivity. }
      simpl in Hn.
      destruct (IH n c s' rest re Hw') as (s2 & E & A2); auto; [|llia|].
      { intros (a & b & K). apply Hd. exists (prev :: a), b. cbn [app]. rewrite K. reflexivity. }
      rewrite E. exists s2. auto.
  Qed.
  Lemma func_name_at fn sp s rest re : func_text letter digit fn -> spaces sp ->
    nameb (hd eof rest) = false -> hd eof rest <> 46%Z -> is_space (hd eof rest) = false ->
    At s (fn ++ sp ++ rest) re ->
    exists s', func_name input letter_hi digit_hi fuel s = Ret (encode fn, s') /\ At s' rest re.
  Proof.
    intros [Hf Hd] Hs Hh Hh' Hsp HA. destruct fn as [|c fn]; [destruct Hf|]. destruct Hf as [Hc Hf].
    pose proof (at_length _ _ _ HA) as HL. rewrite app_length in HL. simpl in HL.
    unfold func_name.
    destruct (name_first_facts letter_hi digit_hi Htab c Hc) as (_ & _ & Hc' & _).
    cbn [app] in HA. destruct (next_at _ _ _ HA) as (s' & N & A & _).
    assert (E : forall n, length fn + 1 < n ->
       exists s2, name_loop input letter_hi digit_hi n true eof s = Ret (c :: fn, s2)
                  /\ At s2 (sp ++ rest) re).
    { intros n Hn. destruct n as [|n]; [llia|]. cbn [name_loop]. rewrite N. cbn [hd tl] in *. rewrite Hc'. cbn [orb].
      destruct (name_loop_at fn n c s' (sp ++ rest) re Hf) as (s2 & E & A2); auto.
      - destruct Hs as [|x sp Hx _]; [exact Hh|apply space_not_name; exact Hx].
      - destruct Hs as [|x sp Hx _]; [exact Hh'|cbn [app hd]; intros ->; discriminate].
      - llia.
      - rewrite E. exists s2. auto. }
    destruct (E fuel ltac:(llia)) as (s2 & E2 & A2). rewrite E2. cbn [bind].
    destruct (ws_at sp s2 rest re Hs A2 Hsp) as (s3 & E3 & A3). rewrite E3. exists s3. auto.
  Qed.

  Lemma num_loop_digits ds : Forall (fun c => digit c = true) ds -> forall n dot s rest re,
    length ds < n -> At s (ds ++ rest) re ->
    exists s' n', num_loop input digit_hi n dot s
      = (' ((rs, d), s2) <- num_loop input digit_hi n' dot s' ;; Ret ((ds ++ rs, d), s2))
      /\ n - length ds = n' /\ At s' rest re.
  Proof.
    induction 1 as [|c ds Hc Hds IH]; intros n dot s rest re Hn HA; (destruct n as [|n]; [simpl in Hn; llia|]).
    - exists s, (S n). cbn [app length] in *. split; [|split; [llia|exact HA]].
      destruct (num_loop input digit_hi (S n) dot s) as [[[rs d] s2]| | |]; reflexivity.
    - cbn [num_loop app] in *. destruct (next_at _ _ _ HA) as (s' & N & A & _). rewrite N. cbn [hd tl] in *.
      rewrite Hc. simpl in Hn. destruct (IH n dot s' rest re ltac:(llia) A) as (s2 & n' & E & En & A2).
      exists s2, n'. rewrite E. split; [|split; [simpl; llia|exact A2]].
      destruct (num_loop input digit_hi n' dot s2) as [[[rs d] s3]| | |]; reflexivity.
  Qed.
  Lemma num_loop_end n dot s rest re : 0 < n -> digit (hd eof rest) = false -> hd eof rest <> 46%Z ->
    At s rest re ->
    exists s' s'', num_loop input digit_hi n dot s = Ret (([], dot), s') /\ backup s' = Ret s'' /\ At s'' rest re.
  Proof.
    intros Hn Hh Hh' HA. destruct n as [|n]; [llia|]. cbn [num_loop].
    destruct (next_at _ _ _ HA) as (s' & N & A & s'' & B & A'). rewrite N, Hh.
    apply Z.eqb_neq in Hh'. change r_dot with 46%Z. rewrite Hh'. exists s', s''. auto.
  Qed.

  Lemma scan_digits_decimal ds : decimals ds -> forall a,
    scan_digits 10 a ds = Ret (fold_left (fun a d => a * 10 + (d - 48))%Z ds a).
  Proof.
    induction 1 as [|d ds Hd _ IH]; intros a; cbn [scan_digits fold_left]; [reflexivity|].
    destruct (ascii_digit_digit digit_hi d Hd) as [_ D]. rewrite D.
    replace (d - 48 <? 10)%Z with true by (symmetry; apply Z.ltb_lt; llia). apply IH.
  Qed.
  Lemma scan_digits_octal ds rest : Forall (fun d => 48 <= d <= 55)%Z ds ->
    match rest with [] => True | c :: _ => (56 <= c <= 57)%Z end -> forall a,
    scan_digits 8 a (ds ++ rest) = Ret (fold_left (fun a d => a * 8 + (d - 48))%Z ds a).
  Proof.
    intros Hds Hr. induction Hds as [|d ds Hd _ IH]; intros a; cbn [scan_digits fold_left app].
    - destruct rest as [|c rest]; [reflexivity|]. cbn [scan_digits].
      destruct (ascii_digit_digit digit_hi c ltac:(llia)) as [_ D]. rewrite D.
      replace (c - 48 <? 8)%Z with false by (symmetry; apply Z.ltb_ge; llia). reflexivity.
    - destruct (ascii_digit_digit digit_hi d ltac:(llia)) as [_ D]. rewrite D.
      replace (d - 48 <? 8)%Z with true by (symmetry; apply Z.ltb_lt; llia). apply IH.
  Qed.
  Lemma scan_nat_literal ds z : int_literal digit ds z -> scan_nat ds = Ret z.
  Proof.
    intros [d ds' Hd Hz | ds' rest Ho Hr Hd Hne].
    - unfold scan_nat. destruct ds' as [|d' ds'].
      + apply (scan_digits_decimal [d] Hd 0).
      + destruct Hz as [Hz|Hz]; [|discriminate]. apply Z.eqb_neq in Hz. rewrite Hz.
        apply (scan_digits_decimal (d :: d' :: ds') Hd 0).
    - unfold scan_nat. destruct (ds' ++ rest) as [|c l] eqn:E; [congruence|].
      change (Z.eqb 48 48) with true. cbn match. cbn [tl]. rewrite <- E.
      apply scan_digits_octal; assumption.
  Qed.
  Lemma int_literal_digits ds z : int_literal digit ds z -> Forall (fun c => digit c = true) ds /\ ds <> [].
  Proof.
    intros [d ds' Hd Hz | ds' rest Ho Hr Hd Hne]; (split; [|discriminate]).
    - eapply Forall_impl; [|exact Hd]. intros a Ha. apply ascii_digit_digit. exact Ha.
    - constructor; [reflexivity|]. apply Forall_app. split; [|exact Hd].
      eapply Forall_impl; [|exact Ho]. intros a Ha. cbn beta in Ha. apply (ascii_digit_digit digit_hi a). llia.
  Qed.

  Lemma num_arg_int neg ds z s rest re : int_literal digit ds z ->
    digit (hd eof rest) = false -> hd eof rest <> 46%Z -> At s (ds ++ rest) re ->
    exists s', num_arg input digit_hi scan_float fuel neg s
               = Ret (Arg "int" (VInt (if neg then - z else z)%Z), s') /\ At s' rest re.
  Proof.
    intros Hz Hh Hh' HA. destruct (int_literal_digits ds z Hz) as [Hd Hne].
    pose proof (at_length _ _ _ HA) as HL. rewrite app_length in HL.
    unfold num_arg. destruct (num_loop_digits ds Hd fuel false s rest re ltac:(llia) HA) as (s1 & n1 & E1 & En & A1).
    destruct (num_loop_end n1 false s1 rest re ltac:(llia) Hh Hh' A1) as (s2 & s3 & E2 & B & A3).
    rewrite E1, E2. cbn [bind]. rewrite app_nil_r.
    destruct ds as [|d ds]; [congruence|]. rewrite B. cbn [bind].
    unfold scan_int. rewrite (scan_nat_literal _ _ Hz). cbn [bind]. exists s3. auto.
  Qed.
  Lemma num_arg_float (neg : bool) ds sign f s rest re : float_literal digit scan_float ds sign f ->
    sign = (if neg then "-" else "")%string ->
    digit (hd eof rest) = false -> hd eof rest <> 46%Z -> At s (ds ++ rest) re ->
    exists s', num_arg input digit_hi scan_float fuel neg s = Ret (Arg "float" (VFloat f), s') /\ At s' rest re.
  Proof.
    intros Hz Hsign Hh Hh' HA. destruct Hz as [ds ds' sign f Hd Hd' Hf]. subst sign.
    rewrite <- !app_assoc in HA. cbn [app] in HA.
    pose proof (at_length _ _ _ HA) as HL. rewrite app_length in HL. cbn [length] in HL. rewrite app_length in HL.
    unfold num_arg.
    destruct (num_loop_digits ds Hd fuel false s _ re ltac:(llia) HA) as (s1 & n1 & E1 & En & A1).
    assert (E1' : exists s2 s3, num_loop input digit_hi n1 false s1 = Ret ((46%Z :: ds', true), s2)
                  /\ backup s2 = Ret s3 /\ At s3 rest re).
    { destruct n1 as [|n1]; [llia|]. cbn [num_loop].
      destruct (skip_at _ _ _ _ A1) as (s4 & N4 & A4). rewrite N4.
      change (digit 46%Z) with false. change (Z.eqb 46 r_dot) with true. cbn match.
      destruct (num_loop_digits ds' Hd' n1 true s4 rest re ltac:(llia) A4) as (s5 & n5 & E5 & En5 & A5).
      destruct (num_loop_end n5 true s5 rest re ltac:(llia) Hh Hh' A5) as (s6 & s7 & E6 & B & A7).
      rewrite E5, E6. cbn [bind]. rewrite app_nil_r. exists s6, s7. auto. }
    destruct E1' as (s2 & s3 & E2 & B & A3). rewrite E1, E2. cbn [bind].
    destruct (ds ++ 46%Z :: ds') as [|x l] eqn:El; [destruct ds; discriminate|]. rewrite B. cbn [bind].
    rewrite <- El in *. cbn [app] in Hf.
    replace (encode (if neg then r_minus :: ds ++ 46%Z :: ds' else ds ++ 46%Z :: ds'))
      with ((if neg then "-" else "") ++ encode (ds ++ 46%Z :: ds'))%string.
    2:{ destruct neg; [|reflexivity]. reflexivity. }
    rewrite Hf. cbn [bind]. exists s3. auto.
  Qed.

  Local Notation args_loop' := (args_loop input letter_hi digit_hi scan_float fuel).

  Lemma space_not_digit x : is_space x = true -> digit x = false.
  Proof.
    intros Hx. apply not_true_false. intros K.
    apply (digit_not_space letter_hi digit_hi Htab) in K. congruence.
  Qed.

  (** what follows an argument: white space, then a comma or a parenthesis *)
  Lemma after_arg sp c rest : spaces sp -> c = 44%Z \/ c = 41%Z ->
    digit (hd eof (sp ++ c :: rest)) = false /\ hd eof (sp ++ c :: rest) <> 46%Z.
  Proof.
    intros Hs Hc. destruct Hs as [|x sp Hx _]; cbn [app hd].
    - destruct Hc as [-> | ->]; split; reflexivity || discriminate.
    - split; [apply space_not_digit; exact Hx|]. intros ->. discriminate.
  Qed.

  Lemma arg_head a w : w_arg letter digit scan_float a w -> w <> [] /\ is_space (hd eof w) = false
    /\ hd eof w <> 44%Z.
  Proof.
    intros [|ds z H|fl t w' H|ds z H|ds z H|d ds f Hd H|ds f H|f w' H].
    - repeat split; discriminate.
    - repeat split; discriminate.
    - inversion H; subst; repeat split; discriminate.
    - destruct (int_literal_digits _ _ H) as [Hd Hne]. destruct ds as [|d ds]; [congruence|].
      inversion Hd as [|? ? Hd' _]; subst. split; [discriminate|]. cbn [hd].
      split; [apply (digit_not_space letter_hi digit_hi Htab); exact Hd'|]. intros ->. discriminate.
    - repeat split; discriminate.
    - split; [discriminate|]. cbn [hd].
      split; [apply (digit_not_space letter_hi digit_hi Htab); exact Hd|]. intros ->. discriminate.
    - repeat split; discriminate.
    - destruct H as [fn sp l w0 [Hf _] _ _]. destruct fn as [|c fn]; [destruct Hf|]. destruct Hf as [Hc _].
      destruct (name_first_facts letter_hi digit_hi Htab c Hc) as (F1 & F2 & F3 & F4). cbn [app hd].
      split; [discriminate|]. split; [exact F1|]. llia.
  Qed.

  Lemma args_mutual :
    (forall a w, w_arg letter digit scan_float a w -> forall n s sp c rest re,
        length w <= n -> spaces sp -> c = 44%Z \/ c = 41%Z -> At s (w ++ sp ++ c :: rest) re ->
        exists s' sp', one_arg input letter_hi digit_hi scan_float fuel (args_loop' n) (hd eof w) s = Ret (a, s')
          /\ spaces sp' /\ At s' (sp' ++ c :: rest) re) /\
    (forall l w, w_args letter digit scan_float l w -> forall n s rest re,
        length w < n -> At s (w ++ 41%Z :: rest) re ->
        exists s', args_loop' n s = Ret (l, s') /\ At s' rest re) /\
    (forall f w, w_fmr letter digit scan_float f w -> forall n s sp0 sp rest re,
        length w <= n -> spaces sp0 -> spaces sp -> is_space (hd eof rest) = false ->
        At s (sp0 ++ w ++ sp ++ rest) re ->
        exists s', semantic_with input letter_hi digit_hi fuel (args_loop' n) s = Ret (f, s')
          /\ At s' rest re).
  Proof.
    apply w_arg_mutind.
    - (* context *) intros n s sp c rest re Hn Hs Hc HA. cbn [hd]. unfold one_arg.
      change (Z.eqb 64 r_at) with true. cbn match. cbn [app] in HA.
      destruct (eat_at _ _ _ _ HA) as (s1 & E1 & A1). change 64%Z with r_at in E1. rewrite E1.
      exists s1, sp. auto.
    - (* index *) intros ds z Hz n s sp c rest re Hn Hs Hc HA. cbn [hd app] in *. unfold one_arg.
      change (Z.eqb 36 r_at) with false. change (Z.eqb 36 r_dollar) with true. cbn match.
      destruct (eat_at _ _ _ _ HA) as (s1 & E1 & A1). change 36%Z with r_dollar in E1. rewrite E1. cbn [bind].
      destruct (get_int_at ds z s1 _ re Hz A1) as (s2 & E2 & A2); [apply after_arg; assumption|].
      rewrite E2. exists s2, sp. auto.
    - (* string *) intros fl t w Hl n s sp c rest re Hn Hs Hc HA.
      assert (Hhd : hd eof w = 34%Z) by (inversion Hl; reflexivity). rewrite Hhd. unfold one_arg.
      change (Z.eqb 34 r_at) with false. change (Z.eqb 34 r_dollar) with false.
      change (Z.eqb 34 r_quote) with true. cbn match.
      destruct (terminal_at fl t w s _ re Hl HA) as (s1 & E1 & A1). rewrite E1. exists s1, sp. auto.
    - (* integer *) intros ds z Hz n s sp c rest re Hn Hs Hc HA.
      destruct (int_literal_digits _ _ Hz) as [Hd Hne]. destruct ds as [|d ds]; [congruence|].
      inversion Hd as [|? ? Hd' _]; subst. cbn [hd]. unfold one_arg.
      pose proof (digit_cases digit_hi d Hd') as Hdc. unfold r_at, r_dollar, r_quote.
      replace (Z.eqb d 64) with false by (symmetry; apply Z.eqb_neq; llia).
      replace (Z.eqb d 36) with false by (symmetry; apply Z.eqb_neq; llia).
      replace (Z.eqb d 34) with false by (symmetry; apply Z.eqb_neq; llia). rewrite Hd'.
      destruct (after_arg sp c rest Hs Hc) as [F1 F2].
      destruct (num_arg_int false (d :: ds) z s _ re Hz F1 F2 HA) as (s1 & E1 & A1). rewrite E1.
      exists s1, sp. auto.
    - (* negative integer *) intros ds z Hz n s sp c rest re Hn Hs Hc HA. cbn [hd app] in *. unfold one_arg.
      change (Z.eqb 45 r_at) with false. change (Z.eqb 45 r_dollar) with false.
      change (Z.eqb 45 r_quote) with false. change (digit 45%Z) with false.
      change (Z.eqb 45 r_minus) with true. cbn match.
      destruct (eat_at _ _ _ _ HA) as (s1 & E1 & A1). change 45%Z with r_minus in E1. rewrite E1. cbn [bind].
      destruct (after_arg sp c rest Hs Hc) as [F1 F2].
      destruct (num_arg_int true ds z s1 _ re Hz F1 F2 A1) as (s2 & E2 & A2). rewrite E2.
      exists s2, sp. auto.
    - (* float *) intros d ds f Hd' Hf n s sp c rest re Hn Hs Hc HA. cbn [hd]. unfold one_arg.
      pose proof (digit_cases digit_hi d Hd') as Hdc. unfold r_at, r_dollar, r_quote.
      replace (Z.eqb d 64) with false by (symmetry; apply Z.eqb_neq; llia).
      replace (Z.eqb d 36) with false by (symmetry; apply Z.eqb_neq; llia).
      replace (Z.eqb d 34) with false by (symmetry; apply Z.eqb_neq; llia). rewrite Hd'.
      destruct (after_arg sp c rest Hs Hc) as [F1 F2].
      destruct (num_arg_float false (d :: ds) "" f s _ re Hf eq_refl F1 F2 HA) as (s1 & E1 & A1). rewrite E1.
      exists s1, sp. auto.
    - (* negative float *) intros ds f Hf n s sp c rest re Hn Hs Hc HA. cbn [hd app] in *. unfold one_arg.
      change (Z.eqb 45 r_at) with false. change (Z.eqb 45 r_dollar) with false.
      change (Z.eqb 45 r_quote) with false. change (digit 45%Z) with false.
      change (Z.eqb 45 r_minus) with true. cbn match.
      destruct (eat_at _ _ _ _ HA) as (s1 & E1 & A1). change 45%Z with r_minus in E1. rewrite E1. cbn [bind].
      destruct (after_arg sp c rest Hs Hc) as [F1 F2].
      destruct (num_arg_float true ds "-" f s1 _ re Hf eq_refl F1 F2 A1) as (s2 & E2 & A2). rewrite E2.
      exists s2, sp. auto.
    - (* function *) intros f w Hf IH n s sp c rest re Hn Hs Hc HA.
      assert (Hhd : exists x, hd eof w = x /\ name_first letter x).
      { destruct Hf as [fn sp' l w0 [Hfn _] _ _]. destruct fn as [|x fn]; [destruct Hfn|].
        exists x. split; [reflexivity|apply Hfn]. }
      destruct Hhd as (x & Hhd & Hx). rewrite Hhd.
      destruct (name_first_facts letter_hi digit_hi Htab x Hx) as (F1 & F2 & F3 & F4).
      unfold one_arg, r_at, r_dollar, r_quote, r_minus.
      replace (Z.eqb x 64) with false by (symmetry; apply Z.eqb_neq; llia).
      replace (Z.eqb x 36) with false by (symmetry; apply Z.eqb_neq; llia).
      replace (Z.eqb x 34) with false by (symmetry; apply Z.eqb_neq; llia). rewrite F2.
      replace (Z.eqb x 45) with false by (symmetry; apply Z.eqb_neq; llia).
      destruct (IH n s [] sp (c :: rest) re ltac:(llia) ltac:(constructor) Hs) as (s1 & E1 & A1); [|exact HA|].
      { cbn [hd]. destruct Hc as [-> | ->]; reflexivity. }
      rewrite E1. exists s1, []. split; [reflexivity|]. split; [constructor|exact A1].
    - (* last argument *) intros a sp1 w sp2 H1 Ha IH H2 n s rest re Hn HA.
      destruct n as [|n]; [llia|]. cbn [args_loop]. rewrite <- !app_assoc in HA.
      destruct (arg_head a w Ha) as (G1 & G2 & G3).
      assert (Hhd : forall r : list rune, hd eof (w ++ r) = hd eof w)
        by (intros r; destruct w; [congruence|reflexivity]).
      destruct (ws_at sp1 s _ re H1 HA) as (s1 & E1 & A1); [exact (eq_trans (f_equal is_space (Hhd _)) G2)|]. rewrite E1. cbn [bind].
      destruct (peek_at _ _ _ A1) as (s2 & E2 & A2).
      assert (E2' : peek input s1 = Ret (hd eof w, s2)) by (rewrite E2; do 2 f_equal; apply Hhd).
      rewrite E2'. cbn [bind].
      rewrite !app_length in Hn.
      destruct (IH n s2 sp2 41%Z rest re ltac:(llia) H2 ltac:(auto) A2) as (s3 & sp' & E3 & S3 & A3).
      rewrite E3. cbn [bind]. apply Z.eqb_neq in G3. change r_comma with 44%Z. rewrite G3.
      destruct (ws_at sp' s3 _ re S3 A3 eq_refl) as (s4 & E4 & A4). rewrite E4. cbn [bind].
      destruct (skip_at _ _ _ _ A4) as (s5 & E5 & A5). rewrite E5.
      change (Z.eqb 41 44) with false. change (Z.eqb 41 r_rparen) with true. cbn match.
      exists s5. auto.
    - (* more arguments *) intros a sp1 w sp2 l w' H1 Ha IH H2 Hl IHl n s rest re Hn HA.
      destruct n as [|n]; [llia|]. cbn [args_loop]. rewrite <- !app_assoc in HA. cbn [app] in HA.
      destruct (arg_head a w Ha) as (G1 & G2 & G3).
      assert (Hhd : forall r : list rune, hd eof (w ++ r) = hd eof w)
        by (intros r; destruct w; [congruence|reflexivity]).
      destruct (ws_at sp1 s _ re H1 HA) as (s1 & E1 & A1); [exact (eq_trans (f_equal is_space (Hhd _)) G2)|]. rewrite E1. cbn [bind].
      destruct (peek_at _ _ _ A1) as (s2 & E2 & A2).
      assert (E2' : peek input s1 = Ret (hd eof w, s2)) by (rewrite E2; do 2 f_equal; apply Hhd).
      rewrite E2'. cbn [bind].
      rewrite !app_length in Hn. cbn [length] in Hn.
      destruct (IH n s2 sp2 44%Z (w' ++ 41%Z :: rest) re ltac:(llia) H2 ltac:(auto) A2) as (s3 & sp' & E3 & S3 & A3).
      rewrite E3. cbn [bind]. apply Z.eqb_neq in G3. change r_comma with 44%Z. rewrite G3.
      destruct (ws_at sp' s3 _ re S3 A3 eq_refl) as (s4 & E4 & A4). rewrite E4. cbn [bind].
      destruct (skip_at _ _ _ _ A4) as (s5 & E5 & A5). rewrite E5.
      change (Z.eqb 44 44) with true. cbn match.
      destruct (IHl n s5 rest re ltac:(llia) A5) as (s6 & E6 & A6). rewrite E6. exists s6. auto.
    - (* function *) intros fn sp1 l w Hfn H1 Hl IHl n s sp0 sp rest re Hn H0 Hs Hh HA.
      unfold semantic_with. rewrite <- !app_assoc in HA. cbn [app] in HA.
      assert (Hsp : is_space (hd eof (fn ++ sp1 ++ 40%Z :: w ++ 41%Z :: sp ++ rest)) = false).
      { destruct Hfn as [Hfn _]. destruct fn as [|x fn]; [destruct Hfn|]. cbn [app hd].
        apply (name_first_facts letter_hi digit_hi Htab x). apply Hfn. }
      destruct (ws_at sp0 s _ re H0 HA Hsp) as (s1 & E1 & A1). rewrite E1. cbn [bind].
      destruct (func_name_at fn sp1 s1 (40%Z :: w ++ 41%Z :: sp ++ rest) re Hfn H1 eq_refl ltac:(discriminate) eq_refl A1)
        as (s2 & E2 & A2). rewrite E2. cbn [bind].
      destruct (eat_at _ _ _ _ A2) as (s3 & E3 & A3). change 40%Z with r_lparen in E3. rewrite E3. cbn [bind].
      rewrite !app_length in Hn. cbn [length] in Hn.
      destruct (IHl n s3 (sp ++ rest) re ltac:(llia) A3) as (s4 & E4 & A4). rewrite E4. cbn [bind].
      destruct (ws_at sp s4 rest re Hs A4 Hh) as (s5 & E5 & A5). rewrite E5. exists s5. auto.
  Qed.

  Lemma semantic_fn_at f w s sp1 sp2 rest re : w_fmr letter digit scan_float f w ->
    spaces sp1 -> spaces sp2 -> is_space (hd eof rest) = false ->
    At s (sp1 ++ w ++ sp2 ++ rest) re ->
    exists s', semantic_fn input letter_hi digit_hi scan_float fuel s = Ret (f, s') /\ At s' rest re.
  Proof.
    intros Hf H1 H2 Hh HA. unfold semantic_fn.
    pose proof (at_length _ _ _ HA) as HL. rewrite !app_length in HL.
    apply (proj2 (proj2 args_mutual) f w Hf fuel s sp1 sp2 rest re); auto. llia.
  Qed.

  (** rule bodies *)
  Local Notation rt := (read_term input letter_hi digit_hi regexp_ok md5 fuel).

  Lemma put_all_app re a b : put_all re (a ++ b) = put_all (put_all re a) b.
  Proof. apply fold_left_app. Qed.

  Lemma term_head t l w : w_term letter digit regexp_ok md5 t l w ->
    w <> [] /\ starts_term (hd eof w) = true /\ ends_gap (hd eof w).
  Proof.
    intros [x Hx|t' w' Hl|fl t' w' Hl Hf|m w' sp1 sp2 sp3 H1 H2 H3 Hr|x m w' sp1 sp2 sp3 sp4 Hx H1 H2 H3 H4 Hr
      |sp c cs h Hs Hc Hn Hok Hlen Hh];
    try (split; [discriminate|]; split; [reflexivity|split; [reflexivity|discriminate]]).
    - inversion Hl; subst; (split; [discriminate|]; split; [reflexivity|split; [reflexivity|discriminate]]).
    - inversion Hl; subst; (split; [discriminate|]; split; [reflexivity|split; [reflexivity|discriminate]]).
  Qed.
  Lemma terms_head ts l w : w_terms letter digit regexp_ok md5 ts l w ->
    w <> [] /\ starts_term (hd eof w) = true /\ ends_gap (hd eof w).
  Proof.
    intros [t re w' g Ht Hg | t re w' g ts' re' w'' Ht Hg Hts];
      destruct (term_head _ _ _ Ht) as (G1 & G2 & G3); destruct w' as [|x w']; try congruence;
      (split; [discriminate|]); split; assumption.
  Qed.
  Lemma hd_app (w r : list rune) : w <> [] -> hd eof (w ++ r) = hd eof w.
  Proof. destruct w; [congruence|reflexivity]. Qed.

  Definition ends_terms (c : rune) : Prop := starts_term c = false /\ ends_gap c.

  (** one or more terms with the gaps after them; [terms_loop] is called after
      the first term and its gap *)
  Lemma terms_at ts l w : w_terms letter digit regexp_ok md5 ts l w -> forall n s rest re,
    ends_terms (hd eof rest) -> length w < n -> At s (w ++ rest) re ->
    exists s', terms_loop input letter_hi digit_hi regexp_ok md5 fuel n s = Ret (ts, s')
               /\ At s' rest (put_all re l).
  Proof.
    induction 1 as [t l w g Ht Hg | t l w g ts l' w' Ht Hg Hts IH]; intros n s rest re [He1 He2] Hn HA;
      (destruct n as [|n]; [llia|]); cbn [terms_loop]; rewrite <- !app_assoc in HA;
      destruct (term_head _ _ _ Ht) as (G1 & G2 & G3); rewrite !app_length in Hn.
    - destruct (comments_none s (w ++ g ++ rest) re) as (s1 & E1 & A1);
        [rewrite (hd_app w _ G1); exact G3|exact HA|]. rewrite E1. cbn [bind].
      destruct (peek_at _ _ _ A1) as (s2 & E2 & A2). rewrite E2. cbn [bind].
      rewrite (hd_app w _ G1), G2. cbn [negb].
      destruct (read_term_at t l w s2 (g ++ rest) re Ht A2) as (s3 & E3 & A3). rewrite E3. cbn [bind].
      destruct (comments_at g s3 rest _ Hg He2 A3) as (s4 & E4 & A4). rewrite E4. cbn [bind].
      assert (E5 : exists s5, terms_loop input letter_hi digit_hi regexp_ok md5 fuel n s4 = Ret ([], s5)
                   /\ At s5 rest (put_all re l)).
      { destruct n as [|n]; [destruct w; [congruence|simpl in Hn; llia]|]. cbn [terms_loop].
        destruct (comments_none s4 rest _ He2 A4) as (s5 & E5 & A5). rewrite E5. cbn [bind].
        destruct (peek_at _ _ _ A5) as (s6 & E6 & A6). rewrite E6. cbn [bind]. rewrite He1. exists s6. auto. }
      destruct E5 as (s5 & E5 & A5). rewrite E5. exists s5. auto.
    - destruct (comments_none s (w ++ g ++ w' ++ rest) re) as (s1 & E1 & A1);
        [rewrite (hd_app w _ G1); exact G3|exact HA|]. rewrite E1. cbn [bind].
      destruct (peek_at _ _ _ A1) as (s2 & E2 & A2). rewrite E2. cbn [bind].
      rewrite (hd_app w _ G1), G2. cbn [negb].
      destruct (read_term_at t l w s2 (g ++ w' ++ rest) re Ht A2) as (s3 & E3 & A3). rewrite E3. cbn [bind].
      destruct (terms_head _ _ _ Hts) as (G4 & G5 & G6).
      destruct (comments_at g s3 (w' ++ rest) _ Hg ltac:(rewrite (hd_app w' _ G4); exact G6) A3) as (s4 & E4 & A4).
      rewrite E4. cbn [bind].
      destruct (IH n s4 rest (put_all re l)) as (s5 & E5 & A5); [split; assumption| |exact A4|].
      { destruct w; [congruence|simpl in Hn; llia]. }
      rewrite E5. exists s5. rewrite put_all_app. auto.
  Qed.

  (** the same with the first term read separately, as in ruleBody *)
  Lemma first_terms_at ts l w s rest re : w_terms letter digit regexp_ok md5 ts l w ->
    ends_terms (hd eof rest) -> At s (w ++ rest) re ->
    exists t ts' s1 s2 s', ts = t :: ts' /\ rt s = Ret (t, s1) /\ comments input fuel s1 = Ret s2
      /\ terms_loop input letter_hi digit_hi regexp_ok md5 fuel fuel s2 = Ret (ts', s')
      /\ At s' rest (put_all re l).
  Proof.
    intros Hts [He1 He2] HA. pose proof (at_length _ _ _ HA) as HL. rewrite app_length in HL.
    destruct Hts as [t l w g Ht Hg | t l w g ts l' w' Ht Hg Hts]; rewrite <- !app_assoc in HA.
    - destruct (read_term_at t l w s _ re Ht HA) as (s1 & E1 & A1).
      destruct (comments_at g s1 rest _ Hg He2 A1) as (s2 & E2 & A2).
      assert (E5 : forall n, 0 < n -> exists s5, terms_loop input letter_hi digit_hi regexp_ok md5 fuel n s2 = Ret ([], s5)
                   /\ At s5 rest (put_all re l)).
      { intros n Hn. destruct n as [|n]; [llia|]. cbn [terms_loop].
        destruct (comments_none s2 rest _ He2 A2) as (s5 & E5 & A5). rewrite E5. cbn [bind].
        destruct (peek_at _ _ _ A5) as (s6 & E6 & A6). rewrite E6. cbn [bind]. rewrite He1. exists s6. auto. }
      destruct (E5 fuel ltac:(llia)) as (s5 & E5' & A5).
      exists t, [], s1, s2, s5. auto.
    - destruct (read_term_at t l w s _ re Ht HA) as (s1 & E1 & A1).
      destruct (terms_head _ _ _ Hts) as (G4 & G5 & G6).
      destruct (comments_at g s1 (w' ++ rest) _ Hg ltac:(rewrite (hd_app w' _ G4); exact G6) A1) as (s2 & E2 & A2).
      rewrite !app_length in HL.
      destruct (terms_at ts l' w' Hts fuel s2 rest (put_all re l)) as (s5 & E5 & A5);
        [split; assumption|llia|exact A2|].
      exists t, ts, s1, s2, s5. rewrite put_all_app. auto.
  Qed.

  Definition ends_body (c : rune) : Prop := ends_terms c /\ c <> 123%Z.

  Lemma rule_body_at b l w s rest re : w_body letter digit scan_float regexp_ok md5 b l w ->
    ends_body (hd eof rest) -> At s (w ++ rest) re ->
    exists s', rule_body input letter_hi digit_hi scan_float regexp_ok md5 fuel s = Ret (b, s')
      /\ At s' rest (put_all re l).
  Proof.
    intros Hb [He1 He2] HA. unfold rule_body.
    destruct Hb as [ts l w Hts | ts l w sp1 f wf sp2 g Hts H1 Hf H2 Hg].
    - destruct (first_terms_at ts l w s rest re Hts He1 HA) as (t & ts' & s1 & s2 & s3 & -> & E1 & E2 & E3 & A3).
      rewrite E1. cbn [bind]. rewrite E2. cbn [bind]. rewrite E3. cbn [bind].
      destruct (peek_at _ _ _ A3) as (s4 & E4 & A4). rewrite E4. cbn [bind].
      apply Z.eqb_neq in He2. change r_lbrace with 123%Z. rewrite He2. exists s4. auto.
    - rewrite <- !app_assoc in HA. cbn [app] in HA.
      destruct (first_terms_at ts l w s (123%Z :: sp1 ++ wf ++ sp2 ++ 125%Z :: g ++ rest) re Hts) as
          (t & ts' & s1 & s2 & s3 & -> & E1 & E2 & E3 & A3).
      { split; [reflexivity|]. split; [reflexivity|discriminate]. }
      { exact HA. }
      rewrite E1. cbn [bind]. rewrite E2. cbn [bind]. rewrite E3. cbn [bind].
      destruct (peek_at _ _ _ A3) as (s4 & E4 & A4). rewrite E4. cbn [bind hd].
      change (Z.eqb 123 r_lbrace) with true. cbn match.
      destruct (skip_at _ _ _ _ A4) as (s5 & E5 & A5). rewrite E5.
      destruct (semantic_fn_at f wf s5 sp1 sp2 (125%Z :: g ++ rest) _ Hf H1 H2 eq_refl A5) as (s6 & E6 & A6).
      rewrite E6. cbn [bind].
      destruct (eat_at _ _ _ _ A6) as (s7 & E7 & A7). change 125%Z with r_rbrace in E7. rewrite E7. cbn [bind].
      destruct He1 as [He1 He1'].
      destruct (comments_at g s7 rest _ Hg He1' A7) as (s8 & E8 & A8). rewrite E8. exists s8. auto.
  Qed.

  Lemma body_head b l w : w_body letter digit scan_float regexp_ok md5 b l w ->
    w <> [] /\ ends_gap (hd eof w).
  Proof.
    intros [ts l' w' Hts | ts l' w' sp1 f wf sp2 g Hts _ _ _ _];
      destruct (terms_head _ _ _ Hts) as (G1 & G2 & G3); [auto|].
    destruct w' as [|x w']; [congruence|]. split; [discriminate|exact G3].
  Qed.
  Lemma bodies_head b l w : w_bodies letter digit scan_float regexp_ok md5 b l w ->
    w <> [] /\ ends_gap (hd eof w).
  Proof.
    intros [b' l' w' Hb | b' l' w' g bs l'' w'' Hb _ _]; destruct (body_head _ _ _ Hb) as (G1 & G2); [auto|].
    destruct w' as [|x w']; [congruence|]. split; [discriminate|exact G2].
  Qed.

  Definition put_bodies (m : list (N * rulebody)) (bs : list rulebody) : list (N * rulebody) :=
    fold_left (fun m b => put_N m (hash b) b) bs m.

  (** the alternatives after a bar *)
  Lemma bodies_at bs l w : w_bodies letter digit scan_float regexp_ok md5 bs l w -> forall n m s rest re,
    length w < n -> (exists g, gap g /\ At s (124%Z :: g ++ w ++ 59%Z :: rest) re) ->
    exists s', bodies_loop input letter_hi digit_hi scan_float regexp_ok md5 hash fuel n m s
               = Ret (put_bodies m bs, s') /\ At s' (59%Z :: rest) (put_all re l).
  Proof.
    induction 1 as [b l w Hb | b l w g bs l' w' Hb Hg Hbs IH]; intros n m s rest re Hn HA;
      (destruct n as [|n]; [llia|]); cbn [bodies_loop];
      destruct HA as (g0 & Hg0 & HA);
      destruct (body_head _ _ _ Hb) as (G1 & G2).
    - destruct (peek_at _ _ _ HA) as (s1 & E1 & A1). rewrite E1. cbn [bind hd].
      change (Z.eqb 124 r_bar) with true. cbn [negb].
      destruct (skip_at _ _ _ _ A1) as (s2 & E2 & A2). rewrite E2.
      destruct (comments_at g0 s2 (w ++ 59%Z :: rest) re Hg0 ltac:(rewrite (hd_app w _ G1); exact G2) A2) as (s3 & E3 & A3).
      rewrite E3. cbn [bind].
      destruct (rule_body_at b l w s3 (59%Z :: rest) re Hb) as (s4 & E4 & A4); [|exact A3|].
      { split; [split; [reflexivity|split; [reflexivity|discriminate]]|discriminate]. }
      rewrite E4. cbn [bind].
      destruct n as [|n]; [destruct w; [congruence|simpl in Hn; llia]|]. cbn [bodies_loop].
      destruct (peek_at _ _ _ A4) as (s5 & E5 & A5). rewrite E5. cbn [bind hd].
      change (Z.eqb 59 r_bar) with false. cbn [negb]. exists s5. auto.
    - rewrite <- !app_assoc in HA. cbn [app] in HA.
      destruct (peek_at _ _ _ HA) as (s1 & E1 & A1). rewrite E1. cbn [bind hd].
      change (Z.eqb 124 r_bar) with true. cbn [negb].
      destruct (skip_at _ _ _ _ A1) as (s2 & E2 & A2). rewrite E2.
      destruct (comments_at g0 s2 (w ++ 124%Z :: g ++ w' ++ 59%Z :: rest) re Hg0
                  ltac:(rewrite (hd_app w _ G1); exact G2) A2) as (s3 & E3 & A3).
      rewrite E3. cbn [bind].
      destruct (rule_body_at b l w s3 (124%Z :: g ++ w' ++ 59%Z :: rest) re Hb) as (s4 & E4 & A4); [|exact A3|].
      { split; [split; [reflexivity|split; [reflexivity|discriminate]]|discriminate]. }
      rewrite E4. cbn [bind]. rewrite !app_length in Hn.
      destruct (IH n (put_N m (hash b) b) s4 rest (put_all re l)) as (s5 & E5 & A5).
      { destruct w; [congruence|simpl in Hn; llia]. }
      { exists g. auto. }
      rewrite E5. exists s5. rewrite put_all_app. auto.
  Qed.

  Lemma rule_bodies_at bs l w s rest re : w_bodies letter digit scan_float regexp_ok md5 bs l w ->
    At s (w ++ 59%Z :: rest) re ->
    exists s', rule_bodies input letter_hi digit_hi scan_float regexp_ok md5 hash fuel s
               = Ret (put_bodies [] bs, s') /\ At s' (59%Z :: rest) (put_all re l).
  Proof.
    intros Hb HA. unfold rule_bodies. pose proof (at_length _ _ _ HA) as HL. rewrite app_length in HL.
    destruct Hb as [b l w Hb | b l w g bs l' w' Hb Hg Hbs].
    - destruct (rule_body_at b l w s (59%Z :: rest) re Hb) as (s1 & E1 & A1); [|exact HA|].
      { split; [split; [reflexivity|split; [reflexivity|discriminate]]|discriminate]. }
      rewrite E1. cbn [bind].
      assert (K : forall n, 0 < n -> exists s5,
        bodies_loop input letter_hi digit_hi scan_float regexp_ok md5 hash fuel n [(hash b, b)] s1
        = Ret ([(hash b, b)], s5) /\ At s5 (59%Z :: rest) (put_all re l)).
      { intros n Hn. destruct n as [|n]; [llia|]. cbn [bodies_loop].
        destruct (peek_at _ _ _ A1) as (s5 & E5 & A5). rewrite E5. cbn [bind hd].
        change (Z.eqb 59 r_bar) with false. cbn [negb]. exists s5. auto. }
      apply K. llia.
    - rewrite <- !app_assoc in HA. cbn [app] in HA. rewrite !app_length in HL.
      destruct (rule_body_at b l w s (124%Z :: g ++ w' ++ 59%Z :: rest) re Hb) as (s1 & E1 & A1); [|exact HA|].
      { split; [split; [reflexivity|split; [reflexivity|discriminate]]|discriminate]. }
      rewrite E1. cbn [bind].
      destruct (bodies_at bs l' w' Hbs fuel [(hash b, b)] s1 rest (put_all re l)) as (s2 & E2 & A2).
      { llia. }
      { exists g. auto. }
      rewrite E2. exists s2. rewrite put_all_app. auto.
  Qed.

  Definition item_rule (it : item) : rule := mkRule (it_name it) (put_bodies [] (it_bodies it)).
  Definition item_char (it : item) : rune := if it_frame it then r_lbrack else r_lt.

  Lemma read_rule_at it l w s rest re : w_item letter digit scan_float regexp_ok md5 it l w ->
    At s (w ++ rest) re ->
    exists s', read_rule input letter_hi digit_hi scan_float regexp_ok md5 hash fuel (item_char it) s
               = Ret (item_rule it, s') /\ At s' rest (put_all re l).
  Proof.
    intros Hit HA. unfold read_rule.
    assert (K : forall x g1 g2 bs l w s1, gap g1 -> gap g2 -> w_bodies letter digit scan_float regexp_ok md5 bs l w ->
       At s1 (g1 ++ 61%Z :: g2 ++ w ++ 59%Z :: rest) re ->
       exists s', (s <- comments input fuel s1 ;; s <- eat input r_eq s ;; s <- comments input fuel s ;;
                   ' (m, s) <- rule_bodies input letter_hi digit_hi scan_float regexp_ok md5 hash fuel s ;;
                   s <- eat input r_semi s ;; Ret (mkRule x m, s))
                  = Ret (mkRule x (put_bodies [] bs), s') /\ At s' rest (put_all re l)).
    { intros x g1 g2 bs l' w' s1 H1 H2 Hb A1.
      destruct (comments_at g1 s1 (61%Z :: g2 ++ w' ++ 59%Z :: rest) re H1) as (s2 & E2 & A2);
        [split; [reflexivity|discriminate]|exact A1|]. rewrite E2. cbn [bind].
      destruct (eat_at _ _ _ _ A2) as (s3 & E3 & A3). change 61%Z with r_eq in E3. rewrite E3. cbn [bind].
      destruct (bodies_head _ _ _ Hb) as (G1 & G2).
      destruct (comments_at g2 s3 (w' ++ 59%Z :: rest) re H2 ltac:(rewrite (hd_app w' _ G1); exact G2) A3) as (s4 & E4 & A4).
      rewrite E4. cbn [bind].
      destruct (rule_bodies_at bs l' w' s4 rest re Hb A4) as (s5 & E5 & A5). rewrite E5. cbn [bind].
      destruct (eat_at _ _ _ _ A5) as (s6 & E6 & A6). change 59%Z with r_semi in E6. rewrite E6. exists s6. auto. }
    destruct Hit as [x g1 g2 bs l w Hx H1 H2 Hb | x g1 g2 bs l w Hx H1 H2 Hb];
      rewrite <- !app_assoc in HA; cbn [app] in HA; unfold item_char; cbn [it_frame];
      cbn [Z.eqb Pos.eqb r_lt r_lbrack].
    - destruct (bracketed_at 60%Z 62%Z x s _ re Hx eq_refl HA) as (s1 & E1 & A1).
      unfold nonterminal. change 60%Z with r_lt in E1. change 62%Z with r_gt in E1. rewrite E1. cbn [bind].
      apply (K (encode x) g1 g2 bs l w s1); auto.
    - destruct (bracketed_at 91%Z 93%Z x s _ re Hx eq_refl HA) as (s1 & E1 & A1).
      unfold frame_name. change 91%Z with r_lbrack in E1. change 93%Z with r_rbrack in E1. rewrite E1. cbn [bind].
      apply (K (encode x) g1 g2 bs l w s1); auto.
  Qed.

  Definition add_items (frame : bool) (m : list (string * rule)) (l : list item) : list (string * rule) :=
    fold_left (fun m it => if Bool.eqb (it_frame it) frame then add_rule m (item_rule it) else m) l m.

  Lemma item_head it l w : w_item letter digit scan_float regexp_ok md5 it l w ->
    w <> [] /\ hd eof w = item_char it.
  Proof. intros []; (split; [discriminate|reflexivity]). Qed.
  Lemma item_char_cases it : (Z.eqb (item_char it) r_lt || Z.eqb (item_char it) r_lbrack) = true
    /\ Z.eqb (item_char it) r_lbrack = it_frame it /\ ends_gap (item_char it).
  Proof.
    unfold item_char. destruct (it_frame it); (split; [reflexivity|split; [reflexivity|]]);
      split; reflexivity || discriminate.
  Qed.

  Lemma rules_loop_at its l w : w_items letter digit scan_float regexp_ok md5 its l w -> forall n rules frames s re,
    length w < n -> At s w re ->
    exists s', rules_loop input letter_hi digit_hi scan_float regexp_ok md5 hash fuel n rules frames s
      = Ret ((add_items false rules its, add_items true frames its), s') /\ At s' [] (put_all re l).
  Proof.
    induction 1 as [g Hg | g it l w its l' w' Hg Hit Hits IH]; intros n rules frames s re Hn HA;
      (destruct n as [|n]; [llia|]); cbn [rules_loop].
    - rewrite <- (app_nil_r g) in HA.
      destruct (comments_at g s [] re Hg ltac:(split; [reflexivity|discriminate]) HA) as (s1 & E1 & A1).
      rewrite E1. cbn [bind]. destruct (peek_at _ _ _ A1) as (s2 & E2 & A2). rewrite E2. cbn [bind hd].
      change (Z.eqb eof r_lt || Z.eqb eof r_lbrack) with false. cbn [negb]. exists s2. auto.
    - destruct (item_head _ _ _ Hit) as (G1 & G2). destruct (item_char_cases it) as (C1 & C2 & C3).
      rewrite !app_length in Hn.
      destruct (comments_at g s (w ++ w') re Hg ltac:(rewrite (hd_app w _ G1), G2; exact C3) HA) as (s1 & E1 & A1).
      rewrite E1. cbn [bind]. destruct (peek_at _ _ _ A1) as (s2 & E2 & A2). rewrite E2. cbn [bind].
      rewrite (hd_app w _ G1), G2, C1, C2. cbn [negb].
      destruct (read_rule_at it l w s2 w' re Hit A2) as (s3 & E3 & A3). rewrite E3. cbn [bind].
      assert (Hn' : length w' < n) by (destruct w; [congruence|simpl in Hn; llia]).
      unfold add_items. cbn [fold_left].
      destruct (it_frame it); cbn [Bool.eqb].
      + destruct (IH n rules (add_rule frames (item_rule it)) s3 (put_all re l) Hn' A3) as (s4 & E4 & A4).
        rewrite E4. exists s4. rewrite put_all_app. auto.
      + destruct (IH n (add_rule rules (item_rule it)) frames s3 (put_all re l) Hn' A3) as (s4 & E4 & A4).
        rewrite E4. exists s4. rewrite put_all_app. auto.
  Qed.

  Lemma rules_part_at its l w s re : w_items letter digit scan_float regexp_ok md5 its l w -> At s w re ->
    rules_part input letter_hi digit_hi scan_float regexp_ok md5 hash fuel s
    = Ret ((add_items false [] its, add_items true [] its), put_all re l).
  Proof.
    intros Hits HA. unfold rules_part.
    destruct (rules_loop_at its l w Hits fuel [] [] s re (at_length _ _ _ HA) HA) as (s1 & E1 & A1).
    rewrite E1. cbn [bind]. destruct (next_at _ _ _ A1) as (s2 & E2 & A2 & _). rewrite E2. cbn [hd].
    change (Z.eqb eof eof) with true. cbn match. destruct A2 as [_ ->]. reflexivity.
  Qed.

  Lemma includes_none F G (load : F -> string -> res (option (list G * list (string * string)) * F)) its l w s re fs :
    w_items letter digit scan_float regexp_ok md5 its l w -> At s w re ->
    exists s' w', includes_loop input letter_hi digit_hi fuel load fuel fs [] s = Ret (([], fs), s')
      /\ w_items letter digit scan_float regexp_ok md5 its l w' /\ At s' w' re.
  Proof.
    intros Hits HA.
    assert (K : forall n, 0 < n -> exists s' w', includes_loop input letter_hi digit_hi fuel load n fs [] s = Ret (([], fs), s')
      /\ w_items letter digit scan_float regexp_ok md5 its l w' /\ At s' w' re).
    { intros n Hn. destruct n as [|n]; [llia|]. cbn [includes_loop].
      destruct Hits as [g Hg | g it l w its l' w' Hg Hit Hits].
      - rewrite <- (app_nil_r g) in HA.
        destruct (comments_at g s [] re Hg ltac:(split; [reflexivity|discriminate]) HA) as (s1 & E1 & A1).
        rewrite E1. cbn [bind]. destruct (peek_at _ _ _ A1) as (s2 & E2 & A2). rewrite E2. cbn [bind hd].
        change (Z.eqb eof r_hash) with false. cbn [negb]. exists s2, []. split; [reflexivity|].
        split; [apply wis_end; exact gap_nil|exact A2].
      - destruct (item_head _ _ _ Hit) as (G1 & G2). destruct (item_char_cases it) as (C1 & C2 & C3).
        destruct (comments_at g s (w ++ w') re Hg ltac:(rewrite (hd_app w _ G1), G2; exact C3) HA) as (s1 & E1 & A1).
        rewrite E1. cbn [bind]. destruct (peek_at _ _ _ A1) as (s2 & E2 & A2). rewrite E2. cbn [bind].
        rewrite (hd_app w _ G1), G2.
        replace (Z.eqb (item_char it) r_hash) with false by (unfold item_char; destruct (it_frame it); reflexivity).
        cbn [negb]. exists s2, (w ++ w'). split; [reflexivity|]. split; [|exact A2].
        change (w ++ w') with ([] ++ w ++ w'). apply wis_item; auto using gap_nil. }
    apply K. pose proof (at_length _ _ _ HA). llia.
  Qed.
End Reader.
