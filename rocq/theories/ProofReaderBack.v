(** The reader on texts without undecodable bytes: whatever it accepts belongs to
    the notation and denotes what it returns; it only hangs in a line comment
    that no newline ends. *)
From Coq Require Import Lia.
From Verif Require Import Base ModelTypes ModelText ModelReader ProofUtf8 SpecNotation ProofReader.

Lemma gap_app a b : gap a -> gap b -> gap (a ++ b).
Proof.
  induction 1 as [|c w Hc _ IH|body w Hb _ IH|body w Hb _ IH]; intros Hg.
  - exact Hg.
  - cbn [app]. apply gap_space; auto.
  - rewrite <- !app_assoc. apply gap_line; auto.
  - rewrite <- !app_assoc. apply gap_block; auto.
Qed.
Lemma gap_spaces a : spaces a -> gap a.
Proof. induction 1; [apply gap_nil|apply gap_space; assumption]. Qed.
Lemma spaces_app a b : spaces a -> spaces b -> spaces (a ++ b).
Proof. intros. apply Forall_app. auto. Qed.

Lemma encode_inj a : forall b, Forall good a -> Forall good b -> encode a = encode b -> a = b.
Proof.
  induction a as [|x a IH]; intros [|y b] Ha Hb E.
  - reflexivity.
  - exfalso. symmetry in E. exact (encode_length_nonempty y b E).
  - exfalso. exact (encode_length_nonempty x a E).
  - inversion Ha as [|? ? [Hx _] Ha']; inversion Hb as [|? ? [Hy _] Hb']; subst.
    cbn [encode] in E.
    pose proof (decode_encode x (encode a) Hx) as D1. pose proof (decode_encode y (encode b) Hy) as D2.
    rewrite E in D1. rewrite D1 in D2. inversion D2; subst. f_equal. apply IH; auto.
    clear - E. revert E. generalize (encode_rune y). intros s.
    induction s as [|c s IHs]; cbn [append]; intros E; [exact E|]. injection E. exact IHs.
Qed.

Ltac sps := repeat match goal with |- _ /\ _ => split end.

Ltac lists := repeat progress (cbn [app] in *; rewrite <- ?app_assoc in *; rewrite ?app_nil_r in *).
Ltac by_list K :=
  let H := fresh "K" in pose proof K as H; clear -H; lists; exact H.

Section Back.
  Variables letter_hi digit_hi : rune -> bool.
  Variable scan_float : string -> res bigf.
  Variable regexp_ok : string -> bool.
  Variable md5 : string -> string.
  Variable hash : rulebody -> N.
  Hypothesis Htab : unicode_tables letter_hi digit_hi.
  Hypothesis Hscan : forall t, scan_float t <> Panic /\ scan_float t <> Fuel.
  Hypothesis Hmd5 : forall t, 16 <= String.length (md5 t).
  Variable all : list rune.
  Hypothesis Hall : Forall good all.
  Variable fuel : nat.
  Hypothesis Hfuel : length all < fuel.

  Local Notation letter := (is_letter letter_hi).
  Local Notation digit := (is_digit digit_hi).
  Local Notation input := (encode all).
  Local Notation At := (At all).
  Local Notation at_good := (at_good all Hall).
  Local Notation at_length := (at_length all fuel Hfuel).

  Lemma hangs_app a b : open_comment b -> open_comment (a ++ b).
  Proof. intros (x & y & -> & H). exists (a ++ x), y. rewrite <- app_assoc. auto. Qed.

  Definition out {X} (st : X -> rd) (rest : list rune) (re : list (string * string))
      (P : X -> list rune -> list rune -> list (string * string) -> Prop) (x : res X) : Prop :=
    match x with
    | Ret v => exists w rest' l, rest = w ++ rest' /\ P v w rest' l /\ At (st v) rest' (put_all re l)
    | Err => True
    | Panic => False
    | Fuel => open_comment rest
    end.

  Lemma out_bind X Y (sx : X -> rd) (sy : Y -> rd) rest re P Q (x : res X) (k : X -> res Y) :
    out sx rest re P x ->
    (forall v w rest' l, rest = w ++ rest' -> P v w rest' l -> At (sx v) rest' (put_all re l) ->
       out sy rest' (put_all re l) (fun y w' r' l' => Q y (w ++ w') r' (l ++ l')) (k v)) ->
    out sy rest re Q (bind x k).
  Proof.
    destruct x as [v| | |]; cbn [out bind]; try tauto.
    intros (w & rest' & l & E & HP & HA) K. specialize (K v w rest' l E HP HA).
    destruct (k v) as [y| | |]; cbn [out] in *; try tauto.
    - destruct K as (w' & r' & l' & E' & HQ & HA'). exists (w ++ w'), r', (l ++ l').
      rewrite put_all_app. rewrite E, E', <- app_assoc. auto.
    - rewrite E. apply hangs_app. exact K.
  Qed.
  Lemma out_imp X (sx : X -> rd) rest re (P Q : X -> list rune -> list rune -> list (string * string) -> Prop) x :
    out sx rest re P x -> (forall v w r l, rest = w ++ r -> P v w r l -> Q v w r l) -> out sx rest re Q x.
  Proof.
    destruct x; cbn [out]; auto. intros (w & r & l & E & HP & HA) K. exists w, r, l. auto.
  Qed.
  (** a result that consumes nothing more *)
  Lemma out_ret X (sx : X -> rd) rest re (P : X -> list rune -> list rune -> list (string * string) -> Prop) v :
    At (sx v) rest re -> P v [] rest [] -> out sx rest re P (Ret v).
  Proof. intros HA HP. exists [], rest, []. auto. Qed.

  Definition st1 (s : rd) : rd := s.
  Definition st2 {A} (v : A * rd) : rd := snd v.

  Lemma next_out s rest re : At s rest re ->
    (exists c r s1, rest = c :: r /\ good c /\ next input s = (c, s1) /\ At s1 r re
       /\ exists s2, backup s1 = Ret s2 /\ At s2 rest re)
    \/ (rest = [] /\ exists s1, next input s = (eof, s1) /\ At s1 [] re
       /\ exists s2, backup s1 = Ret s2 /\ At s2 [] re).
  Proof.
    intros H. destruct (next_at all Hall fuel Hfuel s rest re H) as (s1 & E & A & s2 & B & A').
    pose proof (at_good _ _ _ H) as G. destruct rest as [|c r]; [right|left].
    - split; [reflexivity|]. exists s1. sps; auto. exists s2. auto.
    - exists c, r, s1. inversion G; subst. sps; auto; try apply H2. exists s2. auto.
  Qed.

  Lemma eat_out c s rest re : Z.eqb eof c = false -> At s rest re ->
    out st1 rest re (fun _ w r l => w = [c] /\ l = []) (eat input c s).
  Proof.
    intros Hc H. unfold eat.
    destruct (next_out s rest re H) as [(x & r & s1 & -> & _ & E & A & _)|(-> & s1 & E & A & _)]; rewrite E.
    - destruct (Z.eqb x c) eqn:Ex; [|exact I]. apply Z.eqb_eq in Ex. subst x. exists [c], r, []. auto.
    - rewrite Hc. exact I.
  Qed.
  Lemma peek_out s rest re : At s rest re ->
    out st2 rest re (fun v w r l => w = [] /\ l = [] /\ fst v = hd eof rest) (peek input s).
  Proof.
    intros H. destruct (peek_at all Hall fuel Hfuel s rest re H) as (s1 & E & A). rewrite E. apply out_ret; auto.
  Qed.

  Lemma ws_out s rest re : At s rest re ->
    out st1 rest re (fun _ w r l => spaces w /\ is_space (hd eof r) = false /\ l = []) (ws input fuel s).
  Proof.
    intros H. unfold ws.
    assert (K : forall n s rest re, At s rest re -> length rest < n ->
      out st1 rest re (fun _ w r l => spaces w /\ is_space (hd eof r) = false /\ l = []) (ws_loop input n s)).
    { clear s rest re H. induction n as [|n IH]; intros s rest re H Hn; [llia|]. cbn [ws_loop].
      destruct (next_out s rest re H) as [(x & r & s1 & -> & _ & E & A & s2 & B & A2)|(-> & s1 & E & A & s2 & B & A2)];
        rewrite E.
      - destruct (is_space x) eqn:Ex.
        + cbn [length] in Hn. specialize (IH s1 r re A ltac:(llia)). destruct (ws_loop input n s1); cbn [out] in *; try tauto.
          * destruct IH as (w & r' & l & -> & (Hw & Hr & Hl) & HA). exists (x :: w), r', l.
            sps; auto. constructor; auto.
          * apply (hangs_app [x]). exact IH.
        + rewrite B. exists [], (x :: r), []. sps; auto; try apply A2. constructor.
      - change (is_space eof) with false. cbn match. rewrite B. exists [], [], []. sps; auto; try apply A2. constructor. }
    apply K; auto. exact (at_length _ _ _ H).
  Qed.

  Lemma text_loop_out : forall n (first : bool) s rest re, At s rest re -> length rest < n ->
    out st2 rest re (fun v w r l => fst v = w /\ l = [] /\ Forall (name_char letter digit) w
       /\ (first = true -> match w with [] => True | c :: _ => name_first letter c end))
      (text_loop input letter_hi digit_hi n first s).
  Proof.
    induction n as [|n IH]; intros first s rest re H Hn; [llia|]. cbn [text_loop].
    destruct (next_out s rest re H) as [(x & r & s1 & -> & _ & E & A & s2 & B & A2)|(-> & s1 & E & A & s2 & B & A2)];
      rewrite E.
    - destruct (letter x || Z.eqb x r_under || digit x && negb first) eqn:Ex.
      + cbn [length] in Hn. specialize (IH false s1 r re A ltac:(llia)).
        destruct (text_loop input letter_hi digit_hi n false s1) as [[rs s3]| | |]; cbn [out bind] in *; try tauto.
        * destruct IH as (w & r' & l & -> & (Hw & Hl & Hc & _) & HA). cbn [fst st2 snd] in *. subst rs.
          exists (x :: w), r', l. sps; auto; try apply HA.
          -- constructor; auto. apply nameb_spec. unfold nameb.
             destruct (letter x); [reflexivity|]. destruct (Z.eqb x r_under); [reflexivity|].
             cbn [orb] in *. destruct (digit x); [reflexivity|discriminate].
          -- intros ->. cbn [negb] in Ex. rewrite andb_false_r, orb_false_r in Ex. unfold name_first.
             apply orb_true_iff in Ex. rewrite Z.eqb_eq in Ex. exact Ex.
        * apply (hangs_app [x]). exact IH.
      + rewrite B. cbn [bind]. apply out_ret; [exact A2|]. cbn [fst]. sps; auto.
    - assert (Ex : letter eof || Z.eqb eof r_under || digit eof && negb first = false) by reflexivity.
      rewrite Ex, B. cbn [bind]. apply out_ret; [exact A2|]. cbn [fst]. sps; auto.
  Qed.
  Lemma text_out s rest re : At s rest re ->
    out st2 rest re (fun v w r l => l = [] /\ name_text letter digit w /\ fst v = encode w)
      (text input letter_hi digit_hi fuel s).
  Proof.
    intros H. unfold text. eapply out_bind; [apply text_loop_out; [exact H|exact (at_length _ _ _ H)]|].
    intros [rs s1] w r l E (Hw & -> & Hc & Hf) A. cbn [fst st2 snd] in *. subst rs.
    destruct w as [|c w]; [exact I|]. apply out_ret; [exact A|]. cbn [fst]. rewrite ?app_nil_r.
    sps; auto. split; [apply Hf; reflexivity|inversion Hc; auto].
  Qed.
  Lemma bracketed_out b e s rest re : Z.eqb eof b = false -> Z.eqb eof e = false -> At s rest re ->
    out st2 rest re (fun v w r l => l = [] /\ exists x, w = [b] ++ x ++ [e] /\ name_text letter digit x /\ fst v = encode x)
      (bracketed input letter_hi digit_hi fuel b e s).
  Proof.
    intros Hb He H. unfold bracketed.
    eapply out_bind; [apply eat_out; [exact Hb|exact H]|]. intros s1 w1 r1 l1 E1 (-> & ->) A1.
    eapply out_bind; [apply text_out; exact A1|]. intros [x s2] w2 r2 l2 E2 (-> & Hx & Ex) A2. cbn [fst st2 snd] in *.
    eapply out_bind; [apply eat_out; [exact He|exact A2]|]. intros s3 w3 r3 l3 E3 (-> & ->) A3.
    apply out_ret; [exact A3|]. split; [reflexivity|]. exists w2. rewrite ?app_nil_r. auto.
  Qed.

  Lemma line_out : forall n s rest re, At s rest re -> length rest < n ->
    match line_loop input n s with
    | Ret s' => exists body r, rest = body ++ [10]%Z ++ r /\ ~ In 10%Z body /\ At s' r re
    | Fuel => ~ In 10%Z rest
    | _ => False
    end.
  Proof.
    assert (Z0 : forall n s re, At s [] re -> line_loop input n s = Fuel).
    { induction n as [|n IH]; intros s re H; [reflexivity|]. cbn [line_loop].
      destruct (next_out s [] re H) as [(x & r & s1 & E0 & _)|(_ & s1 & E & A & _)]; [discriminate|].
      rewrite E. change (Z.eqb eof r_newline) with false. cbn match. exact (IH _ _ A). }
    induction n as [|n IH]; intros s rest re H Hn; [llia|]. cbn [line_loop].
    destruct (next_out s rest re H) as [(x & r & s1 & -> & _ & E & A & _)|(-> & s1 & E & A & _)]; rewrite E.
    - destruct (Z.eqb x r_newline) eqn:Ex.
      + apply Z.eqb_eq in Ex. subst x. exists [], r. sps; auto; apply A.
      + apply Z.eqb_neq in Ex. cbn [length] in Hn. specialize (IH s1 r re A ltac:(llia)).
        destruct (line_loop input n s1) as [s9| | |]; try exact IH.
        * destruct IH as (body & r' & -> & Hb & A'). exists (x :: body), r'. sps; auto; try apply A'.
          intros [->|Hin]; [apply Ex; reflexivity|auto].
        * intros [->|Hin]; [apply Ex; reflexivity|auto].
    - change (Z.eqb eof r_newline) with false. cbn match. rewrite (Z0 n s1 re A). auto.
  Qed.
  Lemma block_out : forall n prev s rest re, At s rest re -> length rest < n ->
    match block_loop input n prev s with
    | Ret s' => exists b r, prev :: rest = b ++ [42; 47]%Z ++ r /\ ~ closes b /\ At s' r re
    | Err => True
    | _ => False
    end.
  Proof.
    induction n as [|n IH]; intros prev s rest re H Hn; [llia|]. cbn [block_loop].
    destruct (next_out s rest re H) as [(x & r & s1 & -> & G & E & A & _)|(-> & s1 & E & A & _)]; rewrite E.
    - rewrite (good_not_eof x G). destruct (Z.eqb prev r_star && Z.eqb x r_slash) eqn:Ex.
      + apply andb_true_iff in Ex. rewrite !Z.eqb_eq in Ex. destruct Ex as [-> ->].
        exists [], r. sps; auto; try apply A. intros (a & b & E0). destruct a; discriminate.
      + cbn [length] in Hn. specialize (IH x s1 r re A ltac:(llia)).
        destruct (block_loop input n x s1) as [s9| | |]; try exact IH.
        destruct IH as (b & r' & Eb & Hb & A'). exists (prev :: b), r'. split; [cbn [app]; f_equal; exact Eb|].
        split; [|exact A']. intros (a & b' & E0). destruct a as [|a0 a1].
        * cbn [app] in E0. inversion E0 as [[E1 E2]]. subst b. cbn [app] in Eb. inversion Eb; subst.
          vm_compute in Ex. discriminate.
        * cbn [app] in E0. inversion E0; subst. apply Hb. exists a1, b'. reflexivity.
    - exact I.
  Qed.
  Lemma comment_out s rest re : At s rest re ->
    out st2 rest re (fun v w r l => l = [] /\ gap w /\ (fst v = true -> w <> [])) (comment input fuel s).
  Proof.
    intros H. unfold comment.
    destruct (next_out s rest re H) as [(x & r & s1 & -> & G & E & A & s2 & B & A2)|(-> & s1 & E & A & s2 & B & A2)]; rewrite E.
    - destruct (negb (Z.eqb x r_slash)) eqn:Ex.
      { rewrite B. cbn [bind]. apply out_ret; [exact A2|]. cbn [fst]. sps; [reflexivity|apply gap_nil|discriminate]. }
      apply negb_false_iff, Z.eqb_eq in Ex. subst x.
      destruct (peek_at all Hall fuel Hfuel s1 r re A) as (s3 & E3 & A3). rewrite E3. cbn [bind].
      destruct (Z.eqb (hd eof r) r_slash) eqn:E4.
      { apply Z.eqb_eq in E4. destruct r as [|c r]; [discriminate|]. cbn [hd] in E4. subst c.
        destruct (eat_at all Hall fuel Hfuel s3 _ _ _ A3) as (s4 & E5 & A5). rewrite E5. cbn [bind].
        pose proof (at_length _ _ _ A5) as HL. pose proof (line_out fuel s4 r re A5 HL) as K.
        destruct (line_loop input fuel s4) as [s5| | |]; cbn [bind out]; try tauto.
        - destruct K as (body & r' & -> & Hb & A6). exists ([47; 47]%Z ++ body ++ [10]%Z), r', [].
          split; [cbn [app]; rewrite <- app_assoc; reflexivity|]. split; [|exact A6].
          split; [reflexivity|]. split; [|discriminate].
          rewrite <- (app_nil_r ([10]%Z)). apply gap_line; [exact Hb|apply gap_nil].
        - exists [], r. auto. }
      destruct (Z.eqb (hd eof r) r_star) eqn:E5; [|exact I].
      apply Z.eqb_eq in E5. destruct r as [|c r]; [discriminate|]. cbn [hd] in E5. subst c.
      destruct (eat_at all Hall fuel Hfuel s3 _ _ _ A3) as (s4 & E6 & A6). rewrite E6. cbn [bind].
      pose proof (at_length _ _ _ A6) as HL. pose proof (block_out fuel 0%Z s4 r re A6 HL) as K.
      destruct (block_loop input fuel 0%Z s4) as [s5| | |]; cbn [bind out]; try tauto.
      destruct K as (b & r' & Eb & Hb & A7). destruct b as [|b0 b]; [discriminate|].
      cbn [app] in Eb. inversion Eb as [[E7 E8]]. subst b0.
      exists ([47; 42]%Z ++ b ++ [42; 47]%Z), r', []. split; [cbn [app]; rewrite <- app_assoc; reflexivity|].
      split; [|exact A7]. split; [reflexivity|]. split; [|discriminate].
      rewrite <- (app_nil_r ([42; 47]%Z)). apply gap_block; [|apply gap_nil].
      intros (p & q & ->). apply Hb. exists (0%Z :: p), q. reflexivity.
    - change (negb (Z.eqb eof r_slash)) with true. cbn match. rewrite B. cbn [bind]. apply out_ret; [exact A2|].
      cbn [fst]. sps; [reflexivity|apply gap_nil|discriminate].
  Qed.
  Lemma comments_out s rest re : At s rest re ->
    out st1 rest re (fun _ w r l => gap w /\ l = []) (comments input fuel s).
  Proof.
    intros H. unfold comments.
    assert (K : forall n s rest re, At s rest re -> length rest < n ->
      out st1 rest re (fun _ w r l => gap w /\ l = []) (comments_loop input fuel n s)).
    { clear s rest re H. induction n as [|n IH]; intros s rest re H Hn; [llia|]. cbn [comments_loop].
      eapply out_bind; [apply ws_out; exact H|]. intros s1 w1 r1 l1 E1 (Hw1 & _ & ->) A1.
      eapply out_bind; [apply comment_out; exact A1|]. intros [f s2] w2 r2 l2 E2 (-> & Hg & Hne) A2. cbn [fst st2 snd] in *.
      destruct f.
      - eapply out_imp; [apply IH; [exact A2|]|].
        + rewrite E1, E2, !app_length in Hn. destruct w2; [destruct (Hne eq_refl eq_refl)|]. cbn [length] in Hn. llia.
        + intros v w r l _ [Hg' ->]. split; [|reflexivity]. apply gap_app; [apply gap_spaces; exact Hw1|].
          apply gap_app; assumption.
      - eapply out_imp; [apply ws_out; exact A2|].
        intros v w r l _ (Hs & _ & ->). split; [|reflexivity]. apply gap_app; [apply gap_spaces; exact Hw1|].
        apply gap_app; [assumption|apply gap_spaces; exact Hs]. }
    apply K; [exact H|exact (at_length _ _ _ H)].
  Qed.

  Lemma terminal_loop_out : forall n prev s rest re, At s rest re -> length rest < n ->
    out st2 rest re (fun v w r l => l = [] /\ hd eof r = 34%Z /\
        spells (fst v) (if Z.eqb prev r_bslash then r_bslash :: w else w))
      (terminal_loop input n prev s).
  Proof.
    induction n as [|n IH]; intros prev s rest re H Hn; [llia|]. cbn [terminal_loop].
    destruct (next_out s rest re H) as [(x & r & s1 & -> & G & E & A & s2 & B & A2)|(-> & s1 & E & A & s2 & B & A2)]; rewrite E.
    - destruct (Z.eqb x r_quote && negb (Z.eqb prev r_bslash)) eqn:Ex.
      { apply andb_true_iff in Ex. destruct Ex as [Ex Ep]. apply Z.eqb_eq in Ex. apply negb_true_iff in Ep.
        rewrite B. cbn [bind]. apply out_ret; [exact A2|]. cbn [fst hd]. rewrite Ep. sps; auto. apply spells_nil. }
      rewrite (good_not_eof x G). cbn [length] in Hn.
      destruct (Z.eqb prev r_bslash) eqn:Ep.
      + destruct (unescape x) as [c|] eqn:Eu; [|exact I].
        eapply out_bind with (sx := st2) (P := fun v w r0 l => l = [] /\ hd eof r0 = 34%Z /\ exists w', w = x :: w' /\ spells (fst v) w').
        * specialize (IH 0%Z s1 r re A ltac:(llia)).
          destruct (terminal_loop input n 0%Z s1) as [[rs s3]| | |]; cbn [out] in *; try tauto.
          -- destruct IH as (w & r' & l & -> & (-> & Hh & Hs) & HA). exists (x :: w), r', [].
             sps; auto. exists w. split; [reflexivity|exact Hs].
          -- apply (hangs_app [x]). exact IH.
        * intros [rs s3] w r' l E3 (-> & Hh & w' & -> & Hs) A3. cbn [fst st2 snd] in *.
          apply out_ret; [exact A3|]. cbn [fst]. rewrite ?app_nil_r. sps; auto.
          apply spells_escape; [apply unescape_spec; exact Eu|exact Hs].
      + destruct (Z.eqb x r_bslash) eqn:Eb.
        * specialize (IH x s1 r re A ltac:(llia)).
          destruct (terminal_loop input n x s1) as [[rs s3]| | |]; cbn [out] in *; try tauto.
          -- destruct IH as (w & r' & l & -> & (-> & Hh & Hs) & HA). rewrite Eb in Hs. exists (x :: w), r', [].
             apply Z.eqb_eq in Eb. subst x. sps; auto.
          -- apply (hangs_app [x]). exact IH.
        * specialize (IH x s1 r re A ltac:(llia)).
          destruct (terminal_loop input n x s1) as [[rs s3]| | |]; cbn [out bind] in *; try tauto.
          -- destruct IH as (w & r' & l & -> & (-> & Hh & Hs) & HA). rewrite Eb in Hs. exists (x :: w), r', [].
             sps; auto. cbn [fst] in *. apply spells_plain; [|apply Z.eqb_neq; exact Eb|exact Hs].
             cbn [negb] in Ex. rewrite andb_true_r in Ex. apply Z.eqb_neq. exact Ex.
          -- apply (hangs_app [x]). exact IH.
    - change (Z.eqb eof r_quote && negb (Z.eqb prev r_bslash)) with false. cbn match.
      change (Z.eqb eof eof) with true. exact I.
  Qed.
  Lemma terminal_text_out s rest re : At s rest re ->
    out st2 rest re (fun v w r l => l = [] /\ exists cs, fst v = encode cs /\ spells cs w)
      (terminal_text input fuel s).
  Proof.
    intros H. unfold terminal_text. eapply out_bind; [apply terminal_loop_out; [exact H|exact (at_length _ _ _ H)]|].
    intros [cs s5] w5 r5 l5 E5 (-> & Hh & Hs) A5. cbn [fst st2 snd] in *.
    apply out_ret; [exact A5|]. split; [reflexivity|]. rewrite ?app_nil_r. exists cs. auto.
  Qed.
  Lemma terminal_out s rest re : At s rest re ->
    out st2 rest re (fun v w r l => l = [] /\ w_literal letter digit (fst (fst v)) (snd (fst v)) w)
      (terminal input letter_hi digit_hi fuel s).
  Proof.
    intros H. unfold terminal.
    eapply out_bind; [apply eat_out; [reflexivity|exact H]|]. intros s1 w1 r1 l1 E1 (-> & ->) A1.
    eapply out_bind; [apply ws_out; exact A1|]. intros s2 w2 r2 l2 E2 (Hw2 & Hh2 & ->) A2.
    eapply out_bind; [apply peek_out; exact A2|]. intros [c s3] w3 r3 l3 E3 (-> & -> & Hc) A3. cbn [fst st2 snd] in *.
    cbn [app] in E3. subst r3.
    eapply out_bind with (sx := st2) (P := fun v w r l => l = [] /\
        ((fst v = ""%string /\ w = [] /\ hd eof r = c /\ c <> 40%Z) \/
         exists sp2 sp3 fl, spaces sp2 /\ spaces sp3 /\ name_text letter digit fl /\ fst v = encode fl
           /\ w = [40]%Z ++ sp2 ++ [63]%Z ++ sp3 ++ fl ++ [41]%Z)).
    - destruct (Z.eqb c r_lparen) eqn:Ec.
      + apply Z.eqb_eq in Ec. subst c. rewrite Ec in *.
        destruct r2 as [|x r2]; [discriminate|]. cbn [hd] in Ec. subst x.
        destruct (next_out _ _ _ A3) as [(x & r & s4 & E4 & _ & N4 & A4 & _)|(E4 & _)]; [|discriminate].
        inversion E4; subst x r. rewrite N4.
        assert (K : out st2 r2 (put_all re []) (fun v w r l => l = [] /\ exists sp2 sp3 fl, spaces sp2 /\ spaces sp3
               /\ name_text letter digit fl /\ fst v = encode fl /\ w = sp2 ++ [63]%Z ++ sp3 ++ fl ++ [41]%Z)
           (s <- ws input fuel s4 ;; s <- eat input r_qmark s ;; s <- ws input fuel s ;;
            ' (flags, s) <- text input letter_hi digit_hi fuel s ;; s <- eat input r_rparen s ;; Ret (flags, s))).
        { eapply out_bind; [apply ws_out; exact A4|]. intros s5 w5 r5 l5 E5 (Hw5 & _ & ->) A5.
          eapply out_bind; [apply eat_out; [reflexivity|exact A5]|]. intros s6 w6 r6 l6 E6 (-> & ->) A6.
          eapply out_bind; [apply ws_out; exact A6|]. intros s7 w7 r7 l7 E7 (Hw7 & _ & ->) A7.
          eapply out_bind; [apply text_out; exact A7|]. intros [fl s8] w8 r8 l8 E8 (-> & Hw8 & Ef) A8. cbn [fst st2 snd] in *.
          eapply out_bind; [apply eat_out; [reflexivity|exact A8]|]. intros s9 w9 r9 l9 E9 (-> & ->) A9.
          apply out_ret; [exact A9|]. split; [reflexivity|]. exists w5, w7, w8. rewrite ?app_nil_r. auto 10. }
        match goal with |- out _ _ _ _ ?x => destruct x as [[fl s9]| | |]; cbn [out] in *; try tauto end.
        * destruct K as (w & r' & l & -> & (-> & sp2 & sp3 & fl' & H1 & H2 & H3 & H4 & ->) & HA).
          exists ([40]%Z ++ sp2 ++ [63]%Z ++ sp3 ++ fl' ++ [41]%Z), r', []. sps; auto. right.
          exists sp2, sp3, fl'. auto 10.
        * apply (hangs_app [r_lparen]). exact K.
      + apply out_ret; [exact A3|]. cbn [fst]. split; [reflexivity|]. left. apply Z.eqb_neq in Ec. auto.
    - intros [fl s4] w4 r4 l4 E4 (-> & HP) A4. cbn [fst st2 snd] in *.
      eapply out_bind; [apply terminal_text_out; exact A4|].
      intros [t s5] w5 r5 l5 E5 (-> & cs & Et & Hs) A5. cbn [fst st2 snd] in *.
      eapply out_bind; [apply eat_out; [reflexivity|exact A5]|]. intros s6 w6 r6 l6 E6 (-> & ->) A6.
      apply out_ret; [exact A6|]. cbn [fst snd]. split; [reflexivity|]. subst t. rewrite ?app_nil_r.
      destruct HP as [(-> & -> & Hh4 & Hc4)|(sp2 & sp3 & fl' & H1 & H2 & H3 & -> & ->)].
      + cbn [app] in E4. subst r4. cbn [app]. apply lit_plain; [exact Hw2|exact Hs|].
        destruct w5 as [|x w5]; [exact I|]. rewrite E5 in Hh2, Hh4. cbn [app hd] in *. split; congruence.
      + rewrite <- !app_assoc. apply lit_flags; assumption.
  Qed.

  Lemma int_loop_out : forall n i s rest re, At s rest re -> length rest < n ->
    out st2 rest re (fun v w r l => l = [] /\ decimals w /\ fst v <> (-1)%Z /\
        fst v = fold_left (fun a d => if Z.eqb a (-1) then d - 48 else int64 (a * 10 + (d - 48)))%Z w i)
      (int_loop input digit_hi n i s).
  Proof.
    induction n as [|n IH]; intros i s rest re H Hn; [llia|]. cbn [int_loop].
    destruct (next_out s rest re H) as [(x & r & s1 & -> & G & E & A & s2 & B & A2)|(-> & s1 & E & A & s2 & B & A2)]; rewrite E.
    - destruct (digit x) eqn:Ed.
      + destruct (ascii_digit x) eqn:Ea; [|exact I]. cbn [length] in Hn.
        match goal with |- out _ _ _ _ (int_loop _ _ _ ?j _) => specialize (IH j s1 r re A ltac:(llia)); set (j0 := j) in * end.
        destruct (int_loop input digit_hi n j0 s1) as [[z s3]| | |]; cbn [out] in *; try tauto.
        * destruct IH as (w & r' & l & -> & (-> & Hd & Hne & Hz) & HA). exists (x :: w), r', [].
          sps; auto. constructor; auto. unfold ascii_digit in Ea. rewrite andb_true_iff, !Z.leb_le in Ea. exact Ea.
        * apply (hangs_app [x]). exact IH.
      + destruct (Z.eqb i (-1)) eqn:Ei; [exact I|]. rewrite B. cbn [bind]. apply out_ret; [exact A2|]. cbn [fst fold_left].
        sps; auto; [constructor|apply Z.eqb_neq; exact Ei].
    - change (digit eof) with false. cbn match.
      destruct (Z.eqb i (-1)) eqn:Ei; [exact I|]. rewrite B. cbn [bind]. apply out_ret; [exact A2|]. cbn [fst fold_left].
      sps; auto; [constructor|apply Z.eqb_neq; exact Ei].
  Qed.
  Lemma get_int_out s rest re : At s rest re ->
    out st2 rest re (fun v w r l => l = [] /\ number w (fst v)) (get_int input digit_hi fuel s).
  Proof.
    intros H. unfold get_int. eapply out_imp; [apply int_loop_out; [exact H|exact (at_length _ _ _ H)]|].
    intros v w r l _ (-> & Hd & Hne & Hz). split; [reflexivity|]. split; [exact Hd|]. split; [symmetry; exact Hz|exact Hne].
  Qed.

  (** the rest after a character that has been looked at *)
  Lemma skip_out X (sx : X -> rd) c s rest re P (k : rune * rd -> res X) :
    At s rest re -> hd eof rest = c -> Z.eqb eof c = false ->
    (forall s1 r, rest = c :: r -> At s1 r re ->
       out sx r re (fun v w r' l => P v (c :: w) r' l) (k (c, s1))) ->
    out sx rest re P (k (next input s)).
  Proof.
    intros HA Hc He K.
    destruct (next_out s rest re HA) as [(x & r & s1 & -> & G & E & A & _)|(-> & _)].
    - cbn [hd] in Hc. subst x. rewrite E. specialize (K s1 r eq_refl A).
      destruct (k (c, s1)); cbn [out] in *; try tauto.
      + destruct K as (w & r' & l & -> & HP & A'). exists (c :: w), r', l. auto.
      + apply (hangs_app [c]). exact K.
    - cbn [hd] in Hc. subst c. discriminate.
  Qed.

  Lemma special_meta_out s rest re : At s rest re ->
    out st2 rest re (fun v w r l => l = [] /\ exists sp w' sp', w = sp ++ w' ++ sp' /\ spaces sp /\ spaces sp'
        /\ w_range (fst v) w') (special_meta input digit_hi fuel s).
  Proof.
    intros H. unfold special_meta.
    eapply out_bind; [apply ws_out; exact H|]. intros s1 w1 r1 l1 E1 (Hw1 & _ & ->) A1.
    eapply out_bind; [apply peek_out; exact A1|]. intros [c s2] w2 r2 l2 E2 (-> & -> & Hc) A2. cbn [fst st2 snd] in *.
    cbn [app] in E2. subst r2.
    eapply out_bind with (sx := st2) (P := fun v w r l => l = [] /\ w_range (fst v) w).
    - destruct (Z.eqb c r_lbrace) eqn:Ec.
      + apply Z.eqb_eq in Ec.
        apply (skip_out _ st2 c s2 r1 _ _ (fun p => let '(_, s) := p in
          s <- ws input fuel s ;; ' (lo, s) <- get_int input digit_hi fuel s ;; s <- ws input fuel s ;; s <- eat input r_comma s ;;
          s <- ws input fuel s ;; ' (hi, s) <- get_int input digit_hi fuel s ;;
          if (hi <? lo)%Z then Err
          else s <- ws input fuel s ;; s <- eat input r_rbrace s ;; Ret (MMap (Some lo) (Some hi), s))); auto.
        { rewrite Ec. reflexivity. }
        rewrite Ec. clear Ec Hc. intros s3 r3 E3 A3.
        eapply out_bind; [apply ws_out; exact A3|]. intros s4 w4 r4 l4 E4 (Hw4 & _ & ->) A4.
        eapply out_bind; [apply get_int_out; exact A4|]. intros [lo s5] w5 r5 l5 E5 (-> & Hw5) A5. cbn [fst st2 snd] in *.
        eapply out_bind; [apply ws_out; exact A5|]. intros s6 w6 r6 l6 E6 (Hw6 & _ & ->) A6.
        eapply out_bind; [apply eat_out; [reflexivity|exact A6]|]. intros s7 w7 r7 l7 E7 (-> & ->) A7.
        eapply out_bind; [apply ws_out; exact A7|]. intros s8 w8 r8 l8 E8 (Hw8 & _ & ->) A8.
        eapply out_bind; [apply get_int_out; exact A8|]. intros [hi s9] w9 r9 l9 E9 (-> & Hw9) A9. cbn [fst st2 snd] in *.
        destruct (Z.ltb hi lo) eqn:El; [exact I|].
        eapply out_bind; [apply ws_out; exact A9|]. intros s10 w10 r10 l10 E10 (Hw10 & _ & ->) A10.
        eapply out_bind; [apply eat_out; [reflexivity|exact A10]|]. intros s11 w11 r11 l11 E11 (-> & ->) A11.
        apply out_ret; [exact A11|]. cbn [fst]. split; [reflexivity|]. rewrite ?app_nil_r. cbn [app].
        apply (wr_range lo hi w5 w9 w4 w6 w8 w10); auto. apply Z.ltb_ge. exact El.
      + apply out_ret; [exact A2|]. split; [reflexivity|]. apply wr_none.
    - intros [m s3] w3 r3 l3 E3 (-> & Hm) A3. cbn [fst st2 snd] in *.
      eapply out_bind; [apply ws_out; exact A3|]. intros s4 w4 r4 l4 E4 (Hw4 & _ & ->) A4.
      apply out_ret; [exact A4|]. cbn [fst]. split; [reflexivity|]. rewrite ?app_nil_r. cbn [app].
      exists w1, w3, w4. auto.
  Qed.

  Lemma name_is w r (x : list rune) s re : At s (w ++ r) re -> Forall good x -> encode w = encode x -> w = x.
  Proof.
    intros HA Hx E. apply encode_inj; auto. apply at_good in HA. apply Forall_app in HA. tauto.
  Qed.

  Lemma special_out s rest re : At s rest re ->
    out st2 rest re (fun v w r l => w_term letter digit regexp_ok md5 (fst v) l w)
      (special input letter_hi digit_hi fuel s).
  Proof.
    intros H. unfold special.
    eapply out_bind; [apply eat_out; [reflexivity|exact H]|]. intros s1 w1 r1 l1 E1 (-> & ->) A1.
    eapply out_bind; [apply ws_out; exact A1|]. intros s2 w2 r2 l2 E2 (Hw2 & _ & ->) A2.
    eapply out_bind; [apply text_out; exact A2|]. intros [x s3] w3 r3 l3 E3 (-> & Hw3 & Ex) A3. cbn [fst st2 snd] in *.
    eapply out_bind; [apply ws_out; exact A3|]. intros s4 w4 r4 l4 E4 (Hw4 & _ & ->) A4.
    subst x. destruct (String.eqb (encode w3) "any") eqn:Ea.
    { apply String.eqb_eq in Ea. change "any"%string with (encode [97; 110; 121]%Z) in Ea.
      rewrite E3 in A2. apply (name_is _ _ _ _ _ A2) in Ea; [subst w3|repeat constructor; discriminate].
      eapply out_bind; [apply special_meta_out; exact A4|].
      intros [m s5] w5 r5 l5 E5 (-> & sp & w5' & sp' & -> & Hsp & Hsp' & Hm) A5. cbn [fst st2 snd] in *.
      eapply out_bind; [apply eat_out; [reflexivity|exact A5]|]. intros s6 w6 r6 l6 E6 (-> & ->) A6.
      apply out_ret; [exact A6|]. cbn [fst app]. rewrite ?app_nil_r.
      by_list (wt_any letter digit regexp_ok md5 m w5' w2 (w4 ++ sp) sp' Hw2 (spaces_app _ _ Hw4 Hsp) Hsp' Hm). }
    destruct (String.eqb (encode w3) "list") eqn:Eb; [|exact I].
    apply String.eqb_eq in Eb. change "list"%string with (encode [108; 105; 115; 116]%Z) in Eb.
    rewrite E3 in A2. apply (name_is _ _ _ _ _ A2) in Eb; [subst w3|repeat constructor; discriminate].
    eapply out_bind; [apply bracketed_out; [reflexivity|reflexivity|exact A4]|].
    intros [x s5] w5 r5 l5 E5 (-> & x' & -> & Hx & Ex) A5. cbn [fst st2 snd] in *. subst x.
    eapply out_bind; [apply special_meta_out; exact A5|].
    intros [m s6] w6 r6 l6 E6 (-> & sp & w6' & sp' & -> & Hsp & Hsp' & Hm) A6. cbn [fst st2 snd] in *.
    eapply out_bind; [apply eat_out; [reflexivity|exact A6]|]. intros s7 w7 r7 l7 E7 (-> & ->) A7.
    apply out_ret; [exact A7|]. cbn [fst app]. rewrite ?app_nil_r.
    by_list (wt_list letter digit regexp_ok md5 x' m w6' w2 w4 sp sp' Hx Hw2 Hw4 Hsp Hsp' Hm).
  Qed.

  Lemma regex_loop_out : forall n s rest re, At s rest re -> length rest < n ->
    out st2 rest re (fun v w r l => l = [] /\ ~ In 96%Z (fst v) /\ w = fst v ++ [96]%Z)
      (regex_loop input n s).
  Proof.
    induction n as [|n IH]; intros s rest re H Hn; [llia|]. cbn [regex_loop].
    destruct (next_out s rest re H) as [(x & r & s1 & -> & G & E & A & s2 & B & A2)|(-> & s1 & E & A & s2 & B & A2)]; rewrite E.
    - destruct (Z.eqb x r_tick) eqn:Et.
      { apply Z.eqb_eq in Et. subst x. exists [r_tick], r, []. sps; auto. }
      rewrite (good_not_eof x G). cbn [length] in Hn. specialize (IH s1 r re A ltac:(llia)).
      destruct (regex_loop input n s1) as [[rs s3]| | |]; cbn [out bind] in *; try tauto.
      + destruct IH as (w & r' & l & -> & (-> & Hi & ->) & HA). cbn [fst] in *. exists (x :: rs ++ [96]%Z), r', [].
        sps; auto. cbn [fst]. intros [->|Hin]; [discriminate|auto].
      + apply (hangs_app [x]). exact IH.
    - exact I.
  Qed.
  Lemma regex_out s rest re : At s rest re ->
    out st2 rest re (fun v w r l => w_term letter digit regexp_ok md5 (fst v) l w)
      (regex input regexp_ok md5 fuel s).
  Proof.
    intros H. unfold regex.
    eapply out_bind; [apply eat_out; [reflexivity|exact H]|]. intros s1 w1 r1 l1 E1 (-> & ->) A1.
    eapply out_bind; [apply ws_out; exact A1|]. intros s2 w2 r2 l2 E2 (Hw2 & Hh & ->) A2.
    eapply out_bind; [apply regex_loop_out; [exact A2|exact (at_length _ _ _ A2)]|].
    intros [rs s3] w3 r3 l3 E3 (-> & Hi & ->) A3. cbn [fst st2 snd] in *.
    destruct rs as [|c rs]; [exact I|]. destruct (negb (regexp_ok (encode (c :: rs)))) eqn:Er; [exact I|].
    apply negb_false_iff in Er. pose proof (Hmd5 (encode (c :: rs))) as Hm.
    unfold slice. pose proof Hm as Hm'. apply Nat.leb_le in Hm'. rewrite Hm'. cbn [Nat.leb andb bind].
    set (h := substring 0 (16 - 0) (md5 (encode (c :: rs)))).
    exists [], r3, [(h, encode (c :: rs))]. split; [reflexivity|]. split.
    - cbn [fst app]. rewrite app_nil_r.
      apply (wt_regexp letter digit regexp_ok md5 w2 c rs h); auto.
      rewrite E3 in Hh. exact Hh.
    - destruct A3 as [A3 A3']. split; [exact A3|]. cbn [st2 snd rd_re put_all fold_left fst]. rewrite A3'. reflexivity.
  Qed.
  Lemma read_term_out s rest re : At s rest re ->
    out st2 rest re (fun v w r l => w_term letter digit regexp_ok md5 (fst v) l w)
      (read_term input letter_hi digit_hi regexp_ok md5 fuel s).
  Proof.
    intros H. unfold read_term.
    eapply out_bind; [apply peek_out; exact H|]. intros [c s1] w1 r1 l1 E1 (-> & -> & Hc) A1. cbn [fst st2 snd] in *.
    cbn [app] in E1. subst r1.
    destruct (Z.eqb c r_lt).
    { eapply out_bind; [apply bracketed_out; [reflexivity|reflexivity|exact A1]|].
      intros [x s2] w2 r2 l2 E2 (-> & x' & -> & Hx & Ex) A2. cbn [fst st2 snd] in *. subst x.
      apply out_ret; [exact A2|]. rewrite ?app_nil_r. apply wt_nonterminal. exact Hx. }
    destruct (Z.eqb c r_quote).
    { eapply out_bind; [apply terminal_out; exact A1|].
      intros [[fl t] s2] w2 r2 l2 E2 (-> & Hw) A2. cbn [fst st2 snd] in *.
      apply out_ret; [exact A2|]. cbn [fst app]. rewrite ?app_nil_r.
      destruct (String.eqb fl "") eqn:Ef.
      - apply String.eqb_eq in Ef. subst fl. apply wt_text. exact Hw.
      - apply wt_flagged; [exact Hw|]. apply String.eqb_neq. exact Ef. }
    destruct (Z.eqb c r_lparen); [exact (special_out s1 rest _ A1)|].
    destruct (Z.eqb c r_tick); [exact (regex_out s1 rest _ A1)|exact I].
  Qed.

  Definition two_dots (w : list rune) : Prop := exists a b, w = a ++ [46; 46]%Z ++ b.
  Lemma name_loop_out : forall n (first : bool) prev s rest re, At s rest re -> length rest < n ->
    out st2 rest re (fun v w r l => l = [] /\ fst v = w /\ Forall (fun c => name_char letter digit c \/ c = 46%Z) w
        /\ (first = true -> match w with [] => True | c :: _ => name_first letter c end)
        /\ ~ two_dots (prev :: w))
      (name_loop input letter_hi digit_hi n first prev s).
  Proof.
    assert (T1 : forall p, ~ two_dots [p]).
    { intros p (a & b & E). destruct a as [|? [|? ?]]; discriminate. }
    induction n as [|n IH]; intros first prev s rest re H Hn; [llia|]. cbn [name_loop].
    destruct (next_out s rest re H) as [(x & r & s1 & -> & G & E & A & s2 & B & A2)|(-> & s1 & E & A & s2 & B & A2)]; rewrite E.
    - match goal with |- context [if ?c then _ else _] => destruct c eqn:Ex end.
      + cbn [length] in Hn. specialize (IH false x s1 r re A ltac:(llia)).
        destruct (name_loop input letter_hi digit_hi n false x s1) as [[rs s3]| | |]; cbn [out bind] in *; try tauto.
        * destruct IH as (w & r' & l & -> & (-> & Hw & Hc & _ & Ht) & HA). cbn [fst] in *. subst rs.
          exists (x :: w), r', []. sps; auto.
          -- constructor; auto. destruct (letter x) eqn:L1; [left; left; exact L1|].
             destruct (Z.eqb x r_under) eqn:L2; [left; right; left; apply Z.eqb_eq; exact L2|].
             destruct (digit x) eqn:L3; [left; right; right; exact L3|].
             right. cbn [orb andb] in Ex. apply andb_true_iff in Ex. destruct Ex as [Ex _].
             apply andb_true_iff in Ex. destruct Ex as [Ex _]. apply Z.eqb_eq. exact Ex.
          -- intros ->. cbn [negb] in Ex. rewrite !andb_false_r, !orb_false_r in Ex.
             apply orb_true_iff in Ex. rewrite Z.eqb_eq in Ex. exact Ex.
          -- intros (a & b & E0). destruct a as [|a0 a].
             ++ cbn [app] in E0. inversion E0; subst.
                assert (Hf : letter 46%Z = false) by reflexivity. assert (Hd : digit 46%Z = false) by reflexivity.
                rewrite Hf, Hd in Ex. vm_compute in Ex. discriminate.
             ++ cbn [app] in E0. inversion E0 as [[E1 E2]]. apply Ht. exists a, b. exact E2.
        * apply (hangs_app [x]). exact IH.
      + rewrite B. cbn [bind]. apply out_ret; [exact A2|]. cbn [fst]. sps; auto.
    - assert (Ex : letter eof || Z.eqb eof r_under || digit eof && negb first
           || Z.eqb eof r_dot && negb (Z.eqb prev r_dot) && negb first = false) by reflexivity.
      rewrite Ex, B. cbn [bind]. apply out_ret; [exact A2|]. cbn [fst]. sps; auto.
  Qed.
  Lemma func_name_out s rest re : At s rest re ->
    out st2 rest re (fun v w r l => l = [] /\ exists fn sp, w = fn ++ sp /\ fst v = encode fn
         /\ func_text letter digit fn /\ spaces sp)
      (func_name input letter_hi digit_hi fuel s).
  Proof.
    intros H. unfold func_name. eapply out_bind; [apply name_loop_out; [exact H|exact (at_length _ _ _ H)]|].
    intros [rs s1] w1 r1 l1 E1 (-> & Hw & Hc & Hf & Ht) A1. cbn [fst st2 snd] in *. subst rs.
    destruct w1 as [|c w1]; [exact I|].
    eapply out_bind; [apply ws_out; exact A1|]. intros s2 w2 r2 l2 E2 (Hw2 & _ & ->) A2.
    apply out_ret; [exact A2|]. split; [reflexivity|]. exists (c :: w1), w2. rewrite ?app_nil_r.
    split; [reflexivity|]. split; [reflexivity|]. split; [|exact Hw2]. split.
    - split; [exact (Hf eq_refl)|]. inversion Hc; auto.
    - intros (a & b & E). apply Ht. exists (eof :: a), b. cbn [app] in *. f_equal. exact E.
  Qed.

  Lemma num_loop_out : forall n (dot : bool) s rest re, At s rest re -> length rest < n ->
    match num_loop input digit_hi n dot s with
    | Ret (rs, d, s') => exists r, rest = rs ++ r /\ digit (hd eof r) = false
        /\ (exists s2, backup s' = Ret s2 /\ At s2 r re)
        /\ ((d = dot /\ Forall (fun c => digit c = true) rs) \/
             (dot = false /\ d = true /\ exists ds ds', rs = ds ++ [46]%Z ++ ds'
                /\ Forall (fun c => digit c = true) ds /\ Forall (fun c => digit c = true) ds'))
    | Err => True
    | _ => False
    end.
  Proof.
    induction n as [|n IH]; intros dot s rest re H Hn; [llia|]. cbn [num_loop].
    destruct (next_out s rest re H) as [(x & r & s1 & -> & G & E & A & s2 & B & A2)|(-> & s1 & E & A & s2 & B & A2)]; rewrite E.
    - cbn [length] in Hn. destruct (digit x) eqn:Ed.
      + specialize (IH dot s1 r re A ltac:(llia)).
        destruct (num_loop input digit_hi n dot s1) as [[[rs d] s3]| | |]; cbn [bind]; try exact IH.
        destruct IH as (r' & -> & Hh & Hb & HP). exists r'. sps; auto.
        destruct HP as [(-> & Hd)|(-> & -> & ds & ds' & -> & H1 & H2)]; [left; auto|right].
        sps; auto. exists (x :: ds), ds'. sps; auto.
      + destruct (Z.eqb x r_dot) eqn:Ex.
        * apply Z.eqb_eq in Ex. subst x. destruct dot; [exact I|].
          specialize (IH true s1 r re A ltac:(llia)).
          destruct (num_loop input digit_hi n true s1) as [[[rs d] s3]| | |]; cbn [bind]; try exact IH.
          destruct IH as (r' & -> & Hh & Hb & HP). exists r'. sps; auto.
          destruct HP as [(-> & Hd)|(E0 & _)]; [|discriminate]. right. sps; auto.
          exists [], rs. sps; auto.
        * exists (x :: r). sps; auto. exists s2. auto.
    - change (digit eof) with false. cbn match. change (Z.eqb eof r_dot) with false. cbn match.
      exists []. sps; auto. exists s2. auto.
  Qed.

  Lemma scan_digits_back base : forall rs acc z, (base = 8 \/ base = 10)%Z -> scan_digits base acc rs = Ret z ->
    Forall (fun c => digit c = true) rs ->
    exists ds r, rs = ds ++ r /\ Forall (fun d => 48 <= d < 48 + base)%Z ds
      /\ z = fold_left (fun a d => a * base + (d - 48))%Z ds acc
      /\ match r with [] => True | c :: _ => (48 + base <= c <= 57)%Z end.
  Proof.
    induction rs as [|r rs IH]; intros acc z Hb E Hd; cbn [scan_digits] in E.
    - inversion E; subst. exists [], []. sps; auto.
    - destruct (ascii_digit r) eqn:Ea; [|discriminate].
      unfold ascii_digit in Ea. rewrite andb_true_iff, !Z.leb_le in Ea. inversion Hd; subst.
      destruct (Z.ltb (r - 48) base) eqn:El.
      + apply Z.ltb_lt in El. destruct (IH _ _ Hb E H2) as (ds & r' & -> & H3 & H4 & H5).
        exists (r :: ds), r'. sps; auto. constructor; auto. lia.
      + inversion E; subst. apply Z.ltb_ge in El. exists [], (r :: rs). sps; auto; lia.
  Qed.
  Lemma scan_nat_back rs z : rs <> [] -> Forall (fun c => digit c = true) rs -> scan_nat rs = Ret z ->
    int_literal digit rs z.
  Proof.
    intros Hne Hd E.
    assert (D : forall d ds, rs = d :: ds -> (d <> 48%Z \/ ds = []) -> scan_digits 10 0 rs = Ret z -> int_literal digit rs z).
    { intros d ds -> Hc E0. destruct (scan_digits_back 10 _ _ _ ltac:(auto) E0 Hd) as (a & b & E1 & H1 & H2 & H3).
      destruct b as [|c b]; [|lia]. rewrite app_nil_r in E1. subst a z.
      apply il_decimal; [|exact Hc]. eapply Forall_impl; [|exact H1]. cbn beta. intros; lia. }
    destruct rs as [|d [|d' ds]]; [congruence| |].
    - apply (D d []); auto.
    - unfold scan_nat in E. destruct (Z.eqb d 48) eqn:E48.
      + apply Z.eqb_eq in E48. subst d. cbn [tl] in E. inversion Hd; subst.
        destruct (scan_digits_back 8 _ _ _ ltac:(auto) E H2) as (a & b & E1 & H3 & H4 & H5).
        rewrite E1. subst z. apply il_octal.
        * eapply Forall_impl; [|exact H3]. cbn beta. intros; lia.
        * destruct b; [exact I|lia].
        * rewrite E1 in H2. apply Forall_app in H2. apply H2.
        * intros E2. assert (X := eq_trans E1 E2). discriminate X.
      + apply (D d (d' :: ds)); auto. left. apply Z.eqb_neq. exact E48.
  Qed.
  Lemma scan_digits_decides base : forall rs acc, scan_digits base acc rs <> Panic /\ scan_digits base acc rs <> Fuel.
  Proof.
    induction rs as [|r rs IH]; intros acc; cbn [scan_digits]; [split; discriminate|].
    destruct (ascii_digit r); [|split; discriminate]. destruct (Z.ltb _ _); [apply IH|split; discriminate].
  Qed.

  Lemma num_arg_out (neg : bool) s rest re : At s rest re -> (neg = false -> digit (hd eof rest) = true) ->
    out st2 rest re (fun v w r l => l = [] /\
       w_arg letter digit scan_float (fst v) (if neg then 45%Z :: w else w))
      (num_arg input digit_hi scan_float fuel neg s).
  Proof.
    intros H Hneg. unfold num_arg. pose proof (num_loop_out fuel false s rest re H (at_length _ _ _ H)) as K.
    destruct (num_loop input digit_hi fuel false s) as [[[rs d] s1]| | |]; cbn [bind]; try exact K; try exact I; try destruct K.
    rename x into r. destruct H0 as (E & Hh & (s2 & B & A2) & HP).
    destruct rs as [|c rs]; [exact I|]. rewrite B. cbn [bind].
    destruct HP as [(-> & Hd)|(_ & -> & ds & ds' & E0 & H1 & H2)].
    - unfold scan_int.
      assert (Kd : scan_nat (c :: rs) <> Panic /\ scan_nat (c :: rs) <> Fuel).
      { unfold scan_nat. destruct rs; [apply scan_digits_decides|]. destruct (Z.eqb _ _); apply scan_digits_decides. }
      pose proof (scan_nat_back (c :: rs)) as Kb.
      destruct (scan_nat (c :: rs)) as [z| | |]; cbn [bind]; try exact I; try tauto.
      specialize (Kb z ltac:(discriminate) Hd eq_refl).
      exists (c :: rs), r, []. sps; auto. cbn [fst]. destruct neg.
      + exact (wa_negative letter digit scan_float _ _ Kb).
      + exact (wa_int letter digit scan_float _ _ Kb).
    - destruct (Hscan (encode (if neg then r_minus :: c :: rs else c :: rs))) as [S1 S2].
      destruct (scan_float (encode (if neg then r_minus :: c :: rs else c :: rs))) as [f| | |] eqn:Ef;
        cbn [bind]; try exact I; try congruence.
      exists (c :: rs), r, []. sps; auto. cbn [fst]. destruct neg.
      + rewrite E0 in *. apply (wa_negative_float letter digit scan_float). apply (fl_intro digit scan_float ds ds' "-" f); auto.
      + apply (wa_float letter digit scan_float).
        * specialize (Hneg eq_refl). rewrite E in Hneg. exact Hneg.
        * rewrite E0 in *. apply (fl_intro digit scan_float ds ds' "" f); auto.
  Qed.

  Definition args_spec (n : nat) (args : rd -> res (list arg * rd)) : Prop :=
    forall s rest re, At s rest re -> length rest < n ->
      out st2 rest re (fun v w r l => l = [] /\ exists w', w = w' ++ [41]%Z /\ w_args letter digit scan_float (fst v) w')
        (args s).

  Lemma semantic_with_out n args s rest re : args_spec n args -> At s rest re -> length rest <= n ->
    out st2 rest re (fun v w r l => l = [] /\ exists sp w' sp', w = sp ++ w' ++ sp' /\ spaces sp /\ spaces sp'
        /\ w_fmr letter digit scan_float (fst v) w')
      (semantic_with input letter_hi digit_hi fuel args s).
  Proof.
    intros Ha H Hn. unfold semantic_with.
    eapply out_bind; [apply ws_out; exact H|]. intros s1 w1 r1 l1 E1 (Hw1 & _ & ->) A1.
    eapply out_bind; [apply func_name_out; exact A1|].
    intros [fn s2] w2 r2 l2 E2 (-> & fn' & sp & -> & Ef & Hf & Hsp) A2. cbn [fst st2 snd] in *. subst fn.
    eapply out_bind; [apply eat_out; [reflexivity|exact A2]|]. intros s3 w3 r3 l3 E3 (-> & ->) A3.
    eapply out_bind; [apply Ha; [exact A3|]|].
    { rewrite E1, E2, E3, !app_length in Hn. cbn [length] in Hn. llia. }
    intros [a s4] w4 r4 l4 E4 (-> & w4' & -> & Hw4) A4. cbn [fst st2 snd] in *.
    eapply out_bind; [apply ws_out; exact A4|]. intros s5 w5 r5 l5 E5 (Hw5 & _ & ->) A5.
    apply out_ret; [exact A5|]. split; [reflexivity|].
    exists w1, (fn' ++ sp ++ [40]%Z ++ w4' ++ [41]%Z), w5. split.
    - rewrite ?app_nil_r. rewrite <- !app_assoc. reflexivity.
    - sps; auto. apply wf_intro; auto.
  Qed.

  Lemma one_arg_out n args r s rest re : args_spec n args -> At s rest re -> length rest <= n -> r = hd eof rest ->
    out st2 rest re (fun v w r l => l = [] /\ exists sp w' sp', w = sp ++ w' ++ sp' /\ spaces sp /\ spaces sp'
        /\ w_arg letter digit scan_float (fst v) w')
      (one_arg input letter_hi digit_hi scan_float fuel args r s).
  Proof.
    intros Ha H Hn Hr. unfold one_arg.
    assert (S0 : spaces []) by constructor.
    destruct (Z.eqb r r_at).
    { eapply out_bind; [apply eat_out; [reflexivity|exact H]|]. intros s1 w1 r1 l1 E1 (-> & ->) A1.
      apply out_ret; [exact A1|]. split; [reflexivity|]. exists [], [64]%Z, []. sps; auto. apply wa_context. }
    destruct (Z.eqb r r_dollar).
    { eapply out_bind; [apply eat_out; [reflexivity|exact H]|]. intros s1 w1 r1 l1 E1 (-> & ->) A1.
      eapply out_bind; [apply get_int_out; exact A1|]. intros [i s2] w2 r2 l2 E2 (-> & Hi) A2. cbn [fst st2 snd] in *.
      apply out_ret; [exact A2|]. split; [reflexivity|]. exists [], ([36]%Z ++ w2), []. rewrite ?app_nil_r. sps; auto.
      apply wa_index. exact Hi. }
    destruct (Z.eqb r r_quote).
    { eapply out_bind; [apply terminal_out; exact H|]. intros [[fl t] s1] w1 r1 l1 E1 (-> & Hw) A1. cbn [fst st2 snd] in *.
      apply out_ret; [exact A1|]. split; [reflexivity|]. exists [], w1, []. rewrite ?app_nil_r. sps; auto.
      exact (wa_string letter digit scan_float fl t w1 Hw). }
    destruct (digit r) eqn:Ed.
    { eapply out_imp; [apply num_arg_out; [exact H|intros _; rewrite <- Hr; exact Ed]|].
      intros v w r' l _ [-> Hw]. split; [reflexivity|]. exists [], w, []. rewrite ?app_nil_r. sps; auto. }
    destruct (Z.eqb r r_minus).
    { eapply out_bind; [apply eat_out; [reflexivity|exact H]|]. intros s1 w1 r1 l1 E1 (-> & ->) A1.
      eapply out_imp; [apply num_arg_out; [exact A1|discriminate]|].
      intros v w r' l _ [-> Hw]. split; [reflexivity|]. exists [], ([r_minus] ++ w), []. rewrite ?app_nil_r. sps; auto. }
    eapply out_bind; [apply (semantic_with_out n); [exact Ha|exact H|exact Hn]|].
    intros [f s1] w1 r1 l1 E1 (-> & sp & w' & sp' & -> & H1 & H2 & H3) A1. cbn [fst st2 snd] in *.
    apply out_ret; [exact A1|]. split; [reflexivity|]. exists sp, w', sp'. rewrite ?app_nil_r. sps; auto.
    apply wa_func. exact H3.
  Qed.

  Lemma args_loop_out : forall n, args_spec n (args_loop input letter_hi digit_hi scan_float fuel n).
  Proof.
    induction n as [|n IH]; intros s rest re H Hn; [llia|]. cbn [args_loop].
    eapply out_bind; [apply ws_out; exact H|]. intros s1 w1 r1 l1 E1 (Hw1 & Hh1 & ->) A1.
    eapply out_bind; [apply peek_out; exact A1|]. intros [r s2] w2 r2 l2 E2 (-> & -> & Hr) A2. cbn [fst st2 snd] in *.
    cbn [app] in E2. subst r2.
    assert (Hn1 : length r1 <= n) by (rewrite E1, app_length in Hn; llia).
    eapply out_bind; [apply (one_arg_out n); [exact IH|exact A2|exact Hn1|exact Hr]|].
    intros [a s3] w3 r3 l3 E3 (-> & sp & w' & sp' & -> & Hsp & Hsp' & Ha) A3. cbn [fst st2 snd] in *.
    destruct (arg_head letter_hi digit_hi scan_float Htab all fuel Hfuel _ _ Ha) as (G1 & G2 & G3).
    assert (Hne : hd eof r1 <> 44%Z).
    { rewrite E3. destruct sp as [|x sp].
      - cbn [app]. destruct w' as [|y w']; [congruence|]. exact G3.
      - cbn [app hd]. inversion Hsp; subst. intros E0. subst x. discriminate. }
    rewrite <- Hr in Hne. apply Z.eqb_neq in Hne. change r_comma with 44%Z. rewrite Hne.
    assert (Hn3 : length r3 < length r1).
    { rewrite E3, !app_length. destruct w'; [congruence|]. cbn [length]. llia. }
    eapply out_bind; [apply ws_out; exact A3|]. intros s4 w4 r4 l4 E4 (Hw4 & _ & ->) A4.
    assert (Hn4 : length r4 <= length r3) by (rewrite E4, app_length; llia).
    change (st1 s4) with s4 in A4.
    destruct (next_out _ _ _ A4) as [(x & r5 & s5 & E5 & G & N5 & A5 & _)|(E5 & s5 & N5 & A5 & _)]; rewrite N5.
    - destruct (Z.eqb x 44%Z) eqn:Ec.
      + apply Z.eqb_eq in Ec. subst x. rewrite E5 in Hn4. cbn [length] in Hn4.
        specialize (IH s5 r5 _ A5 ltac:(llia)).
        destruct (args_loop input letter_hi digit_hi scan_float fuel n s5) as [[l0 s6]| | |]; cbn [bind out] in *; try tauto.
        * destruct IH as (w6 & r6 & l6 & -> & (-> & w6' & -> & Hw6) & A6). cbn [fst st2 snd] in *.
          exists ([44]%Z ++ w6' ++ [41]%Z), r6, []. split; [rewrite E5; clear; lists; reflexivity|]. split; [|exact A6].
          split; [reflexivity|].
          -- exists ((w1 ++ sp) ++ w' ++ (sp' ++ w4) ++ [44]%Z ++ w6'). split; [clear; lists; reflexivity|].
             apply was_more; auto using spaces_app.
        * rewrite E5. apply (hangs_app [44]%Z). exact IH.
      + destruct (Z.eqb x r_rparen) eqn:Ep; [|exact I]. apply Z.eqb_eq in Ep. subst x.
        exists [41]%Z, r5, []. sps; auto. cbn [fst].
        exists ((w1 ++ sp) ++ w' ++ (sp' ++ w4)). split; [clear; lists; reflexivity|].
        apply was_last; auto using spaces_app.
    - change (Z.eqb eof 44%Z) with false. cbn match. change (Z.eqb eof r_rparen) with false. exact I.
  Qed.
  Lemma semantic_fn_out s rest re : At s rest re ->
    out st2 rest re (fun v w r l => l = [] /\ exists sp w' sp', w = sp ++ w' ++ sp' /\ spaces sp /\ spaces sp'
        /\ w_fmr letter digit scan_float (fst v) w')
      (semantic_fn input letter_hi digit_hi scan_float fuel s).
  Proof.
    intros H. unfold semantic_fn. pose proof (at_length _ _ _ H).
    apply (semantic_with_out fuel); [apply args_loop_out|exact H|llia].
  Qed.

  Local Notation w_term' := (w_term letter digit regexp_ok md5).
  Local Notation w_terms' := (w_terms letter digit regexp_ok md5).
  Local Notation w_body' := (w_body letter digit scan_float regexp_ok md5).
  Local Notation w_bodies' := (w_bodies letter digit scan_float regexp_ok md5).
  Local Notation w_item' := (w_item letter digit scan_float regexp_ok md5).
  Local Notation w_items' := (w_items letter digit scan_float regexp_ok md5).

  Lemma term_nonempty t l w : w_term' t l w -> w <> [].
  Proof. intros H. exact (proj1 (term_head letter_hi digit_hi regexp_ok md5 t l w H)). Qed.

  Lemma terms_step t l w g ts l' g' w' : w_term' t l w -> gap g ->
    (ts = [] /\ l' = [] /\ gap w' /\ g' = [] \/ gap g' /\ w_terms' ts l' w') ->
    w_terms' (t :: ts) (l ++ l') (w ++ g ++ g' ++ w').
  Proof.
    intros Ht Hg [(-> & -> & Hw' & ->)|(Hg' & Hts)].
    - rewrite app_nil_r. cbn [app]. apply wts_last; [exact Ht|apply gap_app; assumption].
    - rewrite (app_assoc g). apply wts_more; [exact Ht|apply gap_app; assumption|exact Hts].
  Qed.

  Definition terms_post (ts : list term) (w : list rune) (l : list (string * string)) : Prop :=
    exists g w', w = g ++ w' /\ (ts = [] /\ l = [] /\ gap w' /\ g = [] \/ gap g /\ w_terms' ts l w').

  Lemma terms_loop_out : forall n s rest re, At s rest re -> length rest < n ->
    out st2 rest re (fun v w r l => terms_post (fst v) w l)
      (terms_loop input letter_hi digit_hi regexp_ok md5 fuel n s).
  Proof.
    induction n as [|n IH]; intros s rest re H Hn; [llia|]. cbn [terms_loop].
    eapply out_bind; [apply comments_out; exact H|]. intros s1 w1 r1 l1 E1 (Hw1 & ->) A1.
    eapply out_bind; [apply peek_out; exact A1|]. intros [c s2] w2 r2 l2 E2 (-> & -> & Hc) A2. cbn [fst st2 snd] in *.
    cbn [app] in E2. subst r2.
    destruct (negb (starts_term c)).
    { apply out_ret; [exact A2|]. cbn [fst]. exists [], w1. rewrite ?app_nil_r. split; [reflexivity|]. left. auto. }
    eapply out_bind; [apply read_term_out; exact A2|]. intros [t s3] w3 r3 l3 E3 Ht A3. cbn [fst st2 snd] in *.
    eapply out_bind; [apply comments_out; exact A3|]. intros s4 w4 r4 l4 E4 (Hw4 & ->) A4.
    eapply out_bind; [apply IH; [exact A4|]|].
    { rewrite E1, E3, E4, !app_length in Hn. pose proof (term_nonempty _ _ _ Ht).
      destruct w3; [congruence|]. cbn [length] in Hn. llia. }
    intros [ts s5] w5 r5 l5 E5 (g & w' & -> & Hp) A5. cbn [fst st2 snd] in *.
    apply out_ret; [exact A5|]. cbn [fst]. exists w1, (w3 ++ w4 ++ g ++ w'). rewrite ?app_nil_r. cbn [app].
    split; [rewrite <- ?app_assoc; reflexivity|]. right. split; [exact Hw1|].
    apply terms_step; assumption.
  Qed.

  Lemma rule_body_out s rest re : At s rest re ->
    out st2 rest re (fun v w r l => w_body' (fst v) l w)
      (rule_body input letter_hi digit_hi scan_float regexp_ok md5 fuel s).
  Proof.
    intros H. unfold rule_body.
    eapply out_bind; [apply read_term_out; exact H|]. intros [t s1] w1 r1 l1 E1 Ht A1. cbn [fst st2 snd] in *.
    eapply out_bind; [apply comments_out; exact A1|]. intros s2 w2 r2 l2 E2 (Hw2 & ->) A2.
    eapply out_bind; [apply terms_loop_out; [exact A2|exact (at_length _ _ _ A2)]|].
    intros [ts s3] w3 r3 l3 E3 (g & w' & -> & Hp) A3. cbn [fst st2 snd] in *.
    pose proof (terms_step _ _ _ _ _ _ _ _ Ht Hw2 Hp) as Hts.
    eapply out_bind; [apply peek_out; exact A3|]. intros [c s4] w4 r4 l4 E4 (-> & -> & Hc) A4. cbn [fst st2 snd] in *.
    cbn [app] in E4. subst r4.
    destruct (Z.eqb c r_lbrace) eqn:Ec.
    - apply Z.eqb_eq in Ec. 
      apply (skip_out _ st2 c s4 r3 _ _ (fun p => let '(_, s) := p in
        ' (f, s) <- semantic_fn input letter_hi digit_hi scan_float fuel s ;; s <- eat input r_rbrace s ;;
        s <- comments input fuel s ;; Ret (mkRb (t :: ts) (Some f), s))); [exact A4|auto|rewrite Ec; reflexivity|].
      rewrite Ec. clear Ec Hc. intros s5 r5 E5 A5.
      eapply out_bind; [apply semantic_fn_out; exact A5|].
      intros [f s6] w6 r6 l6 E6 (-> & sp & w6' & sp' & -> & Hsp & Hsp' & Hf) A6. cbn [fst st2 snd] in *.
      eapply out_bind; [apply eat_out; [reflexivity|exact A6]|]. intros s7 w7 r7 l7 E7 (-> & ->) A7.
      eapply out_bind; [apply comments_out; exact A7|]. intros s8 w8 r8 l8 E8 (Hw8 & ->) A8.
      apply out_ret; [exact A8|]. cbn [fst].
      by_list (wb_func letter digit scan_float regexp_ok md5 _ _ _ _ _ _ _ _ Hts Hsp Hf Hsp' Hw8).
    - apply out_ret; [exact A4|]. cbn [fst].
      by_list (wb_plain letter digit scan_float regexp_ok md5 _ _ _ Hts).
  Qed.

  Lemma body_nonempty b l w : w_body' b l w -> w <> [].
  Proof. intros H. exact (proj1 (body_head letter_hi digit_hi scan_float regexp_ok md5 b l w H)). Qed.

  Lemma bodies_loop_out : forall n m s rest re, At s rest re -> length rest < n ->
    out st2 rest re (fun v w r l => exists bs, fst v = put_bodies hash m bs /\
        (bs = [] /\ w = [] /\ l = [] \/ exists g w', w = [124]%Z ++ g ++ w' /\ gap g /\ w_bodies' bs l w'))
      (bodies_loop input letter_hi digit_hi scan_float regexp_ok md5 hash fuel n m s).
  Proof.
    induction n as [|n IH]; intros m s rest re H Hn; [llia|]. cbn [bodies_loop].
    eapply out_bind; [apply peek_out; exact H|]. intros [c s1] w1 r1 l1 E1 (-> & -> & Hc) A1. cbn [fst st2 snd] in *.
    cbn [app] in E1. subst r1.
    destruct (negb (Z.eqb c r_bar)) eqn:Ec.
    { apply out_ret; [exact A1|]. exists []. split; [reflexivity|]. left. auto. }
    apply negb_false_iff, Z.eqb_eq in Ec.
    apply (skip_out _ st2 c s1 rest _ _ (fun p => let '(_, s) := p in
       s <- comments input fuel s ;;
       ' (b, s) <- rule_body input letter_hi digit_hi scan_float regexp_ok md5 fuel s ;;
       bodies_loop input letter_hi digit_hi scan_float regexp_ok md5 hash fuel n (put_N m (hash b) b) s));
       [exact A1|auto|rewrite Ec; reflexivity|].
    rewrite Ec. clear Ec Hc. intros s2 r2 E2 A2.
    eapply out_bind; [apply comments_out; exact A2|]. intros s3 w3 r3 l3 E3 (Hw3 & ->) A3.
    eapply out_bind; [apply rule_body_out; exact A3|]. intros [b s4] w4 r4 l4 E4 Hb A4. cbn [fst st2 snd] in *.
    eapply out_imp; [apply IH; [exact A4|]|].
    { rewrite E2, E3, E4 in Hn. cbn [length] in Hn. rewrite !app_length in Hn. llia. }
    intros v w r l E5 (bs & Ev & HP). exists (b :: bs). split; [exact Ev|]. right.
    destruct HP as [(-> & -> & ->)|(g & w' & -> & Hg & Hbs)].
    - exists w3, w4. rewrite ?app_nil_r. cbn [app]. split; [reflexivity|]. split; [exact Hw3|].
      apply wbs_last. exact Hb.
    - exists w3, (w4 ++ [124]%Z ++ g ++ w'). cbn [app]. split; [reflexivity|]. split; [exact Hw3|].
      apply wbs_more; assumption.
  Qed.

  Lemma rule_bodies_out s rest re : At s rest re ->
    out st2 rest re (fun v w r l => exists bs, fst v = put_bodies hash [] bs /\ w_bodies' bs l w)
      (rule_bodies input letter_hi digit_hi scan_float regexp_ok md5 hash fuel s).
  Proof.
    intros H. unfold rule_bodies.
    eapply out_bind; [apply rule_body_out; exact H|]. intros [b s1] w1 r1 l1 E1 Hb A1. cbn [fst st2 snd] in *.
    eapply out_imp; [apply bodies_loop_out; [exact A1|exact (at_length _ _ _ A1)]|].
    intros v w r l E2 (bs & Ev & HP). exists (b :: bs). split; [exact Ev|].
    destruct HP as [(-> & -> & ->)|(g & w' & -> & Hg & Hbs)].
    - rewrite ?app_nil_r. apply wbs_last. exact Hb.
    - apply wbs_more; assumption.
  Qed.

  Lemma read_rule_out c s rest re : At s rest re ->
    out st2 rest re (fun v w r l => exists it, fst v = item_rule hash it /\ w_item' it l w
         /\ it_frame it = Z.eqb c r_lbrack)
      (read_rule input letter_hi digit_hi scan_float regexp_ok md5 hash fuel c s).
  Proof.
    intros H. unfold read_rule.
    assert (K : forall x s1 rest1 re1, At s1 rest1 re1 ->
      out st2 rest1 re1 (fun v w r l => exists g1 g2 bs w', fst v = mkRule x (put_bodies hash [] bs)
          /\ w = g1 ++ [61]%Z ++ g2 ++ w' ++ [59]%Z /\ gap g1 /\ gap g2 /\ w_bodies' bs l w')
        (s <- comments input fuel s1 ;; s <- eat input r_eq s ;; s <- comments input fuel s ;;
         ' (m, s) <- rule_bodies input letter_hi digit_hi scan_float regexp_ok md5 hash fuel s ;;
         s <- eat input r_semi s ;; Ret (mkRule x m, s))).
    { intros x s1 rest1 re1 H1.
      eapply out_bind; [apply comments_out; exact H1|]. intros s2 w2 r2 l2 E2 (Hw2 & ->) A2.
      eapply out_bind; [apply eat_out; [reflexivity|exact A2]|]. intros s3 w3 r3 l3 E3 (-> & ->) A3.
      eapply out_bind; [apply comments_out; exact A3|]. intros s4 w4 r4 l4 E4 (Hw4 & ->) A4.
      eapply out_bind; [apply rule_bodies_out; exact A4|].
      intros [m s5] w5 r5 l5 E5 (bs & Em & Hbs) A5. cbn [fst st2 snd] in *. subst m.
      eapply out_bind; [apply eat_out; [reflexivity|exact A5]|]. intros s6 w6 r6 l6 E6 (-> & ->) A6.
      apply out_ret; [exact A6|]. exists w2, w4, bs, w5. split; [reflexivity|].
      split; [clear; lists; reflexivity|]. split; [exact Hw2|]. split; [exact Hw4|]. rewrite ?app_nil_r. exact Hbs. }
    destruct (Z.eqb c r_lt) eqn:E1.
    - apply Z.eqb_eq in E1. subst c.
      eapply out_bind; [apply bracketed_out; [reflexivity|reflexivity|exact H]|].
      intros [x s1] w1 r1 l1 E1 (-> & x' & -> & Hx & Ex) A1. cbn [fst st2 snd] in *. subst x.
      eapply out_imp; [apply K; exact A1|].
      intros v w r l _ (g1 & g2 & bs & w' & Ev & -> & H1 & H2 & Hbs). exists (mkItem false (encode x') bs).
      split; [exact Ev|]. split; [|reflexivity].
      by_list (wi_rule letter digit scan_float regexp_ok md5 _ _ _ _ _ _ Hx H1 H2 Hbs).
    - destruct (Z.eqb c r_lbrack) eqn:E2; [|exact I].
      eapply out_bind; [apply bracketed_out; [reflexivity|reflexivity|exact H]|].
      intros [x s1] w1 r1 l1 E3 (-> & x' & -> & Hx & Ex) A1. cbn [fst st2 snd] in *. subst x.
      eapply out_imp; [apply K; exact A1|].
      intros v w r l _ (g1 & g2 & bs & w' & Ev & -> & H1 & H2 & Hbs). exists (mkItem true (encode x') bs).
      split; [exact Ev|]. split; [|reflexivity].
      by_list (wi_frame letter digit scan_float regexp_ok md5 _ _ _ _ _ _ Hx H1 H2 Hbs).
  Qed.

  Lemma item_nonempty it l w : w_item' it l w -> w <> [].
  Proof. intros []; discriminate. Qed.

  Lemma rules_loop_out : forall n rules frames s rest re, At s rest re -> length rest < n ->
    out st2 rest re (fun v w r l => exists its, fst v = (add_items hash false rules its, add_items hash true frames its)
         /\ w_items' its l w)
      (rules_loop input letter_hi digit_hi scan_float regexp_ok md5 hash fuel n rules frames s).
  Proof.
    induction n as [|n IH]; intros rules frames s rest re H Hn; [llia|]. cbn [rules_loop].
    eapply out_bind; [apply comments_out; exact H|]. intros s1 w1 r1 l1 E1 (Hw1 & ->) A1.
    eapply out_bind; [apply peek_out; exact A1|]. intros [c s2] w2 r2 l2 E2 (-> & -> & Hc) A2. cbn [fst st2 snd] in *.
    cbn [app] in E2. subst r2.
    destruct (negb (Z.eqb c r_lt || Z.eqb c r_lbrack)).
    { apply out_ret; [exact A2|]. exists []. split; [reflexivity|]. rewrite ?app_nil_r. apply wis_end. exact Hw1. }
    eapply out_bind; [apply read_rule_out; exact A2|].
    intros [r s3] w3 r3 l3 E3 (it & Er & Hit & Hfr) A3. cbn [fst st2 snd] in *. subst r.
    assert (Hn3 : length r3 < n).
    { rewrite E1, E3, !app_length in Hn. pose proof (item_nonempty _ _ _ Hit).
      destruct w3; [congruence|]. cbn [length] in Hn. llia. }
    rewrite <- Hfr. destruct (it_frame it) eqn:Ef.
    - eapply out_imp; [apply IH; [exact A3|exact Hn3]|].
      intros v w r l _ (its & Ev & Hits). exists (it :: its). split.
      + rewrite Ev. unfold add_items. cbn [fold_left]. rewrite Ef. reflexivity.
      + cbn [app]. apply wis_item; assumption.
    - eapply out_imp; [apply IH; [exact A3|exact Hn3]|].
      intros v w r l _ (its & Ev & Hits). exists (it :: its). split.
      + rewrite Ev. unfold add_items. cbn [fold_left]. rewrite Ef. reflexivity.
      + cbn [app]. apply wis_item; assumption.
  Qed.

  Lemma rules_part_out s rest re : At s rest re ->
    match rules_part input letter_hi digit_hi scan_float regexp_ok md5 hash fuel s with
    | Ret (rf, re') => exists its l, rf = (add_items hash false [] its, add_items hash true [] its)
        /\ w_items' its l rest /\ re' = put_all re l
    | Err => True
    | Panic => False
    | Fuel => open_comment rest
    end.
  Proof.
    intros H. unfold rules_part.
    pose proof (rules_loop_out fuel [] [] s rest re H (at_length _ _ _ H)) as K.
    destruct (rules_loop input letter_hi digit_hi scan_float regexp_ok md5 hash fuel fuel [] [] s) as [[rf s1]| | |];
      cbn [bind out] in *; try exact K.
    destruct K as (w & r & l & -> & (its & E & Hits) & A). cbn [fst st2 snd] in *.
    destruct (next_out s1 r _ A) as [(x & r5 & s5 & E5 & G & N5 & A5 & _)|(E5 & s5 & N5 & A5 & _)]; rewrite N5.
    - rewrite (good_not_eof x G). exact I.
    - change (Z.eqb eof eof) with true. cbn match. subst r. rewrite app_nil_r. exists its, l.
      split; [exact E|]. split; [exact Hits|]. destruct A5 as [_ ->]. reflexivity.
  Qed.
End Back.
