(** The reader on arbitrary texts: no function of it panics, and a successful
    read means that the text is free of undecodable bytes, or starts with one. *)
From Coq Require Import Lia.
From Verif Require Import Base ModelTypes ModelText ModelReader ProofUtf8 SpecNotation.

(** every text is a sequence of good runes followed by nothing or by something
    the decoder reports as an error *)
Lemma good_prefix : forall n s, String.length s <= n ->
  exists pre tail, s = (encode pre ++ tail)%string /\ Forall good pre
    /\ (tail = ""%string \/ exists w, decode_rune tail = (RuneError, w)).
Proof.
  induction n as [|n IH]; intros s Hn.
  - destruct s; [|simpl in Hn; lia]. exists [], ""%string. repeat split; auto.
  - destruct s as [|c s]; [exists [], ""%string; repeat split; auto|].
    destruct (decode_rune (String c s)) as [r w] eqn:D.
    destruct (Z.eq_dec r RuneError) as [->|Hr].
    + exists [], (String c s). repeat split; auto. right. eauto.
    + destruct (decode_valid _ _ _ D Hr) as (V & _ & t & E).
      assert (Hl : String.length t <= n).
      { pose proof (encode_rune_length r). rewrite E, string_length_append in Hn. lia. }
      destruct (IH t Hl) as (pre & tail & E' & G & T).
      exists (r :: pre), tail. split; [|split; [constructor; [split; assumption|exact G]|exact T]].
      rewrite E, E'. cbn [encode]. generalize (encode_rune r). clear.
      intros a. induction a as [|x a IH]; cbn [append]; [reflexivity|]. f_equal. exact IH.
Qed.

Section Safe.
  Variables letter_hi digit_hi : rune -> bool.
  Variable scan_float : string -> res bigf.
  Variable regexp_ok : string -> bool.
  Variable md5 : string -> string.
  Variable hash : rulebody -> N.
  Hypothesis Hscan : forall t, scan_float t <> Panic.
  Hypothesis Hmd5 : forall t, 16 <= String.length (md5 t).
  Variable pre : list rune.
  Variable tail : string.
  Hypothesis Hpre : Forall good pre.
  Hypothesis Htail : tail = ""%string \/ exists w, decode_rune tail = (RuneError, w).
  Variable fuel : nat.

  Local Notation input := (encode pre ++ tail)%string.

  Definition last_width (a : list rune) : nat :=
    match rev a with [] => 0 | c :: _ => String.length (encode_rune c) end.

  Definition Inv (s : rd) : Prop :=
    exists a b, pre = a ++ b /\ rd_pos s = String.length (encode a)
      /\ (b = [] -> tail <> ""%string -> rd_width s = last_width a).

  Lemma inv_start re : Inv (mkRd 0 0 re).
  Proof. exists [], pre. repeat split; auto. Qed.

  Lemma inv_re p w re re' : Inv (mkRd p w re) -> Inv (mkRd p w re').
  Proof. intros H. exact H. Qed.

  Lemma input_split a b : pre = a ++ b ->
    input = (encode a ++ (encode b ++ tail))%string.
  Proof.
    intros ->. rewrite encode_app. generalize (encode a). clear.
    intros x. induction x; cbn [append]; [reflexivity|]. f_equal. exact IHx.
  Qed.

  Lemma next_cases s a b : pre = a ++ b -> rd_pos s = String.length (encode a) ->
    (exists c b', b = c :: b' /\ good c /\
       next input s = (c, mkRd (String.length (encode (a ++ [c]))) (String.length (encode_rune c)) (rd_re s)))
    \/ (b = [] /\ tail = ""%string /\ next input s = (eof, mkRd (rd_pos s) 0 (rd_re s)))
    \/ (b = [] /\ tail <> ""%string /\ next input s = (eof, s)).
  Proof.
    intros E P. unfold next. rewrite P, (input_split a b E), string_length_append, drop_append.
    destruct b as [|c b].
    - right. cbn [encode append String.length].
      destruct tail as [|x t] eqn:ET.
      + left. cbn [String.length]. rewrite Nat.add_0_r, Nat.leb_refl. auto.
      + right. destruct Htail as [H|[w H]]; [discriminate|]. rewrite H.
        replace (Nat.leb _ _) with false by (symmetry; apply Nat.leb_gt; simpl; lia).
        change (Z.eqb RuneError RuneError) with true. split; [reflexivity|split; [discriminate|reflexivity]].
    - left. assert (G : good c). { rewrite E in Hpre. apply Forall_app in Hpre. destruct Hpre as [_ H]. now inversion H. }
      exists c, b. split; [reflexivity|]. split; [exact G|]. destruct G as [Hc Hne].
      assert (L : String.length (encode_rune c) > 0) by (pose proof (encode_rune_length c); lia).
      replace (Nat.leb _ _) with false
        by (symmetry; apply Nat.leb_gt; cbn [encode]; rewrite !string_length_append; lia).
      replace (encode (c :: b) ++ tail)%string with (encode_rune c ++ (encode b ++ tail))%string.
      2: { cbn [encode]. generalize (encode_rune c). clear. intros x. induction x; cbn [append]; [reflexivity|]. f_equal. exact IHx. }
      rewrite decode_encode by exact Hc. apply Z.eqb_neq in Hne. rewrite Hne.
      rewrite encode_app, string_length_append. cbn [encode]. rewrite string_length_append. cbn [String.length].
      rewrite Nat.add_0_r. reflexivity.
  Qed.

  Lemma last_width_snoc a c : last_width (a ++ [c]) = String.length (encode_rune c).
  Proof. unfold last_width. rewrite rev_app_distr. reflexivity. Qed.
  Lemma snoc_cases (a : list rune) : a = [] \/ exists a' c, a = a' ++ [c].
  Proof.
    destruct (rev a) as [|c l] eqn:E.
    - left. rewrite <- (rev_involutive a), E. reflexivity.
    - right. exists (rev l), c. rewrite <- (rev_involutive a), E. reflexivity.
  Qed.

  Lemma next_inv s r s1 : Inv s -> next input s = (r, s1) ->
    Inv s1 /\ exists s2, backup s1 = Ret s2 /\ Inv s2.
  Proof.
    intros (a & b & E & P & W) N.
    destruct (next_cases s a b E P) as [(c & b' & Eb & G & N')|[(Eb & Et & N')|(Eb & Et & N')]];
      rewrite N in N'; inversion N'; subst; clear N'.
    - split.
      + exists (a ++ [c]), b'. rewrite <- app_assoc. cbn [rd_pos rd_width]. repeat split; auto.
        intros _ _. symmetry. apply last_width_snoc.
      + unfold backup. cbn [rd_pos rd_width rd_re]. rewrite encode_app, string_length_append. cbn [encode].
        rewrite string_length_append. cbn [String.length]. rewrite Nat.add_0_r.
        replace (Nat.leb _ _) with true by (symmetry; apply Nat.leb_le; lia).
        eexists. split; [reflexivity|]. exists a, (c :: b'). cbn [rd_pos rd_width]. repeat split; auto.
        * lia.
        * discriminate.
    - rewrite app_nil_r in E. split.
      + exists a, []. rewrite app_nil_r. cbn [rd_pos]. repeat split; auto. congruence.
      + unfold backup. cbn [rd_pos rd_width rd_re Nat.leb]. eexists. split; [reflexivity|].
        exists a, []. rewrite app_nil_r. cbn [rd_pos]. repeat split; auto. lia. congruence.
    - rewrite app_nil_r in E. specialize (W eq_refl Et). split.
      + exists a, []. rewrite app_nil_r. repeat split; auto.
      + unfold backup. rewrite W, P. destruct (snoc_cases a) as [->|(a' & c & ->)].
        * cbn. eexists. split; [reflexivity|]. exists [], []. cbn [rd_pos rd_width]. repeat split; auto.
        * rewrite last_width_snoc, encode_app, string_length_append. cbn [encode].
          rewrite string_length_append. cbn [String.length]. rewrite Nat.add_0_r.
          replace (Nat.leb _ _) with true by (symmetry; apply Nat.leb_le; lia).
          eexists. split; [reflexivity|]. exists a', [c]. cbn [rd_pos rd_width]. repeat split; auto.
          -- lia.
          -- discriminate.
  Qed.

  (** the end of the text is only seen twice in a row when it is the end *)
  Lemma peek_end s c s1 : Inv s -> peek input s = Ret (c, s1) -> fst (next input s1) = eof ->
    c = eof /\ (tail = ""%string \/ pre = []).
  Proof.
    intros (a & b & E & P & W) Pk N. unfold peek in Pk.
    destruct (next_cases s a b E P) as [(c' & b' & Eb & G & N')|[(Eb & Et & N')|(Eb & Et & N')]];
      rewrite N' in Pk.
    - exfalso. unfold backup in Pk. cbn [rd_pos rd_width rd_re] in Pk.
      rewrite encode_app, string_length_append in Pk. cbn [encode] in Pk.
      rewrite string_length_append in Pk. cbn [String.length] in Pk. rewrite Nat.add_0_r in Pk.
      replace (Nat.leb _ _) with true in Pk by (symmetry; apply Nat.leb_le; lia).
      cbn [bind] in Pk. inversion Pk; subst c' s1; clear Pk.
      match type of N with context [next input ?x] =>
        destruct (next_cases x a b E ltac:(cbn [rd_pos]; lia)) as [(c2 & b2 & Eb2 & G2 & N2)|[(Eb2 & _)|(Eb2 & _)]] end;
        try congruence.
      rewrite N2 in N. cbn [fst] in N. subst c2. destruct G2 as [G2 _]. vm_compute in G2. discriminate.
    - inversion Pk. split; [|auto]. destruct (backup _); cbn in Pk; inversion Pk; reflexivity.
    - split; [destruct (backup s); cbn in Pk; inversion Pk; reflexivity|]. right.
      specialize (W Eb Et). subst b. rewrite app_nil_r in E. subst a.
      destruct (snoc_cases pre) as [H|(a' & c2 & E)]; [exact H|exfalso].
      unfold backup in Pk. rewrite W, P, E, last_width_snoc, encode_app, string_length_append in Pk. cbn [encode] in Pk.
      rewrite string_length_append in Pk. cbn [String.length] in Pk. rewrite Nat.add_0_r in Pk.
      replace (Nat.leb _ _) with true in Pk by (symmetry; apply Nat.leb_le; lia).
      cbn [bind] in Pk. inversion Pk; subst c s1; clear Pk.
      match type of N with context [next input ?x] =>
        destruct (next_cases x a' [c2] E ltac:(cbn [rd_pos]; lia)) as [(c3 & b2 & Eb2 & G2 & N2)|[(Eb2 & _)|(Eb2 & _)]] end;
        try congruence.
      rewrite N2 in N. cbn [fst] in N. subst c3. destruct G2 as [G2 _]. vm_compute in G2. discriminate.
  Qed.

  Definition safe {A} (x : res (A * rd)) : Prop :=
    match x with Ret (_, s) => Inv s | Panic => False | _ => True end.
  Definition safe1 (x : res rd) : Prop :=
    match x with Ret s => Inv s | Panic => False | _ => True end.

  Lemma safe_bind A B (x : res (A * rd)) (k : A * rd -> res (B * rd)) :
    safe x -> (forall a s, Inv s -> safe (k (a, s))) -> safe (bind x k).
  Proof. destruct x as [[a s]| | |]; simpl; auto. Qed.
  Lemma safe1_bind B (x : res rd) (k : rd -> res (B * rd)) :
    safe1 x -> (forall s, Inv s -> safe (k s)) -> safe (bind x k).
  Proof. destruct x; simpl; auto. Qed.
  Lemma safe1_bind1 (x : res rd) (k : rd -> res rd) :
    safe1 x -> (forall s, Inv s -> safe1 (k s)) -> safe1 (bind x k).
  Proof. destruct x; simpl; auto. Qed.
  Lemma safe_bind1 A (x : res (A * rd)) (k : A * rd -> res rd) :
    safe x -> (forall a s, Inv s -> safe1 (k (a, s))) -> safe1 (bind x k).
  Proof. destruct x as [[a s]| | |]; simpl; auto. Qed.

  Ltac nx H :=
    match goal with |- context [next input ?s] =>
      let r := fresh "r'" in let s1 := fresh "t" in let N := fresh "Nx" in
      let I1 := fresh "J" in let s2 := fresh "t" in let B := fresh "B" in let I2 := fresh "J" in
      destruct (next input s) as [r s1] eqn:N;
      destruct (next_inv s r s1 H N) as [I1 (s2 & B & I2)]
    end.
  Ltac bk :=
    match goal with B : backup ?s = Ret _ |- context [backup ?s] => rewrite B; cbn [bind]; cbn [safe safe1]; assumption end.

  Lemma eat_safe c s : Inv s -> safe1 (eat input c s).
  Proof. intros H. unfold eat. nx H. destruct (Z.eqb _ _); simpl; auto. Qed.
  Lemma peek_safe s : Inv s -> safe (peek input s).
  Proof. intros H. unfold peek. nx H. bk. Qed.
  Lemma ws_safe s : Inv s -> safe1 (ws input fuel s).
  Proof.
    unfold ws. generalize fuel. intros n. revert s. induction n as [|n IH]; intros s H; cbn [ws_loop]; [exact I|].
    nx H. destruct (is_space _); [auto|bk].
  Qed.
  Lemma text_safe s : Inv s -> safe (text input letter_hi digit_hi fuel s).
  Proof.
    intros H. unfold text. apply safe_bind.
    - generalize fuel. intros n. generalize true. revert s H.
      induction n as [|n IH]; intros s H b; cbn [text_loop]; [exact I|]. nx H.
      match goal with |- context [if ?c then _ else _] => destruct c end; [|bk].
      apply safe_bind; [auto|]. intros; cbn; auto.
    - intros l s' H'. destruct l; cbn; auto.
  Qed.
  Lemma bracketed_safe b e s : Inv s -> safe (bracketed input letter_hi digit_hi fuel b e s).
  Proof.
    intros H. unfold bracketed. apply safe1_bind; [now apply eat_safe|]. intros s1 H1.
    apply safe_bind; [now apply text_safe|]. intros x s2 H2.
    apply safe1_bind; [now apply eat_safe|]. intros s3 H3. exact H3.
  Qed.
  Lemma line_safe n : forall s, Inv s -> safe1 (line_loop input n s).
  Proof.
    induction n as [|n IH]; intros s H; cbn [line_loop]; [exact I|]. nx H. destruct (Z.eqb _ _); cbn; auto.
  Qed.
  Lemma block_safe n : forall p s, Inv s -> safe1 (block_loop input n p s).
  Proof.
    induction n as [|n IH]; intros p s H; cbn [block_loop]; [exact I|]. nx H. destruct (Z.eqb _ _); cbn; auto.
    destruct (_ && _); cbn; auto.
  Qed.
  Lemma comment_safe s : Inv s -> safe (comment input fuel s).
  Proof.
    intros H. unfold comment. nx H. destruct (negb _); [bk|].
    apply safe_bind; [now apply peek_safe|]. intros r2 s2 H2.
    destruct (Z.eqb _ _).
    - apply safe1_bind; [now apply eat_safe|]. intros s3 H3.
      apply safe1_bind; [now apply line_safe|]. intros s4 H4. exact H4.
    - destruct (Z.eqb _ _); [|exact I].
      apply safe1_bind; [now apply eat_safe|]. intros s3 H3.
      apply safe1_bind; [now apply block_safe|]. intros s4 H4. exact H4.
  Qed.
  Lemma comments_safe s : Inv s -> safe1 (comments input fuel s).
  Proof.
    intros H. unfold comments.
    assert (K : forall n s, Inv s -> safe1 (comments_loop input fuel n s)).
    { induction n as [|n IH]; intros s0 H0; cbn [comments_loop]; [exact I|].
      apply safe1_bind1; [now apply ws_safe|]. intros s1 H1.
      apply safe_bind1; [now apply comment_safe|]. intros f s2 H2.
      destruct f; [auto|now apply ws_safe]. }
    auto.
  Qed.
  Lemma terminal_safe s : Inv s -> safe (terminal input letter_hi digit_hi fuel s).
  Proof.
    intros H. unfold terminal. apply safe1_bind; [now apply eat_safe|]. intros s1 H1.
    apply safe1_bind; [now apply ws_safe|]. intros s2 H2.
    apply safe_bind; [now apply peek_safe|]. intros r s3 H3.
    apply safe_bind.
    - destruct (Z.eqb _ _); [|exact H3]. nx H3.
      apply safe1_bind; [now apply ws_safe|]. intros s4 H4.
      apply safe1_bind; [now apply eat_safe|]. intros s5 H5.
      apply safe1_bind; [now apply ws_safe|]. intros s6 H6.
      apply safe_bind; [now apply text_safe|]. intros x s7 H7.
      apply safe1_bind; [now apply eat_safe|]. intros s8 H8. exact H8.
    - intros fl s4 H4. apply safe_bind.
      + unfold terminal_text. apply safe_bind; [|intros; cbn; auto].
        generalize 0%Z. generalize fuel. intros n. revert s4 H4.
        induction n as [|n IH]; intros s4 H4 p; cbn [terminal_loop]; [exact I|]. nx H4.
        destruct (_ && _); [bk|]. destruct (Z.eqb _ _); [exact I|]. destruct (Z.eqb _ _).
        * destruct (unescape _); [|exact I]. apply safe_bind; [auto|]. intros; cbn; auto.
        * destruct (Z.eqb _ _); [auto|]. apply safe_bind; [auto|]. intros; cbn; auto.
      + intros t s5 H5. apply safe1_bind; [now apply eat_safe|]. intros s6 H6. exact H6.
  Qed.
  Lemma get_int_safe s : Inv s -> safe (get_int input digit_hi fuel s).
  Proof.
    unfold get_int. generalize (-1)%Z at 1. generalize fuel. intros n. revert s.
    induction n as [|n IH]; intros s i H; cbn [int_loop]; [exact I|]. nx H.
    destruct (is_digit _ _); [destruct (ascii_digit _); [auto|exact I]|].
    destruct (Z.eqb _ _); [exact I|]. bk.
  Qed.
  Lemma special_meta_safe s : Inv s -> safe (special_meta input digit_hi fuel s).
  Proof.
    intros H. unfold special_meta. apply safe1_bind; [now apply ws_safe|]. intros s1 H1.
    apply safe_bind; [now apply peek_safe|]. intros r s2 H2. apply safe_bind.
    - destruct (Z.eqb _ _); [|exact H2]. nx H2.
      apply safe1_bind; [now apply ws_safe|]. intros s4 H4.
      apply safe_bind; [now apply get_int_safe|]. intros lo s5 H5.
      apply safe1_bind; [now apply ws_safe|]. intros s6 H6.
      apply safe1_bind; [now apply eat_safe|]. intros s7 H7.
      apply safe1_bind; [now apply ws_safe|]. intros s8 H8.
      apply safe_bind; [now apply get_int_safe|]. intros hi s9 H9.
      destruct (Z.ltb _ _); [exact I|].
      apply safe1_bind; [now apply ws_safe|]. intros s10 H10.
      apply safe1_bind; [now apply eat_safe|]. intros s11 H11. exact H11.
    - intros m s3 H3. apply safe1_bind; [now apply ws_safe|]. intros s4 H4. exact H4.
  Qed.
  Lemma read_term_safe s : Inv s -> safe (read_term input letter_hi digit_hi regexp_ok md5 fuel s).
  Proof.
    intros H. unfold read_term. apply safe_bind; [now apply peek_safe|]. intros r s1 H1.
    destruct (Z.eqb _ _).
    { apply safe_bind; [now apply bracketed_safe|]. intros x s2 H2. exact H2. }
    destruct (Z.eqb _ _).
    { apply safe_bind; [now apply terminal_safe|]. intros [x y] s2 H2. exact H2. }
    destruct (Z.eqb _ _).
    { unfold special. apply safe1_bind; [now apply eat_safe|]. intros s2 H2.
      apply safe1_bind; [now apply ws_safe|]. intros s3 H3.
      apply safe_bind; [now apply text_safe|]. intros x s4 H4.
      apply safe1_bind; [now apply ws_safe|]. intros s5 H5.
      destruct (String.eqb _ _).
      { apply safe_bind; [now apply special_meta_safe|]. intros m s6 H6.
        apply safe1_bind; [now apply eat_safe|]. intros s7 H7. exact H7. }
      destruct (String.eqb _ _); [|exact I].
      apply safe_bind; [now apply bracketed_safe|]. intros y s6 H6.
      apply safe_bind; [now apply special_meta_safe|]. intros m s7 H7.
      apply safe1_bind; [now apply eat_safe|]. intros s8 H8. exact H8. }
    destruct (Z.eqb _ _); [|exact I].
    unfold regex. apply safe1_bind; [now apply eat_safe|]. intros s2 H2.
    apply safe1_bind; [now apply ws_safe|]. intros s3 H3.
    apply safe_bind.
    - generalize fuel. intros n. revert s3 H3. induction n as [|n IH]; intros s3 H3; cbn [regex_loop]; [exact I|].
      nx H3. destruct (Z.eqb _ _); [assumption|]. destruct (Z.eqb _ _); [exact I|].
      apply safe_bind; [auto|]. intros; cbn; auto.
    - intros l s4 H4. destruct l; [exact I|]. destruct (negb _); [exact I|].
      unfold slice. match goal with |- context [md5 ?t] => pose proof (Hmd5 t) as Hm end.
      apply Nat.leb_le in Hm. rewrite Hm. cbn [Nat.leb andb bind safe]. exact H4.
  Qed.
  Lemma scan_digits_safe b l : forall acc, scan_digits b acc l <> Panic.
  Proof.
    induction l as [|r l IH]; intros acc; cbn [scan_digits]; [discriminate|].
    destruct (ascii_digit _); [|discriminate]. destruct (Z.ltb _ _); [apply IH|discriminate].
  Qed.
  Lemma num_arg_safe neg s : Inv s -> safe (num_arg input digit_hi scan_float fuel neg s).
  Proof.
    intros H. unfold num_arg.
    assert (K : forall n d s, Inv s -> match num_loop input digit_hi n d s with
       | Ret (_, s') => Inv s' /\ exists s2, backup s' = Ret s2 /\ Inv s2 | Panic => False | _ => True end).
    { induction n as [|n IH]; intros d s0 H0; cbn [num_loop]; [exact I|]. nx H0.
      destruct (is_digit _ _).
      - match goal with J : Inv ?x, _ : backup ?x = _ |- _ => specialize (IH d x J) end. destruct (num_loop _ _ _ _ _) as [[[? ?] ?]| | |]; cbn; auto.
      - destruct (Z.eqb _ _); [|cbn; eauto]. destruct d; [exact I|].
        match goal with J : Inv ?x, _ : backup ?x = _ |- _ => specialize (IH true x J) end. destruct (num_loop _ _ _ _ _) as [[[? ?] ?]| | |]; cbn; auto. }
    specialize (K fuel false s H).
    destruct (num_loop _ _ _ _ _) as [[[rs d] s1]| | |]; cbn [bind]; try exact K.
    destruct K as (_ & s2 & B & I2). destruct rs as [|r0 rs]; [exact I|]. rewrite B. cbn [bind].
    destruct d.
    - match goal with |- context [scan_float ?t] => pose proof (Hscan t); destruct (scan_float t) end; cbn; auto.
    - unfold scan_int, scan_nat.
      assert (K : scan_nat (r0 :: rs) <> Panic).
      { unfold scan_nat. destruct rs; [apply scan_digits_safe|]. destruct (Z.eqb _ _); apply scan_digits_safe. }
      unfold scan_nat in K. destruct (match rs with [] => _ | _ => _ end); cbn; auto.
  Qed.
  Lemma semantic_with_safe args s : (forall s, Inv s -> safe (args s)) -> Inv s ->
    safe (semantic_with input letter_hi digit_hi fuel args s).
  Proof.
    intros Ha H. unfold semantic_with. apply safe1_bind; [now apply ws_safe|]. intros s1 H1.
    apply safe_bind.
    - unfold func_name. apply safe_bind.
      + generalize true. generalize eof. generalize fuel. intros n. revert s1 H1.
        induction n as [|n IH]; intros s1 H1 p b; cbn [name_loop]; [exact I|]. nx H1.
        match goal with |- context [if ?c then _ else _] => destruct c end; [|bk].
        apply safe_bind; [auto|]. intros; cbn; auto.
      + intros l s2 H2. destruct l; [exact I|]. apply safe1_bind; [now apply ws_safe|]. intros; cbn; auto.
    - intros fn s2 H2. apply safe1_bind; [now apply eat_safe|]. intros s3 H3.
      apply safe_bind; [auto|]. intros a s4 H4. apply safe1_bind; [now apply ws_safe|]. intros; cbn; auto.
  Qed.
  Lemma one_arg_safe args r s : (forall s, Inv s -> safe (args s)) -> Inv s ->
    safe (one_arg input letter_hi digit_hi scan_float fuel args r s).
  Proof.
    intros Ha H. unfold one_arg.
    destruct (Z.eqb _ _); [apply safe1_bind; [now apply eat_safe|]; intros; cbn; auto|].
    destruct (Z.eqb _ _).
    { apply safe1_bind; [now apply eat_safe|]; intros. apply safe_bind; [now apply get_int_safe|]. intros; cbn; auto. }
    destruct (Z.eqb _ _).
    { apply safe_bind; [now apply terminal_safe|]. intros [? ?] ? ?; cbn; auto. }
    destruct (is_digit _ _); [now apply num_arg_safe|].
    destruct (Z.eqb _ _).
    { apply safe1_bind; [now apply eat_safe|]; intros. now apply num_arg_safe. }
    apply safe_bind; [now apply semantic_with_safe|]. intros; cbn; auto.
  Qed.
  Lemma args_loop_safe n : forall s, Inv s -> safe (args_loop input letter_hi digit_hi scan_float fuel n s).
  Proof.
    induction n as [|n IH]; intros s H; cbn [args_loop]; [exact I|].
    apply safe1_bind; [now apply ws_safe|]. intros s1 H1.
    apply safe_bind; [now apply peek_safe|]. intros r s2 H2.
    apply safe_bind; [now apply one_arg_safe|]. intros a s3 H3.
    destruct (Z.eqb _ _).
    { apply safe_bind; [auto|]. intros; cbn; auto. }
    apply safe1_bind; [now apply ws_safe|]. intros s4 H4. nx H4.
    destruct (Z.eqb _ _).
    { apply safe_bind; [auto|]. intros; cbn; auto. }
    destruct (Z.eqb _ _); [assumption|exact I].
  Qed.
  Lemma terms_loop_safe n : forall s, Inv s -> safe (terms_loop input letter_hi digit_hi regexp_ok md5 fuel n s).
  Proof.
    induction n as [|n IH]; intros s H; cbn [terms_loop]; [exact I|].
    apply safe1_bind; [now apply comments_safe|]. intros s1 H1.
    apply safe_bind; [now apply peek_safe|]. intros r s2 H2.
    destruct (negb _); [exact H2|].
    apply safe_bind; [now apply read_term_safe|]. intros t s3 H3.
    apply safe1_bind; [now apply comments_safe|]. intros s4 H4.
    apply safe_bind; [auto|]. intros; cbn; auto.
  Qed.
  Lemma rule_body_safe s : Inv s -> safe (rule_body input letter_hi digit_hi scan_float regexp_ok md5 fuel s).
  Proof.
    intros H. unfold rule_body.
    apply safe_bind; [now apply read_term_safe|]. intros t s1 H1.
    apply safe1_bind; [now apply comments_safe|]. intros s2 H2.
    apply safe_bind; [now apply terms_loop_safe|]. intros ts s3 H3.
    apply safe_bind; [now apply peek_safe|]. intros r s4 H4.
    destruct (Z.eqb _ _); [|exact H4]. nx H4.
    apply safe_bind; [unfold semantic_fn; apply semantic_with_safe; auto; intros; now apply args_loop_safe|].
    intros f s6 H6.
    apply safe1_bind; [now apply eat_safe|]. intros s7 H7.
    apply safe1_bind; [now apply comments_safe|]. intros s8 H8. exact H8.
  Qed.
  Lemma bodies_loop_safe n : forall m s, Inv s ->
    safe (bodies_loop input letter_hi digit_hi scan_float regexp_ok md5 hash fuel n m s).
  Proof.
    induction n as [|n IH]; intros m s H; cbn [bodies_loop]; [exact I|].
    apply safe_bind; [now apply peek_safe|]. intros r s1 H1.
    destruct (negb _); [exact H1|]. nx H1.
    apply safe1_bind; [now apply comments_safe|]. intros s3 H3.
    apply safe_bind; [now apply rule_body_safe|]. intros b s4 H4. auto.
  Qed.
  Lemma read_rule_safe c s : Inv s ->
    safe (read_rule input letter_hi digit_hi scan_float regexp_ok md5 hash fuel c s).
  Proof.
    intros H. unfold read_rule. apply safe_bind.
    { destruct (Z.eqb _ _); [now apply bracketed_safe|]. destruct (Z.eqb _ _); [now apply bracketed_safe|exact I]. }
    intros x s1 H1.
    apply safe1_bind; [now apply comments_safe|]. intros s2 H2.
    apply safe1_bind; [now apply eat_safe|]. intros s3 H3.
    apply safe1_bind; [now apply comments_safe|]. intros s4 H4.
    apply safe_bind.
    { unfold rule_bodies. apply safe_bind; [now apply rule_body_safe|]. intros b s5 H5. now apply bodies_loop_safe. }
    intros m s5 H5. apply safe1_bind; [now apply eat_safe|]. intros s6 H6. exact H6.
  Qed.

  Lemma rules_loop_end n : forall rules frames s, Inv s ->
    match rules_loop input letter_hi digit_hi scan_float regexp_ok md5 hash fuel n rules frames s with
    | Ret (_, s') => Inv s' /\ (fst (next input s') = eof -> tail = ""%string \/ pre = [])
    | Panic => False
    | _ => True
    end.
  Proof.
    induction n as [|n IH]; intros rules frames s H; cbn [rules_loop]; [exact I|].
    pose proof (comments_safe s H) as H1. destruct (comments input fuel s) as [s1| | |]; cbn [bind]; try exact H1.
    pose proof (peek_safe s1 H1) as H2. destruct (peek input s1) as [[c s2]| | |] eqn:Pk; cbn [bind]; try exact H2.
    destruct (negb _).
    { split; [exact H2|]. intros E. exact (proj2 (peek_end s1 c s2 H1 Pk E)). }
    pose proof (read_rule_safe c s2 H2) as H3.
    destruct (read_rule _ _ _ _ _ _ _ _ c s2) as [[r s3]| | |]; cbn [bind]; try exact H3.
    destruct (Z.eqb _ _); apply IH; exact H3.
  Qed.
  Lemma rules_part_safe s : Inv s ->
    match rules_part input letter_hi digit_hi scan_float regexp_ok md5 hash fuel s with
    | Ret _ => tail = ""%string \/ pre = []
    | Panic => False
    | _ => True
    end.
  Proof.
    intros H. unfold rules_part. pose proof (rules_loop_end fuel [] [] s H) as K.
    destruct (rules_loop _ _ _ _ _ _ _ _ _ _ _ s) as [[rf s1]| | |]; cbn [bind]; try exact K.
    destruct K as [K1 K2]. destruct (next input s1) as [r s2]. cbn [fst] in K2.
    destruct (Z.eqb r eof) eqn:E; [|exact I]. apply Z.eqb_eq in E. auto.
  Qed.

  Lemma includes_safe F G (load : F -> string -> res (option (list G * list (string * string)) * F)) :
    (forall fs p, load fs p <> Panic) -> forall n fs gs s, Inv s ->
    safe (includes_loop input letter_hi digit_hi fuel load n fs gs s).
  Proof.
    intros HL. induction n as [|n IH]; intros fs gs s H; cbn [includes_loop]; [exact I|].
    apply safe1_bind; [now apply comments_safe|]. intros s1 H1.
    apply safe_bind; [now apply peek_safe|]. intros r s2 H2.
    destruct (negb _); [exact H2|]. nx H2.
    apply safe1_bind; [now apply ws_safe|]. intros s4 H4.
    apply safe_bind; [now apply text_safe|]. intros x s5 H5.
    destruct (negb _); [exact I|].
    apply safe1_bind; [now apply ws_safe|]. intros s6 H6.
    apply safe_bind; [now apply terminal_safe|]. intros [y p] s7 H7.
    specialize (HL fs p). destruct (load fs p) as [[[[l re]|] fs']| | |]; cbn [bind]; try exact I; try congruence.
    - apply IH. destruct s7. exact H7.
    - apply IH. exact H7.
  Qed.
End Safe.

(** a text that starts with an undecodable byte is read as the empty text *)
Lemma bad_start_steps input fuel w : decode_rune input = (RuneError, w) -> 0 < fuel ->
  next input (mkRd 0 0 []) = (eof, mkRd 0 0 []) /\
  comments input fuel (mkRd 0 0 []) = Ret (mkRd 0 0 []) /\
  peek input (mkRd 0 0 []) = Ret (eof, mkRd 0 0 []).
Proof.
  intros D Hf. destruct fuel as [|n]; [lia|].
  assert (N : next input (mkRd 0 0 []) = (eof, mkRd 0 0 [])).
  { unfold next. cbn [rd_pos rd_re]. destruct (Nat.leb _ _); [reflexivity|].
    cbn [drop]. rewrite D. reflexivity. }
  assert (W : ws input (S n) (mkRd 0 0 []) = Ret (mkRd 0 0 [])).
  { unfold ws. cbn [ws_loop]. rewrite N. reflexivity. }
  assert (C : comment input (S n) (mkRd 0 0 []) = Ret (false, mkRd 0 0 [])).
  { unfold comment. rewrite N. reflexivity. }
  split; [exact N|]. split.
  - unfold comments. cbn [comments_loop]. rewrite W. cbn [bind]. rewrite C. cbn [bind]. exact W.
  - unfold peek. rewrite N. reflexivity.
Qed.
Lemma bad_start_reads input letter_hi digit_hi scan_float regexp_ok md5 hash fuel w :
  decode_rune input = (RuneError, w) -> 0 < fuel ->
  rules_part input letter_hi digit_hi scan_float regexp_ok md5 hash fuel (mkRd 0 0 [])
  = Ret (([], []), []).
Proof.
  intros D Hf. destruct (bad_start_steps input fuel w D Hf) as (N & C & P).
  unfold rules_part. destruct fuel as [|n]; [lia|]. cbn [rules_loop]. rewrite C. cbn [bind].
  rewrite P. cbn [bind]. cbn [negb orb]. change (Z.eqb eof r_lt) with false. change (Z.eqb eof r_lbrack) with false.
  cbn [negb orb bind]. rewrite N. reflexivity.
Qed.
Lemma bad_start_includes input letter_hi digit_hi fuel w F G
  (load : F -> string -> res (option (list G * list (string * string)) * F)) fs :
  decode_rune input = (RuneError, w) -> 0 < fuel ->
  includes_loop input letter_hi digit_hi fuel load fuel fs [] (mkRd 0 0 []) = Ret (([], fs), mkRd 0 0 []).
Proof.
  intros D Hf. destruct (bad_start_steps input fuel w D Hf) as (N & C & P).
  destruct fuel as [|n]; [lia|]. cbn [includes_loop]. rewrite C. cbn [bind].
  rewrite P. cbn [bind]. reflexivity.
Qed.
