(** The messages of the reader name the place reached and an objection that fits. *)
From Coq Require Import Lia.
From Verif Require Import Base ModelTypes ModelText ModelQuote ModelReader ModelEarley ModelGrammar ModelReport ProofUtf8 SpecNotation
  ProofReaderSafe SpecReport.
Local Open Scope list_scope.

Lemma size_app a b : size (a ++ b) = size a + size b.
Proof. unfold size. rewrite encode_app, string_length_append. reflexivity. Qed.
Lemma size_one c : size [c] = String.length (encode_rune c).
Proof. unfold size. cbn [encode]. rewrite string_length_append. cbn. lia. Qed.
Lemma size_pos c : 0 < String.length (encode_rune c).
Proof. pose proof (encode_rune_length c). lia. Qed.
Lemma size_zero a : size a = 0 -> a = [].
Proof.
  destruct a as [|c a]; [reflexivity|]. change (c :: a) with ([c] ++ a). rewrite size_app, size_one.
  pose proof (size_pos c). lia.
Qed.
Lemma size_same : forall a b a' b', a ++ b = a' ++ b' -> size a = size a' -> a = a'.
Proof.
  induction a as [|c a IH]; intros b a' b' E S.
  - symmetry. apply size_zero. rewrite <- S. reflexivity.
  - destruct a' as [|c' a']; [apply size_zero in S; discriminate|].
    cbn [app] in E. injection E as -> E. f_equal. apply (IH b a' b' E).
    change (c' :: a) with ([c'] ++ a) in S. change (c' :: a') with ([c'] ++ a') in S.
    rewrite !size_app in S. lia.
Qed.
Lemma prefix_same : forall (a b a' b' : list rune), a ++ b = a' ++ b' -> length a = length a' -> a = a'.
Proof.
  induction a as [|c a IH]; intros b [|c' a'] b' E L; try discriminate; [reflexivity|].
  cbn [app] in E. injection E as -> E. f_equal. apply (IH b a' b' E). now injection L.
Qed.

(** the position after reading some characters, by the rule of [next] *)
Definition advance (cur : option position) (c : rune) : position :=
  let w := String.length (encode_rune c) in
  match cur with
  | None => mkPos 1 w (encode_rune c)
  | Some q => if Z.eqb c r_newline then mkPos (p_row q + 1) w (encode_rune c)
              else mkPos (p_row q) (p_col q + w) (encode_rune c)
  end.
Definition spot (a : list rune) : option position := fold_left (fun cur c => Some (advance cur c)) a None.
Lemma spot_snoc a c : spot (a ++ [c]) = Some (advance (spot a) c).
Proof. unfold spot. rewrite fold_left_app. reflexivity. Qed.
Lemma spot_some a : a <> [] -> exists q, spot a = Some q.
Proof. destruct (snoc_cases a) as [->|(a' & c & ->)]; [congruence|]. rewrite spot_snoc. eauto. Qed.

Lemma tl_snoc (a : list rune) c : a <> [] -> tl (a ++ [c]) = tl a ++ [c].
Proof. destruct a; [congruence|reflexivity]. Qed.
Lemma spot_place : forall a q, spot a = Some q ->
  p_row q = row_of a /\ col_of a (p_col q) /\ exists a0 c, a = a0 ++ [c] /\ p_char q = encode_rune c.
Proof.
  induction a as [|c a IH] using rev_ind; intros q E; [discriminate|].
  rewrite spot_snoc in E. injection E as <-.
  destruct (snoc_cases a) as [->|(a' & c' & Ea)].
  - cbn. split; [reflexivity|]. split; [|exists [], c; auto].
    replace (String.length (encode_rune c)) with (size ([] ++ [c])) by (cbn [app]; apply size_one).
    apply col_first. auto.
  - assert (Hne : a <> []) by (rewrite Ea; intros X; symmetry in X; apply app_cons_not_nil in X; auto).
    destruct (spot_some a Hne) as [q0 E0]. destruct (IH q0 E0) as (R & C & _). rewrite E0.
    unfold advance, row_of. rewrite (tl_snoc a c Hne), count_occ_app. cbn [count_occ].
    destruct (Z.eqb_spec c r_newline) as [->|Hc]; cbn [p_row p_col p_char].
    + destruct (Z.eq_dec r_newline r_newline) as [_|X]; [|congruence]. unfold row_of in R.
      split; [rewrite R; reflexivity|]. split; [|exists a, r_newline; auto].
      change (String.length (encode_rune r_newline)) with (1 + size []).
      apply (col_later (a ++ [r_newline]) (tl a) []); [apply tl_snoc; exact Hne|auto].
    + destruct (Z.eq_dec c r_newline) as [X|_]; [congruence|]. unfold row_of in R.
      split; [rewrite R, Nat.add_0_r; reflexivity|]. split; [|exists a, c; auto].
      destruct C as [Hn|x y Ht Hy].
      * replace (size a + String.length (encode_rune c)) with (size (a ++ [c])) by (rewrite size_app, size_one; reflexivity).
        apply col_first. rewrite (tl_snoc a c Hne). intros H. apply in_app_or in H.
        destruct H as [H|[H|[]]]; auto.
      * replace (1 + size y + String.length (encode_rune c)) with (1 + size (y ++ [c])) by (rewrite size_app, size_one; lia).
        apply (col_later (a ++ [c]) x (y ++ [c])).
        -- rewrite (tl_snoc a c Hne), Ht, <- app_assoc. reflexivity.
        -- intros H. apply in_app_or in H. destruct H as [H|[H|[]]]; auto.
Qed.

Lemma encode_rune_bad : encode_rune eof = encode_rune RuneError.
Proof. reflexivity. Qed.

Ltac llia := unfold rune in *; lia.

Section Place.
  Variable fname : string.
  Variables letter_hi digit_hi is_print_hi : rune -> bool.
  Variable scan_float : string -> res bigf.
  Variable regexp_ok : string -> bool.
  Variable md5 : string -> string.
  Variable hash : rulebody -> N.
  Variables scan_error file_error dir_error : string -> string.
  Variable finish_error : string.
  Variables read_file abs_dir : string -> res string.
  Variable pre : list rune.
  Variable tail : string.
  Hypothesis Hpre : Forall good pre.
  Hypothesis Htail : tail = ""%string \/ exists w, decode_rune tail = (RuneError, w).
  Variable fuel : nat.

  Local Notation input := (encode pre ++ tail)%string.
  Local Notation P := is_print_hi.
  Local Notation V := (tail = ""%string).
  Local Notation letter := (is_letter letter_hi).
  Local Notation digit := (is_digit digit_hi).
  Local Notation obj := (objection letter digit P regexp_ok).
  Local Notation alien := (foreign digit P scan_error file_error dir_error finish_error read_file abs_dir).

  Definition At (s : rp) (a b : list rune) : Prop :=
    pre = a ++ b /\ rd_pos (rp_rd s) = size a
    /\ (b = [] -> tail <> ""%string -> rd_width (rp_rd s) = last_width a)
    /\ rp_cur s = spot a
    /\ exists n, length a <= n /\
         forall a' b', pre = a' ++ b' -> info_at (rp_info s) (size a') = if Nat.leb (length a') n then spot a' else None.

  Lemma at_start re : At (mkRp (mkRd 0 0 re) None []) [] pre.
  Proof.
    split; [reflexivity|]. split; [reflexivity|]. split; [reflexivity|]. split; [reflexivity|].
    exists 0. split; [apply Nat.le_refl|]. intros a' b' E. cbn [rp_info info_at].
    destruct a'; [reflexivity|]. reflexivity.
  Qed.
  Lemma at_re f s a b : At s a b -> At (m_with_re f s) a b.
  Proof. intros H. exact H. Qed.

  Lemma back_at s a b c : At s (a ++ [c]) b -> rd_width (rp_rd s) = String.length (encode_rune c) ->
    exists s2, m_backup s = Done s2 /\ At s2 a (c :: b).
  Proof.
    intros (E & Hp & Hw & Hc & n & Hn & Hi) W. unfold m_backup. rewrite Hp, W, size_app, size_one.
    replace (Nat.leb _ _) with true by (symmetry; apply Nat.leb_le; llia).
    eexists. split; [reflexivity|]. rewrite <- app_assoc in E. cbn [app] in E.
    assert (Es : size a + String.length (encode_rune c) - String.length (encode_rune c) = size a) by llia.
    rewrite app_length in Hn. cbn [length] in Hn.
    split; [exact E|]. cbn [rp_rd rd_pos rd_width rp_cur rp_info].
    split; [exact Es|]. split; [discriminate|]. split.
    - rewrite Es, (Hi a (c :: b) E). replace (Nat.leb _ _) with true by (symmetry; apply Nat.leb_le; llia). reflexivity.
    - exists n. split; [llia|exact Hi].
  Qed.

  (** the three things [next] can do *)
  Lemma next_at s a b : At s a b ->
    (exists c b' s1, b = c :: b' /\ c <> eof /\ m_next input s = (c, s1) /\ At s1 (a ++ [c]) b' /\
       exists s2, m_backup s1 = Done s2 /\ At s2 a b)
    \/ (b = [] /\ V /\ exists s1, m_next input s = (eof, s1) /\ At s1 a b /\
       exists s2, m_backup s1 = Done s2 /\ At s2 a b)
    \/ (b = [] /\ ~ V /\ m_next input s = (eof, s) /\ exists s2 a' b', m_backup s = Done s2 /\ At s2 a' b').
  Proof.
    intros HA. pose proof HA as (E & Hp & Hw & Hc & n & Hn & Hi).
    destruct (next_cases pre tail Hpre Htail (rp_rd s) a b E Hp)
      as [(c & b' & Eb & G & N)|[(Eb & Et & N)|(Eb & Et & N)]].
    - left. subst b. exists c, b'.
      assert (Hce : c <> eof) by (intros ->; destruct G as [G _]; vm_compute in G; discriminate).
      assert (D : Nat.leb (String.length input) (rd_pos (rp_rd s)) = false /\
                  exists w, decode_rune (drop (rd_pos (rp_rd s)) input) = (c, w) /\ w = String.length (encode_rune c)).
      { unfold next in N. destruct (Nat.leb (String.length input) (rd_pos (rp_rd s))) eqn:E1;
          [apply (f_equal fst) in N; cbn in N; congruence|]. split; [reflexivity|].
        destruct (decode_rune (drop (rd_pos (rp_rd s)) input)) as [r w] eqn:E2. exists w.
        destruct (Z.eqb r RuneError); [apply (f_equal fst) in N; cbn in N; congruence|].
        inversion N; subst. auto. }
      destruct D as (D1 & w & D2 & Ew). subst w.
      assert (E' : pre = (a ++ [c]) ++ b') by (rewrite <- app_assoc; exact E).
      assert (Ec : Z.eqb c RuneError = false) by (apply Z.eqb_neq; apply G).
      assert (Sz : rd_pos (rp_rd s) + String.length (encode_rune c) = size (a ++ [c]))
        by (rewrite Hp, size_app, size_one; reflexivity).
      assert (K : exists s1, m_next input s = (c, s1) /\ At s1 (a ++ [c]) b' /\ rd_width (rp_rd s1) = String.length (encode_rune c)).
      { unfold m_next. rewrite D1, D2, Ec, Sz, (Hi _ _ E'). rewrite app_length. cbn [length].
        destruct (Nat.leb_spec (length a + 1) n) as [Hl|Hl].
        - rewrite spot_snoc. eexists. split; [reflexivity|]. split; [|reflexivity].
          split; [exact E'|]. cbn [rp_rd rd_pos rd_width rp_cur rp_info]. split; [reflexivity|].
          split; [intros _ _; symmetry; apply last_width_snoc|]. split; [symmetry; apply spot_snoc|].
          exists n. rewrite app_length. cbn [length]. split; [llia|exact Hi].
        - assert (n = length a) by llia. subst n.
          eexists. split; [reflexivity|]. split; [|reflexivity].
          split; [exact E'|]. cbn [rp_rd rd_pos rd_width rp_cur rp_info]. split; [reflexivity|].
          split; [intros _ _; symmetry; apply last_width_snoc|]. split; [rewrite spot_snoc, Hc; reflexivity|].
          exists (length (a ++ [c])). split; [llia|]. intros a' b'' Ea. cbn [info_at].
          destruct (Nat.eqb_spec (size (a ++ [c])) (size a')) as [Se|Se].
          + assert (a ++ [c] = a') by (apply (size_same _ b' _ b''); [congruence|exact Se]). subst a'.
            rewrite Nat.leb_refl, spot_snoc, Hc. reflexivity.
          + rewrite (Hi a' b'' Ea), app_length. cbn [length].
            destruct (Nat.leb_spec (length a') (length a)) as [L1|L1];
              destruct (Nat.leb_spec (length a') (length a + 1)) as [L2|L2]; try reflexivity; [llia|].
            exfalso. apply Se. f_equal. apply (prefix_same _ b' _ b''); [congruence|].
            rewrite app_length. cbn [length]. llia. }
      destruct K as (s1 & N1 & A1 & W1). exists s1. repeat (split; [first [assumption|reflexivity]|]).
      apply (back_at _ _ _ _ A1 W1).
    - right; left. split; [exact Eb|]. split; [exact Et|]. subst b.
      assert (D : Nat.leb (String.length input) (rd_pos (rp_rd s)) = true).
      { apply Nat.leb_le. rewrite Hp, Et, E, app_nil_r, string_length_append. unfold size. cbn [String.length]. llia. }
      unfold m_next. rewrite D. eexists. split; [reflexivity|]. split.
      + split; [exact E|]. split; [exact Hp|]. split; [congruence|]. split; [exact Hc|]. eauto.
      + unfold m_backup. cbn [rp_rd rd_width rd_pos]. change (Nat.leb 0 _) with true. cbn match.
        eexists. split; [reflexivity|]. rewrite Nat.sub_0_r.
        split; [exact E|]. split; [exact Hp|]. split; [congruence|]. split; [|exists n; split; [exact Hn|exact Hi]].
        cbn [rp_cur rp_info]. rewrite Hp, (Hi a [] E).
        replace (Nat.leb _ _) with true by (symmetry; apply Nat.leb_le; llia). reflexivity.
    - right; right. split; [exact Eb|]. split; [exact Et|]. subst b. specialize (Hw eq_refl Et).
      assert (Ein : input = (encode a ++ tail)%string) by (rewrite E, app_nil_r; reflexivity).
      assert (Nm : m_next input s = (eof, s)).
      { unfold m_next. rewrite Ein.
        replace (Nat.leb _ _) with false.
        2: { symmetry. apply Nat.leb_gt. rewrite Hp, string_length_append. unfold size.
             destruct tail; [congruence|]. cbn [String.length]. llia. }
        destruct Htail as [X|[w X]]; [congruence|].
        replace (drop (rd_pos (rp_rd s)) (encode a ++ tail)) with tail by (rewrite Hp; symmetry; apply drop_append).
        rewrite X. reflexivity. }
      split; [exact Nm|].
      destruct (snoc_cases a) as [Ea|(a' & c & Ea)].
      + subst a. cbn in Hw. unfold m_backup. rewrite Hw. change (Nat.leb 0 _) with true. cbn match.
        eexists _, [], []. split; [reflexivity|]. rewrite Nat.sub_0_r.
        split; [exact E|]. split; [exact Hp|]. split; [reflexivity|].
        split; [|exists n; split; [exact Hn|exact Hi]].
        cbn [rp_cur rp_info]. rewrite Hp, (Hi [] [] E). reflexivity.
      + subst a. destruct (back_at s a' [] c HA) as (s2 & B & A2).
        { rewrite Hw. apply last_width_snoc. }
        exists s2, a', [c]. auto.
  Qed.

  Definition bad (m : report) : Prop :=
    match m with
    | Said p t => exists a b what, pre = a ++ b /\ p = size a /\ t = (fname ++ pos_string P (spot a) ++ what)%string
                    /\ (V -> 1 <= length a /\ obj a b what)
    | Passed t => alien t
    end.
  Definition ok {A} (k : nat) (Q : A -> list rune -> list rune -> Prop) (o : out (A * rp)) : Prop :=
    match o with
    | Done (x, s) => exists a b, At s a b /\ (V -> k <= length a) /\ (V -> Q x a b)
    | Fails m => bad m
    | _ => True
    end.
  Definition ok1 (k : nat) (Q : list rune -> list rune -> Prop) (o : out rp) : Prop :=
    match o with
    | Done s => exists a b, At s a b /\ (V -> k <= length a) /\ (V -> Q a b)
    | Fails m => bad m
    | _ => True
    end.
  Definition any {A : Type} (x : A) (a b : list rune) : Prop := True.
  Definition any1 (a b : list rune) : Prop := True.

  Lemma ok_bind A B k k' Q Q' (e : out (A * rp)) (f : A * rp -> out (B * rp)) :
    ok k Q e -> (forall x s a b, At s a b -> (V -> k <= length a) -> (V -> Q x a b) -> ok k' Q' (f (x, s))) ->
    ok k' Q' (obind e f).
  Proof. destruct e as [[x s]|m| |]; cbn [ok obind]; auto. intros (a & b & H1 & H2 & H3) K. eauto. Qed.
  Lemma ok_bind1 A k k' Q Q' (e : out (A * rp)) (f : A * rp -> out rp) :
    ok k Q e -> (forall x s a b, At s a b -> (V -> k <= length a) -> (V -> Q x a b) -> ok1 k' Q' (f (x, s))) ->
    ok1 k' Q' (obind e f).
  Proof. destruct e as [[x s]|m| |]; cbn [ok ok1 obind]; auto. intros (a & b & H1 & H2 & H3) K. eauto. Qed.
  Lemma ok1_bind B k k' Q Q' (e : out rp) (f : rp -> out (B * rp)) :
    ok1 k Q e -> (forall s a b, At s a b -> (V -> k <= length a) -> (V -> Q a b) -> ok k' Q' (f s)) ->
    ok k' Q' (obind e f).
  Proof. destruct e as [s|m| |]; cbn [ok ok1 obind]; auto. intros (a & b & H1 & H2 & H3) K. eauto. Qed.
  Lemma ok1_bind1 k k' Q Q' (e : out rp) (f : rp -> out rp) :
    ok1 k Q e -> (forall s a b, At s a b -> (V -> k <= length a) -> (V -> Q a b) -> ok1 k' Q' (f s)) ->
    ok1 k' Q' (obind e f).
  Proof. destruct e as [s|m| |]; cbn [ok ok1 obind]; auto. intros (a & b & H1 & H2 & H3) K. eauto. Qed.
  Lemma ok_done A k (Q : A -> list rune -> list rune -> Prop) (x : A) s a b : At s a b -> (V -> k <= length a) -> (V -> Q x a b) -> ok k Q (Done (x, s)).
  Proof. cbn [ok]. eauto. Qed.
  Lemma ok1_done k (Q : list rune -> list rune -> Prop) s a b : At s a b -> (V -> k <= length a) -> (V -> Q a b) -> ok1 k Q (Done s).
  Proof. cbn [ok1]. eauto. Qed.

  Lemma fail_bad s a b what : At s a b -> (V -> 1 <= length a /\ obj a b what) ->
    bad (Said (rd_pos (rp_rd s)) (pos_info fname P s ++ what)).
  Proof.
    intros (E & Hp & _ & Hc & _) H. exists a, b, what. split; [exact E|]. split; [exact Hp|]. split; [|exact H].
    unfold pos_info. rewrite Hc. clear. induction fname; cbn [append]; [reflexivity|]. f_equal. auto.
  Qed.
  Lemma ok_fail A k (Q : A -> list rune -> list rune -> Prop) s a b what : At s a b -> (V -> 1 <= length a /\ obj a b what) ->
    ok k Q (m_fail fname P s what).
  Proof. apply fail_bad. Qed.
  Lemma ok1_fail k (Q : list rune -> list rune -> Prop) s a b what : At s a b -> (V -> 1 <= length a /\ obj a b what) ->
    ok1 k Q (m_fail fname P s what).
  Proof. apply fail_bad. Qed.

  Lemma last_snoc a (c : rune) : last_is (a ++ [c]) c.
  Proof. exists a. reflexivity. Qed.
  Lemma length_snoc (a : list rune) c : length (a ++ [c]) = S (length a).
  Proof. rewrite app_length. cbn. llia. Qed.
  Lemma last_length a c : last_is a c -> 1 <= length a.
  Proof. intros [a0 ->]. rewrite length_snoc. llia. Qed.

  (** after a look at what [next] does *)
  Ltac nx HA :=
    let c := fresh "c" in let b' := fresh "b'" in let s1 := fresh "s1" in let s2 := fresh "s2" in
    let a2 := fresh "a2" in let b2 := fresh "b2" in
    let Eb := fresh "Eb" in let Hc := fresh "Hc" in let N := fresh "N" in let A1 := fresh "A1" in
    let B := fresh "B" in let A2 := fresh "A2" in let v := fresh "v" in let nv := fresh "nv" in
    destruct (next_at _ _ _ HA) as [(c & b' & s1 & Eb & Hc & N & A1 & s2 & B & A2)
      |[(Eb & v & s1 & N & A1 & s2 & B & A2)|(Eb & nv & N & s2 & a2 & b2 & B & A2)]];
    rewrite N; cbn beta iota; match type of Eb with ?x = _ => subst x end.
  (** numbers under the assumption that the text is good *)
  Ltac nums := let v := fresh in intros v;
    repeat match goal with H : V -> _ |- _ => specialize (H v) end;
    first [ contradiction | rewrite ?length_snoc in *; llia | exact I ].

  Lemma backup_end s s2 (k : nat) (Q : list rune -> list rune -> Prop) a b : m_backup s = Done s2 -> At s2 a b -> (V -> k <= length a) -> (V -> Q a b) ->
    ok1 k Q (m_backup s).
  Proof. intros ->. apply ok1_done. Qed.

  Lemma eat_ok x s a b k : At s a b -> x <> eof -> (V -> k <= S (length a)) -> (V -> 1 <= length a \/ b <> []) ->
    ok1 k (fun a' b' => last_is a' x) (m_eat input fname P x s).
  Proof.
    intros HA Hx Hk Hl. unfold m_eat. nx HA.
    - destruct (Z.eqb_spec c x) as [->|Hn].
      + apply (ok1_done _ _ _ _ _ A1); [nums|]. intros _. apply last_snoc.
      + apply (ok1_fail _ _ _ _ _ _ A1). intros _. rewrite length_snoc. split; [llia|].
        apply ob_expected; [apply last_snoc|exact Hn].
    - replace (Z.eqb eof x) with false by (symmetry; apply Z.eqb_neq; auto).
      apply (ok1_fail _ _ _ _ _ _ A1). intros v'. destruct (Hl v') as [H|H]; [|congruence]. split; [exact H|].
      rewrite encode_rune_bad. apply ob_ended. reflexivity.
    - replace (Z.eqb eof x) with false by (symmetry; apply Z.eqb_neq; auto).
      apply (ok1_fail _ _ _ _ _ _ HA). nums.
  Qed.
  Lemma peek_ok s a b k : At s a b -> (V -> k <= length a) ->
    ok k (fun r a' b' => r = hd eof b' /\ a' = a /\ b' = b) (m_peek input s).
  Proof.
    intros HA Hk. unfold m_peek. nx HA; rewrite B; cbn [obind].
    - apply (ok_done _ _ _ _ _ _ _ A2 Hk). auto.
    - apply (ok_done _ _ _ _ _ _ _ A2 Hk). auto.
    - apply (ok_done _ _ _ _ _ _ _ A2); nums.
  Qed.
  Lemma ws_loop_ok n : forall s a b k, At s a b -> (V -> k <= length a) -> ok1 k any1 (m_ws_loop input n s).
  Proof.
    induction n as [|n IH]; intros s a b k HA Hk; cbn [m_ws_loop]; [exact I|]. nx HA.
    - destruct (is_space c); [apply (IH _ _ _ _ A1); nums|]. apply (backup_end _ _ _ _ _ _ B A2 Hk). exact (fun _ => I).
    - change (is_space eof) with false. cbn iota. apply (backup_end _ _ _ _ _ _ B A2 Hk). exact (fun _ => I).
    - change (is_space eof) with false. cbn iota. apply (backup_end _ _ _ _ _ _ B A2); nums.
  Qed.
  Lemma ws_ok s a b k : At s a b -> (V -> k <= length a) -> ok1 k any1 (m_ws input fuel s).
  Proof. apply ws_loop_ok. Qed.

  Ltac spec := let v := fresh "v" in intros v;
    repeat match goal with H : V -> _ |- _ => specialize (H v) end; try contradiction.
  Ltac fl HA :=
    first [apply (ok_fail _ _ _ _ _ _ _ HA) | apply (ok1_fail _ _ _ _ _ _ HA)]; spec;
    try (split; [rewrite ?length_snoc in *; llia|]).
  Ltac done HA :=
    first [apply (ok_done _ _ _ _ _ _ _ HA) | apply (ok1_done _ _ _ _ _ HA)]; try nums; try (intros _; exact I).
  Ltac st K lem :=
    first [ eapply (ok1_bind _ K); [eapply lem; [eassumption|..]; try nums; try discriminate; try eassumption; try llia
              | let s := fresh "s" in let a := fresh "a" in let b := fresh "b" in let H := fresh "HA" in intros s a b H ? ?]
          | eapply (ok1_bind1 K); [eapply lem; [eassumption|..]; try nums; try discriminate; try eassumption; try llia
              | let s := fresh "s" in let a := fresh "a" in let b := fresh "b" in let H := fresh "HA" in intros s a b H ? ?]
          | eapply (ok_bind _ _ K); [eapply lem; [eassumption|..]; try nums; try discriminate; try eassumption; try llia
              | let x := fresh "x" in let s := fresh "s" in let a := fresh "a" in let b := fresh "b" in let H := fresh "HA" in intros x s a b H ? ?]
          | eapply (ok_bind1 _ K); [eapply lem; [eassumption|..]; try nums; try discriminate; try eassumption; try llia
              | let x := fresh "x" in let s := fresh "s" in let a := fresh "a" in let b := fresh "b" in let H := fresh "HA" in intros x s a b H ? ?]].

  Lemma text_loop_ok n : forall first s a b k, At s a b -> (V -> k <= length a) ->
    ok k (fun rs a' b' => rs = [] -> first = true -> next_is b' (fun c => letter c = false /\ c <> r_under))
       (m_text_loop input letter_hi digit_hi n first s).
  Proof.
    induction n as [|n IH]; intros first s a b k HA Hk; cbn [m_text_loop]; [exact I|]. nx HA.
    - destruct (letter c || Z.eqb c r_under || digit c && negb first) eqn:T.
      + eapply (ok_bind _ _ k); [eapply (IH false _ _ _ _ A1); nums|]. intros x s3 a3 b3 HA' Hk' _.
        apply (ok_done _ _ _ _ _ _ _ HA' Hk'). intros _ X. discriminate.
      + rewrite B. cbn [obind]. apply (ok_done _ _ _ _ _ _ _ A2 Hk). intros _ _ ->. cbn [next_is].
        apply Bool.orb_false_iff in T. destruct T as [T _]. apply Bool.orb_false_iff in T. destruct T as [T1 T2].
        split; [exact T1|]. apply Z.eqb_neq. exact T2.
    - change (letter eof || Z.eqb eof r_under || digit eof && negb first) with false. cbn iota. rewrite B. cbn [obind].
      apply (ok_done _ _ _ _ _ _ _ A2 Hk). intros _ _ _. exact I.
    - change (letter eof || Z.eqb eof r_under || digit eof && negb first) with false. cbn iota. rewrite B. cbn [obind].
      apply (ok_done _ _ _ _ _ _ _ A2); nums.
  Qed.
  Lemma text_ok s a b k : At s a b -> (V -> k <= length a) -> 1 <= k ->
    ok k any (m_text input fname letter_hi digit_hi P fuel s).
  Proof.
    intros HA Hk H1. unfold m_text. st k (text_loop_ok fuel true). destruct x as [|c x].
    - fl HA0. apply ob_no_text. auto.
    - done HA0.
  Qed.
  Lemma bracketed_ok x y s a b k : At s a b -> x <> eof -> y <> eof -> (V -> k <= S (length a)) -> 1 <= k ->
    (V -> 1 <= length a \/ b <> []) ->
    ok k any (m_bracketed input fname letter_hi digit_hi P fuel x y s).
  Proof.
    intros HA Hx Hy Hk H1 Hl. unfold m_bracketed. st k eat_ok. st k text_ok.
    st k eat_ok. done HA2.
  Qed.
  Lemma line_ok n : forall s a b k, At s a b -> (V -> k <= length a) -> ok1 k any1 (m_line_loop input n s).
  Proof.
    induction n as [|n IH]; intros s a b k HA Hk; cbn [m_line_loop]; [exact I|]. nx HA.
    - destruct (Z.eqb _ _); [done A1|]. apply (IH _ _ _ _ A1). nums.
    - change (Z.eqb eof r_newline) with false. cbn iota. apply (IH _ _ _ _ A1). nums.
    - change (Z.eqb eof r_newline) with false. cbn iota. apply (IH _ _ _ _ HA). nums.
  Qed.
  Lemma block_ok n : forall prev s a b k, At s a b -> (V -> k <= length a) -> 1 <= k ->
    ok1 k any1 (m_block_loop input fname P n prev s).
  Proof.
    induction n as [|n IH]; intros prev s a b k HA Hk H1; cbn [m_block_loop]; [exact I|]. nx HA.
    - replace (Z.eqb c eof) with false by (symmetry; apply Z.eqb_neq; auto).
      destruct (_ && _)%bool; [done A1|]. apply (IH _ _ _ _ _ A1); [nums|exact H1].
    - change (Z.eqb eof eof) with true. cbn iota. fl A1. apply ob_unterminated. reflexivity.
    - change (Z.eqb eof eof) with true. cbn iota. fl HA.
  Qed.
  Lemma comment_ok s a b k : At s a b -> (V -> k <= length a) ->
    ok k any (m_comment input fname P fuel s).
  Proof.
    intros HA Hk. unfold m_comment. nx HA.
    - destruct (Z.eqb_spec c r_slash) as [->|Hn]; cbn [negb].
      + st (S k) peek_ok. destruct (Z.eqb_spec x r_slash) as [->|Hs].
        { st (S k) eat_ok. st (S k) line_ok. done HA2. }
        destruct (Z.eqb_spec x r_star) as [->|Ht].
        { st (S k) eat_ok. st (S k) block_ok. done HA2. }
        fl HA0. destruct H0 as (Hx & Ea & Eb). subst a0 b.
        destruct b' as [|c b']; cbn [hd] in Hx; subst x.
        * rewrite encode_rune_bad. apply ob_slash; [apply last_snoc|discriminate|discriminate|reflexivity].
        * apply ob_slash; [apply last_snoc|exact Hs|exact Ht|reflexivity].
      + rewrite B. cbn [obind]. done A2.
    - change (negb (Z.eqb eof r_slash)) with true. cbn iota. rewrite B. cbn [obind]. done A2.
    - change (negb (Z.eqb eof r_slash)) with true. cbn iota. rewrite B. cbn [obind]. done A2.
  Qed.
  Lemma comments_loop_ok n : forall s a b k, At s a b -> (V -> k <= length a) ->
    ok1 k any1 (m_comments_loop input fname P fuel n s).
  Proof.
    induction n as [|n IH]; intros s a b k HA Hk; cbn [m_comments_loop]; [exact I|].
    st k ws_ok. st k comment_ok. destruct x; [apply (IH _ _ _ _ HA1); nums|apply (ws_ok _ _ _ _ HA1); nums].
  Qed.
  Lemma comments_ok s a b k : At s a b -> (V -> k <= length a) -> ok1 k any1 (m_comments input fname P fuel s).
  Proof. apply comments_loop_ok. Qed.

  Lemma unescape_none c : unescape c = None -> ~ In c [r_bslash; 110; 116; r_quote; r_lparen]%Z.
  Proof.
    unfold unescape. intros E H. cbn [In] in H.
    destruct H as [<-|[<-|[<-|[<-|[<-|[]]]]]]; vm_compute in E; discriminate.
  Qed.
  Lemma terminal_loop_ok n : forall prev s a b k, At s a b -> (V -> k <= length a) -> 1 <= k ->
    (V -> prev = r_bslash -> last_is a r_bslash) ->
    ok k any (m_terminal_loop input fname P n prev s).
  Proof.
    induction n as [|n IH]; intros prev s a b k HA Hk H1 Hp; cbn [m_terminal_loop]; [exact I|]. nx HA.
    - destruct (_ && _)%bool; [rewrite B; cbn [obind]; done A2|].
      replace (Z.eqb c eof) with false by (symmetry; apply Z.eqb_neq; auto).
      destruct (Z.eqb_spec prev r_bslash) as [->|Hn].
      + destruct (unescape c) as [c'|] eqn:U.
        * eapply (ok_bind _ _ k); [eapply (IH _ _ _ _ _ A1); [nums|exact H1|discriminate]|].
          intros x s3 a3 b3 HA' Hk' _. done HA'.
        * fl A1. destruct (Hp eq_refl) as [a0 ->]. apply (ob_escape _ _ _ _ _ _ a0 c); [|apply unescape_none; exact U].
          rewrite <- app_assoc. reflexivity.
      + destruct (Z.eqb_spec c r_bslash) as [->|Hb].
        * apply (IH _ _ _ _ _ A1); [nums|exact H1|]. intros _ _. apply last_snoc.
        * eapply (ok_bind _ _ k); [eapply (IH _ _ _ _ _ A1); [nums|exact H1|congruence]|].
          intros x s3 a3 b3 HA' Hk' _. done HA'.
    - change (Z.eqb eof r_quote) with false. change (Z.eqb eof eof) with true. cbn [andb].
      fl A1. apply ob_unterminated. reflexivity.
    - change (Z.eqb eof r_quote) with false. change (Z.eqb eof eof) with true. cbn [andb]. fl HA.
  Qed.
  Lemma terminal_text_ok s a b k : At s a b -> (V -> k <= length a) -> 1 <= k ->
    ok k any (m_terminal_text input fname P fuel s).
  Proof.
    intros HA Hk H1. unfold m_terminal_text.
    eapply (ok_bind _ _ k); [eapply (terminal_loop_ok fuel 0%Z _ _ _ _ HA Hk H1); discriminate|].
    intros x s3 a3 b3 HA' Hk' _. done HA'.
  Qed.
  Lemma terminal_ok s a b k : At s a b -> (V -> k <= S (length a)) -> 1 <= k -> (V -> 1 <= length a \/ b <> []) ->
    ok k any (m_terminal input fname letter_hi digit_hi P fuel s).
  Proof.
    intros HA Hk H1 Hl. unfold m_terminal. st k eat_ok. st k ws_ok. st k peek_ok.
    assert (K : ok k (@any string) (if Z.eqb x r_lparen then
          let '(_, s) := m_next input s2 in
          s <~ m_ws input fuel s ;; s <~ m_eat input fname P r_qmark s ;; s <~ m_ws input fuel s ;;
          ' (flags, s) <~ m_text input fname letter_hi digit_hi P fuel s ;; s <~ m_eat input fname P r_rparen s ;; Done (flags, s)
        else Done (""%string, s2))).
    { destruct (Z.eqb x r_lparen); [|done HA2]. nx HA2.
      - st k ws_ok. st k eat_ok. st k ws_ok. st k text_ok. st k eat_ok. done HA7.
      - st k ws_ok. st k eat_ok. st k ws_ok. st k text_ok. st k eat_ok. done HA7.
      - st k ws_ok. st k eat_ok. st k ws_ok. st k text_ok. st k eat_ok. done HA7. }
    eapply (ok_bind _ _ k _ _ _ _ _ K). intros y s3 a3 b3 HA3 Hk3 _.
    st k terminal_text_ok. st k eat_ok. done HA5.
  Qed.
  Lemma int_loop_ok n : forall i s a b k, At s a b -> (V -> k <= length a) -> 1 <= k ->
    ok k any (m_int_loop input fname digit_hi P n i s).
  Proof.
    induction n as [|n IH]; intros i s a b k HA Hk H1; cbn [m_int_loop]; [exact I|]. nx HA.
    - destruct (digit c) eqn:D.
      + destruct (ascii_digit c) eqn:D2; [apply (IH _ _ _ _ _ A1); [nums|exact H1]|].
        cbn [ok bad]. apply fo_digit; assumption.
      + destruct (Z.eqb i (-1)); [|rewrite B; cbn [obind]; done A2].
        fl A1. apply ob_number. right. exists c. split; [apply last_snoc|exact D].
    - change (digit eof) with false. cbn iota. destruct (Z.eqb i (-1)); [|rewrite B; cbn [obind]; done A2].
      fl A1. apply ob_number. left. reflexivity.
    - change (digit eof) with false. cbn iota. destruct (Z.eqb i (-1)); [|rewrite B; cbn [obind]; done A2].
      fl HA.
  Qed.
  Lemma get_int_ok s a b k : At s a b -> (V -> k <= length a) -> 1 <= k ->
    ok k any (m_get_int input fname digit_hi P fuel s).
  Proof. apply int_loop_ok. Qed.
  Lemma special_meta_ok s a b k : At s a b -> (V -> k <= length a) -> 1 <= k ->
    ok k any (m_special_meta input fname digit_hi P fuel s).
  Proof.
    intros HA Hk H1. unfold m_special_meta. st k ws_ok. st k peek_ok.
    assert (K : forall s a b, At s a b -> (V -> k <= length a) -> ok k (@any meta) (
          s <~ m_ws input fuel s ;; ' (lo, s) <~ m_get_int input fname digit_hi P fuel s ;; s <~ m_ws input fuel s ;;
          s <~ m_eat input fname P r_comma s ;;
          s <~ m_ws input fuel s ;; ' (hi, s) <~ m_get_int input fname digit_hi P fuel s ;;
          if (hi <? lo)%Z then m_fail fname P s (" : max:" ++ dec_Z hi ++ " less than min:" ++ dec_Z lo)
          else s <~ m_ws input fuel s ;; s <~ m_eat input fname P r_rbrace s ;; Done (MMap (Some lo) (Some hi), s))).
    { clear - H1 Hpre Htail. intros s a b HA Hk. st k ws_ok. st k get_int_ok. st k ws_ok. st k eat_ok. st k ws_ok. st k get_int_ok.
      destruct (Z.ltb_spec x0 x) as [Hlt|Hlt].
      - fl HA5. apply ob_range. exact Hlt.
      - st k ws_ok. st k eat_ok. done HA7. }
    eapply (ok_bind meta meta k k any any).
    { destruct (Z.eqb x r_lbrace); [|done HA1]. nx HA1.
      - apply (K _ _ _ A1). nums.
      - apply (K _ _ _ A1). nums.
      - apply (K _ _ _ HA1). nums. }
    intros y s3 a3 b3 HA3 Hk3 _. st k ws_ok. done HA2.
  Qed.
  Lemma special_ok s a b k : At s a b -> (V -> k <= S (length a)) -> 1 <= k -> (V -> 1 <= length a \/ b <> []) ->
    ok k any (m_special input fname letter_hi digit_hi P fuel s).
  Proof.
    intros HA Hk H1 Hl. unfold m_special. st k eat_ok. st k ws_ok. st k text_ok. st k ws_ok.
    destruct (String.eqb_spec x "any") as [Ex|Ex].
    { st k special_meta_ok. st k eat_ok. done HA5. }
    destruct (String.eqb_spec x "list") as [El|El].
    { unfold m_nonterminal. st k bracketed_ok. st k special_meta_ok. st k eat_ok. done HA6. }
    fl HA3. apply ob_special; assumption.
  Qed.
  Lemma regex_loop_ok n : forall s a b k, At s a b -> (V -> k <= length a) -> 1 <= k ->
    ok k (fun rs a' b' => last_is a' r_tick) (m_regex_loop input fname P n s).
  Proof.
    induction n as [|n IH]; intros s a b k HA Hk H1; cbn [m_regex_loop]; [exact I|]. nx HA.
    - destruct (Z.eqb_spec c r_tick) as [->|Hn].
      { apply (ok_done _ _ _ _ _ _ _ A1); [nums|]. intros _. apply last_snoc. }
      replace (Z.eqb c eof) with false by (symmetry; apply Z.eqb_neq; auto).
      eapply (ok_bind _ _ k); [eapply (IH _ _ _ _ A1); [nums|exact H1]|].
      intros x s3 a3 b3 HA' Hk' HQ. apply (ok_done _ _ _ _ _ _ _ HA' Hk' HQ).
    - change (Z.eqb eof r_tick) with false. change (Z.eqb eof eof) with true. cbn iota.
      fl A1. apply ob_unterminated. reflexivity.
    - change (Z.eqb eof r_tick) with false. change (Z.eqb eof eof) with true. cbn iota. fl HA.
  Qed.
  Lemma regex_ok s a b k : At s a b -> (V -> k <= S (length a)) -> 1 <= k -> (V -> 1 <= length a \/ b <> []) ->
    ok k any (m_regex input fname P regexp_ok md5 fuel s).
  Proof.
    intros HA Hk H1 Hl. unfold m_regex. st k eat_ok. st k ws_ok. st k (regex_loop_ok fuel).
    destruct x as [|c x].
    - fl HA2. apply ob_empty. assumption.
    - cbn zeta. destruct (regexp_ok (encode (c :: x))) eqn:R; cbn [negb].
      + unfold slice. destruct (_ && _)%bool; cbn [lift obind]; [|exact I].
        apply (ok_done _ _ _ _ _ a2 b2); [apply at_re; exact HA2|nums|intros _; exact I].
      + fl HA2. apply ob_regexp; assumption.
  Qed.
  Lemma read_term_ok s a b k : At s a b -> (V -> k <= length a) -> 1 <= k ->
    ok k any (m_read_term input fname letter_hi digit_hi P regexp_ok md5 fuel s).
  Proof.
    intros HA Hk H1. unfold m_read_term. st k peek_ok.
    destruct (Z.eqb_spec x r_lt) as [E1|E1]. { unfold m_nonterminal. st k bracketed_ok. done HA1. }
    destruct (Z.eqb_spec x r_quote) as [E2|E2]. { st k terminal_ok. destruct x0. done HA1. }
    destruct (Z.eqb_spec x r_lparen) as [E3|E3]. { eapply special_ok; [eassumption|nums|exact H1|nums]. }
    destruct (Z.eqb_spec x r_tick) as [E4|E4]. { eapply regex_ok; [eassumption|nums|exact H1|nums]. }
    fl HA0. apply ob_term. destruct H0 as (Ex & _ & Eb). destruct b0 as [|c b0]; [exact I|]. cbn in Ex. subst x.
    cbn. intros [X|[X|[X|[X|[]]]]]; congruence.
  Qed.
  Lemma name_loop_ok n : forall first prev s a b k, At s a b -> (V -> k <= length a) ->
    ok k (fun rs a' b' => rs = [] -> first = true -> next_is b' (fun c => letter c = false /\ c <> r_under))
       (m_name_loop input letter_hi digit_hi n first prev s).
  Proof.
    induction n as [|n IH]; intros first prev s a b k HA Hk; cbn [m_name_loop]; [exact I|]. nx HA.
    - match goal with |- ok _ _ (if ?t then _ else _) => destruct t eqn:T end.
      + eapply (ok_bind _ _ k); [eapply (IH false _ _ _ _ _ A1); nums|]. intros x s3 a3 b3 HA' Hk' _.
        apply (ok_done _ _ _ _ _ _ _ HA' Hk'). intros _ X. discriminate.
      + rewrite B. cbn [obind]. apply (ok_done _ _ _ _ _ _ _ A2 Hk). intros _ _ ->. cbn [next_is].
        apply Bool.orb_false_iff in T. destruct T as [T _].
        apply Bool.orb_false_iff in T. destruct T as [T _]. apply Bool.orb_false_iff in T. destruct T as [T1 T2].
        split; [exact T1|]. apply Z.eqb_neq. exact T2.
    - match goal with |- ok _ _ (if ?t then _ else _) => replace t with false by reflexivity end. rewrite B. cbn [obind].
      apply (ok_done _ _ _ _ _ _ _ A2 Hk). intros _ _ _. exact I.
    - match goal with |- ok _ _ (if ?t then _ else _) => replace t with false by reflexivity end. rewrite B. cbn [obind].
      apply (ok_done _ _ _ _ _ _ _ A2); nums.
  Qed.
  Lemma func_name_ok s a b k : At s a b -> (V -> k <= length a) -> 1 <= k ->
    ok k any (m_func_name input fname letter_hi digit_hi P fuel s).
  Proof.
    intros HA Hk H1. unfold m_func_name. st k (name_loop_ok fuel true eof). destruct x as [|c x].
    - fl HA0. apply ob_function. auto.
    - st k ws_ok. done HA1.
  Qed.
  Lemma num_loop_ok n : forall dot s a b k, At s a b -> (V -> k <= length a) -> 1 <= k ->
    ok k (fun x a' b' => fst x = [] -> last_or_end a' b' (fun c => digit c = false))
       (m_num_loop input fname digit_hi P n dot s).
  Proof.
    induction n as [|n IH]; intros dot s a b k HA Hk H1; cbn [m_num_loop]; [exact I|]. nx HA.
    - destruct (digit c) eqn:D.
      { eapply (ok_bind _ _ k); [eapply (IH dot _ _ _ _ A1); [nums|exact H1]|].
        intros [rs d] s3 a3 b3 HA' Hk' _. apply (ok_done _ _ _ _ _ _ _ HA' Hk'). cbn. discriminate. }
      destruct (Z.eqb_spec c r_dot) as [->|Hn].
      { destruct dot.
        - fl A1. apply ob_dot. apply last_snoc.
        - eapply (ok_bind _ _ k); [eapply (IH true _ _ _ _ A1); [nums|exact H1]|].
          intros [rs d] s3 a3 b3 HA' Hk' _. apply (ok_done _ _ _ _ _ _ _ HA' Hk'). cbn. discriminate. }
      apply (ok_done _ _ _ _ _ _ _ A1); [nums|]. intros _ _. right. exists c. split; [apply last_snoc|exact D].
    - change (digit eof) with false. change (Z.eqb eof r_dot) with false. cbn iota.
      apply (ok_done _ _ _ _ _ _ _ A1); [nums|]. intros _ _. left. reflexivity.
    - change (digit eof) with false. change (Z.eqb eof r_dot) with false. cbn iota.
      apply (ok_done _ _ _ _ _ _ _ HA); nums.
  Qed.

  (** the step back after the digits *)
  Lemma num_loop_back n : forall dot s a b k, At s a b -> (V -> k <= length a) ->
    match m_num_loop input fname digit_hi P n dot s with
    | Done (_, s') => exists s2 a2 b2, m_backup s' = Done s2 /\ At s2 a2 b2 /\ (V -> k <= length a2)
    | _ => True
    end.
  Proof.
    induction n as [|n IH]; intros dot s a b k HA Hk; cbn [m_num_loop]; [exact I|]. nx HA.
    - destruct (digit c).
      { specialize (IH dot s1 _ _ k A1 ltac:(nums)). destruct (m_num_loop _ _ _ _ n dot s1) as [[[rs d] s3]|m| |]; exact IH. }
      destruct (Z.eqb c r_dot).
      { destruct dot; [exact I|]. specialize (IH true s1 _ _ k A1 ltac:(nums)).
        destruct (m_num_loop _ _ _ _ n true s1) as [[[rs d] s3]|m| |]; exact IH. }
      exists s2, a, (c :: b'). auto.
    - change (digit eof) with false. change (Z.eqb eof r_dot) with false. cbn iota. exists s2, a, []. auto.
    - change (digit eof) with false. change (Z.eqb eof r_dot) with false. cbn iota. exists s2, a2, b2.
      split; [exact B|]. split; [exact A2|nums].
  Qed.
  Lemma num_arg_ok neg s a b k : At s a b -> (V -> k <= length a) -> 1 <= k ->
    ok k any (m_num_arg input fname digit_hi P scan_float scan_error fuel neg s).
  Proof.
    intros HA Hk H1. unfold m_num_arg.
    pose proof (num_loop_ok fuel false s a b k HA Hk H1) as K1.
    pose proof (num_loop_back fuel false s a b k HA Hk) as K2.
    destruct (m_num_loop _ _ _ _ fuel false s) as [[[rs dot] s1]|m| |]; cbn [obind ok] in *; auto.
    destruct K1 as (a1 & b1 & HA1 & Hk1 & HQ). destruct K2 as (s2 & a2 & b2 & B & HA2 & Hk2).
    destruct rs as [|c rs].
    - fl HA1. apply ob_number. apply HQ. reflexivity.
    - rewrite B. cbn [obind]. cbn zeta. destruct dot.
      + destruct (scan_float _); cbn [lift obind]; [done HA2|apply fo_scan|exact I|exact I].
      + destruct (scan_int _ _); cbn [lift obind]; [done HA2|apply fo_scan|exact I|exact I].
  Qed.
  Definition args_ok (k : nat) (f : rp -> out (list arg * rp)) : Prop :=
    forall s a b, At s a b -> (V -> k <= length a) -> ok k any (f s).
  Lemma semantic_with_ok f s a b k : At s a b -> (V -> k <= length a) -> 1 <= k -> args_ok k f ->
    ok k any (m_semantic_with input fname letter_hi digit_hi P fuel f s).
  Proof.
    intros HA Hk H1 Hf. unfold m_semantic_with. st k ws_ok. st k func_name_ok. st k eat_ok.
    eapply (ok_bind _ _ k); [apply (Hf _ _ _ HA2); nums|]. intros x0 s4 a4 b4 HA4 Hk4 _.
    st k ws_ok. done HA3.
  Qed.
  Lemma one_arg_ok f r s a b k : At s a b -> (V -> k <= length a) -> 1 <= k -> args_ok k f ->
    ok k any (m_one_arg input fname letter_hi digit_hi P scan_float scan_error fuel f r s).
  Proof.
    intros HA Hk H1 Hf. unfold m_one_arg.
    destruct (Z.eqb r r_at). { st k eat_ok. done HA0. }
    destruct (Z.eqb r r_dollar). { st k eat_ok. st k get_int_ok. done HA1. }
    destruct (Z.eqb r r_quote). { st k terminal_ok. destruct x. done HA0. }
    destruct (digit r). { apply (num_arg_ok _ _ _ _ _ HA Hk H1). }
    destruct (Z.eqb r r_minus). { st k eat_ok. apply (num_arg_ok _ _ _ _ _ HA0); [nums|exact H1]. }
    eapply (ok_bind _ _ k); [apply (semantic_with_ok f _ _ _ _ HA Hk H1 Hf)|]. intros x s4 a4 b4 HA4 Hk4 _. done HA4.
  Qed.
  Lemma args_loop_ok n k : 1 <= k ->
    args_ok k (m_args_loop input fname letter_hi digit_hi P scan_float scan_error fuel n).
  Proof.
    intros H1. induction n as [|n IH]; intros s a b HA Hk; cbn [m_args_loop]; [exact I|].
    st k ws_ok. st k peek_ok.
    eapply (ok_bind _ _ k); [apply (one_arg_ok _ x _ _ _ _ HA1 H2 H1 IH)|]. intros y s4 a4 b4 HA4 Hk4 _.
    assert (Next : forall s a b, At s a b -> (V -> k <= length a) -> ok k (@any (list arg))
      (' (l, s) <~ m_args_loop input fname letter_hi digit_hi P scan_float scan_error fuel n s ;; Done (y :: l, s))).
    { intros s5 a5 b5 HA5 Hk5. eapply (ok_bind _ _ k); [apply (IH _ _ _ HA5 Hk5)|].
      intros l s6 a6 b6 HA6 Hk6 _. done HA6. }
    destruct (Z.eqb x r_comma); [apply (Next _ _ _ HA4 Hk4)|].
    st k ws_ok. nx HA2.
    - destruct (Z.eqb_spec c r_comma) as [->|Hc1]; [apply (Next _ _ _ A1); nums|].
      destruct (Z.eqb_spec c r_rparen) as [->|Hc2]; [done A1|].
      fl A1. apply ob_args. right. exists c. split; [apply last_snoc|auto].
    - change (Z.eqb eof r_comma) with false. change (Z.eqb eof r_rparen) with false. cbn iota.
      fl A1. apply ob_args. left. reflexivity.
    - change (Z.eqb eof r_comma) with false. change (Z.eqb eof r_rparen) with false. cbn iota. fl HA2.
  Qed.
  Lemma semantic_fn_ok s a b k : At s a b -> (V -> k <= length a) -> 1 <= k ->
    ok k any (m_semantic_fn input fname letter_hi digit_hi P scan_float scan_error fuel s).
  Proof. intros HA Hk H1. apply (semantic_with_ok _ _ _ _ _ HA Hk H1 (args_loop_ok fuel k H1)). Qed.
  Lemma terms_loop_ok n : forall s a b k, At s a b -> (V -> k <= length a) -> 1 <= k ->
    ok k any (m_terms_loop input fname letter_hi digit_hi P regexp_ok md5 fuel n s).
  Proof.
    induction n as [|n IH]; intros s a b k HA Hk H1; cbn [m_terms_loop]; [exact I|].
    st k comments_ok. st k peek_ok. destruct (starts_term x); cbn [negb]; [|done HA1].
    st k read_term_ok. st k comments_ok. st k IH. done HA4.
  Qed.
  Lemma rule_body_ok s a b k : At s a b -> (V -> k <= length a) -> 1 <= k ->
    ok k any (m_rule_body input fname letter_hi digit_hi P scan_float regexp_ok md5 scan_error fuel s).
  Proof.
    intros HA Hk H1. unfold m_rule_body. st k read_term_ok. st k comments_ok. st k (terms_loop_ok fuel). st k peek_ok.
    destruct (Z.eqb x1 r_lbrace); [|done HA3].
    nx HA3; st k semantic_fn_ok; st k eat_ok; st k comments_ok; done HA6.
  Qed.
  Lemma bodies_loop_ok n : forall m s a b k, At s a b -> (V -> k <= length a) -> 1 <= k ->
    ok k any (m_bodies_loop input fname letter_hi digit_hi P scan_float regexp_ok md5 hash scan_error fuel n m s).
  Proof.
    induction n as [|n IH]; intros m s a b k HA Hk H1; cbn [m_bodies_loop]; [exact I|].
    st k peek_ok. destruct (Z.eqb x r_bar); cbn [negb]; [|done HA0].
    nx HA0; st k comments_ok; st k rule_body_ok; apply (IH _ _ _ _ _ HA2); (nums || exact H1).
  Qed.
  Lemma rule_bodies_ok s a b k : At s a b -> (V -> k <= length a) -> 1 <= k ->
    ok k any (m_rule_bodies input fname letter_hi digit_hi P scan_float regexp_ok md5 hash scan_error fuel s).
  Proof.
    intros HA Hk H1. unfold m_rule_bodies. st k rule_body_ok. apply (bodies_loop_ok _ _ _ _ _ _ HA0); [nums|exact H1].
  Qed.
  Lemma read_rule_ok c s a b k : At s a b -> c = r_lt \/ c = r_lbrack -> (V -> k <= S (length a)) -> 1 <= k ->
    (V -> 1 <= length a \/ b <> []) ->
    ok k any (m_read_rule input fname letter_hi digit_hi P scan_float regexp_ok md5 hash scan_error fuel c s).
  Proof.
    intros HA Hc Hk H1 Hl. unfold m_read_rule.
    assert (K : ok k (@any string) (if Z.eqb c r_lt then m_nonterminal input fname letter_hi digit_hi P fuel s
                    else if Z.eqb c r_lbrack then m_frame_name input fname letter_hi digit_hi P fuel s
                    else m_fail fname P s " : unexpected char")).
    { destruct Hc as [-> | ->].
      - change (Z.eqb r_lt r_lt) with true. cbn iota. apply (bracketed_ok _ _ _ _ _ _ HA); (discriminate || assumption).
      - change (Z.eqb r_lbrack r_lt) with false. change (Z.eqb r_lbrack r_lbrack) with true. cbn iota.
        apply (bracketed_ok _ _ _ _ _ _ HA); (discriminate || assumption). }
    eapply (ok_bind _ _ k _ _ _ _ _ K). intros y s3 a3 b3 HA3 Hk3 _.
    st k comments_ok. st k eat_ok. st k comments_ok. st k rule_bodies_ok. st k eat_ok. done HA5.
  Qed.
  Lemma rules_loop_ok n : forall r f s a b, At s a b ->
    ok 0 (fun x a' b' => next_is b' (fun c => c <> r_lt /\ c <> r_lbrack))
      (m_rules_loop input fname letter_hi digit_hi P scan_float regexp_ok md5 hash scan_error fuel n r f s).
  Proof.
    induction n as [|n IH]; intros r f s a b HA; cbn [m_rules_loop]; [exact I|].
    st 0 comments_ok. st 0 peek_ok.
    destruct (Z.eqb x r_lt || Z.eqb x r_lbrack) eqn:T; cbn [negb].
    - assert (Hx : x = r_lt \/ x = r_lbrack).
      { apply Bool.orb_true_iff in T. destruct T as [T|T]; apply Z.eqb_eq in T; auto. }
      eapply (ok_bind _ _ 1).
      { apply (read_rule_ok x _ _ _ _ HA1 Hx); [nums|llia|].
        spec. right. destruct H2 as (E & _ & _). intros ->. cbn in E. destruct Hx; subst x; discriminate. }
      intros y s4 a4 b4 HA4 _ _. destruct (Z.eqb x r_lbrack); apply (IH _ _ _ _ _ HA4).
    - apply (ok_done _ _ _ _ _ _ _ HA1); [nums|]. spec. destruct H2 as (E & _ & _).
      destruct b1 as [|c b1]; [exact I|]. cbn in E. subst x. cbn.
      apply Bool.orb_false_iff in T. destruct T as [T1 T2]. apply Z.eqb_neq in T1, T2. auto.
  Qed.
  Lemma rules_part_ok s a b : At s a b ->
    match m_rules_part input fname letter_hi digit_hi P scan_float regexp_ok md5 hash scan_error fuel s with
    | Fails m => bad m
    | _ => True
    end.
  Proof.
    intros HA. unfold m_rules_part. pose proof (rules_loop_ok fuel [] [] s a b HA) as K.
    destruct (m_rules_loop _ _ _ _ _ _ _ _ _ _ _ fuel [] [] s) as [[rf s1]|m| |]; cbn [obind ok] in *; auto.
    destruct K as (a1 & b1 & HA1 & _ & HQ). nx HA1.
    - replace (Z.eqb c eof) with false by (symmetry; apply Z.eqb_neq; auto).
      apply (fail_bad _ _ _ _ A1). intros v. rewrite length_snoc. split; [llia|].
      specialize (HQ v). cbn in HQ. destruct HQ. apply (ob_format _ _ _ _ _ _ c); [apply last_snoc|assumption|assumption].
    - change (Z.eqb eof eof) with true. exact I.
    - change (Z.eqb eof eof) with true. exact I.
  Qed.
  Section Includes.
    Context {F G : Type}.
    Variable load : F -> string -> out (option (list G * list (string * string)) * F).
    Variable other : report -> Prop.
    Hypothesis Hload : forall fs x m, load fs x = Fails m -> other m.
    Definition ok2 {A} (o : out (A * rp)) : Prop :=
      match o with
      | Done (_, s) => exists a b, At s a b
      | Fails m => bad m \/ other m
      | _ => True
      end.
    Lemma ok2_bind A B k Q (e : out (A * rp)) (f : A * rp -> out (B * rp)) :
      ok k Q e -> (forall x s a b, At s a b -> (V -> k <= length a) -> (V -> Q x a b) -> ok2 (f (x, s))) ->
      ok2 (obind e f).
    Proof. destruct e as [[x s]|m| |]; cbn [ok ok2 obind]; auto. intros (a & b & H1 & H2 & H3) K. eauto. Qed.
    Lemma ok21_bind B k Q (e : out rp) (f : rp -> out (B * rp)) :
      ok1 k Q e -> (forall s a b, At s a b -> (V -> k <= length a) -> (V -> Q a b) -> ok2 (f s)) ->
      ok2 (obind e f).
    Proof. destruct e as [s|m| |]; cbn [ok1 ok2 obind]; auto. intros (a & b & H1 & H2 & H3) K. eauto. Qed.
    Lemma includes_loop_ok n : forall fs gs s a b, At s a b ->
      ok2 (m_includes_loop input fname letter_hi digit_hi P fuel load n fs gs s).
    Proof.
      induction n as [|n IH]; intros fs gs s a b HA; cbn [m_includes_loop]; [exact I|].
      eapply ok21_bind; [apply (comments_ok _ _ _ 0 HA); nums|]. intros s1 a1 b1 HA1 _ _.
      eapply ok2_bind; [apply (peek_ok _ _ _ 0 HA1); nums|]. intros c s2 a2 b2 HA2 _ HQ.
      destruct (Z.eqb_spec c r_hash) as [->|Hc]; cbn [negb]; [|exists a2, b2; exact HA2].
      assert (K : exists s3 a3 b3, snd (m_next input s2) = s3 /\ At s3 a3 b3 /\ (V -> 1 <= length a3)).
      { nx HA2; cbn [snd].
        - do 3 eexists. split; [reflexivity|]. split; [exact A1|]. intros _. rewrite length_snoc. llia.
        - exfalso. specialize (HQ v). destruct HQ as [HQ _]. discriminate.
        - do 3 eexists. split; [reflexivity|]. split; [exact HA2|]. contradiction. }
      destruct K as (s3 & a3 & b3 & E3 & HA3 & Hk3). destruct (m_next input s2) as [r0 s3']. cbn [snd] in E3. subst s3'.
      eapply ok21_bind; [apply (ws_ok _ _ _ 1 HA3 Hk3)|]. intros s4 a4 b4 HA4 Hk4 _.
      eapply ok2_bind; [apply (text_ok _ _ _ 1 HA4 Hk4); llia|]. intros name s5 a5 b5 HA5 Hk5 _.
      destruct (String.eqb_spec name "include") as [->|Hn]; cbn [negb].
      2: { left. apply (fail_bad _ _ _ _ HA5). spec. split; [llia|]. apply ob_directive. exact Hn. }
      eapply ok21_bind; [apply (ws_ok _ _ _ 1 HA5 Hk5)|]. intros s6 a6 b6 HA6 Hk6 _.
      eapply ok2_bind; [apply (terminal_ok _ _ _ 1 HA6); [nums|llia|nums]|]. intros [fl path] s7 a7 b7 HA7 Hk7 _.
      destruct (load fs path) as [[[[l re]|] fs']|m| |] eqn:L; cbn [obind ok2].
      - apply (IH _ _ _ a7 b7). apply at_re. exact HA7.
      - apply (IH _ _ _ a7 b7 HA7).
      - right. apply (Hload _ _ _ L).
      - exact I.
      - exact I.
    Qed.
  End Includes.
End Place.

Section Told.
  Variables letter_hi digit_hi is_print_hi : rune -> bool.
  Variable scan_float : string -> res bigf.
  Variable regexp_ok : string -> bool.
  Variable md5 : string -> string.
  Variable hash : rulebody -> N.
  Variable trie_accepts : string -> bool.
  Variable tokenize : string -> res (list token).
  Variable ascii_name : string -> string.
  Variable read_file : string -> res string.
  Variable abs_dir : string -> res string.
  Variable join_path : string -> string -> string.
  Variable ord : grammar_rules -> grammar_rules.
  Variables scan_error file_error dir_error : string -> string.
  Variable finish_error : string.
  Variable fuel : nat.
  Local Notation alien := (foreign (is_digit digit_hi) is_print_hi scan_error file_error dir_error finish_error read_file abs_dir).

  Definition told (file d : string) (m : report) : Prop :=
    match m with
    | Said p t => located is_print_hi file d p t /\
        ((exists w, Forall good w /\ d = encode w) ->
         complains (is_letter letter_hi) (is_digit digit_hi) is_print_hi regexp_ok file d p t)
    | Passed t => alien t
    end.

  Lemma spot_string a : a <> [] -> exists p, place is_print_hi a p /\ pos_string is_print_hi (spot a) = p.
  Proof.
    intros H. destruct (spot_some a H) as [q E]. destruct (spot_place a q E) as (R & C & a0 & c & Ea & Ec).
    eexists. split; [|reflexivity]. exists a0, c, (p_col q). split; [exact Ea|]. split; [exact C|].
    rewrite E. cbn [pos_string]. rewrite R, Ec. reflexivity.
  Qed.

  Lemma append_end (s : string) : (s ++ "")%string = s.
  Proof. induction s; cbn; congruence. Qed.
  Lemma append_three (x y z : string) : ((x ++ y) ++ z)%string = (x ++ y ++ z)%string.
  Proof. induction x; cbn; congruence. Qed.

  (** from the invariant to what is told *)
  Lemma bad_located file pre tail m : Forall good pre ->
    bad file letter_hi digit_hi is_print_hi regexp_ok scan_error file_error dir_error finish_error read_file abs_dir pre tail m ->
    match m with
    | Said p t => located is_print_hi file (encode pre ++ tail) p t /\
        (tail = ""%string -> complains (is_letter letter_hi) (is_digit digit_hi) is_print_hi regexp_ok file (encode pre) p t)
    | Passed t => alien t
    end.
  Proof.
    intros Hpre. destruct m as [p t|t]; cbn [bad]; [|auto].
    intros (a & b & what & E & Ep & Et & H). subst pre p t. split.
    - exists a, (encode b ++ tail)%string.
      exists (pos_string is_print_hi (spot a)), what.
      split; [apply Forall_app in Hpre; apply Hpre|].
      split; [rewrite encode_app; apply append_three|]. split; [reflexivity|]. split; [|reflexivity].
      destruct a as [|c a]; [right; auto|]. left. destruct (spot_string (c :: a)) as (p & H1 & ->); [discriminate|exact H1].
    - intros v. destruct (H v) as [L O].
      destruct (spot_string a) as (p & H1 & H2); [intros ->; cbn in L; lia|].
      exists a, b, p, what. rewrite H2. auto 10.
  Qed.
  Lemma decodable_tail : forall pre w tail, Forall good w -> encode w = (encode pre ++ tail)%string ->
    Forall good pre -> (tail = ""%string \/ exists n, decode_rune tail = (RuneError, n)) -> tail = ""%string /\ w = pre.
  Proof.
    induction pre as [|c pre IH]; intros w tail Gw E Gp T.
    - cbn [encode append] in E. subst tail. destruct w as [|c w]; [auto|]. exfalso.
      inversion Gw as [|? ? [Gc Nc] Gw']; subst.
      destruct T as [T|[n T]].
      + apply (f_equal String.length) in T. cbn [encode] in T. rewrite string_length_append in T. cbn in T.
        pose proof (size_pos c). lia.
      + cbn [encode] in T. rewrite (decode_encode c _ Gc) in T. congruence.
    - inversion Gp as [|? ? [Gc Nc] Gp']; subst. destruct w as [|c' w].
      + exfalso. cbn [encode append] in E. apply (f_equal String.length) in E. cbn [String.length] in E.
        rewrite !string_length_append in E. pose proof (size_pos c). lia.
      + inversion Gw as [|? ? [Gc' Nc'] Gw']; subst. cbn [encode] in E. rewrite append_three in E.
        pose proof (f_equal decode_rune E) as D. rewrite (decode_encode c' _ Gc'), (decode_encode c _ Gc) in D.
        injection D as -> _.
        assert (E' : encode w = (encode pre ++ tail)%string).
        { apply (f_equal (drop (String.length (encode_rune c)))) in E. rewrite !drop_append in E. exact E. }
        destruct (IH w tail Gw' E' Gp' T) as [-> ->]. auto.
  Qed.
  Lemma bad_told file d pre tail m : d = (encode pre ++ tail)%string -> Forall good pre ->
    (tail = ""%string \/ exists n, decode_rune tail = (RuneError, n)) ->
    bad file letter_hi digit_hi is_print_hi regexp_ok scan_error file_error dir_error finish_error read_file abs_dir pre tail m ->
    told file d m.
  Proof.
    intros E G T H. pose proof (bad_located file pre tail m G H) as K.
    destruct m as [p t|t]; [|exact K]. destruct K as [K1 K2]. split; [rewrite E; exact K1|].
    intros (w & Gw & Ew). destruct (decodable_tail pre w tail Gw ltac:(congruence) G T) as [Et ->].
    rewrite Ew. exact (K2 Et).
  Qed.

  Local Notation read := (m_grammar_from_string letter_hi digit_hi is_print_hi scan_float regexp_ok md5 hash trie_accepts
              tokenize ascii_name read_file abs_dir join_path ord scan_error file_error dir_error finish_error fuel).
  Lemma from_string_told depth : forall d name dir w m, read depth d name dir w = Fails m ->
    exists file text, (file = name /\ text = d \/ read_file file = Ret text) /\ told file text m.
  Proof.
    induction depth as [|depth IH]; intros d name dir w m; cbn [m_grammar_from_string]; [discriminate|].
    destruct (Nat.leb _ _); [discriminate|].
    set (load := m_include_file read_file abs_dir join_path file_error dir_error (read depth) dir).
    set (other := fun m => (exists file text, read_file file = Ret text /\ told file text m)
                    \/ exists t, m = Passed t /\ alien t).
    assert (Hload : forall fs x m, load fs x = Fails m -> other m).
    { intros fs x m0. unfold load, m_include_file. destruct (Nat.leb _ _); [discriminate|].
      destruct (read_file (join_path dir x)) as [b| | |] eqn:R; cbn [lift obind]; try discriminate.
      - destruct (abs_dir (join_path dir x)) as [idir| | |] eqn:D; cbn [lift obind]; try discriminate.
        + destruct (read depth b _ idir _) as [[[ig|] w']|m1| |] eqn:X; cbn [obind]; try discriminate.
          intros H. injection H as <-. destruct (IH _ _ _ _ _ X) as (file & text & [[-> ->]|Hr] & T);
            [left; exists (join_path dir x), b; split; assumption|left; exists file, text; split; assumption].
        + intros H. injection H as <-. right. eexists. split; [reflexivity|]. apply fo_dir. exact D.
      - intros H. injection H as <-. right. eexists. split; [reflexivity|]. apply fo_file. exact R. }
    destruct (good_prefix (String.length d) d (le_n _)) as (pre & tail & E & G & T).
    pose proof (includes_loop_ok name letter_hi digit_hi is_print_hi regexp_ok scan_error file_error dir_error finish_error
               read_file abs_dir pre tail G T fuel load other Hload fuel w [] _ [] pre (at_start pre tail [])) as Inc.
    rewrite <- E in Inc.
    destruct (m_includes_loop _ _ _ _ _ _ _ _ _ _ _) as [[[gs w1] s]|m1| |]; cbn [obind ok2] in *; try discriminate.
    - destruct Inc as (a & b & HA).
      pose proof (rules_part_ok name letter_hi digit_hi is_print_hi scan_float regexp_ok md5 hash scan_error file_error
                 dir_error finish_error read_file abs_dir pre tail G T fuel s a b HA) as Rul.
      rewrite <- E in Rul.
      destruct (m_rules_part _ _ _ _ _ _ _ _ _ _ _ s) as [[[rules frames] re]|m1| |]; cbn [obind]; try discriminate.
      + destruct (finish _ _ _ _ _ _ _ _ _ _ _ _) as [[g gt]| | |]; cbn [lift obind]; try discriminate.
        intros H. injection H as <-. exists name, d. split; [auto|]. apply fo_finish.
      + intros H. injection H as <-. exists name, d. split; [auto|]. apply (bad_told name d pre tail m1 E G T Rul).
    - intros H. injection H as <-. destruct Inc as [B|[(file & text & H1 & H2)|(t & -> & H)]].
      + exists name, d. split; [auto|]. apply (bad_told name d pre tail m1 E G T B).
      + exists file, text. auto.
      + exists name, d. auto.
  Qed.
End Told.

(** ** The calls *)
From Verif Require Import SpecConstruct ProofReport.

Lemma sim_agrees A (x : out A) (y : res A) : sim eq x y -> agrees x y.
Proof. destruct x, y; cbn; auto. Qed.
Lemma string_agrees : forall e o fuel depth d name gt,
  agrees (string_report e o fuel depth d name gt) (from_string e fuel depth d name gt).
Proof. intros. apply sim_agrees. unfold string_report, from_string. apply GrammarFromString_sim. Qed.
Lemma file_agrees : forall e o fuel depth file gt,
  agrees (file_report e o fuel depth file gt) (from_file e fuel depth file gt).
Proof. intros. apply sim_agrees. unfold file_report, from_file. apply GrammarFromFile_sim. Qed.
Lemma string_tells : forall e o fuel depth d name gt m, string_report e o fuel depth d name gt = Fails m ->
  exists file text, (file = name /\ text = d \/ e_read e file = Ret text) /\ tells e o file text m.
Proof.
  intros e o fuel depth d name gt m H. unfold string_report, m_GrammarFromString in H.
  apply from_string_told in H. exact H.
Qed.
Lemma file_tells : forall e o fuel depth file gt m, file_report e o fuel depth file gt = Fails m ->
  (exists f text, e_read e f = Ret text /\ tells e o f text m) \/ (e_read e file = Err /\ m = Passed (o_file o file)).
Proof.
  intros e o fuel depth file gt m. unfold file_report, m_GrammarFromFile.
  destruct (e_read e file) as [b| | |] eqn:R; cbn [lift obind]; try discriminate.
  - destruct (e_abs e file) as [dir| | |] eqn:D; cbn [lift obind]; try discriminate.
    + intros H. apply from_string_told in H. left.
      destruct H as (f & text & [[-> ->]|Hf] & T); [exists file, b; auto|exists f, text; auto].
    + intros H. injection H as <-. left. exists file, b. split; [exact R|]. apply fo_dir. exact D.
  - intros H. injection H as <-. right. auto.
Qed.
