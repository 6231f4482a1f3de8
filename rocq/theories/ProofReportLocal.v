(** The errors of the reader depend only on the text up to the place they name and on the
    character after it. Two readers run side by side, on texts that agree so far. *)
From Coq Require Import Lia.
From Verif Require Import Base ModelTypes ModelText ModelQuote ModelReader ModelEarley ModelGrammar ModelReport
  SpecNotation SpecConstruct SpecReport ProofUtf8 ProofReportPlace.
Local Open Scope list_scope.
Local Ltac llia := unfold rune in *; lia.

Section Local.
  Variable fname : string.
  Variables letter_hi digit_hi is_print_hi : rune -> bool.
  Variable scan_float : string -> res bigf.
  Variable regexp_ok : string -> bool.
  Variable md5 : string -> string.
  Variable hash : rulebody -> N.
  Variable scan_error : string -> string.
  Variable fuel : nat.
  (** [a0] is what both texts start with, [c0] the next character, [L] the place between *)
  Variables a0 t1 : list rune.
  Variable c0 : rune.
  Variable t2 : string.
  Hypothesis G1 : Forall good (a0 ++ c0 :: t1).
  Local Notation pre1 := (a0 ++ c0 :: t1).
  Local Notation i1 := (encode pre1).
  Local Notation i2 := (encode (a0 ++ [c0]) ++ t2)%string.
  Local Notation L := (size a0).
  Local Notation A := (At pre1 "").
  Local Notation pos s := (rd_pos (rp_rd s)).
  Local Notation P := is_print_hi.

  Lemma end_in (s : string) : (s ++ "")%string = s.
  Proof. induction s; cbn; congruence. Qed.

  (** what the first reader does: never before [k], and the same as the second unless
      it is past [L] *)
  Definition relN {X : Type} (k : nat) (x y : out X) : Prop :=
    match x with
    | Fails (Said p _) => k <= p /\ (y = x \/ L < p)
    | _ => True
    end.
  Definition rel {X : Type} (g : X -> rp) (k : nat) (x y : out X) : Prop :=
    match x with
    | Done v => k <= pos (g v) /\ (exists a b, A (g v) a b) /\ (y = x \/ L < pos (g v))
    | Fails (Said p _) => k <= p /\ (y = x \/ L < p)
    | _ => True
    end.
  Local Notation I1 := (fun s : rp => s).

  Lemma rel_far X g k (x y y' : out X) : L < k -> rel g k x y -> rel g k x y'.
  Proof.
    intros H. destruct x as [v|[p t|t]| |]; cbn [rel]; auto.
    - intros (H1 & H2 & _). split; [exact H1|]. split; [exact H2|]. right. lia.
    - intros (H1 & _). split; [exact H1|]. right. lia.
  Qed.
  Lemma rel_weak X g k k' (x y : out X) : k <= k' -> rel g k' x y -> rel g k x y.
  Proof.
    intros H. destruct x as [v|[p t|t]| |]; cbn [rel]; auto.
    - intros (H1 & H2 & H3). split; [lia|]. auto.
    - intros (H1 & H2). split; [lia|]. auto.
  Qed.
  Lemma relN_far X k (x y y' : out X) : L < k -> relN k x y -> relN k x y'.
  Proof.
    intros H. destruct x as [v|[p t|t]| |]; cbn [relN]; auto.
    intros (H1 & _). split; [exact H1|]. right. lia.
  Qed.
  Lemma relN_weak X k k' (x y : out X) : k <= k' -> relN k' x y -> relN k x y.
  Proof.
    intros H. destruct x as [v|[p t|t]| |]; cbn [relN]; auto.
    intros (H1 & H2). split; [lia|]. auto.
  Qed.
  Lemma rel_bind X Y (g : X -> rp) (h : Y -> rp) k (e1 e2 : out X) (f1 f2 : X -> out Y) : rel g k e1 e2 ->
    (forall v a b, A (g v) a b -> k <= pos (g v) -> rel h (pos (g v)) (f1 v) (f2 v)) ->
    rel h k (obind e1 f1) (obind e2 f2).
  Proof.
    destruct e1 as [v|[p t|t]| |]; cbn [rel obind]; auto.
    - intros (H1 & (a & b & H2) & [->|H3]) K; cbn [obind]; specialize (K v a b H2 H1);
        apply (rel_weak _ _ _ _ _ _ H1); [exact K|]. apply (rel_far _ _ _ _ _ _ H3 K).
    - intros (H1 & [->|H3]) K; cbn [obind]; auto.
  Qed.
  Lemma relN_bind X Y (g : X -> rp) k (e1 e2 : out X) (f1 f2 : X -> out Y) : rel g k e1 e2 ->
    (forall v a b, A (g v) a b -> k <= pos (g v) -> relN (pos (g v)) (f1 v) (f2 v)) ->
    relN k (obind e1 f1) (obind e2 f2).
  Proof.
    destruct e1 as [v|[p t|t]| |]; cbn [rel relN obind]; auto.
    - intros (H1 & (a & b & H2) & [->|H3]) K; cbn [obind]; specialize (K v a b H2 H1);
        apply (relN_weak _ _ _ _ _ H1); [exact K|]. apply (relN_far _ _ _ _ _ H3 K).
    - intros (H1 & [->|H3]) K; cbn [obind]; auto.
  Qed.
  Lemma rel_lift X Y (h : Y -> rp) k m (e : res X) (f1 f2 : X -> out Y) :
    (forall v, rel h k (f1 v) (f2 v)) -> rel h k (obind (lift m e) f1) (obind (lift m e) f2).
  Proof. intros K. destruct e; cbn [lift obind rel]; auto. Qed.
  Lemma rel_done X (g : X -> rp) k v a b : A (g v) a b -> k <= pos (g v) -> rel g k (Done v) (Done v).
  Proof. cbn [rel]. eauto 10. Qed.
  Lemma rel_fail X (g : X -> rp) k s what : k <= pos s -> rel g k (m_fail fname P s what) (m_fail fname P s what).
  Proof. unfold m_fail. cbn [rel]. auto. Qed.

  (** [next] *)
  Lemma next_same s a b : A s a b -> pos s <= L -> m_next i1 s = m_next i2 s.
  Proof.
    intros (E & Hp & _) Hl. rewrite Hp in Hl.
    assert (X : exists d z, a0 ++ [c0] = a ++ d :: z).
    { clear - E Hl. revert a E Hl. generalize t1 as t. induction a0 as [|x l IH]; intros t a E Hl.
      - destruct a as [|y a]; [exists c0, []; reflexivity|]. exfalso.
        unfold size in Hl. cbn [encode] in Hl. rewrite string_length_append in Hl. cbn in Hl. pose proof (size_pos y). lia.
      - destruct a as [|y a]; [exists x, (l ++ [c0]); reflexivity|]. injection E as -> E.
        destruct (IH t a E) as (d & z & Ed).
        { unfold size in *. cbn [encode] in Hl. rewrite !string_length_append in Hl. lia. }
        exists d, z. cbn [app]. rewrite Ed. reflexivity. }
    destruct X as (d & z & X).
    assert (E1 : pre1 = a ++ d :: z ++ t1).
    { change (d :: z ++ t1) with ((d :: z) ++ t1). rewrite app_assoc, <- X, <- app_assoc. reflexivity. }
    assert (Gd : good d).
    { rewrite E1 in G1. apply Forall_app in G1. destruct G1 as [_ G]. inversion G; assumption. }
    assert (N : forall i t, i = (encode a ++ encode_rune d ++ t)%string ->
      Nat.leb (String.length i) (pos s) = false /\
      decode_rune (drop (pos s) i) = (d, String.length (encode_rune d))).
    { intros i t ->. rewrite Hp. split.
      - apply Nat.leb_gt. rewrite !string_length_append. unfold size. pose proof (size_pos d). lia.
      - unfold size. rewrite drop_append. apply decode_encode. apply Gd. }
    destruct (N i1 (encode (z ++ t1))) as [N1 D1].
    { rewrite E1, encode_app. reflexivity. }
    destruct (N i2 (encode z ++ t2)%string) as [N2 D2].
    { rewrite X, encode_app. cbn [encode]. rewrite !append_three. reflexivity. }
    unfold m_next. rewrite N1, N2, D1, D2. reflexivity.
  Qed.
  Lemma next_first s a b : A s a b -> exists r s1, m_next i1 s = (r, s1) /\ pos s <= pos s1 /\ (exists a1 b1, A s1 a1 b1) /\
    (exists s2, m_backup s1 = Done s2 /\ pos s2 = pos s /\ A s2 a b) /\ (r = eof \/ hd_error b = Some r).
  Proof.
    intros HA. destruct (next_at pre1 "" G1 (or_introl eq_refl) s a b HA)
      as [(c & b' & s1 & Eb & Hc & N & A1 & s2 & B & A2)|[(Eb & _ & s1 & N & A1 & s2 & B & A2)|(_ & nv & _)]];
      [| |congruence]; rewrite end_in in N.
    - exists c, s1. split; [exact N|]. pose proof HA as (_ & P0 & _). pose proof A1 as (_ & P1 & _).
      pose proof A2 as (_ & P2 & _). split; [rewrite P0, P1, size_app; lia|]. split; [eauto|].
      split; [exists s2; split; [exact B|]; split; [congruence|exact A2]|]. subst b. auto.
    - exists eof, s1. split; [exact N|]. pose proof HA as (_ & P0 & _). pose proof A1 as (_ & P1 & _).
      pose proof A2 as (_ & P2 & _). split; [lia|]. split; [eauto|].
      split; [exists s2; split; [exact B|]; split; [congruence|exact A2]|]. auto.
  Qed.
  Definition stepped s a b r s1 : Prop := pos s <= pos s1 /\ (exists a1 b1, A s1 a1 b1) /\
    (exists s2, m_backup s1 = Done s2 /\ pos s2 = pos s /\ A s2 a b) /\ (r = eof \/ hd_error b = Some r).
  Lemma rel_next Y (h : Y -> rp) k s a b (K1 K2 : rune -> rp -> out Y) : A s a b -> k <= pos s ->
    (forall r s1, stepped s a b r s1 -> rel h (pos s) (K1 r s1) (K2 r s1)) ->
    rel h k (let '(r, s1) := m_next i1 s in K1 r s1) (let '(r, s1) := m_next i2 s in K2 r s1).
  Proof.
    intros HA Hk K. apply (rel_weak _ _ _ _ _ _ Hk). destruct (next_first s a b HA) as (r & s1 & N & S).
    specialize (K r s1 S). destruct (Nat.le_gt_cases (pos s) L) as [Hl|Hl].
    - rewrite <- (next_same s a b HA Hl), N. exact K.
    - rewrite N. apply (rel_far _ _ _ _ _ _ Hl K).
  Qed.
  Lemma relN_next Y k s a b (K1 K2 : rune -> rp -> out Y) : A s a b -> k <= pos s ->
    (forall r s1, stepped s a b r s1 -> relN (pos s) (K1 r s1) (K2 r s1)) ->
    relN k (let '(r, s1) := m_next i1 s in K1 r s1) (let '(r, s1) := m_next i2 s in K2 r s1).
  Proof.
    intros HA Hk K. apply (relN_weak _ _ _ _ _ Hk). destruct (next_first s a b HA) as (r & s1 & N & S).
    specialize (K r s1 S). destruct (Nat.le_gt_cases (pos s) L) as [Hl|Hl].
    - rewrite <- (next_same s a b HA Hl), N. exact K.
    - rewrite N. apply (relN_far _ _ _ _ _ Hl K).
  Qed.

  (** the shape of every lemma below *)
  Definition fine {X} (g : X -> rp) (f1 f2 : rp -> out X) : Prop :=
    forall k s a b, A s a b -> k <= pos s -> rel g k (f1 s) (f2 s).
  Create HintDb near.
  Ltac unstep := repeat match goal with H : stepped _ _ _ _ _ |- _ =>
    destruct H as (? & (? & ? & ?) & (? & ? & ? & ?) & ?) end; cbn beta iota in *.
  Ltac one :=
    cbn beta iota zeta;
    match goal with
    | |- rel _ _ (m_fail _ _ _ _) _ => apply rel_fail; cbn [snd] in *; lia
    | |- rel _ _ (Fails (Passed _)) _ => exact I
    | |- rel _ _ Spent _ => exact I
    | |- rel _ _ Panics _ => exact I
    | |- rel _ _ (Done (_, m_with_re _ _)) _ =>
        eapply rel_done; [cbn [snd] in *; apply at_re; eassumption|cbn [snd m_with_re rp_rd rd_pos] in *; lia]
    | |- rel _ _ (Done _) (Done _) => eapply rel_done; [cbn [snd] in *; eassumption|cbn [snd] in *; lia]
    | H : m_backup ?s = Done _ |- rel _ _ (obind (m_backup ?s) _) _ => rewrite H; cbn [obind]
    | H : m_backup ?s = Done _ |- rel _ _ (m_backup ?s) _ => rewrite H
    | |- rel _ _ (let '(_, _) := m_next _ _ in _) _ =>
        eapply rel_next; [cbn [snd] in *; eassumption|cbn [snd] in *; lia|intros; unstep]
    | |- rel _ _ (obind (lift _ _) _) _ => apply rel_lift; intros
    | |- rel _ _ (@obind rp _ _ _) (obind _ _) => apply (rel_bind _ _ I1); [|cbn beta; intros]
    | |- rel _ _ (obind _ _) (obind _ _) =>
        apply (rel_bind _ _ snd); [|cbn beta; intros; repeat match goal with v : (_ * _)%type |- _ => destruct v end; cbn [snd] in *]
    | |- rel _ _ (if ?c then _ else _) _ => destruct c
    | |- rel _ _ (match ?c with _ => _ end) _ => destruct c
    | H : fine _ ?f _ |- rel _ _ (?f _) _ => eapply H; [cbn [snd] in *; eassumption|cbn [snd] in *; lia]
    | IH : forall _, fine _ _ _ |- _ => eapply IH; [cbn [snd] in *; eassumption|cbn [snd] in *; lia]
    | IH : forall _ _, fine _ _ _ |- _ => eapply IH; [cbn [snd] in *; eassumption|cbn [snd] in *; lia]
    | IH : forall _ _ _, fine _ _ _ |- _ => eapply IH; [cbn [snd] in *; eassumption|cbn [snd] in *; lia]
    | |- rel _ _ _ _ => solve [eauto with near]
    end.
  Ltac go := repeat one.

  Lemma eat_near x k s a b : A s a b -> k <= pos s -> rel I1 k (m_eat i1 fname P x s) (m_eat i2 fname P x s).
  Proof. intros. unfold m_eat. go. Qed.
  Lemma peek_near k s a b : A s a b -> k <= pos s -> rel snd k (m_peek i1 s) (m_peek i2 s).
  Proof. intros. unfold m_peek. go. Qed.
  Hint Resolve eat_near peek_near : near.
  Lemma ws_loop_near n : fine I1 (m_ws_loop i1 n) (m_ws_loop i2 n).
  Proof. induction n as [|n IH]; intros k s a b HA Hk; cbn [m_ws_loop]; go. Qed.
  Lemma ws_near k s a b : A s a b -> k <= pos s -> rel I1 k (m_ws i1 fuel s) (m_ws i2 fuel s).
  Proof. apply ws_loop_near. Qed.
  Hint Resolve ws_near : near.
  Lemma text_loop_near n : forall first, fine snd (m_text_loop i1 letter_hi digit_hi n first) (m_text_loop i2 letter_hi digit_hi n first).
  Proof. induction n as [|n IH]; intros first k s a b HA Hk; cbn [m_text_loop]; go. Qed.
  Lemma text_near k s a b : A s a b -> k <= pos s ->
    rel snd k (m_text i1 fname letter_hi digit_hi P fuel s) (m_text i2 fname letter_hi digit_hi P fuel s).
  Proof. intros. unfold m_text. pose proof (text_loop_near fuel true). go. Qed.
  Hint Resolve text_near : near.
  Lemma bracketed_near x y k s a b : A s a b -> k <= pos s ->
    rel snd k (m_bracketed i1 fname letter_hi digit_hi P fuel x y s) (m_bracketed i2 fname letter_hi digit_hi P fuel x y s).
  Proof. intros. unfold m_bracketed. go. Qed.
  Hint Resolve bracketed_near : near.
  Lemma line_near n : fine I1 (m_line_loop i1 n) (m_line_loop i2 n).
  Proof. induction n as [|n IH]; intros k s a b HA Hk; cbn [m_line_loop]; go. Qed.
  Lemma block_near n : forall prev, fine I1 (m_block_loop i1 fname P n prev) (m_block_loop i2 fname P n prev).
  Proof. induction n as [|n IH]; intros prev k s a b HA Hk; cbn [m_block_loop]; go. Qed.
  Lemma comment_near k s a b : A s a b -> k <= pos s ->
    rel snd k (m_comment i1 fname P fuel s) (m_comment i2 fname P fuel s).
  Proof. intros. unfold m_comment. pose proof (line_near fuel). pose proof (block_near fuel 0%Z). go. Qed.
  Hint Resolve comment_near : near.
  Lemma comments_loop_near n : fine I1 (m_comments_loop i1 fname P fuel n) (m_comments_loop i2 fname P fuel n).
  Proof. induction n as [|n IH]; intros k s a b HA Hk; cbn [m_comments_loop]; go. Qed.
  Lemma comments_near k s a b : A s a b -> k <= pos s ->
    rel I1 k (m_comments i1 fname P fuel s) (m_comments i2 fname P fuel s).
  Proof. apply comments_loop_near. Qed.
  Hint Resolve comments_near : near.
  Lemma terminal_loop_near n : forall prev, fine snd (m_terminal_loop i1 fname P n prev) (m_terminal_loop i2 fname P n prev).
  Proof. induction n as [|n IH]; intros prev k s a b HA Hk; cbn [m_terminal_loop]; go. Qed.
  Lemma terminal_near k s a b : A s a b -> k <= pos s ->
    rel snd k (m_terminal i1 fname letter_hi digit_hi P fuel s) (m_terminal i2 fname letter_hi digit_hi P fuel s).
  Proof. intros. unfold m_terminal, m_terminal_text. pose proof (terminal_loop_near fuel 0%Z). go. Qed.
  Hint Resolve terminal_near : near.
  Lemma int_loop_near n : forall i, fine snd (m_int_loop i1 fname digit_hi P n i) (m_int_loop i2 fname digit_hi P n i).
  Proof. induction n as [|n IH]; intros i k s a b HA Hk; cbn [m_int_loop]; go. Qed.
  Lemma get_int_near k s a b : A s a b -> k <= pos s ->
    rel snd k (m_get_int i1 fname digit_hi P fuel s) (m_get_int i2 fname digit_hi P fuel s).
  Proof. apply int_loop_near. Qed.
  Hint Resolve get_int_near : near.
  Lemma meta_near k s a b : A s a b -> k <= pos s ->
    rel snd k (m_special_meta i1 fname digit_hi P fuel s) (m_special_meta i2 fname digit_hi P fuel s).
  Proof. intros. unfold m_special_meta. go. Qed.
  Hint Resolve meta_near : near.
  Lemma special_near k s a b : A s a b -> k <= pos s ->
    rel snd k (m_special i1 fname letter_hi digit_hi P fuel s) (m_special i2 fname letter_hi digit_hi P fuel s).
  Proof. intros. unfold m_special, m_nonterminal. go. Qed.
  Hint Resolve special_near : near.
  Lemma regex_loop_near n : fine snd (m_regex_loop i1 fname P n) (m_regex_loop i2 fname P n).
  Proof. induction n as [|n IH]; intros k s a b HA Hk; cbn [m_regex_loop]; go. Qed.
  Lemma regex_near k s a b : A s a b -> k <= pos s ->
    rel snd k (m_regex i1 fname P regexp_ok md5 fuel s) (m_regex i2 fname P regexp_ok md5 fuel s).
  Proof. intros. unfold m_regex. pose proof (regex_loop_near fuel). go. Qed.
  Hint Resolve regex_near : near.
  Lemma term_near k s a b : A s a b -> k <= pos s ->
    rel snd k (m_read_term i1 fname letter_hi digit_hi P regexp_ok md5 fuel s)
              (m_read_term i2 fname letter_hi digit_hi P regexp_ok md5 fuel s).
  Proof. intros. unfold m_read_term, m_nonterminal. go. Qed.
  Hint Resolve term_near : near.
  Lemma name_loop_near n : forall first prev,
    fine snd (m_name_loop i1 letter_hi digit_hi n first prev) (m_name_loop i2 letter_hi digit_hi n first prev).
  Proof. induction n as [|n IH]; intros first prev k s a b HA Hk; cbn [m_name_loop]; go. Qed.
  Lemma func_name_near k s a b : A s a b -> k <= pos s ->
    rel snd k (m_func_name i1 fname letter_hi digit_hi P fuel s) (m_func_name i2 fname letter_hi digit_hi P fuel s).
  Proof. intros. unfold m_func_name. pose proof (name_loop_near fuel true eof). go. Qed.
  Hint Resolve func_name_near : near.
  Lemma num_loop_step Y i n dot s (K : (list rune * bool) * rp -> out Y) :
    obind (m_num_loop i fname digit_hi P (S n) dot s) K =
    let '(r, s1) := m_next i s in
    if is_digit digit_hi r then obind (m_num_loop i fname digit_hi P n dot s1) (fun x => K ((r :: fst (fst x), snd (fst x)), snd x))
    else if Z.eqb r r_dot then
      if dot then m_fail fname P s1 " : unexpected dot"
      else obind (m_num_loop i fname digit_hi P n true s1) (fun x => K ((r :: fst (fst x), snd (fst x)), snd x))
    else K (([], dot), s1).
  Proof.
    cbn [m_num_loop]. destruct (m_next i s) as [r s1]. destruct (is_digit digit_hi r).
    - destruct (m_num_loop _ _ _ _ _ _ _) as [[[rs d] s2]| | |]; reflexivity.
    - destruct (Z.eqb r r_dot); [|reflexivity]. destruct dot; [reflexivity|].
      destruct (m_num_loop _ _ _ _ _ _ _) as [[[rs d] s2]| | |]; reflexivity.
  Qed.
  Lemma num_loop_near Y (h : Y -> rp) n : forall dot k s a b (K1 K2 : (list rune * bool) * rp -> out Y), A s a b -> k <= pos s ->
    (forall j rs d s1 s2 a1 b1 a2 b2, A s1 a1 b1 -> j <= pos s1 -> m_backup s1 = Done s2 -> A s2 a2 b2 -> j <= pos s2 ->
       rel h j (K1 ((rs, d), s1)) (K2 ((rs, d), s1))) ->
    rel h k (obind (m_num_loop i1 fname digit_hi P n dot s) K1) (obind (m_num_loop i2 fname digit_hi P n dot s) K2).
  Proof.
    induction n as [|n IH]; intros dot k s a b K1 K2 HA Hk K; [exact I|].
    rewrite !num_loop_step. eapply rel_next; [eassumption|assumption|]. intros r s1 S. unstep.
    destruct (is_digit digit_hi r).
    - eapply IH; [eassumption|lia|]. cbn [fst snd]. intros. eapply K; eauto.
    - destruct (Z.eqb r r_dot).
      + destruct dot; [apply rel_fail; lia|]. eapply IH; [eassumption|lia|]. cbn [fst snd]. intros. eapply K; eauto.
      + eapply K; eauto; lia.
  Qed.
  Lemma num_near neg k s a b : A s a b -> k <= pos s ->
    rel snd k (m_num_arg i1 fname digit_hi P scan_float scan_error fuel neg s)
              (m_num_arg i2 fname digit_hi P scan_float scan_error fuel neg s).
  Proof. intros. unfold m_num_arg. eapply num_loop_near; [eassumption|assumption|]. intros. go. Qed.
  Hint Resolve num_near : near.
  Lemma semantic_near args1 args2 : fine snd args1 args2 -> fine snd
    (m_semantic_with i1 fname letter_hi digit_hi P fuel args1) (m_semantic_with i2 fname letter_hi digit_hi P fuel args2).
  Proof. intros Hf k s a b HA Hk. unfold m_semantic_with. go. Qed.
  Lemma one_arg_near args1 args2 r : fine snd args1 args2 -> fine snd
    (m_one_arg i1 fname letter_hi digit_hi P scan_float scan_error fuel args1 r)
    (m_one_arg i2 fname letter_hi digit_hi P scan_float scan_error fuel args2 r).
  Proof. intros Hf k s a b HA Hk. unfold m_one_arg. pose proof (semantic_near _ _ Hf). go. Qed.
  Lemma args_near n : fine snd (m_args_loop i1 fname letter_hi digit_hi P scan_float scan_error fuel n)
    (m_args_loop i2 fname letter_hi digit_hi P scan_float scan_error fuel n).
  Proof.
    induction n as [|n IH]; intros k s a b HA Hk; cbn [m_args_loop]; [exact I|].
    pose proof (fun r => one_arg_near _ _ r IH) as Ho. go.
  Qed.
  Lemma semantic_fn_near k s a b : A s a b -> k <= pos s ->
    rel snd k (m_semantic_fn i1 fname letter_hi digit_hi P scan_float scan_error fuel s)
              (m_semantic_fn i2 fname letter_hi digit_hi P scan_float scan_error fuel s).
  Proof. apply semantic_near, args_near. Qed.
  Hint Resolve semantic_fn_near : near.
  Lemma terms_near n : fine snd (m_terms_loop i1 fname letter_hi digit_hi P regexp_ok md5 fuel n)
    (m_terms_loop i2 fname letter_hi digit_hi P regexp_ok md5 fuel n).
  Proof. induction n as [|n IH]; intros k s a b HA Hk; cbn [m_terms_loop]; go. Qed.
  Lemma body_near k s a b : A s a b -> k <= pos s ->
    rel snd k (m_rule_body i1 fname letter_hi digit_hi P scan_float regexp_ok md5 scan_error fuel s)
              (m_rule_body i2 fname letter_hi digit_hi P scan_float regexp_ok md5 scan_error fuel s).
  Proof. intros. unfold m_rule_body. pose proof (terms_near fuel). go. Qed.
  Hint Resolve body_near : near.
  Lemma bodies_near n : forall m, fine snd (m_bodies_loop i1 fname letter_hi digit_hi P scan_float regexp_ok md5 hash scan_error fuel n m)
    (m_bodies_loop i2 fname letter_hi digit_hi P scan_float regexp_ok md5 hash scan_error fuel n m).
  Proof. induction n as [|n IH]; intros m k s a b HA Hk; cbn [m_bodies_loop]; go. Qed.
  Lemma rule_near c k s a b : A s a b -> k <= pos s ->
    rel snd k (m_read_rule i1 fname letter_hi digit_hi P scan_float regexp_ok md5 hash scan_error fuel c s)
              (m_read_rule i2 fname letter_hi digit_hi P scan_float regexp_ok md5 hash scan_error fuel c s).
  Proof. intros. unfold m_read_rule, m_nonterminal, m_frame_name, m_rule_bodies. pose proof (bodies_near fuel). go. Qed.
  Hint Resolve rule_near : near.
  Lemma rules_near n : forall rs fs, fine snd
    (m_rules_loop i1 fname letter_hi digit_hi P scan_float regexp_ok md5 hash scan_error fuel n rs fs)
    (m_rules_loop i2 fname letter_hi digit_hi P scan_float regexp_ok md5 hash scan_error fuel n rs fs).
  Proof. induction n as [|n IH]; intros rs fs k s a b HA Hk; cbn [m_rules_loop]; go. Qed.
  Lemma rules_part_near k s a b : A s a b -> k <= pos s ->
    relN k (m_rules_part i1 fname letter_hi digit_hi P scan_float regexp_ok md5 hash scan_error fuel s)
           (m_rules_part i2 fname letter_hi digit_hi P scan_float regexp_ok md5 hash scan_error fuel s).
  Proof.
    intros HA Hk. unfold m_rules_part. apply (relN_bind _ _ snd); [apply (rules_near fuel [] [] k s a b HA Hk)|].
    intros [rf s'] a' b' HA' Hk'. cbn [snd] in *. eapply relN_next; [eassumption|apply Nat.le_refl|].
    intros r s1 S. unstep. destruct (Z.eqb r eof); [exact I|]. unfold m_fail. cbn [relN]. auto.
  Qed.

  Section Includes.
    Context {F G : Type}.
    Variable load : F -> string -> out (option (list G * list (string * string)) * F).
    Hypothesis quiet : ~ In r_hash pre1 \/ forall fs path p t, load fs path <> Fails (Said p t).
    Lemma rel_quiet Y (h : Y -> rp) k fs path (f1 f2 : option (list G * list (string * string)) * F -> out Y) :
      (forall p t, load fs path <> Fails (Said p t)) -> (forall v, rel h k (f1 v) (f2 v)) ->
      rel h k (obind (load fs path) f1) (obind (load fs path) f2).
    Proof.
      intros Hq K. destruct (load fs path) as [v|[p t|t]| |]; cbn [obind rel]; auto. exfalso. apply (Hq p t). reflexivity.
    Qed.
    Lemma includes_near n : forall fs gs, fine snd
      (m_includes_loop i1 fname letter_hi digit_hi P fuel load n fs gs)
      (m_includes_loop i2 fname letter_hi digit_hi P fuel load n fs gs).
    Proof.
      induction n as [|n IH]; intros fs gs k s a b HA Hk; cbn [m_includes_loop]; [exact I|].
      apply (rel_bind _ _ I1); [eauto with near|]. cbn beta. intros s1 a1 b1 A1 K1.
      unfold m_peek.
      assert (E : forall i Y (K : rune * rp -> out Y), obind (let '(r, s2) := m_next i s1 in s3 <~ m_backup s2 ;; Done (r, s3)) K =
        let '(r, s2) := m_next i s1 in s3 <~ m_backup s2 ;; K (r, s3)).
      { intros i Y K. destruct (m_next i s1) as [r s2]. destruct (m_backup s2); reflexivity. }
      rewrite !E. eapply rel_next; [eassumption|apply Nat.le_refl|]. intros r s2 S.
      destruct S as (P2 & _ & (s3 & B & P3 & A3) & Hr). rewrite B. cbn [obind].
      destruct (Z.eqb_spec r r_hash) as [Er|_]; cbn [negb]; [|eapply rel_done; [exact A3|cbn [snd]; lia]].
      destruct quiet as [Q|Q].
      - exfalso. destruct Hr as [Hr|Hr]; [subst r; discriminate|]. apply Q. destruct A1 as (E1 & _). rewrite E1.
        apply in_or_app. right. destruct b1; [discriminate|]. injection Hr as ->. left. exact Er.
      - go. all: apply rel_quiet; [intros p t; apply Q|]. all: intros [[[l res]|] fs']; go.
        all: eapply IH; [apply at_re; cbn [snd] in *; eassumption|cbn [snd m_with_re rp_rd rd_pos] in *; lia].
    Qed.
  End Includes.
End Local.

(** ** The calls *)
Lemma include_quiet hi lo P sf rk md5 h tr tk asc rd ab jn ord se fe de fin fuel depth dir :
  (forall f, rd f = Err) -> forall w path p t,
  m_include_file rd ab jn fe de
    (m_grammar_from_string hi lo P sf rk md5 h tr tk asc rd ab jn ord se fe de fin fuel depth) dir w path <> Fails (Said p t).
Proof.
  intros H w path p t. unfold m_include_file. destruct (Nat.leb _ _); [discriminate|]. rewrite H. discriminate.
Qed.
Lemma rest_same : forall e o fuel depth a c b t name gt m,
  Forall good (a ++ c :: b) ->
  ~ In r_hash (a ++ c :: b) \/ (forall f, e_read e f = Err) ->
  string_report e o fuel depth (encode (a ++ c :: b)) name gt = Fails (Said (size a) m) ->
  string_report e o fuel depth (encode (a ++ [c]) ++ t)%string name gt = Fails (Said (size a) m).
Proof.
  intros e o fuel depth a c b t name gt m Gb Q. unfold string_report, m_GrammarFromString.
  destruct depth as [|depth]; [discriminate|]. cbn [m_grammar_from_string].
  destruct (Nat.leb _ _); [discriminate|].
  match goal with |- ?x = _ -> ?y = _ => assert (R : relN a 0 x y) end.
  { eapply (relN_bind a b c _ _ snd).
    - eapply includes_near; [exact Gb| |apply at_start|apply Nat.le_0_l].
      destruct Q as [Q|Q]; [left; exact Q|right]. intros fs path p t'. apply include_quiet. exact Q.
    - intros [[includes w] s] a1 b1 A1 _. cbn [snd] in *.
      match goal with |- relN _ ?k (obind ?x ?f) (obind ?y ?g) => assert (R : relN a k x y) end.
      { eapply rules_part_near; [exact Gb|exact A1|apply Nat.le_refl]. }
      match goal with |- relN _ ?k (obind ?x ?f) (obind ?y ?g) => set (F := f); set (X := x) in *; set (Y := y) in * end.
      destruct X as [v|[p t'|t']| |]; cbn [obind relN] in *; auto.
      + destruct v as [[rules frames] regexps]. subst F. cbn beta iota.
        destruct (finish _ _ _ _ _ _ _ _ _ _ _ _) as [[g gt']| | |]; cbn [lift obind relN]; auto.
      + destruct R as (H1 & [->|H2]); cbn [obind]; auto. }
  match type of R with relN _ _ ?x ?y => set (X := x) in *; set (Y := y) in * end.
  intros E. rewrite E in R. cbn [relN] in R. destruct R as (_ & [R|R]); [exact R|lia].
Qed.
Lemma no_way_on : forall e fuel depth a c b t name gt o m,
  Forall good (a ++ c :: b) ->
  ~ In r_hash (a ++ c :: b) \/ (forall f, e_read e f = Err) ->
  string_report e o fuel depth (encode (a ++ c :: b)) name gt = Fails (Said (size a) m) ->
  from_string e fuel depth (encode (a ++ [c]) ++ t)%string name gt = Err.
Proof.
  intros e fuel depth a c b t name gt o m Gb Q H. apply (rest_same _ _ _ _ _ _ _ t _ _ _ Gb Q) in H.
  pose proof (string_agrees e o fuel depth (encode (a ++ [c]) ++ t)%string name gt) as S. rewrite H in S.
  destruct (from_string e fuel depth _ name gt); cbn in S; tauto.
Qed.
