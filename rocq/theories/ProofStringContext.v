(** Printed functions with a context argument are not texts of the notation: the
    word "invalid_fmr" in them is followed by a comma or a closing parenthesis. *)
From Coq Require Import Ascii Lia.
From Verif Require Import Base ModelTypes ModelText ModelEarley ModelReader ModelQuote ModelString
  SpecNotation SpecString ProofUtf8 ProofReader ProofReaderBack ProofRefine ProofGrammar ProofString.

(** outside a quoted text, after byte [p]; inside one; after a backslash *)
Inductive mode := Out (p : ascii) | In_ | Esc.
Definition is_close (c : ascii) : bool := Ascii.eqb c "," || Ascii.eqb c ")".
Definition step (m : mode) (c : ascii) : option mode :=
  match m with
  | Out p => if Ascii.eqb c "034" then Some In_
             else if Ascii.eqb p "r" && is_close c then None else Some (Out c)
  | In_ => if Ascii.eqb c "\" then Some Esc else if Ascii.eqb c "034" then Some (Out c) else Some In_
  | Esc => Some In_
  end.
Fixpoint run (m : mode) (s : string) : option mode :=
  match s with
  | EmptyString => Some m
  | String c s' => match step m c with None => None | Some m' => run m' s' end
  end.
Lemma run_app s : forall t m, run m (s ++ t)%string = match run m s with None => None | Some m' => run m' t end.
Proof. induction s as [|c s IH]; intros t m; cbn; [reflexivity|]. destruct (step m c); [apply IH|reflexivity]. Qed.
Lemma run_seq m m' s t : run m s = Some m' -> run m (s ++ t)%string = run m' t.
Proof. intros H. rewrite run_app, H. reflexivity. Qed.

(** bytes of an encoded rune *)
Lemma encode_rune_bytes c a : In a (list_ascii_of_string (encode_rune c)) ->
  (128 <= byte_of a)%Z \/ (0 <= c < 128)%Z /\ byte_of a = c.
Proof.
  unfold encode_rune. intros H.
  set (r := if valid_rune c then c else RuneError) in *.
  assert (Hr : (0 <= r <= 1114111)%Z /\ (r = c \/ r = RuneError)).
  { unfold r. destruct (valid_rune c) eqn:E; [apply valid_rune_range in E; lia|unfold RuneError; lia]. }
  clearbody r. destruct Hr as [Hr Hc].
  assert (K : forall b, (128 <= b < 256)%Z -> (128 <= byte_of (of_byte b))%Z) by (intros b Hb; rewrite byte_of_byte; lia).
  destruct (Z.ltb_spec r 128); [|destruct (Z.ltb_spec r 2048); [|destruct (Z.ltb_spec r 65536)]];
    cbn [bytes fold_right list_ascii_of_string] in H.
  - destruct H as [<-|[]]. right. rewrite byte_of_byte by lia. unfold RuneError in Hc. lia.
  - left. destruct H as [<-|[<-|[]]]; apply K; pose proof (Z.mod_pos_bound r 64); pose proof (Z.div_le_mono r 2047 64); change (2047/64)%Z with 31%Z in *; pose proof (Z.div_pos r 64); lia.
  - left. pose proof (Z.mod_pos_bound r 64 ltac:(lia)). pose proof (Z.mod_pos_bound (r/64) 64 ltac:(lia)).
    pose proof (Z.div_le_mono r 65535 4096 ltac:(lia) ltac:(lia)) as D. change (65535/4096)%Z with 15%Z in D. pose proof (Z.div_pos r 4096 ltac:(lia) ltac:(lia)).
    destruct H as [<-|[<-|[<-|[]]]]; apply K; lia.
  - left. pose proof (Z.mod_pos_bound r 64 ltac:(lia)). pose proof (Z.mod_pos_bound (r/64) 64 ltac:(lia)). pose proof (Z.mod_pos_bound (r/4096) 64 ltac:(lia)).
    pose proof (Z.div_le_mono r 1114111 262144 ltac:(lia) ltac:(lia)) as D. change (1114111/262144)%Z with 4%Z in D. pose proof (Z.div_pos r 262144 ltac:(lia) ltac:(lia)).
    destruct H as [<-|[<-|[<-|[<-|[]]]]]; apply K; lia.
Qed.
Lemma encode_bytes w a : In a (list_ascii_of_string (encode w)) -> (128 <= byte_of a)%Z \/ In (byte_of a) w.
Proof.
  assert (L : forall s t, list_ascii_of_string (s ++ t)%string = list_ascii_of_string s ++ list_ascii_of_string t).
  { induction s as [|c s IH]; intros t; [reflexivity|]. cbn. rewrite IH. reflexivity. }
  induction w as [|c w IH]; intros H; [destruct H|]. cbn [encode] in H. rewrite L in H. apply in_app_or in H. destruct H as [H|H].
  - apply encode_rune_bytes in H. destruct H as [H|[_ H]]; [left; exact H|]. right. left. auto.
  - destruct (IH H) as [K|K]; [left; exact K|right; right; exact K].
Qed.
Lemma byte_inj a b : byte_of a = byte_of b -> a = b.
Proof. intros H. rewrite <- (of_byte_of a), <- (of_byte_of b), H. reflexivity. Qed.
Lemma no_byte (P : rune -> Prop) w a : (byte_of a < 128)%Z -> Forall P w -> ~ P (byte_of a) -> ~ In a (list_ascii_of_string (encode w)).
Proof.
  intros Ha Hw Hp Hi. apply encode_bytes in Hi. destruct Hi as [Hi|Hi]; [lia|]. rewrite Forall_forall in Hw. exact (Hp (Hw _ Hi)).
Qed.

(** reading outside quotes *)
Definition last_byte (p : ascii) (s : string) : ascii := last (list_ascii_of_string s) p.
Lemma run_calm s : forall p, ~ In "034"%char (list_ascii_of_string s) -> ~ In ","%char (list_ascii_of_string s) ->
  ~ In ")"%char (list_ascii_of_string s) -> run (Out p) s = Some (Out (last_byte p s)).
Proof.
  induction s as [|c s IH]; intros p H1 H2 H3; [reflexivity|]. cbn [run step list_ascii_of_string] in *. unfold is_close.
  destruct (Ascii.eqb_spec c "034") as [->|_]; [exfalso; apply H1; left; reflexivity|].
  destruct (Ascii.eqb_spec c ",") as [->|_]; [exfalso; apply H2; left; reflexivity|].
  destruct (Ascii.eqb_spec c ")") as [->|_]; [exfalso; apply H3; left; reflexivity|].
  cbn [orb]. rewrite andb_false_r. rewrite IH; [|intros K; apply H1; right; exact K|intros K; apply H2; right; exact K|intros K; apply H3; right; exact K].
  unfold last_byte. cbn [list_ascii_of_string]. f_equal. f_equal. destruct (list_ascii_of_string s) eqn:E; [reflexivity|].
  cbn [last]. clear. revert a c p. induction l as [|b l IH]; intros a c p; [reflexivity|]. cbn [last]. apply IH.
Qed.
Lemma last_in s p : last_byte p s = p \/ In (last_byte p s) (list_ascii_of_string s).
Proof.
  unfold last_byte. induction (list_ascii_of_string s) as [|c l IH]; [left; reflexivity|]. cbn [last].
  destruct l as [|d l]; [right; left; reflexivity|]. destruct IH as [IH|IH]; [|right; right; exact IH].
  right. clear IH. revert c d. induction l as [|b l IH]; intros c d; [right; left; reflexivity|].
  cbn [last] in *. destruct (IH d b) as [K|K]; [right; left; exact K|right; right; exact K].
Qed.
Lemma run_unquoted s : forall p, unquoted s -> run (Out p) s = None \/ exists q, run (Out p) s = Some (Out q).
Proof.
  unfold unquoted. induction s as [|c s IH]; intros p H; [right; exists p; reflexivity|]. cbn [run step list_ascii_of_string] in *.
  destruct (Ascii.eqb_spec c "034") as [->|_]; [exfalso; apply H; left; reflexivity|].
  destruct (_ && _); [left; reflexivity|]. apply IH. intros K. apply H. right. exact K.
Qed.
(** reading inside quotes *)
Lemma run_inside s : ~ In "034"%char (list_ascii_of_string s) -> ~ In "\"%char (list_ascii_of_string s) -> run In_ s = Some In_.
Proof.
  induction s as [|c s IH]; intros H1 H2; [reflexivity|]. cbn [run step list_ascii_of_string] in *.
  destruct (Ascii.eqb_spec c "\") as [->|_]; [exfalso; apply H2; left; reflexivity|].
  destruct (Ascii.eqb_spec c "034") as [->|_]; [exfalso; apply H1; left; reflexivity|].
  apply IH; intros K; [apply H1|apply H2]; right; exact K.
Qed.

Section Notated.
  Variables letter_hi digit_hi : rune -> bool.
  Hypothesis Htab : unicode_tables letter_hi digit_hi.
  Variable scan_float : string -> res bigf.
  Local Notation letter := (is_letter letter_hi).
  Local Notation digit := (is_digit digit_hi).

  (** characters outside quotes other than commas and parentheses, and those among
      them that are not letters *)
  Definition calm_rune (c : rune) : Prop := c <> 34%Z /\ c <> 44%Z /\ c <> 41%Z.
  Definition quiet_rune (c : rune) : Prop := calm_rune c /\ c <> 114%Z.
  Lemma run_calm_runes w p : Forall calm_rune w -> run (Out p) (encode w) = Some (Out (last_byte p (encode w))).
  Proof.
    intros H. apply run_calm; apply (no_byte calm_rune w); auto; try (cbn; lia); intros (K1 & K2 & K3); [apply K1|apply K2|apply K3]; reflexivity.
  Qed.
  Lemma run_quiet_runes w p : Forall quiet_rune w ->
    exists q, run (Out p) (encode w) = Some (Out q) /\ (w <> [] \/ p <> "r"%char -> q <> "r"%char).
  Proof.
    intros H. exists (last_byte p (encode w)). split.
    - apply run_calm_runes. eapply Forall_impl; [|exact H]. intros c [K _]. exact K.
    - intros Hw E. destruct (last_in (encode w) p) as [K|K].
      + destruct w as [|c w]; [destruct Hw as [Hw|Hw]; [congruence|apply Hw; rewrite <- E; symmetry; exact K]|].
        assert (In "r"%char (list_ascii_of_string (encode (c :: w)))).
        { destruct (encode (c :: w)) as [|a s] eqn:Es; [exfalso; exact (encode_length_nonempty c w Es)|].
          rewrite <- E. unfold last_byte. clear. revert a. cbn [list_ascii_of_string]. induction (list_ascii_of_string s) as [|b l IH]; intros a; [left; reflexivity|].
          cbn [last]. right. apply (IH b). }
        revert H0. apply (no_byte quiet_rune); [cbn; lia|exact H|]. intros [_ K']. apply K'. reflexivity.
      + rewrite E in K. revert K. apply (no_byte quiet_rune); [cbn; lia|exact H|]. intros [_ K']. apply K'. reflexivity.
  Qed.
  Lemma digit_quiet c : digit c = true -> quiet_rune c.
  Proof.
    intros H. pose proof (digit_cases digit_hi c H) as K. unfold quiet_rune, calm_rune. unfold rune in *. lia.
  Qed.
  Lemma space_quiet c : is_space c = true -> quiet_rune c.
  Proof.
    intros H. pose proof (space_cases c H) as K. unfold quiet_rune, calm_rune. unfold rune in *. lia.
  Qed.
  Lemma letter_calm c : letter c = true -> calm_rune c.
  Proof. intros H. pose proof (letter_cases letter_hi c H) as K. unfold calm_rune. unfold rune in *. lia. Qed.
  Lemma func_calm fn : func_text letter digit fn -> Forall calm_rune fn.
  Proof.
    intros [H _]. destruct fn as [|c fn]; [destruct H|]. destruct H as [H1 H2].
    assert (K : forall c, name_first letter c -> calm_rune c).
    { intros x [Hx| ->]; [apply letter_calm; exact Hx|unfold calm_rune; lia]. }
    constructor; [apply K; exact H1|]. eapply Forall_impl; [|exact H2]. intros x [[Hx|[-> |Hx]]| ->].
    - apply letter_calm. exact Hx.
    - unfold calm_rune. lia.
    - apply digit_quiet. exact Hx.
    - unfold calm_rune. lia.
  Qed.

  (** characters inside quotes *)
  Lemma run_inside_runes w : Forall (fun c => c <> 34 /\ c <> 92)%Z w -> run In_ (encode w) = Some In_.
  Proof.
    intros H. apply run_inside; (apply (no_byte (fun c => c <> 34 /\ c <> 92)%Z w); [cbn; lia|exact H|]); intros [K1 K2]; [apply K1|apply K2]; reflexivity.
  Qed.
  Lemma run_spells cs w : spells cs w -> run In_ (encode w) = Some In_.
  Proof.
    induction 1 as [|c cs w H1 H2 _ IH|x c cs w He _ IH]; [reflexivity| |].
    - cbn [encode]. rewrite run_app. pose proof (run_inside_runes [c]) as K. cbn [encode] in K. rewrite append_nil_r in K.
      rewrite K; [exact IH|]. constructor; [auto|constructor].
    - destruct He; cbn [encode]; rewrite !run_app; exact IH.
  Qed.
  Lemma run_literal fl t w p : w_literal letter digit fl t w -> run (Out p) (encode w) = Some (Out "034"%char).
  Proof.
    assert (S0 : forall sp, spaces sp -> run In_ (encode sp) = Some In_).
    { intros sp H. apply run_inside_runes. eapply Forall_impl; [|exact H]. intros c Hc. cbn in Hc. pose proof (space_cases c Hc). unfold rune in *. lia. }
    intros [sp cs v H1 H2 H3|sp1 sp2 sp3 f cs v H1 H2 H3 H4 H5].
    - rewrite !encode_app. rewrite (run_seq (Out p) In_ (encode [34%Z])) by reflexivity.
      rewrite (run_seq _ _ _ _ (S0 _ H1)), (run_seq _ _ _ _ (run_spells _ _ H2)). reflexivity.
    - rewrite !encode_app. rewrite (run_seq (Out p) In_ (encode [34%Z])) by reflexivity.
      rewrite (run_seq _ _ _ _ (S0 _ H1)). rewrite (run_seq In_ In_ (encode [40%Z])) by reflexivity. rewrite (run_seq _ _ _ _ (S0 _ H2)).
      rewrite (run_seq In_ In_ (encode [63%Z])) by reflexivity. rewrite (run_seq _ _ _ _ (S0 _ H3)).
      rewrite (run_seq In_ In_ (encode f)).
      + rewrite (run_seq In_ In_ (encode [41%Z])) by reflexivity. rewrite (run_seq _ _ _ _ (run_spells _ _ H5)). reflexivity.
      + apply run_inside_runes. destruct f as [|c f]; [destruct H4|]. destruct H4 as [G1 G2].
        assert (L : forall c, letter c = true -> (c <> 34 /\ c <> 92)%Z).
        { intros x Hx. pose proof (letter_cases letter_hi x Hx). unfold rune in *. lia. }
        constructor; [destruct G1 as [G1| ->]; [apply L; exact G1|lia]|]. eapply Forall_impl; [|exact G2].
        intros x [Hx|[-> |Hx]]; [apply L; exact Hx|lia|]. pose proof (digit_cases digit_hi x Hx). unfold rune in *. lia.
  Qed.

  Lemma run_mutual :
    (forall a w, w_arg letter digit scan_float a w ->
       forall p, exists q, run (Out p) (encode w) = Some (Out q) /\ q <> "r"%char) /\
    (forall l w, w_args letter digit scan_float l w ->
       forall p, p <> "r"%char -> exists q, run (Out p) (encode w) = Some (Out q) /\ q <> "r"%char) /\
    (forall f w, w_fmr letter digit scan_float f w ->
       forall p, exists q, run (Out p) (encode w) = Some (Out q) /\ q <> "r"%char).
  Proof.
    assert (Q : forall w p, w <> [] -> Forall quiet_rune w -> exists q, run (Out p) (encode w) = Some (Out q) /\ q <> "r"%char).
    { intros w p Hne Hw. destruct (run_quiet_runes w p Hw) as (q & E & K). exists q. split; [exact E|]. apply K. left. exact Hne. }
    assert (D : forall c, (48 <= c <= 57)%Z -> quiet_rune c) by (intros c Hc; unfold quiet_rune, calm_rune; lia).
    assert (DD : forall ds, Forall (fun c => digit c = true) ds -> Forall quiet_rune ds).
    { intros ds. apply Forall_impl. intros c. apply digit_quiet. }
    assert (F : forall ds sg x, float_literal digit scan_float ds sg x -> ds <> [] /\ Forall quiet_rune ds).
    { intros ds sg x [a b s y H1 H2 _]. split; [destruct a; discriminate|]. apply Forall_app. split; [apply DD; exact H1|].
      constructor; [unfold quiet_rune, calm_rune; lia|apply DD; exact H2]. }
    assert (M : quiet_rune 45%Z) by (unfold quiet_rune, calm_rune; lia).
    apply w_arg_mutind.
    - intros p. apply (Q [64]%Z); [discriminate|]. constructor; [unfold quiet_rune, calm_rune; lia|constructor].
    - intros ds z (Hd & _) p. apply (Q ([36]%Z ++ ds)); [discriminate|]. constructor; [unfold quiet_rune, calm_rune; lia|].
      eapply Forall_impl; [|exact Hd]. exact D.
    - intros fl t w Hl p. exists "034"%char. split; [eapply run_literal; exact Hl|discriminate].
    - intros ds z Hz p. destruct (int_literal_digits digit_hi [] 1 ltac:(cbn; lia) ds z Hz) as [H1 H2]. apply Q; [exact H2|apply DD; exact H1].
    - intros ds z Hz p. destruct (int_literal_digits digit_hi [] 1 ltac:(cbn; lia) ds z Hz) as [H1 H2]. apply Q; [discriminate|constructor; [exact M|apply DD; exact H1]].
    - intros d ds f Hd Hf p. destruct (F _ _ _ Hf) as [H1 H2]. apply Q; assumption.
    - intros ds f Hf p. destruct (F _ _ _ Hf) as [H1 H2]. apply Q; [discriminate|constructor; assumption].
    - intros f w _ IH p. apply IH.
    - intros a sp1 w sp2 H1 _ IH H2 p Hp. rewrite !encode_app.
      destruct (run_quiet_runes sp1 p) as (q1 & E1 & K1); [eapply Forall_impl; [|exact H1]; intros c; apply space_quiet|]. rewrite ?(run_seq _ _ _ _ E1), ?E1.
      destruct (IH q1) as (q2 & E2 & K2). rewrite ?(run_seq _ _ _ _ E2), ?E2.
      destruct (run_quiet_runes sp2 q2) as (q3 & E3 & K3); [eapply Forall_impl; [|exact H2]; intros c; apply space_quiet|]. rewrite ?(run_seq _ _ _ _ E3), ?E3.
      exists q3. split; [reflexivity|]. apply K3. right. exact K2.
    - intros a sp1 w sp2 l w' H1 _ IH H2 _ IHl p Hp. rewrite !encode_app.
      destruct (run_quiet_runes sp1 p) as (q1 & E1 & K1); [eapply Forall_impl; [|exact H1]; intros c; apply space_quiet|]. rewrite ?(run_seq _ _ _ _ E1), ?E1.
      destruct (IH q1) as (q2 & E2 & K2). rewrite ?(run_seq _ _ _ _ E2), ?E2.
      destruct (run_quiet_runes sp2 q2) as (q3 & E3 & K3); [eapply Forall_impl; [|exact H2]; intros c; apply space_quiet|]. rewrite ?(run_seq _ _ _ _ E3), ?E3.
      assert (E4 : run (Out q3) (encode [44%Z]) = Some (Out ","%char)).
      { change (encode [44%Z]) with ","%string. cbn [run step].
        destruct (Ascii.eqb_spec q3 "r") as [K|_]; [exfalso; apply K3; auto|reflexivity]. }
      rewrite ?(run_seq _ _ _ _ E4), ?E4. apply IHl. discriminate.
    - intros fn sp l w Hfn Hs _ IH p. rewrite !encode_app. rewrite (run_seq _ _ _ _ (run_calm_runes fn p (func_calm fn Hfn))).
      assert (Hs' : Forall calm_rune sp) by (eapply Forall_impl; [|exact Hs]; intros c Hc; apply space_quiet; exact Hc).
      rewrite (run_seq _ _ _ _ (run_calm_runes sp _ Hs')).
      set (q := last_byte _ _).
      assert (E1 : run (Out q) (encode [40%Z]) = Some (Out "("%char)).
      { change (encode [40%Z]) with "("%string. cbn [run step is_close Ascii.eqb Bool.eqb orb]. rewrite andb_false_r. reflexivity. }
      rewrite ?(run_seq _ _ _ _ E1), ?E1. destruct (IH "("%char ltac:(discriminate)) as (q2 & E2 & K2). rewrite ?(run_seq _ _ _ _ E2), ?E2.
      exists ")"%char. split; [|discriminate]. change (encode [41%Z]) with ")"%string. cbn [run step].
      destruct (Ascii.eqb_spec q2 "r") as [K|_]; [exfalso; apply K2; exact K|reflexivity].
  Qed.
End Notated.

Section Printed.
  Variable is_print_hi : rune -> bool.
  Variable float_string : bigf -> string.
  Local Notation fmr_str' := (fmr_string is_print_hi float_string).
  Local Notation arg_str' := (arg_string is_print_hi float_string).
  Local Notation args_str' := (arg_strings is_print_hi float_string).

  Lemma run_hex k : forall z, run In_ (hex k z) = Some In_.
  Proof.
    induction k as [|k IH]; intros z; [reflexivity|]. cbn [hex run].
    set (n := ((z / 16 ^ Z.of_nat k) mod 16)%Z). pose proof (Z.mod_pos_bound (z / 16 ^ Z.of_nat k) 16 ltac:(lia)) as B. fold n in B. clearbody n.
    assert (K : forall b, byte_of (hex_digit n) = b -> (48 <= b <= 57 \/ 97 <= b <= 102)%Z).
    { intros b <-. unfold hex_digit. destruct (Z.ltb_spec n 10); rewrite byte_of_byte; lia. }
    specialize (K _ eq_refl). cbn [step].
    destruct (Ascii.eqb_spec (hex_digit n) "\") as [E|_]; [rewrite E in K; cbn in K; lia|].
    destruct (Ascii.eqb_spec (hex_digit n) "034") as [E|_]; [rewrite E in K; cbn in K; lia|]. apply IH.
  Qed.
  Lemma run_escape_rune r : run In_ (escape_rune is_print_hi r) = Some In_.
  Proof.
    unfold escape_rune.
    destruct (Z.eqb_spec r 34) as [->|N1]; [reflexivity|]. destruct (Z.eqb_spec r 92) as [->|N2]; [reflexivity|]. cbn [orb].
    destruct (is_print is_print_hi r).
    { pose proof (run_inside_runes [r]) as K. cbn [encode] in K. rewrite append_nil_r in K. apply K. constructor; [auto|constructor]. }
    assert (H : forall x k z, run In_ (String "\" (String x "") ++ hex k z) = Some In_).
    { intros x k z. rewrite (run_seq In_ In_) by reflexivity. apply run_hex. }
    destruct (_ =? 7)%Z; [reflexivity|]. destruct (_ =? 8)%Z; [reflexivity|]. destruct (_ =? 12)%Z; [reflexivity|].
    destruct (_ =? 10)%Z; [reflexivity|]. destruct (_ =? 13)%Z; [reflexivity|]. destruct (_ =? 9)%Z; [reflexivity|].
    destruct (_ =? 11)%Z; [reflexivity|]. destruct (_ || _); [apply H|]. destruct (negb _); [apply H|]. destruct (_ <? _)%Z; apply H.
  Qed.
  Lemma run_quote_body n : forall s, run In_ (quote_body is_print_hi n s) = Some In_.
  Proof.
    induction n as [|n IH]; intros s; [reflexivity|]. cbn [quote_body]. destruct s as [|c s]; [reflexivity|].
    destruct (decode_rune (String c s)) as [r w]. rewrite run_app.
    assert (E : run In_ (if Nat.eqb w 1 && Z.eqb r RuneError then "\x" ++ hex 2 (byte_of c) else escape_rune is_print_hi r)%string = Some In_).
    { destruct (_ && _); [|apply run_escape_rune]. rewrite (run_seq In_ In_) by reflexivity. apply run_hex. }
    rewrite E. apply IH.
  Qed.
  Lemma run_quote p s : run (Out p) (quote is_print_hi s) = Some (Out "034"%char).
  Proof.
    unfold quote. rewrite (run_seq (Out p) In_ """") by reflexivity. rewrite (run_seq _ _ _ _ (run_quote_body _ _)). reflexivity.
  Qed.

  Definition stays_out (m : option mode) : Prop := m = None \/ exists q, m = Some (Out q).
  Lemma decimals_unquoted ds : decimals ds -> unquoted (encode ds).
  Proof. intros H. apply (no_byte (fun d => 48 <= d <= 57)%Z); [cbn; lia|exact H|cbn; lia]. Qed.
  Lemma dec_N_unquoted n : unquoted (dec_N n).
  Proof. destruct (dec_N_digits n) as (c & ds & E & D & _). rewrite E. apply decimals_unquoted. exact D. Qed.
  Lemma dec_Z_unquoted z : unquoted (dec_Z z).
  Proof.
    destruct z as [|p|p]; cbn [dec_Z]; try apply dec_N_unquoted. intros [K|K]; [discriminate K|]. exact (dec_N_unquoted _ K).
  Qed.
  Lemma cons_unquoted c s : c <> "034"%char -> unquoted s -> unquoted (String c s).
  Proof. intros H1 H2 [K|K]; [exact (H1 K)|exact (H2 K)]. Qed.

  (** a printed argument list, argument by argument *)
  Inductive spoils : string -> Prop :=
  | spoils_invalid : spoils "invalid_fmr"
  | spoils_run s : (forall p, run (Out p) s = None) -> spoils s.
  Lemma run_args ss : (forall s, In s ss -> forall p, stays_out (run (Out p) s)) ->
    forall p t, stays_out (run (Out p) (join "," ss)) /\
      ((exists s, In s ss /\ spoils s) -> run (Out p) (join "," ss ++ String ")" t) = None).
  Proof.
    induction ss as [|s ss IH]; intros H p t.
    - split; [right; exists p; reflexivity|]. intros (s & [] & _).
    - assert (Hs : stays_out (run (Out p) s)) by (apply H; left; reflexivity).
      assert (IH' : forall p t, stays_out (run (Out p) (join "," ss)) /\
                ((exists s, In s ss /\ spoils s) -> run (Out p) (join "," ss ++ String ")" t) = None))
        by (apply IH; intros s' Hs'; apply H; right; exact Hs').
      assert (Hc : forall c u q, c = ","%char \/ c = ")"%char ->
                run (Out q) (String c u) = None \/ run (Out q) (String c u) = run (Out c) u).
      { intros c u q Hc. cbn [run step]. assert (N : Ascii.eqb c "034" = false) by (destruct Hc as [-> | ->]; reflexivity).
        rewrite N. destruct (_ && _); [left; reflexivity|right; reflexivity]. }
      assert (Hsp : forall c u, c = ","%char \/ c = ")"%char -> spoils s -> run (Out p) (s ++ String c u) = None).
      { intros c u Hc0 [|s0 Hs0]; [|rewrite run_app, Hs0; reflexivity].
        rewrite run_app. change (run (Out p) "invalid_fmr") with
          (match step (Out p) "i" with None => None | Some m => run m "nvalid_fmr" end).
        cbn [step Ascii.eqb Bool.eqb is_close orb]. rewrite andb_false_r.
        destruct Hc0 as [-> | ->]; reflexivity. }
      destruct ss as [|s' ss]; [|change (join "," (s :: s' :: ss)) with (s ++ String "," (join "," (s' :: ss)))%string; set (rest := s' :: ss) in *].
      + cbn [join]. split; [exact Hs|]. intros (s0 & [<-|[]] & K). apply Hsp; auto.
      + split.
        * rewrite run_app. destruct Hs as [-> |(q & ->)]; [left; reflexivity|].
          destruct (Hc ","%char (join "," rest) q (or_introl eq_refl)) as [E|E]; rewrite E; [left; reflexivity|]. apply IH'. exact ""%string.
        * intros (s0 & [<-|Hi] & K).
          -- rewrite string_app_assoc. cbn [append]. apply Hsp; auto.
          -- rewrite string_app_assoc. cbn [append]. rewrite run_app. destruct Hs as [-> |(q & ->)]; [reflexivity|].
             destruct (Hc ","%char (join "," rest ++ String ")" t)%string q (or_introl eq_refl)) as [E|E]; rewrite E; [reflexivity|].
             apply IH'. exists s0. auto.
  Qed.

  Lemma arg_strings_in l : forall ss, args_str' l = Some ss ->
    (forall a, In a l -> exists s, arg_str' a = Some s /\ In s ss) /\
    (forall s, In s ss -> exists a, In a l /\ arg_str' a = Some s).
  Proof.
    induction l as [|a l IH]; intros ss H; cbn [arg_strings] in H.
    - injection H as <-. split; intros x [].
    - destruct (arg_str' a) as [s|] eqn:E; [|discriminate H]. destruct (args_str' l) as [ss'|] eqn:E'; [|discriminate H].
      injection H as <-. destruct (IH _ eq_refl) as [I1 I2]. split.
      + intros a' [<-|Ha]; [exists s; split; [exact E|left; reflexivity]|]. destruct (I1 a' Ha) as (s' & K1 & K2). exists s'. split; [exact K1|right; exact K2].
      + intros s' [<-|Hs]; [exists a; split; [left; reflexivity|exact E]|]. destruct (I2 s' Hs) as (a' & K1 & K2). exists a'. split; [right; exact K1|exact K2].
  Qed.

  Lemma printed_out : forall f, tidy float_string f -> forall p, stays_out (run (Out p) (fmr_str' f)).
  Proof.
    fix IH 2. intros f [fn l H1 H2 H3] p. rewrite fmr_string_eq.
    destruct (args_str' l) as [ss|] eqn:E.
    - rewrite run_app. destruct (run_unquoted fn p H1) as [K|(q & K)]; rewrite K; [left; reflexivity|].
      assert (Hss : forall s, In s ss -> forall p, stays_out (run (Out p) s)).
      { intros s Hs p'. destruct (proj2 (arg_strings_in l ss E) s Hs) as (a & Ha & Ea). destruct a as [ty v]. cbn [arg_string] in Ea.
        destruct (String.eqb_spec ty "string") as [->|_].
        { destruct v; try discriminate Ea. injection Ea as <-. right. eexists. apply run_quote. }
        destruct (String.eqb_spec ty "int") as [->|_].
        { destruct v; try discriminate Ea. injection Ea as <-. apply run_unquoted. apply dec_Z_unquoted. }
        destruct (String.eqb_spec ty "float") as [->|_].
        { destruct v; try discriminate Ea. injection Ea as <-. apply run_unquoted. apply H2. exact Ha. }
        destruct (String.eqb_spec ty "func") as [->|_].
        { destruct v as [| | | |g|]; try discriminate Ea. change (Some (fmr_str' g) = Some s) in Ea. injection Ea as <-. apply IH. apply H3. exact Ha. }
        destruct (String.eqb_spec ty "index") as [->|_]; [|discriminate Ea].
        destruct v; try discriminate Ea. injection Ea as <-. apply run_unquoted. apply cons_unquoted; [discriminate|apply dec_Z_unquoted]. }
      cbn [append run step]. cbn [Ascii.eqb Bool.eqb is_close orb]. rewrite andb_false_r.
      rewrite run_app. destruct (proj1 (run_args ss Hss "("%char "")) as [K'|(q' & K')]; rewrite K'; [left; reflexivity|].
      cbn [run step]. cbn [Ascii.eqb Bool.eqb is_close orb]. destruct (_ && _); [left; reflexivity|right; eexists; reflexivity].
    - apply run_unquoted. intros K. cbn in K. repeat (destruct K as [K|K]; [discriminate K|]). exact K.
  Qed.

  Lemma args_out l ss : args_str' l = Some ss -> forall fn, tidy float_string (FMR fn l) ->
    forall s, In s ss -> forall p, stays_out (run (Out p) s).
  Proof.
    intros E fn T s Hs p'. inversion T as [fn0 l0 H1 H2 H3]; subst.
    destruct (proj2 (arg_strings_in l ss E) s Hs) as (a & Ha & Ea). destruct a as [ty v]. cbn [arg_string] in Ea.
    destruct (String.eqb_spec ty "string") as [->|_].
    { destruct v; try discriminate Ea. injection Ea as <-. right. eexists. apply run_quote. }
    destruct (String.eqb_spec ty "int") as [->|_].
    { destruct v; try discriminate Ea. injection Ea as <-. apply run_unquoted. apply dec_Z_unquoted. }
    destruct (String.eqb_spec ty "float") as [->|_].
    { destruct v; try discriminate Ea. injection Ea as <-. apply run_unquoted. apply H2. exact Ha. }
    destruct (String.eqb_spec ty "func") as [->|_].
    { destruct v as [| | | |g|]; try discriminate Ea. change (Some (fmr_str' g) = Some s) in Ea. injection Ea as <-. apply printed_out. apply H3. exact Ha. }
    destruct (String.eqb_spec ty "index") as [->|_]; [|discriminate Ea].
    destruct v; try discriminate Ea. injection Ea as <-. apply run_unquoted. apply cons_unquoted; [discriminate|apply dec_Z_unquoted].
  Qed.
  Lemma context_spoils f : has_context f -> tidy float_string f -> spoils (fmr_str' f).
  Proof.
    induction 1 as [fn l v Hi|fn l f Hi Hc IH]; intros T; rewrite fmr_string_eq; destruct (args_str' l) as [ss|] eqn:E; try constructor.
    - exfalso. destruct (proj1 (arg_strings_in l ss E) _ Hi) as (s & K & _). discriminate K.
    - intros p. destruct (proj1 (arg_strings_in l ss E) _ Hi) as (s & K & Hs). change (Some (fmr_str' f) = Some s) in K. injection K as K.
      pose proof (args_out l ss E fn T) as Ho. inversion T as [fn0 l0 H1 H2 H3]; subst. specialize (IH (H3 f Hi)).
      rewrite run_app. destruct (run_unquoted fn p H1) as [K|(q & K)]; rewrite K; [reflexivity|].
      change (run (Out q) ("(" ++ join "," ss ++ ")")%string) with
        (match step (Out q) "(" with None => None | Some m => run m (join "," ss ++ ")")%string end).
      cbn [step Ascii.eqb Bool.eqb is_close orb]. rewrite andb_false_r.
      apply (proj2 (run_args ss Ho "("%char "")). exists (fmr_str' f). auto.
  Qed.

  Lemma context_lost letter_hi digit_hi scan_float f :
    has_context f -> tidy float_string f ->
    ~ exists g w, w_fmr (is_letter letter_hi) (is_digit digit_hi) scan_float g w /\ encode w = fmr_str' f.
  Proof.
    intros Hc T (g & w & W & E). destruct (context_spoils f Hc T) as [|s Hs].
    - inversion W as [fn sp l v H1 H2 H3 Eg Ew]; subst.
      assert (K : contains_byte "(" (encode (fn ++ sp ++ [40]%Z ++ v ++ [41]%Z)) = true).
      { rewrite !encode_app. assert (C : forall a b, contains_byte "(" (a ++ b)%string = contains_byte "(" a || contains_byte "(" b).
        { induction a as [|x a IH]; intros b; [reflexivity|]. cbn [append contains_byte]. rewrite IH. apply orb_assoc. }
        rewrite !C. change (contains_byte "(" (encode [40%Z])) with true. cbn [orb]. rewrite !orb_true_r. reflexivity. }
      rewrite E in K. discriminate K.
    - destruct (proj2 (proj2 (run_mutual letter_hi digit_hi scan_float)) g w W "("%char) as (q & Q & _).
      rewrite E, Hs in Q. discriminate Q.
  Qed.
End Printed.
