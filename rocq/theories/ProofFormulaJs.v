(** Quoted texts as string literals of JavaScript; the names of functions that were read. *)
From Coq Require Import Ascii DecimalString Permutation.
From Verif Require Import Base ModelTypes ModelText ModelEarley ModelTrees ModelApi ModelQuote ModelSem ModelReader ModelGrammar ModelLocal
  SpecTypes SpecGrammar SpecTree SpecNode SpecSem SpecNotation SpecRefine SpecConstruct SpecApi SpecLocal SpecEnd
  ProofRefine ProofLocal ProofApi ProofUtf8 ProofQuote ProofReader ProofStringContext ProofConstruct ProofExtract ProofLocalMatch ProofLocalApi ProofEnd ProofSemMain SpecApi SpecFormula ProofFormula.
Local Open Scope list_scope.

(** ** Decimal numbers *)
Lemma digit_not_special c : ProofQuote.is_digit c -> ~ special c.
Proof. unfold ProofQuote.is_digit, special. cbn. intros H [<-|[<-|[<-|[<-|[<-|[]]]]]]; vm_compute in H; destruct H as [H1 H2]; congruence. Qed.
Lemma uint_plain d : plain_text (NilEmpty.string_of_uint d).
Proof.
  induction d; cbn; [intros c []|..]; intros c [<-|H]; try (apply IHd; exact H);
    apply digit_not_special; unfold ProofQuote.is_digit; vm_compute; split; discriminate.
Qed.
Lemma dec_N_plain n : dec_N n <> ""%string /\ plain_text (dec_N n).
Proof.
  unfold dec_N, NilZero.string_of_uint. pose proof (dec_N_nonnil n) as H.
  destruct (N.to_uint n) eqn:E; [congruence|..]; (split; [discriminate|]); apply uint_plain.
Qed.
Lemma dec_Z_plain z : dec_Z z <> ""%string /\ plain_text (dec_Z z).
Proof.
  destruct z as [|q|q]; try apply dec_N_plain. cbn [dec_Z]. split; [discriminate|].
  intros c [<-|H]; [intros K; vm_compute in K; intuition congruence|]. apply (proj2 (dec_N_plain (N.pos q))). exact H.
Qed.

(** ** Two nodes with the same meaning *)
Section Same.
  Variable is_print_hi : rune -> bool.
  Variable json : dval -> string.
  Hypothesis Hjson : json_objects json.
  Variable join_words : list string -> string.
  Variable float_string : bigf -> string.
  Hypothesis Hfloat : forall x, float_string x <> ""%string /\ plain_text (float_string x).
  Variable call : string -> list dval -> res dval.

  Lemma list_plain : plain_text "fmr.list".
  Proof. intros c H K. vm_compute in H, K. intuition congruence. Qed.
  Lemma tree_plain tmatch ords gs text fuel n mf toks starts p t m g :
    is_order (ords n) -> earley_parse_n tmatch ords gs text fuel n mf toks starts = Ret p -> well_formed gs starts -> separated gs ->
    plain_functions gs -> tree_of_parse p t -> part_of t m -> node_formula json p join_words float_string call m g -> plain json g.
  Proof using Hfloat.
    intros Ho Hp Hwf Hs Hpl Ht Hm Hg.
    pose proof (tree_formula tmatch ords gs text fuel n mf toks starts p Ho Hp Hwf Hs json join_words float_string call t m g Ht Hm Hg) as H.
    revert H. apply made_plain.
    - intros x [-> | (f & Hf & Hx)]; [apply list_plain|exact (Hpl f x Hf Hx)].
    - intros s [(z & _ & ->)|(x & _ & ->)]; [apply dec_Z_plain|apply Hfloat].
    - trivial.
  Qed.
End Same.

(** ** Names of functions that are read *)
Lemma not_special_bytes c : (128 <= byte_of c)%Z \/ (48 <= byte_of c <= 57)%Z \/ (65 <= byte_of c <= 90)%Z \/ (97 <= byte_of c <= 122)%Z \/ byte_of c = 95%Z \/ byte_of c = 46%Z -> ~ special c.
Proof. intros H K. unfold special in K. cbn in K. destruct K as [<-|[<-|[<-|[<-|[<-|[]]]]]]; vm_compute in H; intuition congruence. Qed.
Section Names.
  Variables letter_hi digit_hi : rune -> bool.
  Variable scan_float : string -> res bigf.
  Notation letter := (is_letter letter_hi).
  Notation digit := (ModelReader.is_digit digit_hi).

  Lemma name_char_byte c : name_char letter digit c \/ c = 46%Z -> (128 <= c)%Z \/ (48 <= c <= 57)%Z \/ (65 <= c <= 90)%Z \/ (97 <= c <= 122)%Z \/ c = 95%Z \/ c = 46%Z.
  Proof.
    unfold name_char, is_letter, ModelReader.is_digit, ascii_digit. intros [[H|[-> | H]]| ->]; try lia.
    all: rewrite !orb_true_iff, !andb_true_iff, ?Z.leb_le, ?Z.eqb_eq, ?Z.ltb_lt in H; lia.
  Qed.
  Lemma func_plain w : func_text letter digit w -> plain_text (encode w).
  Proof.
    intros [H _] c Hc. apply not_special_bytes.
    assert (A : Forall (fun c => name_char letter digit c \/ c = 46%Z) w).
    { destruct w as [|d w]; [destruct H|]. destruct H as [[H|H] H']; constructor; auto; left; unfold name_char; auto. }
    destruct (encode_bytes w c Hc) as [K|K]; [auto|]. rewrite Forall_forall in A. exact (name_char_byte _ (A _ K)).
  Qed.
  Definition plain_names (f : fmr) : Prop := forall x, fun_name f x -> plain_text x.
  Definition plain_arg (a : arg) : Prop := forall f, a = Arg "func" (VFunc f) -> plain_names f.
  Lemma written_names :
    (forall a w, w_arg letter digit scan_float a w -> plain_arg a) /\
    (forall l w, w_args letter digit scan_float l w -> Forall plain_arg l) /\
    (forall f w, w_fmr letter digit scan_float f w -> plain_names f).
  Proof.
    apply ProofEnd.w_arg_mutind; try (intros; intros ? E; discriminate E).
    - intros f w _ IH f0 E. injection E as <-. exact IH.
    - intros. constructor; auto.
    - intros. constructor; auto.
    - intros fn sp l w Hf _ _ IH x Hx. inversion Hx as [|? ? f ? Hin Hy]; subst; [apply func_plain, Hf|].
      rewrite Forall_forall in IH. exact (IH _ Hin f eq_refl x Hy).
  Qed.
End Names.

Section Read.
  Variable e : env.
  Notation letter := (is_letter (e_letter e)).
  Notation digit := (ModelReader.is_digit (e_digit e)).
  Notation wfmr := (w_fmr letter digit (e_scan e)).
  Definition written_fun (b : rulebody) : Prop := forall f, rb_f b = Some f -> exists w, wfmr f w.
  Lemma w_body_fun b re w : w_body letter digit (e_scan e) (e_regexp_ok e) (e_md5 e) b re w -> written_fun b.
  Proof. intros H. inversion H; subst; intros f0 E; [discriminate E|]. cbn in E. injection E as <-. eexists. eassumption. Qed.
  Lemma w_bodies_fun l re w : w_bodies letter digit (e_scan e) (e_regexp_ok e) (e_md5 e) l re w -> Forall written_fun l.
  Proof. induction 1; constructor; eauto using w_body_fun. Qed.
  Lemma w_items_fun its re w it b : w_items letter digit (e_scan e) (e_regexp_ok e) (e_md5 e) its re w -> In it its -> In b (it_bodies it) ->
    written_fun b.
  Proof.
    induction 1 as [|gp it' re w l re' w' _ Hi _ IH]; intros Hin Hb; [destruct Hin|].
    destruct Hin as [->|Hin]; [|auto]. inversion Hi; subst; cbn [it_bodies] in Hb;
      (eapply Forall_forall; [eapply w_bodies_fun; eauto|exact Hb]).
  Qed.
  Lemma w_file_fun ps its re w it b : w_file letter digit (e_scan e) (e_regexp_ok e) (e_md5 e) ps its re w -> In it its -> In b (it_bodies it) ->
    written_fun b.
  Proof. induction 1; [eapply w_items_fun; eauto|auto]. Qed.

  Variables (d0 : string) (g : grammar) (L : list refined).
  Hypothesis HP : e_parts e d0 g L.
  Lemma before_fun p x b : In p L -> has_body [rd_before p] x b -> written_fun b.
  Proof using HP.
    intros Hp (m & r & h & [<-|[]] & Lx & Hb).
    destruct (part_written e d0 g L HP p Hp) as (d1 & ig & (ps & its & re & Ht & _ & Hd & _) & _).
    apply lookup_some_in in Lx. destruct (denotes_written _ _ _ _ _ _ _ _ Hd Lx Hb) as (Hw & _).
    apply in_written in Hw. destruct Hw as (it & Hit & Hb').
    destruct Ht as [(w & _ & _ & Hf)|(_ & _ & -> & _)]; [|destruct Hit]. eapply w_file_fun; eauto.
  Qed.
  Lemma read_functions f : has_function (all_rules g) f -> exists w, wfmr f w.
  Proof using HP.
    intros (x & b' & Hb & Hf). rewrite <- (parts_after _ _ _ _ _ _ _ _ _ d0 g L HP) in Hb.
    destruct Hb as (m & r' & h & Hm & Lx & Hb). apply in_map_iff in Hm. destruct Hm as (p & <- & Hp).
    destruct (part_refined e d0 g L HP p Hp) as ((R1 & R2 & R3 & R4 & R5 & R6 & R7) & _).
    destruct (lookup (rd_before p) x) as [r|] eqn:Lb.
    - destruct (R5 x r Lb) as (r2 & L2 & _ & _ & B). rewrite Lx in L2. inversion L2; subst r2.
      destruct (B h b' Hb) as (b & Hb2 & HF & _).
      apply (before_fun p x b Hp); [exists (rd_before p), r, h; cbn; auto|]. congruence.
    - destruct (in_dec string_dec x (map snd (rd_table p))) as [Hi|Hi]; [|rewrite (R7 x Lb Hi) in Lx; discriminate].
      apply in_map_iff in Hi. destruct Hi as ((v, x') & Ex & Hi). cbn [snd] in Ex. subst x'.
      destruct (R6 v x Hi) as (tk & m & E1 & Ho & Lk). cbv zeta in Lk. rewrite Lk in Lx. inversion Lx; subst r'. cbn [r_body] in Hb.
      destruct Hb as [Hb|[]]. inversion Hb; subst b'. discriminate.
  Qed.
  Lemma read_plain : plain_functions (all_rules g).
  Proof using HP. intros f x Hf Hx. destruct (read_functions f Hf) as [w Hw]. exact (proj2 (proj2 (written_names _ _ _)) _ _ Hw x Hx). Qed.
End Read.

Lemma entity_plain text x items : plain_names (entity text x items).
Proof.
  intros y Hy. assert (forall s, In s ["fmr.list"; "fmr.entity"]%string -> plain_text s) as P.
  { intros s [<-|[<-|[]]] c H K; vm_compute in H, K; intuition congruence. }
  apply P. unfold entity in Hy. inversion Hy as [|? ? f ? Hin Hz]; subst; [cbn; auto|].
  destruct Hin as [E|[E|[]]]; [discriminate|]. injection E as <-. clear Hy.
  inversion Hz as [|? ? f ? Hin Hy]; subst; [cbn; auto|]. destruct Hin as [E|[E|[]]]; [discriminate|]. injection E as <-. clear Hz.
  inversion Hy as [|? ? f ? Hin Hz]; subst; [cbn; auto|]. apply in_map_iff in Hin. destruct Hin as (v & E & _). discriminate.
Qed.
Lemma call_plain hash find_all span_text regexps ord d l gs : (forall i l, Permutation l (ord i l)) -> doc_ok d ->
  local_grammar hash find_all span_text regexps ord d = Ret l ->
  plain_functions gs -> plain_functions (with_local gs l).
Proof.
  intros Hord Hok Hl Hg f y (x & b & Hb & Hf) Hy. rewrite with_local_app in Hb. apply has_body_app in Hb.
  destruct Hb as [Hb|Hb]; [apply (Hg f y); [exists x, b; auto|exact Hy]|].
  apply (local_sound hash find_all span_text regexps ord Hord d l x b Hok Hl) in Hb.
  destruct Hb; cbn [rb_f] in Hf; try discriminate. injection Hf as <-. eapply entity_plain. exact Hy.
Qed.

(** ** String literals of JavaScript *)
Section Js.
  Variable is_print_hi : rune -> bool.
  Hypothesis Hsep : is_print_hi 8232%Z = false /\ is_print_hi 8233%Z = false.

  Definition hex_char (n : Z) : rune := (if n <? 10 then 48 + n else 87 + n)%Z.
  Fixpoint hexes (k : nat) (n : Z) : list rune :=
    match k with O => [] | S k' => hex_char ((n / 16 ^ Z.of_nat k') mod 16)%Z :: hexes k' n end.
  Lemma hexes_text k n : encode (hexes k n) = hex k n.
  Proof.
    induction k as [|k IH]; cbn [hexes hex encode]; [reflexivity|]. rewrite IH.
    pose proof (Z.mod_pos_bound (n / 16 ^ Z.of_nat k) 16 ltac:(lia)) as B. set (z := ((n / 16 ^ Z.of_nat k) mod 16)%Z) in *. clearbody z.
    rewrite encode_small; [reflexivity|]. unfold hex_char. destruct (Z.ltb_spec z 10); lia.
  Qed.
  Lemma hex_char_value n : (0 <= n < 16)%Z -> hex_value (hex_char n) n.
  Proof.
    intros H. unfold hex_char. destruct (Z.ltb_spec n 10).
    - replace n with (48 + n - 48)%Z at 2 by lia. apply hv_digit. lia.
    - replace n with (87 + n - 87)%Z at 2 by lia. apply hv_lower. lia.
  Qed.

  (** The characters a rune is written as. *)
  Definition esc (r : rune) : list rune :=
    (if (r =? 34) || (r =? 92) then [92; r]
     else if is_print is_print_hi r then [r]
     else if r =? 7 then [92; 97]
     else if r =? 8 then [92; 98]
     else if r =? 12 then [92; 102]
     else if r =? 10 then [92; 110]
     else if r =? 13 then [92; 114]
     else if r =? 9 then [92; 116]
     else if r =? 11 then [92; 118]
     else if (r <? 32) || (r =? 127) then 92 :: 120 :: hexes 2 r
     else if r <? 65536 then 92 :: 117 :: hexes 4 r
     else 92 :: 85 :: hexes 8 r)%Z.
  Lemma esc_text r : valid_rune r = true -> encode (esc r) = escape_rune is_print_hi r.
  Proof.
    intros Hv. unfold esc, escape_rune. rewrite Hv. cbn [negb].
    destruct ((r =? 34) || (r =? 92))%Z eqn:E0.
    { apply orb_true_iff in E0 as [E|E]; apply Z.eqb_eq in E; subst r; reflexivity. }
    destruct (is_print is_print_hi r); [cbn [encode]; apply ProofQuote.append_nil_r|].
    repeat match goal with |- context [if (r =? ?k)%Z then _ else _] => destruct (Z.eqb_spec r k); [reflexivity|] end.
    destruct ((r <? 32) || (r =? 127))%Z; [|destruct (r <? 65536)%Z]; cbn [encode]; rewrite hexes_text; reflexivity.
  Qed.
  Fixpoint escs (l : list rune) : list rune := match l with [] => [] | r :: l' => esc r ++ escs l' end.
  Lemma quote_runes l : forall n, Forall (fun c => valid_rune c = true) l -> String.length (encode l) <= n ->
    quote_body is_print_hi n (encode l) = encode (escs l).
  Proof.
    induction l as [|r l IH]; intros n Hl Hn; cbn [encode escs].
    - destruct n; reflexivity.
    - inversion Hl as [|? ? Hr Hl']; subst. cbn [encode] in Hn. rewrite string_length_append in Hn.
      pose proof (encode_rune_length r) as Lr. destruct n as [|n]; [lia|].
      rewrite quote_body_step; [|destruct (encode_rune r); [cbn in Lr; lia|discriminate]].
      rewrite !decode_encode by exact Hr. cbn [snd]. cbv beta iota zeta. rewrite drop_append.
      assert (E : (Nat.eqb (String.length (encode_rune r)) 1 && Z.eqb r RuneError = false)%bool).
      { apply andb_false_iff. destruct (Z.eqb_spec r RuneError) as [->|]; auto. }
      rewrite E, IH by (auto; lia). rewrite encode_app, esc_text by exact Hr. reflexivity.
  Qed.

  (** What JavaScript reads. *)
  Definition js_units (r : rune) : list Z :=
    if is_print is_print_hi r then utf16 r else if (r =? 7)%Z then [97]%Z else if (r <? 65536)%Z then [r] else 85%Z :: map (fun c => c) (hexes 8 r).
  Fixpoint js_unitss (l : list rune) : list Z := match l with [] => [] | r :: l' => js_units r ++ js_unitss l' end.
  Lemma hexes_plain k n w u : js_chars w u -> js_chars (hexes k n ++ w) (hexes k n ++ u).
  Proof.
    intros H. induction k as [|k IH]; cbn [hexes app]; [exact H|].
    pose proof (Z.mod_pos_bound (n / 16 ^ Z.of_nat k) 16 ltac:(lia)) as B. set (z := ((n / 16 ^ Z.of_nat k) mod 16)%Z) in *. clearbody z.
    assert (C : (48 <= hex_char z <= 57 \/ 97 <= hex_char z <= 102)%Z) by (unfold hex_char; destruct (Z.ltb_spec z 10); lia).
    change (hex_char z :: hexes k n ++ u) with ([hex_char z] ++ (hexes k n ++ u)).
    replace [hex_char z] with (utf16 (hex_char z)); [apply js_plain; try lia; [|exact IH]|].
    - unfold line_end. cbn. lia.
    - unfold utf16. replace (hex_char z <? 65536)%Z with true by (symmetry; apply Z.ltb_lt; lia). reflexivity.
  Qed.
  Lemma hexes4 r : (0 <= r < 65536)%Z -> exists a b c d va vb vc vd, hexes 4 r = [a; b; c; d] /\
    hex_value a va /\ hex_value b vb /\ hex_value c vc /\ hex_value d vd /\ (((va * 16 + vb) * 16 + vc) * 16 + vd = r)%Z.
  Proof.
    intros H. cbn [hexes]. eexists _, _, _, _, _, _, _, _. split; [reflexivity|].
    split; [apply hex_char_value, Z.mod_pos_bound; lia|]. split; [apply hex_char_value, Z.mod_pos_bound; lia|].
    split; [apply hex_char_value, Z.mod_pos_bound; lia|]. split; [apply hex_char_value, Z.mod_pos_bound; lia|].
    change (16 ^ Z.of_nat 3)%Z with 4096%Z. change (16 ^ Z.of_nat 2)%Z with 256%Z. change (16 ^ Z.of_nat 1)%Z with 16%Z. change (16 ^ Z.of_nat 0)%Z with 1%Z.
    Z.div_mod_to_equations. lia.
  Qed.
  Lemma esc_js r w u : valid_rune r = true -> js_chars w u -> js_chars (esc r ++ w) (js_units r ++ u).
  Proof using Hsep.
    intros Hv Hw. pose proof (valid_rune_range r Hv) as Hr. unfold esc, js_units.
    destruct ((r =? 34) || (r =? 92))%Z eqn:E0.
    { apply orb_true_iff in E0 as [E|E]; apply Z.eqb_eq in E; subst r; cbn [is_print Z.leb Z.compare Pos.compare Pos.compare_cont andb orb negb utf16 app];
        (apply js_escape; [cbn; intuition|exact Hw]). }
    apply orb_false_iff in E0 as [E34 E92]. apply Z.eqb_neq in E34, E92.
    destruct (is_print is_print_hi r) eqn:P.
    { apply js_plain; auto. intros K. unfold line_end in K. cbn in K.
      destruct K as [<-|[<-|[<-|[<-|[]]]]]; try discriminate; unfold is_print in P; cbn in P; destruct Hsep; congruence. }
    destruct (Z.eqb_spec r 7) as [->|N7].
    { cbn [app]. change (97 :: u)%Z with (utf16 97 ++ u)%Z. apply js_other; auto; try lia; [cbn; lia|unfold line_end; cbn; lia]. }
    repeat match goal with |- context [if (r =? ?k)%Z then _ else _] =>
      destruct (Z.eqb_spec r k); [subst r; cbn [app]; apply js_escape; [cbn; intuition|exact Hw]|] end.
    destruct ((r <? 32) || (r =? 127))%Z eqn:E1.
    { assert (0 <= r < 128)%Z as B by (apply orb_true_iff in E1 as [E1|E1]; [apply Z.ltb_lt in E1|apply Z.eqb_eq in E1]; lia).
      replace (r <? 65536)%Z with true by (symmetry; apply Z.ltb_lt; lia). cbn [hexes app].
      change (16 ^ Z.of_nat 1)%Z with 16%Z. change (16 ^ Z.of_nat 0)%Z with 1%Z.
      assert (V : r = ((r / 16) mod 16 * 16 + (r / 1) mod 16)%Z) by (Z.div_mod_to_equations; lia).
      cbn [app]. match goal with |- js_chars ?x _ => cut (js_chars x (((r / 16) mod 16 * 16 + (r / 1) mod 16)%Z :: u)) end; [rewrite <- V; trivial|].
      apply js_hex; [apply hex_char_value, Z.mod_pos_bound; lia|apply hex_char_value, Z.mod_pos_bound; lia|exact Hw]. }
    destruct (Z.ltb_spec r 65536).
    - destruct (hexes4 r ltac:(lia)) as (a & b & c & d & va & vb & vc & vd & -> & A & B & C & D & E). rewrite <- E. cbn [app].
      apply js_unicode; assumption.
    - rewrite map_id. cbn [app]. change (85%Z :: hexes 8 r ++ u) with (utf16 85%Z ++ (hexes 8 r ++ u)).
      apply js_other; try lia; [cbn; lia|unfold line_end; cbn; lia|apply hexes_plain; exact Hw].
  Qed.
  Lemma escs_js l : Forall (fun c => valid_rune c = true) l -> js_chars (escs l) (js_unitss l).
  Proof using Hsep. induction 1; cbn; [constructor|apply esc_js; assumption]. Qed.
  Lemma esc_valid r : valid_rune r = true -> Forall (fun c => valid_rune c = true) (esc r).
  Proof.
    intros Hv. assert (Hh : forall k n, Forall (fun c => valid_rune c = true) (hexes k n)).
    { intros k n. induction k as [|k IH]; cbn [hexes]; constructor; [|exact IH].
      pose proof (Z.mod_pos_bound (n / 16 ^ Z.of_nat k) 16 ltac:(lia)) as B. set (z := ((n / 16 ^ Z.of_nat k) mod 16)%Z) in *. clearbody z.
      unfold valid_rune, hex_char. destruct (Z.ltb_spec z 10); apply orb_true_iff; left; apply andb_true_iff; rewrite Z.leb_le, Z.ltb_lt; lia. }
    unfold esc. repeat match goal with |- context [if ?b then _ else _] => destruct b end; auto 6.
  Qed.
  Lemma escs_valid l : Forall (fun c => valid_rune c = true) l -> Forall (fun c => valid_rune c = true) (escs l).
  Proof. induction 1; cbn; [constructor|apply Forall_app; auto using esc_valid]. Qed.
  Lemma quote_js l : Forall (fun c => valid_rune c = true) l -> js_literal (quote is_print_hi (encode l)) (js_unitss l).
  Proof using Hsep.
    intros Hl. exists (escs l). split; [|split; [apply escs_valid; exact Hl|apply escs_js; exact Hl]].
    unfold quote. rewrite quote_runes by auto. cbn [app encode]. rewrite encode_app. reflexivity.
  Qed.

  (** The literal is read in one way. *)
  Lemma hex_value_fun c v v' : hex_value c v -> hex_value c v' -> v = v'.
  Proof using. clear Hsep is_print_hi. intros A B. destruct A; inversion B; subst; lia. Qed.
  Lemma js_escapes_fun c v v' : In (c, v) js_escapes -> In (c, v') js_escapes -> v = v'.
  Proof using. clear Hsep is_print_hi.
    unfold js_escapes. cbn. intros H H'.
    repeat (destruct H as [H|H]; [injection H as <- <-; repeat (destruct H' as [H'|H']; [injection H' as; subst; congruence|]); destruct H'|]). destruct H.
  Qed.
  Lemma js_fun w u : js_chars w u -> forall u', js_chars w u' -> u = u'.
  Proof using. clear Hsep is_print_hi.
    induction 1 as [|c w u N1 N2 N3 _ IH|c v w u Hc _ IH|a b va vb w u Ha Hb _ IH|a b c d va vb vc vd w u Ha Hb Hc Hd _ IH|c w u N1 N2 N3 N4 N5 _ IH];
      intros u' H.
    - inversion H. reflexivity.
    - inversion H; subst; try congruence. f_equal. auto.
    - inversion H; subst; try congruence.
      + f_equal; [eapply js_escapes_fun; eassumption|auto].
      + exfalso. cbn in Hc. intuition congruence.
      + exfalso. cbn in Hc. intuition congruence.
      + exfalso. match goal with N : ~ In c _ |- _ => apply N end. apply in_map_iff. exists (c, v). auto.
    - inversion H; subst; try congruence.
      + exfalso. match goal with K : In (120%Z, _) _ |- _ => cbn in K; intuition congruence end.
      + f_equal; [|auto]. f_equal; [f_equal|]; eapply hex_value_fun; eassumption.
    - inversion H; subst; try congruence.
      + exfalso. match goal with K : In (117%Z, _) _ |- _ => cbn in K; intuition congruence end.
      + f_equal; [|auto]. repeat f_equal; eapply hex_value_fun; eassumption.
    - inversion H; subst; try congruence.
      + exfalso. match goal with K : In (c, _) js_escapes |- _ => apply N1; exact (in_map fst _ _ K) end.
      + f_equal. auto.
  Qed.
  Lemma encode_one l : forall l', Forall (fun c => valid_rune c = true) l -> Forall (fun c => valid_rune c = true) l' ->
    encode l = encode l' -> l = l'.
  Proof using. clear Hsep is_print_hi.
    induction l as [|r l IH]; intros [|r' l'] H H' E; cbn [encode] in E.
    - reflexivity.
    - pose proof (encode_rune_length r') as K. destruct (encode_rune r'); [cbn in K; lia|discriminate].
    - pose proof (encode_rune_length r) as K. destruct (encode_rune r); [cbn in K; lia|discriminate].
    - inversion H; inversion H'; subst. pose proof (decode_encode r (encode l) ltac:(assumption)) as D.
      rewrite E, decode_encode in D by assumption. injection D as <- _. apply append_inj_l in E. f_equal. auto.
  Qed.
  Lemma js_literal_fun s u u' : js_literal s u -> js_literal s u' -> u = u'.
  Proof using. clear Hsep is_print_hi.
    intros (w & -> & V & H) (w' & E & V' & H'). assert (w = w') as <-.
    { apply encode_one in E; [|constructor; [reflexivity|]; apply Forall_app; auto..]. injection E as E.
      apply app_inj_tail in E. tauto. }
    eapply js_fun; eassumption.
  Qed.

  (** Characters that JavaScript reads as they are. *)
  Definition js_safe (r : rune) : Prop := r <> 7%Z /\ ((65536 <= r)%Z -> is_print_hi r = true).
  Lemma js_safe_units r : valid_rune r = true -> js_safe r <-> js_units r = utf16 r.
  Proof.
    intros Hv. pose proof (valid_rune_range r Hv) as Hr. unfold js_safe, js_units, utf16.
    destruct (is_print is_print_hi r) eqn:P.
    - split; [reflexivity|]. intros _. split; [intros ->; discriminate|]. intros H.
      unfold is_print in P. destruct (Z.leb_spec r 255); [lia|exact P].
    - destruct (Z.eqb_spec r 7) as [->|N7]; [split; [intros [H _]; congruence|intros E; discriminate]|].
      destruct (Z.ltb_spec r 65536); [split; [reflexivity|intros _; split; [exact N7|lia]]|]. split.
      + intros [_ H']. unfold is_print in P. destruct (Z.leb_spec r 255); [lia|]. rewrite H' in P by lia. discriminate.
      + intros E. apply (f_equal (hd 0%Z)) in E. cbn [hd app] in E. exfalso. pose proof (Z.div_pos (r - 65536) 1024 ltac:(lia) ltac:(lia)). lia.
  Qed.
  Lemma js_same l : Forall (fun c => valid_rune c = true) l -> Forall js_safe l <-> js_unitss l = flat_map utf16 l.
  Proof.
    induction 1 as [|r l Hr Hl IH]; cbn [js_unitss flat_map]; [split; [reflexivity|constructor]|]. split.
    - intros H. inversion H; subst. f_equal; [apply js_safe_units; assumption|apply IH; assumption].
    - intros E. pose proof (js_safe_units r Hr) as S. destruct (list_eq_dec Z.eq_dec (js_units r) (utf16 r)) as [E1|N].
      + rewrite E1 in E. apply app_inv_head in E. constructor; [apply S; exact E1|apply IH; exact E].
      + exfalso. apply N. unfold js_units, utf16 in *. pose proof (valid_rune_range r Hr).
        destruct (is_print is_print_hi r); [reflexivity|]. destruct (Z.eqb_spec r 7) as [->|N7]; [discriminate|].
        destruct (Z.ltb_spec r 65536); [reflexivity|]. apply (f_equal (hd 0%Z)) in E. cbn [hd app] in E. exfalso. pose proof (Z.div_pos (r - 65536) 1024 ltac:(lia) ltac:(lia)). lia.
  Qed.
End Js.

(** Nodes with the same meaning have the same formula, also in different trees, texts and grammars. *)
Lemma same_meaning is_print_hi json float_string :
  json_objects json -> (forall x, float_string x <> ""%string /\ plain_text (float_string x)) ->
  forall join_words call tmatch ords gs text fuel n mf toks starts p t m g s,
  is_order (ords n) -> earley_parse_n tmatch ords gs text fuel n mf toks starts = Ret p -> well_formed gs starts -> separated gs ->
  plain_functions gs -> tree_of_parse p t -> part_of t m ->
  semantic p join_words float_string json is_print_hi call m = Ret s ->
  plain json g -> formula_text is_print_hi g = s -> node_formula json p join_words float_string call m g.
Proof.
  intros Hj Hfl join_words call tmatch ords gs text fuel n mf toks starts p t m g s Ho Hp Hwf Hs Hpl Ht Hm Hsem Hg E.
  apply semantic_formula in Hsem. destruct Hsem as (g' & Hg' & ->).
  pose proof (tree_plain json join_words float_string Hfl call tmatch ords gs text fuel n mf toks starts p t m g' Ho Hp Hwf Hs Hpl Ht Hm Hg') as Hp'.
  rewrite (same_formula is_print_hi json Hj g g' Hg Hp' E). exact Hg'.
Qed.
Lemma node_formula_fun is_print_hi json float_string :
  json_objects json -> (forall x, float_string x <> ""%string /\ plain_text (float_string x)) ->
  forall join_words call tmatch ords gs text fuel n mf toks starts p t m,
  is_order (ords n) -> earley_parse_n tmatch ords gs text fuel n mf toks starts = Ret p -> well_formed gs starts -> separated gs ->
  plain_functions gs -> tree_of_parse p t -> part_of t m ->
  forall s, semantic p join_words float_string json is_print_hi call m = Ret s ->
  exists g, plain json g /\ formula_text is_print_hi g = s /\ node_formula json p join_words float_string call m g /\
    (forall g', plain json g' -> formula_text is_print_hi g' = s -> g' = g) /\
    (forall g', node_formula json p join_words float_string call m g' -> g' = g).
Proof.
  intros Hj Hfl join_words call tmatch ords gs text fuel n mf toks starts p t m Ho Hp Hwf Hs Hpl Ht Hm s Hsem.
  pose proof Hsem as H. apply semantic_formula in H. destruct H as (g & Hg & E).
  assert (P : forall g', node_formula json p join_words float_string call m g' -> plain json g').
  { intros g' Hg'. eapply tree_plain; eassumption. }
  exists g. split; [apply P; exact Hg|]. split; [symmetry; exact E|]. split; [exact Hg|]. split.
  - intros g' Hp' E'. apply (same_formula is_print_hi json Hj); [exact Hp'|apply P; exact Hg|congruence].
  - intros g' Hg'. apply (same_formula is_print_hi json Hj); [apply P; exact Hg'|apply P; exact Hg|].
    assert (S : semantic p join_words float_string json is_print_hi call m = Ret (formula_text is_print_hi g')) by (apply semantic_formula; exists g'; auto).
    congruence.
Qed.

Lemma quote_denotes is_print_hi l : is_print_hi 8232%Z = false -> is_print_hi 8233%Z = false ->
  Forall (fun c => valid_rune c = true) l ->
  (exists u, js_literal (quote is_print_hi (encode l)) u) /\
  (js_literal (quote is_print_hi (encode l)) (flat_map utf16 l) <->
   Forall (fun r => r <> 7%Z /\ ((65536 <= r)%Z -> is_print_hi r = true)) l).
Proof.
  intros H1 H2 Hl. pose proof (quote_js is_print_hi (conj H1 H2) l Hl) as Q. split; [eauto|].
  rewrite (js_same is_print_hi l Hl). split.
  - intros H. exact (js_literal_fun _ _ _ Q H).
  - intros <-. exact Q.
Qed.
